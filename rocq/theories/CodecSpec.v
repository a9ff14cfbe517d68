(** * Specification for StringCodec and LocaleString: the standard encodings
    UTF-16 (RFC 2781), UTF-32, and the published tables of the one-byte character sets, written as the code points that
    differ from ISO 8859-1 (or as a formula); -1 marks a byte the character set does not assign. *)
From Verif Require Import Base Utf8Spec.
Local Open Scope Z_scope.

(** ** UTF-16 and UTF-32 *)
(** a scalar value in the Basic Multilingual Plane *)
Definition bmp (c : Z) : Prop := scalar c /\ c < 0x10000.
(** the 16-bit units of a character *)
Definition units16 (c : Z) : list Z :=
  if c <? 0x10000 then [c] else [0xd800 + (c - 0x10000) / 1024; 0xdc00 + (c - 0x10000) mod 1024].
Definition be16 (u : Z) : list Z := [u / 256; u mod 256].
Definition le16 (u : Z) : list Z := [u mod 256; u / 256].
Definition enc16be (c : Z) : list Z := flat_map be16 (units16 c).
Definition enc16le (c : Z) : list Z := flat_map le16 (units16 c).
Definition enc32be (c : Z) : list Z := [c / 2 ^ 24; (c / 2 ^ 16) mod 256; (c / 2 ^ 8) mod 256; c mod 256].
Definition enc32le (c : Z) : list Z := rev (enc32be c).

(** the Unicode encodings, by the code's names for them *)
Inductive ucs := U8 | U16BE | U16LE | U32BE | U32LE.
Definition enc_in (u : ucs) (c : Z) : list Z :=
  match u with U8 => enc c | U16BE => enc16be c | U16LE => enc16le c | U32BE => enc32be c | U32LE => enc32le c end.
(** the byte order mark: U+FEFF, encoded *)
Definition mark (u : ucs) : list Z := enc_in u 0xfeff.

(** ** One-byte character sets *)
Fixpoint assoc (l : list (Z * Z)) (c : Z) : Z :=
  match l with [] => c | (k, v) :: r => if c =? k then v else assoc r c end.
Definition within (a b c : Z) : bool := (a <=? c) && (c <=? b).
Definition is_one_of (l : list Z) (c : Z) : bool := existsb (Z.eqb c) l.

(** ISO 8859-1: the identity *)
Definition s_8859_1 (c : Z) : Z := c.
(** ISO 8859-5 (Cyrillic) *)
Definition s_8859_5 (c : Z) : Z :=
  if c <=? 0xa0 then c else assoc [(0xad, 0xad - 0x360); (0xf0, 0x2116 - 0x360); (0xfd, 0xa7 - 0x360)] c + 0x360.
(** ISO 8859-6 (Arabic) *)
Definition s_8859_6 (c : Z) : Z :=
  if (c <=? 0xa0) || is_one_of [0xa4; 0xad] c then c
  else if is_one_of [0xac; 0xbb; 0xbf] c || within 0xc1 0xda c || within 0xe0 0xf2 c then c + 0x560
  else -1.
(** ISO 8859-7 (Greek) *)
Definition s_8859_7 (c : Z) : Z :=
  if (c <=? 0xa0) || is_one_of [0xa3; 0xa6; 0xa7; 0xa8; 0xa9; 0xab; 0xac; 0xad; 0xb0; 0xb1; 0xb2; 0xb3; 0xb7; 0xbb; 0xbd] c then c
  else if is_one_of [0xae; 0xd2; 0xff] c then -1
  else if is_one_of [0xa1; 0xa2; 0xa4; 0xa5; 0xaa; 0xaf] c
  then assoc [(0xa1, 0x2018); (0xa2, 0x2019); (0xa4, 0x20ac); (0xa5, 0x20af); (0xaa, 0x37a); (0xaf, 0x2015)] c
  else c + 0x2d0.
(** ISO 8859-8 (Hebrew) *)
Definition s_8859_8 (c : Z) : Z :=
  if (c =? 0xa1) || (c =? 0xbf) || within 0xc0 0xde c || is_one_of [0xfb; 0xfc; 0xff] c then -1
  else if within 0xe0 0xfa c then c + 0x4f0
  else assoc [(0xaa, 0xd7); (0xba, 0xf7); (0xdf, 0x2017); (0xfd, 0x200e); (0xfe, 0x200f)] c.
(** ISO 8859-9 (Turkish) *)
Definition s_8859_9 : Z -> Z :=
  assoc [(0xd0, 0x11e); (0xdd, 0x130); (0xde, 0x15e); (0xf0, 0x11f); (0xfd, 0x131); (0xfe, 0x15f)].
(** ISO 8859-11 (Thai) *)
Definition s_8859_11 (c : Z) : Z :=
  if c <=? 0xa0 then c else if within 0xa1 0xda c || within 0xdf 0xfb c then c + 0xd60 else -1.
(** ISO 8859-15 *)
Definition s_8859_15 : Z -> Z :=
  assoc [(0xa4, 0x20ac); (0xa6, 0x160); (0xa8, 0x161); (0xb4, 0x17d); (0xb8, 0x17e); (0xbc, 0x152); (0xbd, 0x153); (0xbe, 0x178)].
(** ISO 8859-2 (Central European) *)
Definition s_8859_2 : Z -> Z := assoc [
  (0xa1, 0x104); (0xa2, 0x2d8); (0xa3, 0x141); (0xa5, 0x13d); (0xa6, 0x15a); (0xa9, 0x160); (0xaa, 0x15e); (0xab, 0x164); (0xac, 0x179); (0xae, 0x17d);
  (0xaf, 0x17b); (0xb1, 0x105); (0xb2, 0x2db); (0xb3, 0x142); (0xb5, 0x13e); (0xb6, 0x15b); (0xb7, 0x2c7); (0xb9, 0x161); (0xba, 0x15f); (0xbb, 0x165);
  (0xbc, 0x17a); (0xbd, 0x2dd); (0xbe, 0x17e); (0xbf, 0x17c); (0xc0, 0x154); (0xc3, 0x102); (0xc5, 0x139); (0xc6, 0x106); (0xc8, 0x10c); (0xca, 0x118);
  (0xcc, 0x11a); (0xcf, 0x10e); (0xd0, 0x110); (0xd1, 0x143); (0xd2, 0x147); (0xd5, 0x150); (0xd8, 0x158); (0xd9, 0x16e); (0xdb, 0x170); (0xde, 0x162);
  (0xe0, 0x155); (0xe3, 0x103); (0xe5, 0x13a); (0xe6, 0x107); (0xe8, 0x10d); (0xea, 0x119); (0xec, 0x11b); (0xef, 0x10f); (0xf0, 0x111); (0xf1, 0x144);
  (0xf2, 0x148); (0xf5, 0x151); (0xf8, 0x159); (0xf9, 0x16f); (0xfb, 0x171); (0xfe, 0x163); (0xff, 0x2d9)].
(** ISO 8859-3 (South European) *)
Definition s_8859_3 : Z -> Z := assoc [
  (0xa1, 0x126); (0xa2, 0x2d8); (0xa5, -1); (0xa6, 0x124); (0xa9, 0x130); (0xaa, 0x15e); (0xab, 0x11e); (0xac, 0x134); (0xae, -1); (0xaf, 0x17b);
  (0xb1, 0x127); (0xb6, 0x125); (0xb9, 0x131); (0xba, 0x15f); (0xbb, 0x11f); (0xbc, 0x135); (0xbe, -1); (0xbf, 0x17c); (0xc3, -1); (0xc5, 0x10a);
  (0xc6, 0x108); (0xd0, -1); (0xd5, 0x120); (0xd8, 0x11c); (0xdd, 0x16c); (0xde, 0x15c); (0xe3, -1); (0xe5, 0x10b); (0xe6, 0x109); (0xf0, -1);
  (0xf5, 0x121); (0xf8, 0x11d); (0xfd, 0x16d); (0xfe, 0x15d); (0xff, 0x2d9)].
(** ISO 8859-4 (North European) *)
Definition s_8859_4 : Z -> Z := assoc [
  (0xa1, 0x104); (0xa2, 0x138); (0xa3, 0x156); (0xa5, 0x128); (0xa6, 0x13b); (0xa9, 0x160); (0xaa, 0x112); (0xab, 0x122); (0xac, 0x166); (0xae, 0x17d);
  (0xb1, 0x105); (0xb2, 0x2db); (0xb3, 0x157); (0xb5, 0x129); (0xb6, 0x13c); (0xb7, 0x2c7); (0xb9, 0x161); (0xba, 0x113); (0xbb, 0x123); (0xbc, 0x167);
  (0xbd, 0x14a); (0xbe, 0x17e); (0xbf, 0x14b); (0xc0, 0x100); (0xc7, 0x12e); (0xc8, 0x10c); (0xca, 0x118); (0xcc, 0x116); (0xcf, 0x12a); (0xd0, 0x110);
  (0xd1, 0x145); (0xd2, 0x14c); (0xd3, 0x136); (0xd9, 0x172); (0xdd, 0x168); (0xde, 0x16a); (0xe0, 0x101); (0xe7, 0x12f); (0xe8, 0x10d); (0xea, 0x119);
  (0xec, 0x117); (0xef, 0x12b); (0xf0, 0x111); (0xf1, 0x146); (0xf2, 0x14d); (0xf3, 0x137); (0xf9, 0x173); (0xfd, 0x169); (0xfe, 0x16b); (0xff, 0x2d9)].
(** ISO 8859-10 (Nordic) *)
Definition s_8859_10 : Z -> Z := assoc [
  (0xa1, 0x104); (0xa2, 0x112); (0xa3, 0x122); (0xa4, 0x12a); (0xa5, 0x128); (0xa6, 0x136); (0xa8, 0x13b); (0xa9, 0x110); (0xaa, 0x160); (0xab, 0x166);
  (0xac, 0x17d); (0xae, 0x16a); (0xaf, 0x14a); (0xb1, 0x105); (0xb2, 0x113); (0xb3, 0x123); (0xb4, 0x12b); (0xb5, 0x129); (0xb6, 0x137); (0xb8, 0x13c);
  (0xb9, 0x111); (0xba, 0x161); (0xbb, 0x167); (0xbc, 0x17e); (0xbd, 0x2015); (0xbe, 0x16b); (0xbf, 0x14b); (0xc0, 0x100); (0xc7, 0x12e); (0xc8, 0x10c);
  (0xca, 0x118); (0xcc, 0x116); (0xd1, 0x145); (0xd2, 0x14c); (0xd7, 0x168); (0xd9, 0x172); (0xe0, 0x101); (0xe7, 0x12f); (0xe8, 0x10d); (0xea, 0x119);
  (0xec, 0x117); (0xf1, 0x146); (0xf2, 0x14d); (0xf7, 0x169); (0xf9, 0x173); (0xff, 0x138)].
(** ISO 8859-13 (Baltic) *)
Definition s_8859_13 : Z -> Z := assoc [
  (0xa1, 0x201d); (0xa5, 0x201e); (0xa8, 0xd8); (0xaa, 0x156); (0xaf, 0xc6); (0xb4, 0x201c); (0xb8, 0xf8); (0xba, 0x157); (0xbf, 0xe6); (0xc0, 0x104);
  (0xc1, 0x12e); (0xc2, 0x100); (0xc3, 0x106); (0xc6, 0x118); (0xc7, 0x112); (0xc8, 0x10c); (0xca, 0x179); (0xcb, 0x116); (0xcc, 0x122); (0xcd, 0x136);
  (0xce, 0x12a); (0xcf, 0x13b); (0xd0, 0x160); (0xd1, 0x143); (0xd2, 0x145); (0xd4, 0x14c); (0xd8, 0x172); (0xd9, 0x141); (0xda, 0x15a); (0xdb, 0x16a);
  (0xdd, 0x17b); (0xde, 0x17d); (0xe0, 0x105); (0xe1, 0x12f); (0xe2, 0x101); (0xe3, 0x107); (0xe6, 0x119); (0xe7, 0x113); (0xe8, 0x10d); (0xea, 0x17a);
  (0xeb, 0x117); (0xec, 0x123); (0xed, 0x137); (0xee, 0x12b); (0xef, 0x13c); (0xf0, 0x161); (0xf1, 0x144); (0xf2, 0x146); (0xf4, 0x14d); (0xf8, 0x173);
  (0xf9, 0x142); (0xfa, 0x15b); (0xfb, 0x16b); (0xfd, 0x17c); (0xfe, 0x17e); (0xff, 0x2019)].
(** ISO 8859-14 (Celtic) *)
Definition s_8859_14 : Z -> Z := assoc [
  (0xa1, 0x1e02); (0xa2, 0x1e03); (0xa4, 0x10a); (0xa5, 0x10b); (0xa6, 0x1e0a); (0xa8, 0x1e80); (0xaa, 0x1e82); (0xab, 0x1e0b); (0xac, 0x1ef2); (0xaf, 0x178);
  (0xb0, 0x1e1e); (0xb1, 0x1e1f); (0xb2, 0x120); (0xb3, 0x121); (0xb4, 0x1e40); (0xb5, 0x1e41); (0xb7, 0x1e56); (0xb8, 0x1e81); (0xb9, 0x1e57); (0xba, 0x1e83);
  (0xbb, 0x1e60); (0xbc, 0x1ef3); (0xbd, 0x1e84); (0xbe, 0x1e85); (0xbf, 0x1e61); (0xd0, 0x174); (0xd7, 0x1e6a); (0xde, 0x176); (0xf0, 0x175); (0xf7, 0x1e6b);
  (0xfe, 0x177)].
(** ISO 8859-16 (South-Eastern European) *)
Definition s_8859_16 : Z -> Z := assoc [
  (0xa1, 0x104); (0xa2, 0x105); (0xa3, 0x141); (0xa4, 0x20ac); (0xa5, 0x201e); (0xa6, 0x160); (0xa8, 0x161); (0xaa, 0x218); (0xac, 0x179); (0xae, 0x17a);
  (0xaf, 0x17b); (0xb2, 0x10c); (0xb3, 0x142); (0xb4, 0x17d); (0xb5, 0x201d); (0xb8, 0x17e); (0xb9, 0x10d); (0xba, 0x219); (0xbc, 0x152); (0xbd, 0x153);
  (0xbe, 0x178); (0xbf, 0x17c); (0xc3, 0x102); (0xc5, 0x106); (0xd0, 0x110); (0xd1, 0x143); (0xd5, 0x150); (0xd7, 0x15a); (0xd8, 0x170); (0xdd, 0x118);
  (0xde, 0x21a); (0xe3, 0x103); (0xe5, 0x107); (0xf0, 0x111); (0xf1, 0x144); (0xf5, 0x151); (0xf7, 0x15b); (0xf8, 0x171); (0xfd, 0x119); (0xfe, 0x21b)].
(** Windows code page 1251 *)
Definition s_CP1251 (c : Z) : Z := if 0xc0 <=? c then c + 0x350 else assoc [
  (0x80, 0x402); (0x81, 0x403); (0x82, 0x201a); (0x83, 0x453); (0x84, 0x201e); (0x85, 0x2026); (0x86, 0x2020); (0x87, 0x2021); (0x88, 0x20ac); (0x89, 0x2030);
  (0x8a, 0x409); (0x8b, 0x2039); (0x8c, 0x40a); (0x8d, 0x40c); (0x8e, 0x40b); (0x8f, 0x40f); (0x90, 0x452); (0x91, 0x2018); (0x92, 0x2019); (0x93, 0x201c);
  (0x94, 0x201d); (0x95, 0x2022); (0x96, 0x2013); (0x97, 0x2014); (0x98, -1); (0x99, 0x2122); (0x9a, 0x459); (0x9b, 0x203a); (0x9c, 0x45a); (0x9d, 0x45c);
  (0x9e, 0x45b); (0x9f, 0x45f); (0xa1, 0x40e); (0xa2, 0x45e); (0xa3, 0x408); (0xa5, 0x490); (0xa8, 0x401); (0xaa, 0x404); (0xaf, 0x407); (0xb2, 0x406);
  (0xb3, 0x456); (0xb4, 0x491); (0xb8, 0x451); (0xb9, 0x2116); (0xba, 0x454); (0xbc, 0x458); (0xbd, 0x405); (0xbe, 0x455); (0xbf, 0x457)] c.
(** DOS code page 866: letters; -2 for the box drawing characters B0..DF *)
Definition s_CP866 (c : Z) : Z :=
  if c <? 0x80 then c else if c <=? 0xaf then c - 0x80 + 0x410 else if c <=? 0xdf then -2 else if c <=? 0xef then c - 0xe0 + 0x440
  else assoc [(0xf0, 0x401); (0xf1, 0x451); (0xf2, 0x404); (0xf3, 0x454); (0xf4, 0x407); (0xf5, 0x457); (0xf6, 0x40e); (0xf7, 0x45e);
              (0xf8, 0xb0); (0xf9, 0x2219); (0xfa, 0xb7); (0xfb, 0x221a); (0xfc, 0x2116); (0xfd, 0xa4); (0xfe, 0x25a0); (0xff, 0xa0)] c.

(** ** What a text in an encoding stands for *)
From Verif Require Import CodecModel.
(** the character set of each one-byte encoding *)
Definition charset (e : encoding) : option (Z -> Z) :=
  match e with
  | ISO_8859_1 => Some s_8859_1 | ISO_8859_2 => Some s_8859_2 | ISO_8859_3 => Some s_8859_3 | ISO_8859_4 => Some s_8859_4
  | ISO_8859_5 => Some s_8859_5 | ISO_8859_6 => Some s_8859_6 | ISO_8859_7 => Some s_8859_7 | ISO_8859_8 => Some s_8859_8
  | ISO_8859_9 => Some s_8859_9 | ISO_8859_10 => Some s_8859_10 | ISO_8859_11 => Some s_8859_11
  | ISO_8859_13 => Some s_8859_13 | ISO_8859_14 => Some s_8859_14 | ISO_8859_15 => Some s_8859_15
  | ISO_8859_16 => Some s_8859_16 | CP1251 => Some s_CP1251
  | _ => None
  end.
(** the Unicode encodings with a fixed form *)
Definition form (e : encoding) : option ucs :=
  match e with UTF8 => Some U8 | UTF16BE => Some U16BE | UTF16LE => Some U16LE | UTF32BE => Some U32BE | UTF32LE => Some U32LE | _ => None end.
(** the characters an encoding can carry here: the code's UTF-16 is right for the BMP only *)
Definition carries (u : ucs) (c : Z) : Prop := match u with U16BE | U16LE => bmp c | _ => scalar c end.

(** [spells x cs]: text x is the standard encoding of the characters cs *)
Inductive spells : text -> list Z -> Prop :=
| Sp_form e u cs : form e = Some u -> Forall (carries u) cs -> spells (Text e (flat_map (enc_in u) cs)) cs
| Sp_set e s bs : charset e = Some s -> Forall (fun b => 0 <= b <= 255 /\ s b <> -1) bs -> spells (Text e bs) (map s bs)
(** ISO 10646 with a byte order mark; UTF-16LE text that begins with U+0000 reads as marked UTF-32LE *)
| Sp_marked u cs : Forall (carries u) cs -> (u = U16LE -> hd_error cs <> Some 0) ->
    spells (Text ISO_10646 (mark u ++ flat_map (enc_in u) cs)) cs
(** ISO 10646 without a mark is UTF-16BE; the first characters must not look like a mark *)
| Sp_plain cs : Forall bmp cs -> hd_error cs <> Some 0xfeff -> hd_error cs <> Some 0xfffe ->
    (forall d r, cs = 0 :: d :: r -> d <> 0xfeff) -> (forall d r, cs = 0xefbb :: d :: r -> d / 256 <> 0xbf) ->
    spells (Text ISO_10646 (flat_map enc16be cs)) cs.

(** what the code gives for a byte the character set does not assign: the replacement, except in four character sets *)
Definition unassigned_as (e : encoding) (b repl : Z) : Z :=
  match e with
  | ISO_8859_7 | ISO_8859_8 => 0xfffd
  | ISO_8859_11 => if is_one_of [0xdd; 0xfc; 0xfd; 0xfe; 0xff] b then b + 0xd60 else repl
  | CP1251 => 0
  | _ => repl
  end.
