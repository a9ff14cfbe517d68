(** * Model of StringCodec and LocaleString
    stingraykit/locale/StringCodec.cpp (whole file), stingraykit/locale/LocaleString.cpp:38-63.
    Bytes are Z in 0..255 (char values taken as unsigned char, as the code casts them); u32 values are Z. *)
From Coq Require Import List Arith Bool ZArith Lia.
Import ListNotations.
Local Open Scope Z_scope.

(** StringCodec.cpp:18 *)
Definition Invalid : Z := 0xffffffff.

(** the table of Unpack_CP1251, StringCodec.cpp:25-34 *)
Definition t_CP1251 : list Z := [
  0x0402; 0x0403; 0x201A; 0x0453; 0x201E; 0x2026; 0x2020; 0x2021; 0x20AC; 0x2030; 0x0409; 0x2039; 0x040A; 0x040C; 0x040B; 0x040F;
  0x0452; 0x2018; 0x2019; 0x201C; 0x201D; 0x2022; 0x2013; 0x2014; 0x0000; 0x2122; 0x0459; 0x203A; 0x045A; 0x045C; 0x045B; 0x045F;
  0x00A0; 0x040E; 0x045E; 0x0408; 0x00A4; 0x0490; 0x00A6; 0x00A7; 0x0401; 0x00A9; 0x0404; 0x00AB; 0x00AC; 0x00AD; 0x00AE; 0x0407;
  0x00B0; 0x00B1; 0x0406; 0x0456; 0x0491; 0x00B5; 0x00B6; 0x00B7; 0x0451; 0x2116; 0x0454; 0x00BB; 0x0458; 0x0405; 0x0455; 0x0457;
  0x0410; 0x0411; 0x0412; 0x0413; 0x0414; 0x0415; 0x0416; 0x0417; 0x0418; 0x0419; 0x041A; 0x041B; 0x041C; 0x041D; 0x041E; 0x041F;
  0x0420; 0x0421; 0x0422; 0x0423; 0x0424; 0x0425; 0x0426; 0x0427; 0x0428; 0x0429; 0x042A; 0x042B; 0x042C; 0x042D; 0x042E; 0x042F;
  0x0430; 0x0431; 0x0432; 0x0433; 0x0434; 0x0435; 0x0436; 0x0437; 0x0438; 0x0439; 0x043A; 0x043B; 0x043C; 0x043D; 0x043E; 0x043F;
  0x0440; 0x0441; 0x0442; 0x0443; 0x0444; 0x0445; 0x0446; 0x0447; 0x0448; 0x0449; 0x044A; 0x044B; 0x044C; 0x044D; 0x044E; 0x044F].

(** the table of Unpack_ISO_8859_2, StringCodec.cpp:48-55 *)
Definition t_ISO_8859_2 : list Z := [
  0x00a0; 0x0104; 0x02d8; 0x0141; 0x00a4; 0x013d; 0x015a; 0x00a7; 0x00a8; 0x0160; 0x015e; 0x0164; 0x0179; 0x00ad; 0x017d; 0x017b;
  0x00b0; 0x0105; 0x02db; 0x0142; 0x00b4; 0x013e; 0x015b; 0x02c7; 0x00b8; 0x0161; 0x015f; 0x0165; 0x017a; 0x02dd; 0x017e; 0x017c;
  0x0154; 0x00c1; 0x00c2; 0x0102; 0x00c4; 0x0139; 0x0106; 0x00c7; 0x010c; 0x00c9; 0x0118; 0x00cb; 0x011a; 0x00cd; 0x00ce; 0x010e;
  0x0110; 0x0143; 0x0147; 0x00d3; 0x00d4; 0x0150; 0x00d6; 0x00d7; 0x0158; 0x016e; 0x00da; 0x0170; 0x00dc; 0x00dd; 0x0162; 0x00df;
  0x0155; 0x00e1; 0x00e2; 0x0103; 0x00e4; 0x013a; 0x0107; 0x00e7; 0x010d; 0x00e9; 0x0119; 0x00eb; 0x011b; 0x00ed; 0x00ee; 0x010f;
  0x0111; 0x0144; 0x0148; 0x00f3; 0x00f4; 0x0151; 0x00f6; 0x00f7; 0x0159; 0x016f; 0x00fa; 0x0171; 0x00fc; 0x00fd; 0x0163; 0x02d9].

(** the table of Unpack_ISO_8859_3, StringCodec.cpp:63-70 *)
Definition t_ISO_8859_3 : list Z := [
  0x00a0; 0x0126; 0x02d8; 0x00a3; 0x00a4; 0xffff; 0x0124; 0x00a7; 0x00a8; 0x0130; 0x015e; 0x011e; 0x0134; 0x00ad; 0xffff; 0x017b;
  0x00b0; 0x0127; 0x00b2; 0x00b3; 0x00b4; 0x00b5; 0x0125; 0x00b7; 0x00b8; 0x0131; 0x015f; 0x011f; 0x0135; 0x00bd; 0xffff; 0x017c;
  0x00c0; 0x00c1; 0x00c2; 0xffff; 0x00c4; 0x010a; 0x0108; 0x00c7; 0x00c8; 0x00c9; 0x00ca; 0x00cb; 0x00cc; 0x00cd; 0x00ce; 0x00cf;
  0xffff; 0x00d1; 0x00d2; 0x00d3; 0x00d4; 0x0120; 0x00d6; 0x00d7; 0x011c; 0x00d9; 0x00da; 0x00db; 0x00dc; 0x016c; 0x015c; 0x00df;
  0x00e0; 0x00e1; 0x00e2; 0xffff; 0x00e4; 0x010b; 0x0109; 0x00e7; 0x00e8; 0x00e9; 0x00ea; 0x00eb; 0x00ec; 0x00ed; 0x00ee; 0x00ef;
  0xffff; 0x00f1; 0x00f2; 0x00f3; 0x00f4; 0x0121; 0x00f6; 0x00f7; 0x011d; 0x00f9; 0x00fa; 0x00fb; 0x00fc; 0x016d; 0x015d; 0x02d9].

(** the table of Unpack_ISO_8859_4, StringCodec.cpp:81-88 *)
Definition t_ISO_8859_4 : list Z := [
  0x00a0; 0x0104; 0x0138; 0x0156; 0x00a4; 0x0128; 0x013b; 0x00a7; 0x00a8; 0x0160; 0x0112; 0x0122; 0x0166; 0x00ad; 0x017d; 0x00af;
  0x00b0; 0x0105; 0x02db; 0x0157; 0x00b4; 0x0129; 0x013c; 0x02c7; 0x00b8; 0x0161; 0x0113; 0x0123; 0x0167; 0x014a; 0x017e; 0x014b;
  0x0100; 0x00c1; 0x00c2; 0x00c3; 0x00c4; 0x00c5; 0x00c6; 0x012e; 0x010c; 0x00c9; 0x0118; 0x00cb; 0x0116; 0x00cd; 0x00ce; 0x012a;
  0x0110; 0x0145; 0x014c; 0x0136; 0x00d4; 0x00d5; 0x00d6; 0x00d7; 0x00d8; 0x0172; 0x00da; 0x00db; 0x00dc; 0x0168; 0x016a; 0x00df;
  0x0101; 0x00e1; 0x00e2; 0x00e3; 0x00e4; 0x00e5; 0x00e6; 0x012f; 0x010d; 0x00e9; 0x0119; 0x00eb; 0x0117; 0x00ed; 0x00ee; 0x012b;
  0x0111; 0x0146; 0x014d; 0x0137; 0x00f4; 0x00f5; 0x00f6; 0x00f7; 0x00f8; 0x0173; 0x00fa; 0x00fb; 0x00fc; 0x0169; 0x016b; 0x02d9].

(** the table of Unpack_ISO_8859_5, StringCodec.cpp:96-103 *)
Definition t_ISO_8859_5 : list Z := [
  0x00a0; 0x0401; 0x0402; 0x0403; 0x0404; 0x0405; 0x0406; 0x0407; 0x0408; 0x0409; 0x040a; 0x040b; 0x040c; 0x00ad; 0x040e; 0x040f;
  0x0410; 0x0411; 0x0412; 0x0413; 0x0414; 0x0415; 0x0416; 0x0417; 0x0418; 0x0419; 0x041a; 0x041b; 0x041c; 0x041d; 0x041e; 0x041f;
  0x0420; 0x0421; 0x0422; 0x0423; 0x0424; 0x0425; 0x0426; 0x0427; 0x0428; 0x0429; 0x042a; 0x042b; 0x042c; 0x042d; 0x042e; 0x042f;
  0x0430; 0x0431; 0x0432; 0x0433; 0x0434; 0x0435; 0x0436; 0x0437; 0x0438; 0x0439; 0x043a; 0x043b; 0x043c; 0x043d; 0x043e; 0x043f;
  0x0440; 0x0441; 0x0442; 0x0443; 0x0444; 0x0445; 0x0446; 0x0447; 0x0448; 0x0449; 0x044a; 0x044b; 0x044c; 0x044d; 0x044e; 0x044f;
  0x2116; 0x0451; 0x0452; 0x0453; 0x0454; 0x0455; 0x0456; 0x0457; 0x0458; 0x0459; 0x045a; 0x045b; 0x045c; 0x00a7; 0x045e; 0x045f].

(** the table of Unpack_ISO_8859_6, StringCodec.cpp:111-118 *)
Definition t_ISO_8859_6 : list Z := [
  0x00a0; 0xffff; 0xffff; 0xffff; 0x00a4; 0xffff; 0xffff; 0xffff; 0xffff; 0xffff; 0xffff; 0xffff; 0x060c; 0x00ad; 0xffff; 0xffff;
  0xffff; 0xffff; 0xffff; 0xffff; 0xffff; 0xffff; 0xffff; 0xffff; 0xffff; 0xffff; 0xffff; 0x061b; 0xffff; 0xffff; 0xffff; 0x061f;
  0xffff; 0x0621; 0x0622; 0x0623; 0x0624; 0x0625; 0x0626; 0x0627; 0x0628; 0x0629; 0x062a; 0x062b; 0x062c; 0x062d; 0x062e; 0x062f;
  0x0630; 0x0631; 0x0632; 0x0633; 0x0634; 0x0635; 0x0636; 0x0637; 0x0638; 0x0639; 0x063a; 0xffff; 0xffff; 0xffff; 0xffff; 0xffff;
  0x0640; 0x0641; 0x0642; 0x0643; 0x0644; 0x0645; 0x0646; 0x0647; 0x0648; 0x0649; 0x064a; 0x064b; 0x064c; 0x064d; 0x064e; 0x064f;
  0x0650; 0x0651; 0x0652; 0xffff; 0xffff; 0xffff; 0xffff; 0xffff; 0xffff; 0xffff; 0xffff; 0xffff; 0xffff; 0xffff; 0xffff; 0xffff].

(** the table of Unpack_ISO_8859_7, StringCodec.cpp:129-136 *)
Definition t_ISO_8859_7 : list Z := [
  0x00a0; 0x2018; 0x2019; 0x00a3; 0x20ac; 0x20af; 0x00a6; 0x00a7; 0x00a8; 0x00a9; 0x037a; 0x00ab; 0x00ac; 0x00ad; 0xfffd; 0x2015;
  0x00b0; 0x00b1; 0x00b2; 0x00b3; 0x0384; 0x0385; 0x0386; 0x00b7; 0x0388; 0x0389; 0x038a; 0x00bb; 0x038c; 0x00bd; 0x038e; 0x038f;
  0x0390; 0x0391; 0x0392; 0x0393; 0x0394; 0x0395; 0x0396; 0x0397; 0x0398; 0x0399; 0x039a; 0x039b; 0x039c; 0x039d; 0x039e; 0x039f;
  0x03a0; 0x03a1; 0xfffd; 0x03a3; 0x03a4; 0x03a5; 0x03a6; 0x03a7; 0x03a8; 0x03a9; 0x03aa; 0x03ab; 0x03ac; 0x03ad; 0x03ae; 0x03af;
  0x03b0; 0x03b1; 0x03b2; 0x03b3; 0x03b4; 0x03b5; 0x03b6; 0x03b7; 0x03b8; 0x03b9; 0x03ba; 0x03bb; 0x03bc; 0x03bd; 0x03be; 0x03bf;
  0x03c0; 0x03c1; 0x03c2; 0x03c3; 0x03c4; 0x03c5; 0x03c6; 0x03c7; 0x03c8; 0x03c9; 0x03ca; 0x03cb; 0x03cc; 0x03cd; 0x03ce; 0xfffd].

(** the table of Unpack_ISO_8859_8, StringCodec.cpp:147-154 *)
Definition t_ISO_8859_8 : list Z := [
  0x00a0; 0xfffd; 0x00a2; 0x00a3; 0x00a4; 0x00a5; 0x00a6; 0x00a7; 0x00a8; 0x00a9; 0x00d7; 0x00ab; 0x00ac; 0x00ad; 0x00ae; 0x00af;
  0x00b0; 0x00b1; 0x00b2; 0x00b3; 0x00b4; 0x00b5; 0x00b6; 0x00b7; 0x00b8; 0x00b9; 0x00f7; 0x00bb; 0x00bc; 0x00bd; 0x00be; 0xfffd;
  0xfffd; 0xfffd; 0xfffd; 0xfffd; 0xfffd; 0xfffd; 0xfffd; 0xfffd; 0xfffd; 0xfffd; 0xfffd; 0xfffd; 0xfffd; 0xfffd; 0xfffd; 0xfffd;
  0xfffd; 0xfffd; 0xfffd; 0xfffd; 0xfffd; 0xfffd; 0xfffd; 0xfffd; 0xfffd; 0xfffd; 0xfffd; 0xfffd; 0xfffd; 0xfffd; 0xfffd; 0x2017;
  0x05d0; 0x05d1; 0x05d2; 0x05d3; 0x05d4; 0x05d5; 0x05d6; 0x05d7; 0x05d8; 0x05d9; 0x05da; 0x05db; 0x05dc; 0x05dd; 0x05de; 0x05df;
  0x05e0; 0x05e1; 0x05e2; 0x05e3; 0x05e4; 0x05e5; 0x05e6; 0x05e7; 0x05e8; 0x05e9; 0x05ea; 0xfffd; 0xfffd; 0x200e; 0x200f; 0xfffd].

(** the table of Unpack_ISO_8859_9, StringCodec.cpp:165-169 *)
Definition t_ISO_8859_9 : list Z := [
  0x011e; 0x00d1; 0x00d2; 0x00d3; 0x00d4; 0x00d5; 0x00d6; 0x00d7; 0x00d8; 0x00d9; 0x00da; 0x00db; 0x00dc; 0x0130; 0x015e; 0x00df;
  0x00e0; 0x00e1; 0x00e2; 0x00e3; 0x00e4; 0x00e5; 0x00e6; 0x00e7; 0x00e8; 0x00e9; 0x00ea; 0x00eb; 0x00ec; 0x00ed; 0x00ee; 0x00ef;
  0x011f; 0x00f1; 0x00f2; 0x00f3; 0x00f4; 0x00f5; 0x00f6; 0x00f7; 0x00f8; 0x00f9; 0x00fa; 0x00fb; 0x00fc; 0x0131; 0x015f; 0x00ff].

(** the table of Unpack_ISO_8859_10, StringCodec.cpp:177-184 *)
Definition t_ISO_8859_10 : list Z := [
  0x00a0; 0x0104; 0x0112; 0x0122; 0x012a; 0x0128; 0x0136; 0x00a7; 0x013b; 0x0110; 0x0160; 0x0166; 0x017d; 0x00ad; 0x016a; 0x014a;
  0x00b0; 0x0105; 0x0113; 0x0123; 0x012b; 0x0129; 0x0137; 0x00b7; 0x013c; 0x0111; 0x0161; 0x0167; 0x017e; 0x2015; 0x016b; 0x014b;
  0x0100; 0x00c1; 0x00c2; 0x00c3; 0x00c4; 0x00c5; 0x00c6; 0x012e; 0x010c; 0x00c9; 0x0118; 0x00cb; 0x0116; 0x00cd; 0x00ce; 0x00cf;
  0x00d0; 0x0145; 0x014c; 0x00d3; 0x00d4; 0x00d5; 0x00d6; 0x0168; 0x00d8; 0x0172; 0x00da; 0x00db; 0x00dc; 0x00dd; 0x00de; 0x00df;
  0x0101; 0x00e1; 0x00e2; 0x00e3; 0x00e4; 0x00e5; 0x00e6; 0x012f; 0x010d; 0x00e9; 0x0119; 0x00eb; 0x0117; 0x00ed; 0x00ee; 0x00ef;
  0x00f0; 0x0146; 0x014d; 0x00f3; 0x00f4; 0x00f5; 0x00f6; 0x0169; 0x00f8; 0x0173; 0x00fa; 0x00fb; 0x00fc; 0x00fd; 0x00fe; 0x0138].

(** the table of Unpack_ISO_8859_13, StringCodec.cpp:202-209 *)
Definition t_ISO_8859_13 : list Z := [
  0x00a0; 0x201d; 0x00a2; 0x00a3; 0x00a4; 0x201e; 0x00a6; 0x00a7; 0x00d8; 0x00a9; 0x0156; 0x00ab; 0x00ac; 0x00ad; 0x00ae; 0x00c6;
  0x00b0; 0x00b1; 0x00b2; 0x00b3; 0x201c; 0x00b5; 0x00b6; 0x00b7; 0x00f8; 0x00b9; 0x0157; 0x00bb; 0x00bc; 0x00bd; 0x00be; 0x00e6;
  0x0104; 0x012e; 0x0100; 0x0106; 0x00c4; 0x00c5; 0x0118; 0x0112; 0x010c; 0x00c9; 0x0179; 0x0116; 0x0122; 0x0136; 0x012a; 0x013b;
  0x0160; 0x0143; 0x0145; 0x00d3; 0x014c; 0x00d5; 0x00d6; 0x00d7; 0x0172; 0x0141; 0x015a; 0x016a; 0x00dc; 0x017b; 0x017d; 0x00df;
  0x0105; 0x012f; 0x0101; 0x0107; 0x00e4; 0x00e5; 0x0119; 0x0113; 0x010d; 0x00e9; 0x017a; 0x0117; 0x0123; 0x0137; 0x012b; 0x013c;
  0x0161; 0x0144; 0x0146; 0x00f3; 0x014d; 0x00f5; 0x00f6; 0x00f7; 0x0173; 0x0142; 0x015b; 0x016b; 0x00fc; 0x017c; 0x017e; 0x2019].

(** the table of Unpack_ISO_8859_14, StringCodec.cpp:217-224 *)
Definition t_ISO_8859_14 : list Z := [
  0x00a0; 0x1e02; 0x1e03; 0x00a3; 0x010a; 0x010b; 0x1e0a; 0x00a7; 0x1e80; 0x00a9; 0x1e82; 0x1e0b; 0x1ef2; 0x00ad; 0x00ae; 0x0178;
  0x1e1e; 0x1e1f; 0x0120; 0x0121; 0x1e40; 0x1e41; 0x00b6; 0x1e56; 0x1e81; 0x1e57; 0x1e83; 0x1e60; 0x1ef3; 0x1e84; 0x1e85; 0x1e61;
  0x00c0; 0x00c1; 0x00c2; 0x00c3; 0x00c4; 0x00c5; 0x00c6; 0x00c7; 0x00c8; 0x00c9; 0x00ca; 0x00cb; 0x00cc; 0x00cd; 0x00ce; 0x00cf;
  0x0174; 0x00d1; 0x00d2; 0x00d3; 0x00d4; 0x00d5; 0x00d6; 0x1e6a; 0x00d8; 0x00d9; 0x00da; 0x00db; 0x00dc; 0x00dd; 0x0176; 0x00df;
  0x00e0; 0x00e1; 0x00e2; 0x00e3; 0x00e4; 0x00e5; 0x00e6; 0x00e7; 0x00e8; 0x00e9; 0x00ea; 0x00eb; 0x00ec; 0x00ed; 0x00ee; 0x00ef;
  0x0175; 0x00f1; 0x00f2; 0x00f3; 0x00f4; 0x00f5; 0x00f6; 0x1e6b; 0x00f8; 0x00f9; 0x00fa; 0x00fb; 0x00fc; 0x00fd; 0x0177; 0x00ff].

(** the table of Unpack_ISO_8859_15, StringCodec.cpp:232-235 *)
Definition t_ISO_8859_15 : list Z := [
  0x00a0; 0x00a1; 0x00a2; 0x00a3; 0x20ac; 0x00a5; 0x0160; 0x00a7; 0x0161; 0x00a9; 0x00aa; 0x00ab; 0x00ac; 0x00ad; 0x00ae; 0x00af;
  0x00b0; 0x00b1; 0x00b2; 0x00b3; 0x017d; 0x00b5; 0x00b6; 0x00b7; 0x017e; 0x00b9; 0x00ba; 0x00bb; 0x0152; 0x0153; 0x0178; 0x00bf].

(** the table of Unpack_ISO_8859_16, StringCodec.cpp:243-250 *)
Definition t_ISO_8859_16 : list Z := [
  0x00a0; 0x0104; 0x0105; 0x0141; 0x20ac; 0x201e; 0x0160; 0x00a7; 0x0161; 0x00a9; 0x0218; 0x00ab; 0x0179; 0x00ad; 0x017a; 0x017b;
  0x00b0; 0x00b1; 0x010c; 0x0142; 0x017d; 0x201d; 0x00b6; 0x00b7; 0x017e; 0x010d; 0x0219; 0x00bb; 0x0152; 0x0153; 0x0178; 0x017c;
  0x00c0; 0x00c1; 0x00c2; 0x0102; 0x00c4; 0x0106; 0x00c6; 0x00c7; 0x00c8; 0x00c9; 0x00ca; 0x00cb; 0x00cc; 0x00cd; 0x00ce; 0x00cf;
  0x0110; 0x0143; 0x00d2; 0x00d3; 0x00d4; 0x0150; 0x00d6; 0x015a; 0x0170; 0x00d9; 0x00da; 0x00db; 0x00dc; 0x0118; 0x021a; 0x00df;
  0x00e0; 0x00e1; 0x00e2; 0x0103; 0x00e4; 0x0107; 0x00e6; 0x00e7; 0x00e8; 0x00e9; 0x00ea; 0x00eb; 0x00ec; 0x00ed; 0x00ee; 0x00ef;
  0x0111; 0x0144; 0x00f2; 0x00f3; 0x00f4; 0x0151; 0x00f6; 0x015b; 0x0171; 0x00f9; 0x00fa; 0x00fb; 0x00fc; 0x0119; 0x021b; 0x00ff].

(** the table of Unpack_CP866, StringCodec.cpp:369-374 *)
Definition t_CP866 : list Z := [
  0x0401; 0x0451; 0x0404; 0x0454; 0x0407; 0x0457; 0x040e; 0x045e; 0x00b0; 0x2219; 0x00B7; 0x221A; 0x2116; 0x00A4; 0x25A0; 0x00A0].

(** reading a table; outside it there is no value (-7 stands for a read out of bounds) *)
Definition tab (t : list Z) (i : Z) : Z := nth (Z.to_nat i) t (-7).

(** the unpack functions for one-byte encodings, as functions of the byte read by *it++ *)
(** StringCodec.cpp:20-36 *)
Definition u_CP1251 (c : Z) : Z := if c <? 0x80 then c else tab t_CP1251 (c - 0x80).
(** StringCodec.cpp:38-42 *)
Definition u_ISO_8859_1 (c : Z) : Z := c.
(** StringCodec.cpp:44-57 *)
Definition u_ISO_8859_2 (c : Z) : Z := if c <? 0xa0 then c else tab t_ISO_8859_2 (c - 0xa0).
(** the common ending of :59-75, :107-123, :125-141, :143-159 *)
Definition or_invalid (t : list Z) (c : Z) : Z :=
  if c <? 0xa0 then c else let r := tab t (c - 0xa0) in if negb (r =? 0xffff) then r else Invalid.
(** StringCodec.cpp:59-75 *)
Definition u_ISO_8859_3 (c : Z) : Z := or_invalid t_ISO_8859_3 c.
(** StringCodec.cpp:77-90 *)
Definition u_ISO_8859_4 (c : Z) : Z := if c <? 0xa0 then c else tab t_ISO_8859_4 (c - 0xa0).
(** StringCodec.cpp:92-105 *)
Definition u_ISO_8859_5 (c : Z) : Z := if c <? 0xa0 then c else tab t_ISO_8859_5 (c - 0xa0).
(** StringCodec.cpp:107-123 *)
Definition u_ISO_8859_6 (c : Z) : Z := or_invalid t_ISO_8859_6 c.
(** StringCodec.cpp:125-141 *)
Definition u_ISO_8859_7 (c : Z) : Z := or_invalid t_ISO_8859_7 c.
(** StringCodec.cpp:143-159 *)
Definition u_ISO_8859_8 (c : Z) : Z := or_invalid t_ISO_8859_8 c.
(** StringCodec.cpp:161-171 *)
Definition u_ISO_8859_9 (c : Z) : Z := if c <? 0xd0 then c else tab t_ISO_8859_9 (c - 0xd0).
(** StringCodec.cpp:173-186 *)
Definition u_ISO_8859_10 (c : Z) : Z := if c <? 0xa0 then c else tab t_ISO_8859_10 (c - 0xa0).
(** StringCodec.cpp:188-196 *)
Definition u_ISO_8859_11 (c : Z) : Z :=
  if c <=? 0xa0 then c
  else if (c =? 0xdb) || (c =? 0xdc) || (c =? 0xde) then Invalid
  else 0x0d60 + c.
(** StringCodec.cpp:198-211 *)
Definition u_ISO_8859_13 (c : Z) : Z := if c <? 0xa0 then c else tab t_ISO_8859_13 (c - 0xa0).
(** StringCodec.cpp:213-226 *)
Definition u_ISO_8859_14 (c : Z) : Z := if c <? 0xa0 then c else tab t_ISO_8859_14 (c - 0xa0).
(** StringCodec.cpp:228-237 *)
Definition u_ISO_8859_15 (c : Z) : Z := if (c <? 0xa0) || (0xc0 <=? c) then c else tab t_ISO_8859_15 (c - 0xa0).
(** StringCodec.cpp:239-252 *)
Definition u_ISO_8859_16 (c : Z) : Z := if c <? 0xa0 then c else tab t_ISO_8859_16 (c - 0xa0).
(** StringCodec.cpp:357-379 *)
Definition u_CP866 (c : Z) : Z :=
  if c <? 0x80 then c
  else if (0x80 <=? c) && (c <? 0xb0) then 0x410 + c - 0x80
  else if (0xe0 <=? c) && (c <? 0xf0) then 0x440 + c - 0xe0
  else if 0xf0 <=? c then tab t_CP866 (c - 0xf0)
  else Invalid.
(** StringCodec.cpp:381-385 *)
Definition u_ASCII (c : Z) : Z := if c <? 0x80 then c else Invalid.

(** an unpack function: takes the bytes from the iterator to the end, at least one; gives the value and the bytes
    from the new position of the iterator (StringCodec.h:30) *)
Definition unpack := list Z -> Z * list Z.
Definition one (f : Z -> Z) : unpack := fun l => match l with [] => (Invalid, []) | c :: r => (f c, r) end.

(** StringCodec.cpp:254-282 *)
Definition unpack_utf8 : unpack := fun l =>
  match l with
  | [] => (Invalid, [])
  | c0 :: r =>
    if c0 <=? 0x7f then (c0, r)
    else match r with
    | [] => (Invalid, r)
    | c1 :: r1 =>
      if (c0 =? 0xc0) || (c0 =? 0xc1) || (0xf5 <=? c0) then (Invalid, r)
      else if (0xc2 <=? c0) && (c0 <=? 0xdf) then (Z.lor (Z.shiftl (Z.land c0 0x1f) 6) (Z.land c1 0x3f), r1)
      else match r1 with
      | [] => (Invalid, r1)
      | c2 :: r2 =>
        if (0xe0 <=? c0) && (c0 <=? 0xef)
        then (Z.lor (Z.lor (Z.shiftl (Z.land c0 0x0f) 12) (Z.shiftl (Z.land c1 0x3f) 6)) (Z.land c2 0x3f), r2)
        else match r2 with
        | [] => (Invalid, r2)
        | c3 :: r3 =>
          if (0xf0 <=? c0) && (c0 <=? 0xf4)
          then (Z.lor (Z.lor (Z.lor (Z.shiftl (Z.land c0 0x07) 18) (Z.shiftl (Z.land c1 0x3f) 12)) (Z.shiftl (Z.land c2 0x3f) 6)) (Z.land c3 0x3f), r3)
          else (Invalid, r3)
        end
      end
    end
  end.

(** StringCodec.cpp:284-306 *)
Definition unpack_utf16be : unpack := fun l =>
  match l with
  | [] => (Invalid, [])
  | c0 :: r =>
    match r with
    | [] => (Invalid, r)
    | c1 :: r1 =>
      if (c0 <? 0xd8) || (0xdf <? c0) then (Z.lor (Z.shiftl c0 8) c1, r1)
      else match r1 with
      | [] => (Invalid, r1)
      | c2 :: r2 =>
        if 0xdb <? c0 then (Invalid, r1)
        else match r2 with
        | [] => (Invalid, r2)
        | c3 :: r3 =>
          if (c2 <? 0xdc) || (0xdf <? c2) then (Invalid, r3)
          else (Z.lor (Z.lor (Z.lor (Z.shiftl (Z.land c0 0x03) 18) (Z.shiftl c1 10)) (Z.shiftl (Z.land c2 0x03) 8)) c3, r3)
        end
      end
    end
  end.

(** StringCodec.cpp:308-330 *)
Definition unpack_utf16le : unpack := fun l =>
  match l with
  | [] => (Invalid, [])
  | c0 :: r =>
    match r with
    | [] => (Invalid, r)
    | c1 :: r1 =>
      if (c1 <? 0xd8) || (0xdf <? c1) then (Z.lor (Z.shiftl c1 8) c0, r1)
      else match r1 with
      | [] => (Invalid, r1)
      | c2 :: r2 =>
        if 0xdb <? c1 then (Invalid, r1)
        else match r2 with
        | [] => (Invalid, r2)
        | c3 :: r3 =>
          if (c3 <? 0xdc) || (0xdf <? c3) then (Invalid, r3)
          else (Z.lor (Z.lor (Z.lor (Z.shiftl (Z.land c1 0x03) 18) (Z.shiftl c0 10)) (Z.shiftl (Z.land c3 0x03) 8)) c2, r3)
        end
      end
    end
  end.

(** StringCodec.cpp:335-341: [n] more bytes of the loop; u32 arithmetic *)
Fixpoint loop32be (n : nat) (ucs : Z) (l : list Z) : Z * list Z :=
  match n with
  | O => (if ucs <? 0x110000 then ucs else Invalid, l)
  | S n => match l with [] => (Invalid, []) | c :: r => loop32be n (Z.lor (Z.shiftl ucs 8 mod 2 ^ 32) c) r end
  end.
(** StringCodec.cpp:332-343 *)
Definition unpack_utf32be : unpack := loop32be 4 0.
(** StringCodec.cpp:348-353 *)
Fixpoint loop32le (k : nat) (n : Z) (ucs : Z) (l : list Z) : Z * list Z :=
  match k with
  | O => (if ucs <? 0x110000 then ucs else Invalid, l)
  | S k => match l with [] => (Invalid, []) | c :: r => loop32le k (n + 1) (Z.lor ucs (Z.shiftl c (n * 8))) r end
  end.
(** StringCodec.cpp:345-355 *)
Definition unpack_utf32le : unpack := loop32le 4 0 0.

(** Encoding.h:23-51 *)
Inductive encoding :=
| ISO_8859_1 | ISO_8859_2 | ISO_8859_3 | ISO_8859_4 | ISO_8859_5 | ISO_8859_6 | ISO_8859_7 | ISO_8859_8 | ISO_8859_9
| ISO_8859_10 | ISO_8859_11 | ISO_8859_12 | ISO_8859_13 | ISO_8859_14 | ISO_8859_15 | ISO_8859_16
| ISO_10646 | KSX1001_2004 | GB_2312_1980 | ISO_10646_big5 | UTF8 | UTF16BE | UTF16LE | UTF32BE | UTF32LE | CP1251.
Definition encoding_eqb (a b : encoding) : bool :=
  match a, b with
  | ISO_8859_1, ISO_8859_1 | ISO_8859_2, ISO_8859_2 | ISO_8859_3, ISO_8859_3 | ISO_8859_4, ISO_8859_4
  | ISO_8859_5, ISO_8859_5 | ISO_8859_6, ISO_8859_6 | ISO_8859_7, ISO_8859_7 | ISO_8859_8, ISO_8859_8
  | ISO_8859_9, ISO_8859_9 | ISO_8859_10, ISO_8859_10 | ISO_8859_11, ISO_8859_11 | ISO_8859_12, ISO_8859_12
  | ISO_8859_13, ISO_8859_13 | ISO_8859_14, ISO_8859_14 | ISO_8859_15, ISO_8859_15 | ISO_8859_16, ISO_8859_16
  | ISO_10646, ISO_10646 | KSX1001_2004, KSX1001_2004 | GB_2312_1980, GB_2312_1980 | ISO_10646_big5, ISO_10646_big5
  | UTF8, UTF8 | UTF16BE, UTF16BE | UTF16LE, UTF16LE | UTF32BE, UTF32BE | UTF32LE, UTF32LE | CP1251, CP1251 => true
  | _, _ => false
  end.

(** GetUnpackFunc(Encoding) (StringCodec.cpp:506-534) *)
Definition unpack_of (e : encoding) : option unpack :=
  match e with
  | CP1251 => Some (one u_CP1251)
  | ISO_8859_1 => Some (one u_ISO_8859_1)
  | ISO_8859_2 => Some (one u_ISO_8859_2)
  | ISO_8859_3 => Some (one u_ISO_8859_3)
  | ISO_8859_4 => Some (one u_ISO_8859_4)
  | ISO_8859_5 => Some (one u_ISO_8859_5)
  | ISO_8859_6 => Some (one u_ISO_8859_6)
  | ISO_8859_7 => Some (one u_ISO_8859_7)
  | ISO_8859_8 => Some (one u_ISO_8859_8)
  | ISO_8859_9 => Some (one u_ISO_8859_9)
  | ISO_8859_10 => Some (one u_ISO_8859_10)
  | ISO_8859_11 => Some (one u_ISO_8859_11)
  | ISO_8859_13 => Some (one u_ISO_8859_13)
  | ISO_8859_14 => Some (one u_ISO_8859_14)
  | ISO_8859_15 => Some (one u_ISO_8859_15)
  | ISO_8859_16 => Some (one u_ISO_8859_16)
  | ISO_10646 => Some unpack_utf16be
  | UTF8 => Some unpack_utf8
  | UTF16BE => Some unpack_utf16be
  | UTF16LE => Some unpack_utf16le
  | UTF32BE => Some unpack_utf32be
  | UTF32LE => Some unpack_utf32le
  | _ => None
  end.

(** GetEncoding (StringCodec.cpp:566-606): the encoding and the size of the byte order mark *)
Definition get_encoding (s : list Z) : option encoding * nat :=
  let four := match s with
    | a :: b :: c :: d :: _ =>
      let bom := Z.lor (Z.lor (Z.lor (Z.shiftl a 24) (Z.shiftl b 16)) (Z.shiftl c 8)) d in
      if bom =? 0x0000feff then Some UTF32BE else if bom =? 0xfffe0000 then Some UTF32LE else None
    | _ => None
    end in
  match four with
  | Some e => (Some e, 4%nat)
  | None =>
    let three := match s with a :: b :: c :: _ => (a =? 0xef) && (b =? 0xbb) && (c =? 0xbf) | _ => false end in
    if three then (Some UTF8, 3%nat)
    else match s with
    | a :: b :: _ =>
      let bom := Z.lor (Z.shiftl a 8) b in
      if bom =? 0xfeff then (Some UTF16BE, 2%nat) else if bom =? 0xfffe then (Some UTF16LE, 2%nat) else (None, 0%nat)
    | _ => (None, 0%nat)
    end
  end.

(** LocaleString (LocaleString.h:22-25) *)
Record text := Text { enc_of : encoding; bytes_of : list Z }.

(** GetUnpackFunc(LocaleString, bomSize) (StringCodec.cpp:493-503) *)
Definition unpack_for (x : text) : option unpack * nat :=
  match enc_of x with
  | ISO_10646 =>
    match get_encoding (bytes_of x) with
    | (Some e, n) => (unpack_of e, n)
    | (None, _) => (unpack_of ISO_10646, 0%nat)
    end
  | e => (unpack_of e, 0%nat)
  end.

(** the loops over [it] (446-452, 642-646, 660-666): all the values unpacked, in order; every call consumes a byte,
    so as many rounds as bytes are enough *)
Fixpoint unpack_all (u : unpack) (fuel : nat) (l : list Z) : list Z :=
  match fuel, l with
  | O, _ => []
  | _, [] => []
  | S f, _ => let '(c, r) := u l in c :: unpack_all u f r
  end.
Definition unpacked (u : unpack) (l : list Z) : list Z := unpack_all u (length l) l.

(** (char)x as a byte *)
Definition chr (x : Z) : Z := x mod 256.
(** PackUtf8 (StringCodec.cpp:537-563): what is appended *)
Definition pack_utf8 (ucs repl : Z) : list Z :=
  if ucs <? 0x80 then [chr ucs]
  else if ucs <? 0x800 then [chr (Z.lor (Z.shiftr ucs 6) 0xc0); chr (Z.lor (Z.land ucs 0x3f) 0x80)]
  else if ucs <? 0x10000 then
    [chr (Z.lor (Z.shiftr ucs 12) 0xe0); chr (Z.lor (Z.shiftr (Z.land ucs 0x0fc0) 6) 0x80); chr (Z.lor (Z.land ucs 0x003f) 0x80)]
  else if ucs <? 0x110000 then
    [chr (Z.lor (Z.shiftr ucs 18) 0xf0); chr (Z.lor (Z.shiftr (Z.land ucs 0x03f000) 12) 0x80);
     chr (Z.lor (Z.shiftr (Z.land ucs 0x000fc0) 6) 0x80); chr (Z.lor (Z.land ucs 0x00003f) 0x80)]
  else [chr repl].

(** ToUtf8 (StringCodec.cpp:433-456); None: the exception of :440 *)
Definition to_utf8 (x : text) (repl : Z) : option (list Z) :=
  match enc_of x with
  | UTF8 => Some (bytes_of x)
  | _ =>
    match unpack_for x with
    | (None, _) => None
    | (Some u, bom) =>
      Some (flat_map (fun ucs => pack_utf8 (if ucs =? Invalid then repl else ucs) repl) (unpacked u (skipn bom (bytes_of x))))
    end
  end.
(** FromUtf8 (StringCodec.cpp:459-460) *)
Definition from_utf8 (s : list Z) : text := Text UTF8 s.

(** u32 to int (StringCodec.cpp:483-484) *)
Definition to_int (u : Z) : Z := if u <? 2 ^ 31 then u else u - 2 ^ 32.
(** the loop of Compare (StringCodec.cpp:481-489) *)
Fixpoint compare_loop (ua ub : unpack) (fuel : nat) (a b : list Z) : Z :=
  match fuel with
  | O => 0
  | S f =>
    match a, b with
    | [], [] => 0
    | _ :: _, [] => 1
    | [], _ :: _ => -1
    | _, _ =>
      let '(ca, ra) := ua a in let '(cb, rb) := ub b in
      if to_int ca =? to_int cb then compare_loop ua ub f ra rb else to_int ca - to_int cb
    end
  end.
(** Compare (StringCodec.cpp:463-490); None: an exception *)
Definition compare (a b : text) : option Z :=
  match unpack_for a, unpack_for b with
  | (Some ua, na), (Some ub, nb) =>
    let sa := skipn na (bytes_of a) in let sb := skipn nb (bytes_of b) in
    Some (compare_loop ua ub (S (length sa)) sa sb)
  | _, _ => None
  end.
(** LocaleString::operator < (LocaleString.cpp:38-39) *)
Definition less (a b : text) : option bool := option_map (fun c => c <? 0) (compare a b).
(** LocaleString::operator == (LocaleString.cpp:42-51) *)
Definition equal (a b : text) : option bool :=
  if encoding_eqb (enc_of a) (enc_of b) then Some (if list_eq_dec Z.eq_dec (bytes_of a) (bytes_of b) then true else false)
  else if negb (Nat.eqb (length (bytes_of a)) (length (bytes_of b))) then Some false
  else option_map (fun c => c =? 0) (compare a b).

(** Pack_CP866 (StringCodec.cpp:387-420) *)
Definition pack_CP866 (u repl : Z) : Z :=
  if u <? 0x80 then u
  else if (0x0410 <=? u) && (u <=? 0x043f) then chr (u - 0x410 + 0x80)
  else if (0x0440 <=? u) && (u <=? 0x044f) then chr (u - 0x440 + 0xe0)
  else if u =? 0x0401 then 0xf0
  else if u =? 0x0451 then 0xf1
  else if u =? 0x0404 then 0xf2
  else if u =? 0x0454 then 0xf3
  else if u =? 0x0407 then 0xf4
  else if u =? 0x0457 then 0xf5
  else if u =? 0x040e then 0xf6
  else if u =? 0x045e then 0xf7
  else if u =? 0x00b0 then 0xf8
  else if u =? 0x2219 then 0xf9
  else if u =? 0x00b7 then 0xfa
  else if u =? 0x221a then 0xfb
  else if u =? 0x2116 then 0xfc
  else if u =? 0x00a4 then 0xfd
  else if u =? 0x25a0 then 0xfe
  else if u =? 0x00a0 then 0xff
  else repl.
(** Pack_ASCII (StringCodec.cpp:422-428) *)
Definition pack_ASCII (u repl : Z) : Z := if u <? 0x80 then u else repl.
(** GetCodePagePackFunc (StringCodec.cpp:609-616) *)
Definition page_pack (page : Z) : Z -> Z -> Z := if page =? 866 then pack_CP866 else pack_ASCII.
(** GetCodePageUnpackFunc (StringCodec.cpp:619-627) *)
Definition page_unpack (page : Z) : Z -> Z :=
  if page =? 866 then u_CP866 else if page =? 1251 then u_CP1251 else u_ASCII.
(** ToCodePage (StringCodec.cpp:630-649) *)
Definition to_code_page (x : text) (page : Z) : option (list Z) :=
  match unpack_for x with
  | (None, _) => None
  | (Some u, bom) => Some (map (fun ucs => page_pack page ucs 0x3f) (unpacked u (skipn bom (bytes_of x))))
  end.
(** FromCodePage (StringCodec.cpp:652-669) *)
Definition from_code_page (s : list Z) (page repl : Z) : text :=
  Text UTF8 (flat_map (fun ucs => pack_utf8 (if ucs =? Invalid then repl else ucs) repl) (unpacked (one (page_unpack page)) s)).
