(** Plain byte sequences with a position: what the streams of MemStreamModel stand for. *)
From Verif Require Import Base MemStreamModel.
Local Open Scope Z_scope.

(** overwrite from [p] on, extending if necessary *)
Definition over (l : list byte) (p : nat) (d : list byte) : list byte := firstn p l ++ d ++ skipn (p + length d) l.

Definition target (len pos : Z) (o : Z) (m : mode) : Z :=
  match m with MBegin => o | MCurrent => pos + o | MEnd => len + o end.

(** A growing, a fixed-size and a read-only sequence of bytes. *)
Definition mspec (kd : kind) (s : list byte * nat) (o : op) : res * (list byte * nat) :=
  let '(l, p) := s in
  match o with
  | ORead n _ => let r := firstn (Z.to_nat n) (skipn p l) in (RBytes r, (l, p + length r)%nat)
  | OWrite d _ =>
      match kd with
      | Growing => (RCount (zlen d), (over l p d, p + length d)%nat)
      | Fixed => let d := firstn (length l - p) d in (RCount (zlen d), (over l p d, p + length d)%nat)
      | Const => (RThrow, s)
      end
  | OSeek o m => let t := target (zlen l) (Z.of_nat p) o m in
                 if (0 <=? t) && (t <=? zlen l) then (RUnit, (l, Z.to_nat t)) else (RThrow, s)
  | OTell => (RPos (Z.of_nat p), s)
  end.

(** A window of [size] bytes on a stream: positions within it, never more than what fits. *)
Definition bounded (size : Z) (x : file) (o : op) : res * file :=
  match o with
  | ORead n k => pl_step x (ORead (Z.min n (size - fp x)) k)
  | OWrite d k => if fp x =? size then (RThrow, x) else pl_step x (OWrite (firstn (Z.to_nat (size - fp x)) d) k)
  | OSeek o m => let t := target size (fp x) o m in
                 if (0 <=? t) && (t <=? size) then (RUnit, mkF (ff x) (fl x) t) else (RThrow, x)
  | OTell => (RPos (fp x), x)
  end.

(** Runs of operations. *)
Fixpoint run {S} (step : S -> op -> res * S) (s : S) (os : list op) : list res * S :=
  match os with
  | [] => ([], s)
  | o :: os => let '(r, s1) := step s o in let '(rs, s2) := run step s1 os in (r :: rs, s2)
  end.

(** Sizes given to Read are sizes. *)
Definition sane (o : op) : Prop := match o with ORead n _ => 0 <= n | _ => True end.
Definition written (o : op) : Z := match o with OWrite d _ => zlen d | _ => 0 end.

(** What a chunked stream may do at a call, in terms of its content and position. *)
Inductive chspec : list byte * nat -> op -> res -> list byte * nat -> Prop :=
| ChRead l p n k : let r := firstn (Z.to_nat n) (skipn p l) in
    chspec (l, p) (ORead n k) (RBytes r) (l, p + length r)%nat
| ChReadEnd l n k : chspec (l, length l) (ORead n k) RThrow (l, length l)
| ChWrite l p d k : chspec (l, p) (OWrite d k) (RCount (zlen d)) (over l p d, p + length d)%nat
| ChWriteThrow l p d k n : (n <= length d)%nat ->
    chspec (l, p) (OWrite d k) RThrow (over l p (firstn n d), p + n)%nat
| ChSeek l p o m : let t := target (zlen l) (Z.of_nat p) o m in
    0 <= t <= zlen l -> chspec (l, p) (OSeek o m) RUnit (l, Z.to_nat t)
| ChSeekOut l p o m : let t := target (zlen l) (Z.of_nat p) o m in
    t < 0 \/ zlen l < t \/ l = [] -> chspec (l, p) (OSeek o m) RThrow (l, p)
| ChTell l p : chspec (l, p) OTell (RPos (Z.of_nat p)) (l, p).
Inductive chruns : list byte * nat -> list op -> list res -> list byte * nat -> Prop :=
| chruns_nil x : chruns x [] [] x
| chruns_cons x o r y os rs z : chspec x o r y -> chruns y os rs z -> chruns x (o :: os) (r :: rs) z.

