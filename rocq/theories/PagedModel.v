(** io/PagedBuffer.cpp: a byte queue kept in pages, one reader, one writer at a time (WriteGuard), and
    Pop/Seek/GetStorageSize from anywhere.

    Every region under _mutex is one step; the page I/O in between (lines 96-101, 151-156, 168-181) runs with
    the mutex released and is a step of its own.  A page (IPage is abstract, there is no implementation in
    the repository) is its sequence of bytes: Write stores at an offset, Read offers the consumer the bytes
    present from an offset on, and the consumer takes any number of them.

    _activeRead makes a second simultaneous Read throw without changing anything, _activeWrite with its
    condition variable makes a second Push wait (or give up) without changing anything: the state has one
    reader and one writer slot.  The wait of Read for data (line 80) changes nothing either.

    [gS], [gbase], [glog] and the [gpos] arguments are history variables: bytes committed so far, bytes in dropped
    pages, what happened; no step depends on them.  u64 values are natural numbers, differences are in Z
    and reduced modulo 2^64 where the code computes them unsigned. *)
From Coq Require Import List Arith ZArith Bool.
From Verif Require Import Conc.
Import ListNotations.
Set Implicit Arguments.

Section Paged.
Variables ps ck : nat.       (* _pageSize, _chunkSize; lines 256-258: ps > 0, ck > 0, ck divides ps *)

Inductive rpc := RIdle | RPage (page off c gpos : nat) | RGot (c n gpos : nat).
Inductive wpc := WIdle | WTail (page : nat) (data : list nat) | WTailDone (data : list nat)
  | WPages (rest : list nat) (new : list nat) (tl : nat).

Inductive ev :=
| EReadBegin (pos : nat)                       (* Read starts delivering from this absolute position *)
| ERead (pos : nat) (bs : list nat) (over : bool)  (* what the consumer took; over: more than was committed *)
| EReadEnd (pos n : nat) | EReadCancelled (pos n : nat) | EBroken
| EPushBegin (data : list nat) | EPushed (bs : list nat) | EPushOk | EPushFail
| EPop (n : nat) (skips drops : bool)          (* skips unread bytes; drops pages while a Read is delivering *)
| ESeek (pos : nat).

Record st := { heap : nat -> list nat; pgs : list nat; nextp : nat;        (* _pages *)
               start : nat; cur : nat; tail : nat;                          (* _startOffset, _currentOffset, _tailSize *)
               rd : rpc; wr : wpc;
               gS : list nat; gbase : nat; glog : list ev }.
Definition init : st := {| heap := fun _ => []; pgs := []; nextp := 0; start := 0; cur := 0; tail := 0; rd := RIdle; wr := WIdle; gS := []; gbase := 0; glog := [] |}.

Definition w64 (z : Z) : Z := (z mod 2 ^ 64)%Z.
Definition zn := Z.of_nat.
(** line 77 *)
Definition unread (s : st) : Z := w64 (zn (ps * length (pgs s)) - zn (cur s) - zn (tail s)).
(** line 120 *)
Definition storage_size (s : st) : Z := w64 (zn (ps * length (pgs s)) - zn (start s) - zn (tail s)).
Definition write_at (l : list nat) (off : nat) (d : list nat) : list nat := firstn off l ++ d ++ skipn (off + length d) l.
Definition log (s : st) (e : ev) : list ev := glog s ++ [e].

Inductive act :=
| ARead                     (* Read, lines 74-93 *)
| APage (n : nat)           (* page->Read: the consumer takes n bytes, line 99 *)
| AReadEnd (cancelled : bool)  (* lines 100-113 *)
| APush (d : list nat)      (* Push, lines 126-149 *)
| AWriteTail (k : nat)      (* tailPage->Write stores k of the bytes, line 154 *)
| ACommitTail               (* lines 158-165 *)
| AWritePage (k : nat)      (* one turn of the loop, lines 172-179 *)
| ACommitPages              (* lines 183-191 *)
| APop (n : nat)            (* lines 195-226 *)
| ASeek (n : nat).          (* lines 229-242 *)

(** lines 207-212: how many pages the loop steps over *)
Definition rd_active (s : st) : bool := match rd s with RIdle => false | _ => true end.

Definition step (s : st) (a : act) : option st :=
  match a with
  | ARead =>
      match rd s with
      | RIdle =>
          if (unread s <? zn ck)%Z then Some s
          else match nth_error (pgs s) (cur s / ps) with
               | None => Some {| heap := heap s; pgs := pgs s; nextp := nextp s; start := start s; cur := cur s; tail := tail s; rd := RIdle; wr := wr s;
                                 gS := gS s; gbase := gbase s; glog := log s EBroken |}   (* LogicException, 85-86 *)
               | Some p => Some {| heap := heap s; pgs := pgs s; nextp := nextp s; start := start s; cur := cur s; tail := tail s;
                                   rd := RPage p (cur s mod ps) (cur s) (gbase s + cur s); wr := wr s; gS := gS s; gbase := gbase s; glog := log s (EReadBegin (gbase s + cur s)) |}
               end
      | _ => None
      end
  | APage n =>
      match rd s with
      | RPage p o c g =>
          if o + n <=? length (heap s p)
          then Some {| heap := heap s; pgs := pgs s; nextp := nextp s; start := start s; cur := cur s; tail := tail s; rd := RGot c n g; wr := wr s;
                       gS := gS s; gbase := gbase s; glog := log s (ERead g (firstn n (skipn o (heap s p))) (length (gS s) <? g + n)) |}
          else None
      | _ => None
      end
  | AReadEnd cancelled =>
      match rd s with
      | RGot c n g =>
          Some {| heap := heap s; pgs := pgs s; nextp := nextp s; start := start s;
                  cur := if cancelled then cur s else if cur s =? c then cur s + (n - n mod ck) else cur s;
                  tail := tail s; rd := RIdle; wr := wr s; gS := gS s; gbase := gbase s; glog := log s (if cancelled then EReadCancelled g n else EReadEnd g n) |}
      | _ => None
      end
  | APush d =>
      match wr s with
      | WIdle =>
          if tail s =? 0
          then Some {| heap := heap s; pgs := pgs s; nextp := nextp s; start := start s; cur := cur s; tail := tail s; rd := rd s;
                       wr := WPages d [] 0; gS := gS s; gbase := gbase s; glog := log s (EPushBegin d) |}
          else match rev (pgs s) with
               | [] => Some {| heap := heap s; pgs := pgs s; nextp := nextp s; start := start s; cur := cur s; tail := tail s; rd := rd s; wr := WIdle;
                               gS := gS s; gbase := gbase s; glog := log s EBroken |}   (* LogicException, line 139 *)
               | p :: _ => Some {| heap := heap s; pgs := pgs s; nextp := nextp s; start := start s; cur := cur s; tail := tail s; rd := rd s;
                                   wr := WTail p d; gS := gS s; gbase := gbase s; glog := log s (EPushBegin d) |}
               end
      | _ => None
      end
  | AWriteTail k =>
      match wr s with
      | WTail p d =>
          let n := min (tail s) (length d) in
          if k <=? n
          then let h := fupd (heap s) p (write_at (heap s p) (ps - tail s) (firstn k d)) in
               Some {| heap := h; pgs := pgs s; nextp := nextp s; start := start s; cur := cur s; tail := tail s; rd := rd s;
                       wr := if k =? n then WTailDone d else WIdle; gS := gS s; gbase := gbase s;
                       glog := if k =? n then glog s else log s EPushFail |}
          else None
      | _ => None
      end
  | ACommitTail =>
      match wr s with
      | WTailDone d =>
          let n := min (tail s) (length d) in
          Some {| heap := heap s; pgs := pgs s; nextp := nextp s; start := start s; cur := cur s; tail := tail s - n; rd := rd s;
                  wr := WPages (skipn n d) [] (tail s - n); gS := gS s ++ firstn n d; gbase := gbase s; glog := log s (EPushed (firstn n d)) |}
      | _ => None
      end
  | AWritePage k =>
      match wr s with
      | WPages (x :: rest') new tl =>
          let rest := x :: rest' in
          let n := min ps (length rest) in
          if k <=? n
          then Some {| heap := fupd (heap s) (nextp s) (firstn k rest); pgs := pgs s; nextp := S (nextp s); start := start s; cur := cur s; tail := tail s; rd := rd s;
                       wr := if k =? n then WPages (skipn n rest) (new ++ [nextp s]) (ps - n) else WIdle; gS := gS s; gbase := gbase s;
                       glog := if k =? n then glog s else log s EPushFail |}
          else None
      | _ => None
      end
  | ACommitPages =>
      match wr s with
      | WPages [] new tl =>
          match new with
          | [] => Some {| heap := heap s; pgs := pgs s; nextp := nextp s; start := start s; cur := cur s; tail := tail s; rd := rd s; wr := WIdle;
                          gS := gS s; gbase := gbase s; glog := log s EPushOk |}
          | _ => Some {| heap := heap s; pgs := pgs s ++ new; nextp := nextp s; start := start s; cur := cur s; tail := tl; rd := rd s; wr := WIdle;
                         gS := gS s ++ concat (map (heap s) new); gbase := gbase s; glog := (log s (EPushed (concat (map (heap s) new)))) ++ [EPushOk] |}
          end
      | _ => None
      end
  | APop n =>
      if (storage_size s <? zn n)%Z || negb (n mod ck =? 0) then Some s   (* exceptions, lines 200-201 *)
      else let ns := start s + n in
           let nc := max ns (cur s) in
           let k := ns / ps in
           Some {| heap := heap s; pgs := skipn k (pgs s); nextp := nextp s; start := ns - k * ps; cur := nc - k * ps; tail := tail s; rd := rd s; wr := wr s;
                   gS := gS s; gbase := gbase s + k * ps; glog := log s (EPop n (cur s <? ns) ((0 <? k) && rd_active s)) |}
  | ASeek n =>
      if (storage_size s <? zn n)%Z || negb (n mod ck =? 0) then Some s
      else Some {| heap := heap s; pgs := pgs s; nextp := nextp s; start := start s; cur := start s + n; tail := tail s; rd := rd s; wr := wr s;
                   gS := gS s; gbase := gbase s; glog := log s (ESeek (gbase s + start s + n)) |}
  end.
End Paged.
