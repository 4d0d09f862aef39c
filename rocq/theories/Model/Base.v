(** Go semantics used by the whole model: outcomes, machine words, byte slices, arrays, io.

    Nothing here models a file of /repo by itself; it models the Go language and the
    standard-library functions the code calls (encoding/binary, math/bits, copy, slices). *)
From Coq Require Export NArith ZArith List Bool Arith.
Export ListNotations.
Local Open Scope N_scope.

(** ** Outcomes of running Go code
    [Panic]: a run-time panic (index out of range, division by zero, explicit panic).
    [OutOfFuel]: a loop that did not finish within the given number of iterations; it is never a
    normal result. *)
Inductive outcome (A : Type) : Type :=
| Ret (a : A)
| Panic
| OutOfFuel.
Arguments Ret {A} a.
Arguments Panic {A}.
Arguments OutOfFuel {A}.

(** run m, then k on its result; a panic or an endless loop ends everything (Go control flow, used by every file) *)
Definition bind {A B : Type} (m : outcome A) (k : A -> outcome B) : outcome B :=
  match m with
  | Ret a => k a
  | Panic => Panic
  | OutOfFuel => OutOfFuel
  end.

Notation "'let!' x ':=' m 'in' k" := (bind m (fun x => k))
  (at level 200, x pattern, m at level 100, k at level 200, right associativity).

(** ** uint64 arithmetic: values are [N] below 2^64; Go wraps modulo 2^64
    (the operators ^, &, +, -, *, <<, >> of lfg.go:50-73, mt64-19937.go:33-107, xoroshiro.go:25-91, xoshiro.go:32-251) *)
(** 2^64 - 1; the constant ^uint64(0) of Go *)
Definition mask64 : N := 0xffffffffffffffff.
(** wrapping modulo 2^64 (Go specification, integer overflow) *)
Definition trunc64 (x : N) : N := N.land x mask64.
(** x + y on uint64, as in xoroshiro.go:54, 87 and lfg.go:63 *)
Definition add64 (a b : N) : N := trunc64 (a + b).
(** x - y on uint64 (Go specification) *)
Definition sub64 (a b : N) : N := trunc64 (a + 0x10000000000000000 - b).
(** x * y on uint64, as in xoshiro.go:242 and mt64-19937.go:36 *)
Definition mul64 (a b : N) : N := trunc64 (a * b).
(** x << k on uint64, as in xoroshiro.go:89 *)
Definition shl64 (a k : N) : N := trunc64 (N.shiftl a k).
(** x >> k on uint64, as in xoroshiro.go:38 *)
Definition shr64 (a k : N) : N := N.shiftr a k.
(** math/bits.RotateLeft64, for 0 <= k < 64 (the only uses: xoroshiro.go:89-90, xoshiro.go:242, 249, 338) *)
Definition rotl64 (x k : N) : N := N.lor (shl64 x k) (shr64 x (64 - k)).

(** ** bytes: [N] below 256 *)
(** the [k] low bytes of [x], least significant first (binary.LittleEndian.PutUint64 for k = 8:
    lfg.go:80, util.go:81 and the like) *)
Fixpoint le_bytes (k : nat) (x : N) : list N :=
  match k with
  | O => []
  | S k' => N.land x 255 :: le_bytes k' (N.shiftr x 8)
  end.
(** value of a little-endian byte string (binary.LittleEndian.Uint64: lfg.go:119, rng.go:17 and the like) *)
Fixpoint le_val (bs : list N) : N :=
  match bs with
  | [] => 0
  | b :: bs' => b + 256 * le_val bs'
  end.
(** math/bits.ReverseBytes64 (xoroshiro.go:170) *)
Definition rev_bytes64 (x : N) : N := le_val (rev (le_bytes 8 x)).

(** ** slices and arrays *)
(** s[i] with the bounds check (lfg.go:63, mt64-19937.go:101 and the like) *)
Definition aget {A} (s : list A) (i : nat) : outcome A :=
  match nth_error s i with
  | Some v => Ret v
  | None => Panic
  end.
(** list update, used under a bounds check only *)
Fixpoint lupd {A} (s : list A) (i : nat) (v : A) : list A :=
  match s, i with
  | [], _ => []
  | _ :: r, O => v :: r
  | a :: r, S i' => a :: lupd r i' v
  end.
(** s[i] = v with the bounds check (lfg.go:71, mt64-19937.go:36 and the like) *)
Definition aset {A} (s : list A) (i : nat) (v : A) : outcome (list A) :=
  if (i <? length s)%nat then Ret (lupd s i v) else Panic.
(** s[n:] (lfg.go:81 and the like) *)
Definition slice_from {A} (s : list A) (n : nat) : outcome (list A) :=
  if (n <=? length s)%nat then Ret (skipn n s) else Panic.
(** s[:n] (lfg.go:105 and the like) *)
Definition slice_to {A} (s : list A) (n : nat) : outcome (list A) :=
  if (n <=? length s)%nat then Ret (firstn n s) else Panic.
(** contents of dst after the builtin copy(dst, src) (lfg.go:52, 85 and the like) *)
Definition go_copy {A} (dst src : list A) : list A :=
  firstn (length dst) src ++ skipn (length src) dst.
(** make([]byte, n) (rng.go:55, util.go:16 and the like) *)
Definition zeros (n : nat) : list N := repeat 0 n.

(** binary.LittleEndian.PutUint64(p[off:], v) (lfg.go:103, xoroshiro.go:114-115, xoshiro.go:273-276); Go checks off <= len(p) and len(p[off:]) >= 8 *)
Definition put64 (p : list N) (off : nat) (v : N) : outcome (list N) :=
  if (off + 8 <=? length p)%nat
  then Ret (firstn off p ++ le_bytes 8 v ++ skipn (off + 8) p)
  else Panic.
(** binary.LittleEndian.Uint64(p[off:]) (lfg.go:119, xoroshiro.go:125-126, xoshiro.go:286-289) *)
Definition get64 (p : list N) (off : nat) : outcome N :=
  if (off + 8 <=? length p)%nat
  then Ret (le_val (firstn 8 (skipn off p)))
  else Panic.

(** ** io
    A reader or writer acts on an arbitrary world [W]; two objects may share the world.
    [Read(p)] may change all of p, returns n and an error (source.go:6-10, 29, 32; package io). *)
Inductive goerr : Type := EOF | OtherErr (code : N).
(** Read(p []byte) (n int, err error): source.go:9, io.Reader of source.go:32 *)
Definition reader (W : Type) : Type := W -> list N -> outcome ((list N * nat * option goerr) * W).
(** io.Writer of source.go:29 *)
Definition writer (W : Type) : Type := W -> list N -> outcome ((nat * option goerr) * W).
