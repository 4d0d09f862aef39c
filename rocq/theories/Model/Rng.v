(** rng.go: RNG over an arbitrary Source, given by [read] on a world [W]. *)
From Verif Require Import Model.Base.
Local Open Scope N_scope.

Section RNG.
  Context {W : Type}.
  Variable read : reader W.

  (** rng.go:14-18; n and err of Read are ignored *)
  Definition RNG_Uint64 (w : W) : outcome (N * W) :=
    let! ((p, _, _), w) := read w (zeros 8) in
    let! x := get64 p 0 in
    Ret (x, w).

  (** binary.LittleEndian.Uint32 / Uint16 on an array of that many bytes (rng.go:24, 31) *)
  Definition get_le (k : nat) (p : list N) : outcome N :=
    if (k <=? length p)%nat then Ret (le_val (firstn k p)) else Panic.

  (** rng.go:21-25 *)
  Definition RNG_Uint32 (w : W) : outcome (N * W) :=
    let! ((p, _, _), w) := read w (zeros 4) in
    let! x := get_le 4 p in
    Ret (x, w).
  (** rng.go:28-32 *)
  Definition RNG_Uint16 (w : W) : outcome (N * W) :=
    let! ((p, _, _), w) := read w (zeros 2) in
    let! x := get_le 2 p in
    Ret (x, w).

  (** rng.go:36-43. [ub] is the number of bits of uint on the platform (32 or 64);
      uint(x) keeps the low [ub] bits. The loop may run forever: fuel = number of draws. *)
  Fixpoint uintn_loop (fuel : nat) (ub bad : N) (w : W) : outcome (N * W) :=
    match fuel with
    | O => OutOfFuel
    | S fuel' =>
        let! (u, w) := RNG_Uint64 w in
        let x := N.land u (N.ones ub) in
        if bad <? x then uintn_loop fuel' ub bad w else Ret (x, w)
    end.
  (** rng.go:36-43, the whole method *)
  Definition RNG_Uintn (fuel : nat) (ub max : N) (w : W) : outcome (N * W) :=
    if max =? 0 then Panic (* ^uint(0) % 0: integer divide by zero *)
    else
      let bad := N.ones ub - N.ones ub mod max in
      let! (x, w) := uintn_loop fuel ub bad w in
      Ret (x mod max, w).

  (** rng.go:46-51; int(...) of a value below max <= MaxInt is that value *)
  Definition RNG_Intn (fuel : nat) (ub : N) (max : Z) (w : W) : outcome (Z * W) :=
    if (max <? 0)%Z then Panic
    else
      let! (x, w) := RNG_Uintn fuel ub (Z.to_N max) w in
      Ret (Z.of_N x, w).

  (** make([]byte, n) in rng.go:55 and util.go:236: Go panics when n exceeds the address space (maxAlloc = 2^48 on 64-bit
      linux; for smaller n the allocation is assumed to succeed). *)
  Definition go_max_alloc : N := 0x1000000000000.
  (** make([]byte, n), with that limit (rng.go:55, util.go:236) *)
  Definition make_bytes (n : N) : outcome (list N) :=
    if n <=? go_max_alloc then Ret (zeros (N.to_nat n)) else Panic.

  (** big.Int.SetBytes: big-endian value (rng.go:58) *)
  Definition be_val (bs : list N) : N := le_val (rev bs).

  (** rng.go:54-59, 64-bit int. uint(nbits) is the two's complement reading. *)
  Definition RNG_Big (nbits : Z) (w : W) : outcome (N * W) :=
    let u := Z.to_N (nbits mod 2 ^ 64) in
    let! p := make_bytes (shr64 (add64 u 7) 3) in
    let! ((p, _, _), w) := read w p in
    let! b := aget p 0 in
    let! p := aset p 0 (N.land b (N.shiftr 0xff (8 - N.land u 7))) in
    Ret (be_val p, w).

  (** rng.go:76-79 *)
  Fixpoint bign_loop (fuel : nat) (nbits : Z) (k : N) (w : W) : outcome (N * W) :=
    match fuel with
    | O => OutOfFuel
    | S fuel' =>
        let! (x, w) := RNG_Big nbits w in
        if k <? x then bign_loop fuel' nbits k w else Ret (x, w)
    end.
  (** rng.go:62-81. The slice n of lines 66-69 is never used afterwards and is not modelled.
      max is a mathematical integer (big.Int). *)
  Definition RNG_Bign (fuel : nat) (max : Z) (w : W) : outcome (Z * W) :=
    if (max <=? 0)%Z then Panic
    else
      let mx := Z.to_N max in
      let nbits := Z.of_N (N.size mx + 1) in
      let m := N.setbit 0 (N.size mx + 1) - 1 in
      let k := m - m mod mx in
      let! (x, w) := bign_loop fuel nbits k w in
      Ret (Z.of_N (x mod mx), w).
End RNG.
