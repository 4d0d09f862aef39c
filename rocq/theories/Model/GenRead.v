(** The Read loops of the generators, over an arbitrary Uint64 method [u64]. *)
From Verif Require Import Model.Base.

Section GenRead.
  Context {St : Type}.
  Variable u64 : St -> outcome (N * St).

  (** lfg.go:77-87, mt64-19937.go:112-122, xoshiro.go:255-265, xoroshiro.go:174-184 (Rexoroshiro),
      util.go:90-100 (math642crazy): the loop [for len(p) > 8 { PutUint64(p, Uint64()); p = p[8:] }]
      followed by [b := [8]byte{}; PutUint64(b[:], Uint64()); copy(p, b[:])].
      The result is the new content of the slice. Each loop iteration shortens p by 8, so
      [length p + 1] iterations always suffice (fuel). *)
  Fixpoint read_gt8_loop (fuel : nat) (p : list N) (s : St) : outcome (list N * St) :=
    match fuel with
    | O => OutOfFuel
    | S fuel' =>
        if (8 <? length p)%nat then
          let! (x, s1) := u64 s in
          let! (rest, s2) := read_gt8_loop fuel' (skipn 8 p) s1 in
          Ret (le_bytes 8 x ++ rest, s2)
        else
          let! (x, s1) := u64 s in
          Ret (go_copy p (le_bytes 8 x), s1)
    end.
  (** the whole Read method of the lines cited at [read_gt8_loop]: n = len(p), err = nil *)
  Definition read_gt8 : reader St := fun s p =>
    let! (p', s') := read_gt8_loop (S (length p)) p s in
    Ret ((p', length p, None), s').

  (** xoroshiro.go:96-106 (Xoroshiro.Read): same with [for len(p) >= 8]. *)
  Fixpoint read_ge8_loop (fuel : nat) (p : list N) (s : St) : outcome (list N * St) :=
    match fuel with
    | O => OutOfFuel
    | S fuel' =>
        if (8 <=? length p)%nat then
          let! (x, s1) := u64 s in
          let! (rest, s2) := read_ge8_loop fuel' (skipn 8 p) s1 in
          Ret (le_bytes 8 x ++ rest, s2)
        else
          let! (x, s1) := u64 s in
          Ret (go_copy p (le_bytes 8 x), s1)
    end.
  (** the whole of xoroshiro.go:96-106: n = len(p), err = nil *)
  Definition read_ge8 : reader St := fun s p =>
    let! (p', s') := read_ge8_loop (S (length p)) p s in
    Ret ((p', length p, None), s').
End GenRead.
