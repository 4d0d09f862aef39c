(** The distribution of what a program returns when its source delivers independent, uniformly distributed bytes. *)
From Coq Require Import Reals.
From Coquelicot Require Import Coquelicot.
From Verif Require Import Model.Base Model.Rng Spec.Common Spec.Counting.
Local Open Scope R_scope.

(** a source that delivers the bytes of a tape one after the other; it blocks at the end of the tape (b mod 256 is b, for
    a byte b) *)
Definition byte_tape : reader (list N) := fun bs p =>
  if Nat.leb (length p) (length bs) then Ret ((map (fun b => b mod 256)%N (firstn (length p) bs), length p, None), skipn (length p) bs) else OutOfFuel.
(** n uniform bytes satisfy P with probability p: p is the fraction of the 256^n byte strings of length n that do *)
Definition bytes_prob (n : nat) (P : list N -> Prop) (p : R) : Prop :=
  exists c, has_exactly (fun bs => bytes_of_length (N.of_nat n) bs /\ P bs) c /\ p = IZR (Z.of_N c) / 256 ^ n.
(** with n bytes available the probability that the program returns a value satisfying P tends to p as n grows *)
Definition bytes_draw_prob {A} (next : nat -> list N -> outcome (A * list N)) (P : A -> Prop) (p : R) : Prop :=
  exists q : nat -> R, (forall n, bytes_prob n (fun bs => exists fuel v bs', next fuel bs = Ret (v, bs') /\ P v) (q n)) /\ is_lim_seq q p.
