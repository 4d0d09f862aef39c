(** Sequences of doubles: which value the i-th call returns. *)
From Coq Require Import Reals.
From Verif Require Import Model.Base Model.Float Spec.Common Spec.Floats.
Local Open Scope N_scope.

(** call number i (counted from 0) returns the real number x *)
Definition gives_at {S} (u : S -> outcome (float64 * S)) (s : S) (i : N) (x : R) : Prop :=
  exists xs t t' f, N.of_nat (length xs) = i /\ runs u s xs t /\ u t = Ret (f, t') /\ fvalue f x.
