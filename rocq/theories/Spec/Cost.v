(** How many words of its source a call uses, when the source delivers independent, uniformly distributed 64-bit words. *)
From Coq Require Import Reals.
From Coquelicot Require Import Coquelicot.
From Verif Require Import Model.Base Spec.Prob.
Local Open Scope R_scope.

(** [next fuel ws] runs a program on the tape ws of words, for at most [fuel] iterations.
    Of n uniform words the program needs more than the n words, with this probability: on a tape of just these it does not return. *)
Definition needs_more {A} (next : nat -> list N -> outcome (A * list N)) (n : nat) (p : R) : Prop :=
  prob n (fun ws => ~ exists fuel f ws', next fuel ws = Ret (f, ws')) p.

(** The mean number of words used: that of a random number T in 0, 1, 2, ... is P(T > 0) + P(T > 1) + P(T > 2) + ... *)
Definition mean_words {A} (next : nat -> list N -> outcome (A * list N)) (c : R) : Prop :=
  exists q : nat -> R, (forall n, needs_more next n (q n)) /\ is_series q c.
