(** Several sources side by side, each with a state of its own. *)
From Coq Require Import Reals.
From Coquelicot Require Import Coquelicot.
From Verif Require Import Model.Base Model.Rng Spec.Common Spec.Prob.
Local Open Scope R_scope.

(** a source acting on the first, or on the second, half of the world *)
Definition on_fst {U V} (read : reader U) : reader (U * V) := fun w p => let! (r, u) := read (fst w) p in Ret (r, (u, snd w)).
Definition on_snd {U V} (read : reader V) : reader (U * V) := fun w p => let! (r, v) := read (snd w) p in Ret (r, (fst w, v)).

(** the source, in state g, can be asked for any number of words *)
Definition endless {G} (read : reader G) (g : G) : Prop := forall n, exists xs t, runs (RNG_Uint64 read) g xs t /\ length xs = n.

(** Some state is made of k tapes of n random words each (st n turns the k*n words into that state): the probability that
    [next], run from it, returns a value satisfying P tends to p as n grows. *)
Definition source_draw_prob {A S} (k : nat) (st : nat -> list N -> S) (next : nat -> S -> outcome (A * S)) (P : A -> Prop) (p : R) : Prop :=
  exists q : nat -> R, (forall n, prob (k * n) (fun ws => exists fuel v s', next fuel (st n ws) = Ret (v, s') /\ P v) (q n)) /\ is_lim_seq q p.
