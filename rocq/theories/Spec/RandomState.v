(** A generator whose state is filled with uniformly random words. *)
From Coq Require Import Reals.
From Verif Require Import Model.Base Model.Mt64 Model.Xoshiro Spec.Common Spec.Prob.
Local Open Scope R_scope.

(** [state_prob n st next P p]: of all lists ws of n words, the fraction p is such that [next], run from the state st ws (for
    some number of iterations), returns a value satisfying P. *)
Definition state_prob {A S} (n : nat) (st : list N -> S) (next : nat -> S -> outcome (A * S)) (P : A -> Prop) (p : R) : Prop :=
  prob n (fun ws => exists fuel v s', next fuel (st ws) = Ret (v, s') /\ P v) p.

(** a Mersenne twister at position 0 of a block of 312 given words: what Restore makes of 312 words followed by position 0 *)
Definition mt64_state (ws : list N) : mt64 := mkMT 0 ws.
(** a Xoshiro made of 4 words *)
Definition xoshi_state (ws : list N) : xoshi := mkXoshi (nth 0 ws 0%N) (nth 1 ws 0%N) (nth 2 ws 0%N) (nth 3 ws 0%N).
