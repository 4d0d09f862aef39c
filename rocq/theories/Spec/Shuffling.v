(** Vocabulary for the shuffle theorems. *)
From Coq Require Import Permutation.
From Verif Require Import Model.Base Spec.Common.
Local Open Scope N_scope.

(** the calls Swap(i, j0), Swap(i+1, j1), ... in this order *)
Fixpoint swap_calls {D} (swap : D -> nat -> nat -> outcome D) (i : nat) (js : list N) (d : D) : outcome D :=
  match js with
  | [] => Ret d
  | j :: js => let! d := swap d i (N.to_nat j) in swap_calls swap (S i) js d
  end.

(** a source that delivers the little-endian bytes of the given numbers, one number per Read *)
Definition word_source : reader (list N) := fun w p =>
  match w with
  | [] => Ret ((p, 0%nat, Some EOF), [])
  | x :: w' => Ret ((le_bytes (length p) x, length p, None), w')
  end.

(** n index draws below n *)
Definition index_draws (n : nat) (js : list N) : Prop := length js = n /\ Forall (fun j => j < N.of_nat n) js.
