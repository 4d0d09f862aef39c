(** Counting inputs: "exactly n byte strings lead to this result" means that uniformly random bytes give
    the result with probability n / 256^k. *)
From Verif Require Import Model.Base Spec.Common.
Local Open Scope N_scope.

(** exactly [n] values satisfy [P] *)
Definition has_exactly {A} (P : A -> Prop) (n : N) : Prop :=
  exists l, NoDup l /\ (forall a, In a l <-> P a) /\ N.of_nat (length l) = n.

(** byte strings of length k *)
Definition bytes_of_length (k : N) (bs : list N) : Prop := N.of_nat (length bs) = k /\ Forall isbyte bs.

(** a source every Read of which delivers the bytes [bs] (to be used with buffers of that length) *)
Definition source_of (bs : list N) : reader unit := fun w p => Ret ((bs, length bs, None), w).

(** big-endian value of a byte string *)
Definition big_endian (bs : list N) : N := fold_left (fun a b => 256 * a + b) bs 0.
