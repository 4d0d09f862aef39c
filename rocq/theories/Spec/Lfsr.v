(** Linear recurrences over bits. *)
From Verif Require Import Model.Base.

(** sum modulo 2 of the products of corresponding entries *)
Fixpoint dot (c bits : list bool) : bool :=
  match c, bits with a :: c', b :: bits' => xorb (a && b) (dot c' bits') | _, _ => false end.
(** every bit from number [length c] on is the sum modulo 2 of those of the previous [length c] bits
    that [c] selects *)
Definition follows_recurrence (c bits : list bool) : Prop :=
  forall n, (n + length c < length bits)%nat -> nth (n + length c) bits false = dot c (skipn n bits).
