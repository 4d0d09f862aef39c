(** Programs that look at nothing but the words they draw. *)
From Verif Require Import Model.Base Model.Rng Spec.Common.

(** The converse of [same_draws] (Spec/Prob.v): whenever the program p on the source returns v, it has drawn words on which pt returns v too, looking at nothing
    beyond them. *)
Definition draws_only {A W} (read : reader W) (pt : list N -> outcome (A * list N)) (p : W -> outcome (A * W)) : Prop :=
  forall s v s', p s = Ret (v, s') ->
    exists used, Forall w64 used /\ runs (RNG_Uint64 read) s used s' /\ forall rest, Forall w64 rest -> pt (used ++ rest) = Ret (v, rest).
(** more iterations allowed never change a result *)
Definition steady {A W} (m : nat -> W -> outcome (A * W)) : Prop := forall f f' w r, (f <= f')%nat -> m f w = Ret r -> m f' w = Ret r.

(** one draw after the other *)
Definition first_then {A B W} (f : nat -> W -> outcome (A * W)) (g : nat -> W -> outcome (B * W)) (fuel : nat) (w : W) : outcome ((A * B) * W) :=
  let! (a, w) := f fuel w in let! (b, w) := g fuel w in Ret ((a, b), w).
(** k draws *)
Fixpoint draw_many {A W} (k : nat) (next : nat -> W -> outcome (A * W)) (fuel : nat) (w : W) : outcome (list A * W) :=
  match k with
  | O => Ret ([], w)
  | S k => let! (a, w) := next fuel w in let! (l, w) := draw_many k next fuel w in Ret (a :: l, w)
  end.
