(** Well-typed arguments and reachable states. *)
From Verif Require Import Model.Base Spec.Common Model.Xoroshiro Model.Xoshiro Model.Lfg Model.Mt64 Model.Api.
Local Open Scope N_scope.

(** arguments of method calls that Go's type system admits: byte slices hold bytes, integers are
    64-bit, a reader cannot change the length of the buffer *)
Definition op_ok (o : op) : Prop :=
  match o with
  | OpSeedIV iv => Forall isbyte iv
  | OpSeed x => w64 x
  | OpRead p => Forall isbyte p
  | OpRestore r => forall p, Forall isbyte p ->
      length (fst (fst (r p))) = length p /\ Forall isbyte (fst (fst (r p)))
  | _ => True
  end.

(** states a program can produce from New...() by calling methods *)
Inductive reach {G} (a : api G) : G -> Prop :=
| reach_new : reach a (a_new a)
| reach_step g o b g' : reach a g -> op_ok o -> exec a g o = Ret (b, g') -> reach a g'.

(** any value of the Go types *)
Definition xoro_typed (s : xoro) : Prop := w64 (xo0 s) /\ w64 (xo1 s).
Definition xoshi_typed (s : xoshi) : Prop := w64 (xw s) /\ w64 (xx s) /\ w64 (xy s) /\ w64 (xz s).
Definition lfg_typed (g : lfg) : Prop := length (ls g) = 607%nat /\ Forall w64 (ls g).
Definition mt_typed (g : mt64) : Prop := length (ms g) = 312%nat /\ Forall w64 (ms g).
