(** The same program, compiled for two machines, on the same source. *)
From Coq Require Import Reals.
From Flocq Require Import Core BinarySingleNaN.
From Verif Require Import Model.Base Model.Float Model.Fused Spec.Common Spec.Floats Spec.Prob.
Local Open Scope R_scope.

(** Go's compilers: amd64 fuses no x*y + z, arm64 every one *)
Definition amd64 : compiler := fun _ => false.
Definition arm64 : compiler := fun _ => true.

(** Whatever the number n of words available, the two programs behave differently (another value, another number of words
    drawn, a panic or a further iteration in one only) on at most a fraction p of the 2^(64 n) tapes of n words. *)
Definition differ_at_most {A} (next1 next2 : nat -> list N -> outcome (A * list N)) (p : R) : Prop :=
  forall n, exists q, prob n (fun ws => exists fuel, next1 fuel ws <> next2 fuel ws) q /\ q <= p.

(** The same, when only results in the relation like are required: on all other tapes the two programs return such results and
    leave the same words, or both panic, or neither returns within the fuel. *)
Definition alike {A W} (like : A -> A -> Prop) (r1 r2 : outcome (A * W)) : Prop :=
  match r1, r2 with
  | Ret (a, w1), Ret (b, w2) => like a b /\ w1 = w2
  | Panic, Panic => True
  | OutOfFuel, OutOfFuel => True
  | _, _ => False
  end.
Definition unlike_at_most {A} (like : A -> A -> Prop) (next1 next2 : nat -> list N -> outcome (A * list N)) (p : R) : Prop :=
  forall n, exists q, prob n (fun ws => exists fuel, ~ alike like (next1 fuel ws) (next2 fuel ws)) q /\ q <= p.

(** the same double, or two within tol *)
Definition close (tol : R) (x y : float64) : Prop := x = y \/ exists a b, fvalue x a /\ fvalue y b /\ Rabs (a - b) <= tol.
