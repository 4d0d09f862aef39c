(** Means of what a program returns when its source delivers independent, uniformly distributed 64-bit words. *)
From Coq Require Import Reals.
From Coquelicot Require Import Coquelicot.
From Flocq Require Import Core BinarySingleNaN.
From Verif Require Import Model.Base Model.Float Spec.Common Spec.Prob.
Local Open Scope R_scope.

(** the average of h over the 2^(64 n) lists of n words *)
Fixpoint average (n : nat) (h : list N -> R) : R :=
  match n with
  | O => h []
  | S n => sum_below (2 ^ 64) (fun u => average n (fun ws => h (u :: ws))) / IZR (2 ^ 64)
  end.
(** y is h of what the program returns on the tape ws, and 0 if it does not return *)
Definition value_on {A} (next : nat -> list N -> outcome (A * list N)) (h : A -> R) (ws : list N) (y : R) : Prop :=
  (forall fuel f ws', next fuel ws = Ret (f, ws') -> y = h f) /\ ((~ exists fuel f ws', next fuel ws = Ret (f, ws')) -> y = 0).
(** The mean of h of the value returned is e: with n words available its average tends to e as n grows. *)
Definition mean_value {A} (next : nat -> list N -> outcome (A * list N)) (h : A -> R) (e : R) : Prop :=
  exists g, (forall ws, value_on next h ws (g ws)) /\ is_lim_seq (fun n => average n g) e.

(** the value of a double, replaced by lo if it is below lo and by hi if it is above hi (or not a number) *)
Definition clamp (lo hi : R) (f : float64) : R :=
  match f with
  | B754_infinity true => lo
  | B754_infinity false | B754_nan => hi
  | _ => Rmax lo (Rmin hi (B2R f))
  end.
