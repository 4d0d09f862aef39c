(** The densities the tables and the ziggurat stand for (unnormalised), and the area under a curve beyond a point. *)
From Coq Require Import Reals.
From Coquelicot Require Import Coquelicot.
Local Open Scope R_scope.

(** exponential distribution with rate 1, on x >= 0 *)
Definition expo_density (x : R) : R := exp (- x).
(** standard normal distribution up to the factor 1/sqrt(2 pi) *)
Definition normal_density (x : R) : R := exp (- (x ^ 2 / 2)).
(** A is the area under f to the right of r: the integrals over [r,T] tend to A *)
Definition area_beyond (f : R -> R) (r A : R) : Prop :=
  (forall T, ex_RInt f r T) /\ is_lim (fun T => RInt f r T) p_infty A.
