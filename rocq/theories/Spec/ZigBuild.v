(** What a ziggurat for a decreasing density is (Marsaglia and Tsang, "The Ziggurat Method for Generating Random Variables"),
    in real numbers. *)
From Coq Require Import Reals List ZArith Arith.
From Coquelicot Require Import Coquelicot.
Local Open Scope R_scope.

(** A is the area under f to the right of r; f need not be defined to the left of r *)
Definition area_right (f : R -> R) (r A : R) : Prop :=
  (forall T, r <= T -> ex_RInt f r T) /\ is_lim (fun T => RInt f r T) p_infty A.

(** f is a density on [0, oo), up to a factor: continuous (only arguments from 0 on matter), strictly decreasing, and the
    area under it is the finite number total *)
Record decreasing_density (f : R -> R) (total : R) : Prop := {
  dd_continuous : forall x, continuous (fun t => f (Rmax 0 t)) x;
  dd_decreasing : forall x y, 0 <= x < y -> f y < f x;
  dd_total : area_right f 0 total }.

(** The edges x 0 = 0 < x 1 < ... < x (n-1) = r cut the region under f into n pieces that are covered by n layers of the same
    area v: layer i, for 0 < i < n, is the rectangle from 0 to x i between the heights f (x i) and f (x (i-1)); layer 0 is the
    rectangle below f r from 0 to r together with everything under f beyond r. *)
Record ziggurat_of (f : R -> R) (n : nat) (x : nat -> R) (v : R) : Prop := {
  zo_zero : x 0%nat = 0;
  zo_edges : forall i, (0 < i < n)%nat -> x (i - 1)%nat < x i;
  zo_areas : forall i, (0 < i < n)%nat -> x i * (f (x (i - 1)%nat) - f (x i)) = v;
  zo_base : exists A, area_right f (x (n - 1)%nat) A /\ x (n - 1)%nat * f (x (n - 1)%nat) + A = v }.

(** One trial of the ziggurat method with exact numbers.  A layer is chosen, each with probability 1/n, and a point t, uniform
    on the layer: [0, x i], or [0, v / f r] for layer 0.  accept i t is the probability that t is then returned: certain up to
    the edge below, and otherwise decided by a second number that is uniform between the heights of the layer. *)
Definition accept (f : R -> R) (x : nat -> R) (i : nat) (t : R) : R :=
  if Rlt_dec t (x (i - 1)%nat) then 1 else Rmin 1 (Rmax 0 ((f t - f (x i)) / (f (x (i - 1)%nat) - f (x i)))).
(** the probability that a trial returns a number up to y that does not come from the tail *)
Definition trial_body (f : R -> R) (n : nat) (x : nat -> R) (v y : R) : R :=
  Rmin y (x (n - 1)%nat) / (v / f (x (n - 1)%nat)) / INR n +
  sum_f_R0 (fun k => RInt (accept f x (k + 1)) 0 (Rmin y (x (k + 1)%nat)) / x (k + 1)%nat / INR n) (n - 2).
(** the probability that a trial goes to the tail: t lies in layer 0 beyond r *)
Definition trial_tail (f : R -> R) (n : nat) (x : nat -> R) (v : R) : R :=
  (v / f (x (n - 1)%nat) - x (n - 1)%nat) / (v / f (x (n - 1)%nat)) / INR n.
