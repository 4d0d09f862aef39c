(** The uniform distribution on an interval. *)
From Coq Require Import Reals.
Local Open Scope R_scope.

(** probability that a variate uniform on [a, b) is at most x *)
Definition uniform_cdf (a b x : R) : R := Rmax 0 (Rmin 1 ((x - a) / (b - a))).
