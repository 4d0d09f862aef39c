(** Vocabulary for float64 results: the real number a finite double denotes, rounding to double, decimal literals. *)
From Coq Require Import Reals.
From Flocq Require Import Core BinarySingleNaN.
From Verif Require Import Model.Base Model.Float.
Local Open Scope R_scope.

(** the double is finite (neither infinite nor NaN) and denotes the real number x *)
Definition fvalue (f : float64) (x : R) : Prop := is_finite f = true /\ B2R f = x.
(** the double nearest to a real number (ties to even), ignoring overflow: IEEE-754 binary64 *)
Definition rnd : R -> R := round radix2 (FLT_exp (-1074) 53) ZnearestE.
Definition representable (x : R) : Prop := generic_format radix2 (FLT_exp (-1074) 53) x.
(** 2^1024: results rounding to this or more overflow *)
Definition fmax : R := bpow radix2 1024.
(** f is the float64 denoted by the decimal literal D * 10^-K *)
Definition is_literal (f : float64) (D K : Z) : Prop := fvalue f (rnd (IZR D / IZR (10 ^ K))).

(** What is assumed of math.Log on [0,1): log(+0) = -Inf, and log of a double in (0,1) is a finite number <= 0 ... *)
Definition log_like (log : float64 -> float64) : Prop :=
  log (B754_zero false) = fninf /\
  forall u x, fvalue u x -> 0 < x < 1 -> exists y, fvalue (log u) y /\ y <= 0.
(** ... not below -37 where x >= 2^-53 (the true value is at least -36.74) *)
Definition log_bounded (log : float64 -> float64) : Prop :=
  log_like log /\ forall u x, fvalue u x -> / IZR (2 ^ 53) <= x < 1 -> -37 <= B2R (log u).
