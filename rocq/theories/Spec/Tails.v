(** Tails of the exponential and normal distributions in terms of real logarithms. *)
From Coq Require Import Reals.
From Flocq Require Import Core BinarySingleNaN.
From Verif Require Import Model.Base Model.Rng Model.Float Model.Distr Spec.Floats.
Local Open Scope R_scope.

(** What Go documents and tests of math.Log: log(+0) = -Inf; on doubles in (0,1) a finite result within about one unit in
    the last place (relative error 2^-52) of the natural logarithm. *)
Definition accurate_log (log : float64 -> float64) : Prop :=
  log (B754_zero false) = fninf /\
  forall u x, fvalue u x -> 0 < x < 1 -> is_finite (log u) = true /\ Rabs (B2R (log u) - ln x) <= / 2 ^ 52 * Rabs (ln x).

Section Tails.
  Context {W : Type} (read : reader W).
  (** one call of Uniform0_1.Next, as a real number *)
  Definition uniform_draw (w : W) (x : R) (w' : W) : Prop := exists f, Uniform0_1_Next read w = Ret (f, w') /\ fvalue f x.
  (** the double is the real number y up to tol; +Inf where the formula divides by zero or takes log 0 *)
  Definition near (tol : R) (f : float64) (y : R) : Prop := exists x, fvalue f x /\ Rabs (x - y) <= tol.

  (** Inversion: the tail of the exponential distribution beyond r is r - ln u. *)
  Definition exponential_tail (tol r : R) (w : W) (f : float64) (w' : W) : Prop :=
    exists u, uniform_draw w u w' /\ (u = 0 -> f = finf) /\ (0 < u -> near tol f (r - ln u)).

  (** Marsaglia's method for the normal tail beyond r: with x = -ln u / r and y = -ln v accept r + x when 2y >= x^2.
      tol: an attempt this close to the boundary may go either way; tol': error of the result. *)
  Inductive marsaglia_tail (tol tol' r : R) : W -> float64 -> W -> Prop :=
  | tail_accept w u w1 v w2 f : uniform_draw w u w1 -> uniform_draw w1 v w2 ->
      v = 0 \/ (0 < u /\ (ln u / r) ^ 2 <= - 2 * ln v + tol) ->
      (u = 0 -> f = finf) -> (0 < u -> near tol' f (r - ln u / r)) -> marsaglia_tail tol tol' r w f w2
  | tail_reject w u w1 v w2 f w' : uniform_draw w u w1 -> uniform_draw w1 v w2 ->
      0 < v -> u = 0 \/ - 2 * ln v <= (ln u / r) ^ 2 + tol ->
      marsaglia_tail tol tol' r w2 f w' -> marsaglia_tail tol tol' r w f w'.
End Tails.
