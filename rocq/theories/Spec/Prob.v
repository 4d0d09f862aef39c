(** The distribution of what a program returns when its source delivers independent, uniformly distributed 64-bit words. *)
From Coq Require Import Reals.
From Coquelicot Require Import Coquelicot.
From Flocq Require Import Core BinarySingleNaN.
From Verif Require Import Model.Base Model.Rng Model.Float Spec.Common Spec.Counting Spec.Floats.
Local Open Scope R_scope.

(** n uniform 64-bit words satisfy P with probability p: p is the fraction of the 2^(64 n) lists of n words that do *)
Definition prob (n : nat) (P : list N -> Prop) (p : R) : Prop :=
  exists c, has_exactly (fun ws => (length ws = n /\ Forall w64 ws) /\ P ws) c /\ p = IZR (Z.of_N c) / IZR (2 ^ 64) ^ n.

(** [next fuel ws] runs a program on the tape ws of words, for at most [fuel] iterations. [draw_prob next P p]: with n words
    available the probability that it returns a value satisfying P tends to p as n grows. *)
Definition draw_prob {A} (next : nat -> list N -> outcome (A * list N)) (P : A -> Prop) (p : R) : Prop :=
  exists q : nat -> R, (forall n, prob n (fun ws => exists fuel f ws', next fuel ws = Ret (f, ws') /\ P f) (q n)) /\ is_lim_seq q p.

(** the value is a finite number at most x *)
Definition at_most (x : R) (f : float64) : Prop := exists v, fvalue f v /\ v <= x.

(** What Go documents and tests of math.Exp: on doubles between -50 and 0 a finite result within about one unit in the last
    place (relative error 2^-52) of the exponential. *)
Definition accurate_exp (ex : float64 -> float64) : Prop :=
  forall u x, fvalue u x -> -50 <= x <= 0 -> is_finite (ex u) = true /\ Rabs (B2R (ex u) - exp x) <= / 2 ^ 52 * exp x.

(** Probability that an exponential variate with the given rate is at most x. *)
Definition exponential_cdf (rate x : R) : R := if Rle_dec 0 x then 1 - exp (- (rate * x)) else 0.

(** The bell curve with mean m and standard deviation s, and areas under a curve from minus infinity. *)
Definition normal_curve (m s t : R) : R := exp (- (((t - m) / s) ^ 2 / 2)) / (s * sqrt (2 * PI)).
Definition area_up_to (f : R -> R) (x A : R) : Prop := (forall T, ex_RInt f T x) /\ is_lim (fun T => RInt f T x) m_infty A.
(** the value is minus infinity or a finite number at most x *)
Definition not_above (x : R) (f : float64) : Prop := f = fneg finf \/ at_most x f.
(** about one unit in the last place of x (or the least positive double, if larger) *)
Definition rounding_margin (x : R) : R := / 2 ^ 52 * Rabs x + bpow radix2 (-1072).

(** *** Independent draws of indices *)
(** sum of f 0 ... f (n-1) *)
Definition sum_below (n : N) (f : N -> R) : R := fold_right Rplus 0 (map (fun i => f (N.of_nat i)) (seq 0 (N.to_nat n))).
(** k independent draws below [max], each giving j with probability [share j], satisfy G with this probability *)
Fixpoint independent (share : N -> R) (max : N) (k : nat) (G : list N -> bool) : R :=
  match k with
  | O => if G [] then 1 else 0
  | S k => sum_below max (fun j => share j * independent share max k (fun js => G (j :: js)))
  end.
(** the accepted draws of a [b]-bit Uintn(max) are 0 ... q*max, where q = floor((2^b - 1) / max): q of them for each result,
    one more for the result 0 *)
Definition uintn_share (b max r : N) : R :=
  let q := ((2 ^ b - 1) / max)%N in
  IZR (Z.of_N (if (r =? 0)%N then q + 1 else q)) / IZR (Z.of_N (q * max + 1)).

(** *** From the tape to a generator *)
(** The program [p], drawing from the source behind [read], behaves as the program [pt] does on a tape of words: whenever the
    source goes on to deliver the words ws (one per 8-byte Read) and pt, given the tape ws, returns v with ws' left over, p
    returns v too, and has drawn exactly the words before ws'. *)
Definition same_draws {A W} (read : reader W) (pt : list N -> outcome (A * list N)) (p : W -> outcome (A * W)) : Prop :=
  forall s ws t v ws', Forall w64 ws -> runs (RNG_Uint64 read) s ws t -> pt ws = Ret (v, ws') ->
    exists used s', ws = used ++ ws' /\ p s = Ret (v, s') /\ runs (RNG_Uint64 read) s used s' /\ runs (RNG_Uint64 read) s' ws' t.
