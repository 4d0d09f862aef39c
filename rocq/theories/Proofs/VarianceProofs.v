(** Sums for second moments (C90). *)
From Coq Require Import Reals Lia Lra Psatz Bool.
From Coquelicot Require Import Coquelicot.
From Flocq Require Import Core.
From Verif Require Import Model.Base Spec.Density Proofs.SumN Proofs.ZigInst Proofs.Gauss Proofs.MeanProofs.
Local Open Scope R_scope.

(** Riemann sums of a falling function *)
Lemma falling_sums (f B : R -> R) d K : 0 < d -> (forall a b, 0 <= a <= b -> f b * (b - a) <= B b - B a <= f a * (b - a)) ->
  let S := d * sm (fun k => f (INR k * d)) K in let J := B (INR K * d) - B 0 in J <= S <= J + d * (f 0 - f (INR K * d)).
Proof.
  intros D H. cbv zeta. induction K as [|K [I1 I2]]; cbn [sm].
  - cbn [INR]. rewrite Rmult_0_l. lra.
  - pose proof (pos_INR K). assert (0 <= INR K * d) by (apply Rmult_le_pos; lra). assert (X : INR (S K) * d = INR K * d + d) by (rewrite S_INR; ring). rewrite X.
    destruct (H (INR K * d) (INR K * d + d) ltac:(lra)) as [U1 U2]. replace (INR K * d + d - INR K * d) with d in U1, U2 by ring. rewrite Rmult_plus_distr_l. lra.
Qed.
(** ... in the square of the variable *)
Lemma square_slope (f b : R -> R) : (forall t, 0 <= t -> is_derive b t (2 * t * f t)) -> (forall s t, 0 <= s <= t -> f t <= f s) ->
  forall x y, 0 <= x <= y -> f (sqrt y) * (y - x) <= b (sqrt y) - b (sqrt x) <= f (sqrt x) * (y - x).
Proof.
  intros D F x y [X XY]. pose proof (sqrt_pos x) as PX. pose proof (sqrt_le_1 x y X ltac:(lra) XY) as LE. pose proof (sqrt_sqrt x X) as SX. pose proof (sqrt_sqrt y ltac:(lra)) as SY. set (a := sqrt x) in *. set (c := sqrt y) in *. rewrite <- SX, <- SY. split.
  - replace (f c * (c * c - a * a)) with ((fun t => f c * (t * t)) c - (fun t => f c * (t * t)) a) by (cbv beta; ring). apply (deriv_le (fun t => f c * (t * t)) b (fun t => f c * (2 * t)) (fun t => 2 * t * f t)); [exact LE| | |].
    + intros t _. auto_derive; [trivial|ring].
    + intros t Ht. apply D. lra.
    + intros t Ht. rewrite Rmult_comm. apply Rmult_le_compat_l; [lra|]. apply F. lra.
  - replace (f a * (c * c - a * a)) with ((fun t => f a * (t * t)) c - (fun t => f a * (t * t)) a) by (cbv beta; ring). apply (deriv_le b (fun t => f a * (t * t)) (fun t => 2 * t * f t) (fun t => f a * (2 * t))); [exact LE| | |].
    + intros t Ht. apply D. lra.
    + intros t _. auto_derive; [trivial|ring].
    + intros t Ht. rewrite (Rmult_comm (f a)). apply Rmult_le_compat_l; [lra|]. apply F. lra.
Qed.
(** the second moment of the exponential distribution *)
Definition bexp (r t : R) : R := - (2 / (r * r)) * ((1 + r * t) * exp (- (r * t))).
Lemma bexp_deriv r t : 0 < r -> is_derive (bexp r) t (2 * t * exp (- (r * t))).
Proof. intros R0. unfold bexp. auto_derive; [trivial|]. field. lra. Qed.
Lemma expo_square_sums r d K : 0 < r -> 0 < d -> let S := d * sm (fun k => exp (- (r * sqrt (INR k * d)))) K in let J := bexp r (sqrt (INR K * d)) - bexp r 0 in J <= S <= J + d * 1.
Proof.
  intros R0 D0. cbv zeta. pose proof (falling_sums (fun y => exp (- (r * sqrt y))) (fun y => bexp r (sqrt y)) d K D0) as X. cbv zeta beta in X. rewrite sqrt_0 in X. destruct X as [X1 X2].
  - intros a b AB. apply (square_slope (fun t => exp (- (r * t))) (bexp r)); [intros t _; now apply bexp_deriv| |exact AB]. intros s t ST. apply exp_decr. apply Rmult_le_compat_l; lra.
  - rewrite Rmult_0_r, Ropp_0, exp_0 in X2. pose proof (exp_pos (- (r * sqrt (INR K * d)))) as P. assert (d * (1 - exp (- (r * sqrt (INR K * d)))) <= d * 1) by (apply Rmult_le_compat_l; lra). lra.
Qed.
(** the second moment of the normal distribution *)
Definition PhiD (u : R) : R := / 2 + G u / (2 * Ginf).
Definition bnorm (u : R) : R := 2 * (u * u * (1 - PhiD u) + PhiD u - u * (normal_density u / (2 * Ginf))).
Lemma bnorm_deriv u : is_derive bnorm u (2 * u * (2 * (1 - PhiD u))).
Proof.
  pose proof Ginf_pos as GP. unfold bnorm, PhiD, normal_density. auto_derive.
  - repeat split; exists (normal_density u); apply G_deriv.
  - replace (Derive (fun x => G x) u) with (normal_density u) by (symmetry; apply is_derive_unique, G_deriv). unfold normal_density. replace (u * (u * 1) * / 2) with (u ^ 2 / 2) by (simpl; field). field. lra.
Qed.
Lemma PhiD_mono a b : a <= b -> PhiD a <= PhiD b.
Proof. intros H. pose proof Ginf_pos. unfold PhiD. apply Rplus_le_compat_l. apply Rmult_le_compat_r; [left; apply Rinv_0_lt_compat; lra|now apply G_mono]. Qed.
Lemma PhiD_tail u : 0 <= u -> 0 <= 1 - PhiD u <= normal_density u.
Proof.
  intros H. pose proof Ginf_pos as GP. destruct (G_Ginf u H) as [A B]. unfold PhiD. replace (1 - (/ 2 + G u / (2 * Ginf))) with ((Ginf - G u) / (2 * Ginf)) by (field; lra). split.
  - apply Rmult_le_pos; [lra|left; apply Rinv_0_lt_compat; lra].
  - apply Rmult_le_reg_r with (2 * Ginf); [lra|]. unfold Rdiv. rewrite Rmult_assoc, Rinv_l, Rmult_1_r by lra. pose proof (exp_pos (- (u ^ 2 / 2))) as P. fold (normal_density u) in P. assert (normal_density u * (2 * 1) <= normal_density u * (2 * Ginf)) by (apply Rmult_le_compat_l; lra). lra.
Qed.
Lemma PhiD_0 : PhiD 0 = / 2. Proof. unfold PhiD. rewrite G_0. unfold Rdiv. ring. Qed.
Lemma normal_square_sums s d K : 0 < s -> 0 < d -> let S := d * sm (fun k => 2 * (1 - PhiD (sqrt (INR k * d) / s))) K in let J := s * s * (bnorm (sqrt (INR K * d) / s) - 1) in J <= S <= J + d * 1.
Proof.
  intros S0 D0. cbv zeta. assert (SD : forall t, 0 <= t -> 0 <= t / s) by (intros t Ht; apply Rmult_le_pos; [exact Ht|left; now apply Rinv_0_lt_compat]).
  pose proof (falling_sums (fun y => 2 * (1 - PhiD (sqrt y / s))) (fun y => s * s * bnorm (sqrt y / s)) d K D0) as X. cbv zeta beta in X. rewrite sqrt_0 in X. destruct X as [X1 X2].
  - intros a b AB. apply (square_slope (fun t => 2 * (1 - PhiD (t / s))) (fun t => s * s * bnorm (t / s))); [| |exact AB].
    + intros t _. pose proof (bnorm_deriv (t / s)) as DB. assert (DD : is_derive (fun t => t / s) t (/ s)) by (auto_derive; [trivial|ring]). pose proof (is_derive_comp bnorm (fun t => t / s) t _ _ DB DD) as DC. apply (is_derive_scal _ t (s * s)) in DC. revert DC. match goal with |- is_derive _ _ ?a -> is_derive _ _ ?b => replace a with b; [intros DC; exact DC|] end. unfold scal, mult. cbn. unfold mult. cbn. field. lra.
    + intros x y XY. assert (PhiD (x / s) <= PhiD (y / s)) by (apply PhiD_mono, Rmult_le_compat_r; [left; now apply Rinv_0_lt_compat|lra]). lra.
  - assert (B0 : bnorm (0 / s) = 1) by (replace (0 / s) with 0 by (field; lra); unfold bnorm; rewrite PhiD_0; pose proof Ginf_pos; field; lra). rewrite B0 in X1, X2. assert (P0 : PhiD (0 / s) = / 2) by (replace (0 / s) with 0 by (field; lra); apply PhiD_0). rewrite P0 in X2.
    destruct (PhiD_tail (sqrt (INR K * d) / s) (SD _ (sqrt_pos _))) as [T _]. set (Y := PhiD (sqrt (INR K * d) / s)) in *. assert (d * (2 * (1 - / 2) - 2 * (1 - Y)) <= d * 1) by (apply Rmult_le_compat_l; lra). rewrite Rmult_minus_distr_l, Rmult_1_r. lra.
Qed.
Lemma bnorm_near u : 0 <= u -> Rabs (bnorm u - 2) <= (2 * u ^ 2 + 2 * u + 2) * normal_density u.
Proof.
  intros U. pose proof Ginf_pos as GP. destruct (PhiD_tail u U) as [T1 T2]. pose proof (exp_pos (- (u ^ 2 / 2))) as P. fold (normal_density u) in P. unfold bnorm. set (q := 1 - PhiD u) in *. replace (PhiD u) with (1 - q) by (unfold q; ring). set (n := normal_density u) in *. clearbody q n.
  assert (V1 : 0 <= n / (2 * Ginf)) by (apply Rmult_le_pos; [lra|left; apply Rinv_0_lt_compat; lra]). assert (V2 : n / (2 * Ginf) <= n) by (apply Rmult_le_reg_r with (2 * Ginf); [lra|]; unfold Rdiv; rewrite Rmult_assoc, Rinv_l, Rmult_1_r by lra; assert (n * 1 <= n * (2 * Ginf)) by (apply Rmult_le_compat_l; lra); lra). set (v := n / (2 * Ginf)) in *. clearbody v.
  assert (W1 : 0 <= u * v <= u * n) by (split; [apply Rmult_le_pos; lra|apply Rmult_le_compat_l; lra]). assert (UU : 0 <= u * u) by nra. assert (W2 : 0 <= u * u * q <= u * u * n) by (split; [apply Rmult_le_pos; lra|apply Rmult_le_compat_l; lra]). assert (W3 : 0 <= u * n) by (apply Rmult_le_pos; lra).
  apply Rabs_le. replace ((2 * u ^ 2 + 2 * u + 2) * n) with (2 * (u * u * n) + 2 * (u * n) + 2 * n) by ring. lra.
Qed.
