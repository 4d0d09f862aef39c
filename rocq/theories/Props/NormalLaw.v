(** The distribution of normal variates (normal.go, ziggurat.go): C62. *)
From Coq Require Import Reals Lia Lra Psatz ZifyN ZifyNat Bool.
From Coquelicot Require Import Coquelicot.
From Flocq Require Import Core BinarySingleNaN Relative.
From Verif Require Import Model.Base Model.Rng Model.Float Model.Distr Model.Ziggurat Model.ExpoTable Model.NormalTable Model.ExpoNormal Spec.Common Spec.Counting Spec.Floats Spec.Zig Spec.Tails Spec.Density Spec.Prob.
From Verif Require Import Proofs.FloatProofs Proofs.FusedProofs Proofs.RelError Proofs.ZigAccept Proofs.ZigFloat Proofs.ZigStep Proofs.ZigInst Proofs.ZigTape Proofs.ZigHit Proofs.Gauss Proofs.NormalTailLaw Proofs.NormalLaw Props.Uniform Props.Zig Props.ExpoNormal Props.Tails Props.Density Props.ExpoLaw.
Local Open Scope R_scope.

(** for every choice of the compiler which x*y + z to fuse (Model/Fused.v) *)
Section Compiler.
Context {fpc : compiler}.

(** ** The areas *)
Lemma sqrt_2PI : sqrt (2 * PI) = 2 * Ginf.
Proof.
  unfold Ginf. pose proof PI_RGT_0 as P. replace (2 * PI) with ((2 * 2) * (PI / 2)) by field. rewrite sqrt_mult by lra. f_equal. replace (2 * 2) with (2 ^ 2) by ring. rewrite sqrt_pow2; lra.
Qed.
Section Curve.
  Variables m s : R.
  Hypothesis S : 0 < s.
  Definition anti (t : R) : R := G ((t - m) / s) / (2 * Ginf).
  Lemma curve_eq t : normal_curve m s t = normal_density ((t - m) / s) * / s * / (2 * Ginf).
  Proof. unfold normal_curve, normal_density. rewrite sqrt_2PI. pose proof Ginf_pos. field. lra. Qed.
  Lemma anti_deriv (t : R) : is_derive anti t (normal_curve m s t).
  Proof.
    unfold anti. assert (O : is_derive (fun t : R => (t - m) / s) t (/ s)) by (auto_derive; [trivial|field; lra]).
    assert (C : is_derive (fun t => G ((t - m) / s)) t (scal (/ s) (normal_density ((t - m) / s)))) by exact (is_derive_comp G (fun t => (t - m) / s) t _ _ (G_deriv _) O).
    apply (is_derive_scal _ t (/ (2 * Ginf))) in C. rewrite curve_eq. apply is_derive_ext with (fun t => / (2 * Ginf) * G ((t - m) / s)); [intros u; unfold Rdiv; match goal with |- ?A = ?B => change (@eq R A B) end; ring|].
    replace (normal_density ((t - m) / s) * / s * / (2 * Ginf)) with (scal (/ (2 * Ginf)) (scal (/ s) (normal_density ((t - m) / s)))); [exact C|]. change (/ (2 * Ginf) * (/ s * normal_density ((t - m) / s)) = normal_density ((t - m) / s) * / s * / (2 * Ginf)). ring.
  Qed.
  Lemma curve_cont t : continuous (normal_curve m s) t.
  Proof. apply (ex_derive_continuous (normal_curve m s) t). unfold normal_curve. auto_derive. trivial. Qed.
  Lemma curve_int a b : is_RInt (normal_curve m s) a b (anti b - anti a).
  Proof. apply (is_RInt_derive anti (normal_curve m s)); [intros; apply anti_deriv|intros; apply curve_cont]. Qed.
  Lemma anti_lim : is_lim anti m_infty (- / 2) /\ is_lim anti p_infty (/ 2).
  Proof.
    pose proof Ginf_pos as GP. assert (SP : 0 < / s) by now apply Rinv_0_lt_compat.
    assert (P : is_lim anti p_infty (/ 2)).
    { unfold anti, Rdiv. replace (Finite (/ 2)) with (Rbar_mult (Finite Ginf) (/ (2 * Ginf))) by (cbn; f_equal; field; lra). apply is_lim_scal_r. apply (is_lim_comp G (fun t => (t - m) * / s) p_infty Ginf p_infty).
      - apply G_lim.
      - assert (L : is_lim (fun t => (t - m) * / s) p_infty (Rbar_mult p_infty (/ s))) by (apply is_lim_scal_r; apply (is_lim_minus (fun t => t) (fun _ => m) p_infty p_infty m); [apply is_lim_id|apply is_lim_const|reflexivity]).
        assert (E : Rbar_mult p_infty (/ s) = p_infty) by (cbn; destruct Rle_dec as [L1|L1]; [|lra]; destruct Rle_lt_or_eq_dec as [L2|L2]; [reflexivity|lra]). rewrite E in L. exact L.
      - exists 0. discriminate. }
    split; [|exact P].
    assert (O : forall t, anti t = - anti (- t + 2 * m)). { intros t. unfold anti. replace ((t - m) / s) with (- ((- t + 2 * m - m) / s)) by (field; lra). rewrite G_odd. unfold Rdiv. ring. }
    apply (is_lim_ext (fun t => - anti (- t + 2 * m))); [intros; symmetry; apply O|]. apply (is_lim_opp (fun t => anti (- t + 2 * m)) m_infty (/ 2)). apply (is_lim_comp anti (fun t => - t + 2 * m) m_infty (/ 2) p_infty).
    - exact P.
    - apply (is_lim_plus (fun t => - t) (fun _ => 2 * m) m_infty p_infty (2 * m)); [apply (is_lim_opp (fun t => t) m_infty m_infty); apply is_lim_id|apply is_lim_const|reflexivity].
    - exists 0. discriminate.
  Qed.
  Lemma curve_area x : area_up_to (normal_curve m s) x (PhiN ((x - m) / s)).
  Proof.
    split; [intros T; eexists; apply curve_int|]. apply (is_lim_ext (fun T => anti x - anti T)); [intros T; symmetry; apply is_RInt_unique, curve_int|].
    replace (PhiN ((x - m) / s)) with (anti x - - / 2) by (unfold PhiN, anti; ring). apply (is_lim_minus' (fun _ => anti x) anti); [apply is_lim_const|apply anti_lim].
  Qed.
  (** The bell curve is a probability density: positive, with area 1 between -T and T as T grows. *)
  Theorem C62_bell_curve : (forall t, 0 < normal_curve m s t) /\ is_lim (fun T => RInt (normal_curve m s) (- T) T) p_infty 1.
  Proof.
    split.
    - intros t. unfold normal_curve. apply Rdiv_lt_0_compat; [apply exp_pos|]. apply Rmult_lt_0_compat; [exact S|]. apply sqrt_lt_R0. pose proof PI_RGT_0. lra.
    - apply (is_lim_ext (fun T => anti T - anti (- T))); [intros T; symmetry; apply is_RInt_unique, curve_int|]. replace (Finite 1) with (Finite (/ 2 - - / 2)) by (f_equal; field). apply (is_lim_minus' anti (fun T => anti (- T))); [apply anti_lim|].
      apply (is_lim_comp anti (fun T => - T) p_infty (- / 2) m_infty); [apply anti_lim|apply (is_lim_opp (fun t => t) p_infty p_infty); apply is_lim_id|exists 0; discriminate].
  Qed.
End Curve.
(** the normal distribution is insensitive to relative errors *)
Lemma density_inv z : 0 < z -> normal_density z * z <= 1.
Proof.
  intros Hz. pose proof (density_small z ltac:(lra)) as D. pose proof (density_pos z) as P. apply Rle_trans with (2 := D). apply Rmult_le_compat_l; [lra|]. pose proof (pow2_ge_0 (z - 1)). lra.
Qed.
Lemma density_even z : normal_density (- z) = normal_density z.
Proof. unfold normal_density. f_equal. field. Qed.
Lemma G_rel_pos y d : 0 < y -> 0 <= d <= 1 / 4 -> G y - G (y * (1 - d)) <= 2 * d /\ G (y * (1 + d)) - G y <= 2 * d.
Proof.
  intros Hy Hd. assert (K : forall a b, 0 < a -> a <= b -> G b - G a <= (b - a) / a).
  { intros a b Ha Hab. pose proof (deriv_le G (fun x => / a * x) normal_density (fun _ => / a) a b Hab) as D. cbv beta in D. replace ((b - a) / a) with (/ a * b - / a * a) by (field; lra). apply D.
    - intros x _. apply G_deriv.
    - intros x _. auto_derive; [trivial|ring].
    - intros x Hx. apply Rmult_le_reg_r with a; [exact Ha|]. rewrite Rinv_l by lra. pose proof (density_inv x ltac:(lra)) as DI. pose proof (density_pos x) as DP. assert (normal_density x * a <= normal_density x * x) by (apply Rmult_le_compat_l; lra). lra. }
  assert (YD : 0 <= y * d <= y * (1 / 4)) by (split; [apply Rmult_le_pos|apply Rmult_le_compat_l]; lra). split.
  - apply Rle_trans with (1 := K (y * (1 - d)) y ltac:(lra) ltac:(lra)). apply Rmult_le_reg_r with (y * (1 - d)); [lra|]. replace ((y - y * (1 - d)) / (y * (1 - d)) * (y * (1 - d))) with (y * d) by (field; lra). replace (2 * d * (y * (1 - d))) with (y * d * (2 * (1 - d))) by ring. rewrite <- (Rmult_1_r (y * d)) at 1. apply Rmult_le_compat_l; lra.
  - apply Rle_trans with (1 := K y (y * (1 + d)) Hy ltac:(lra)). replace ((y * (1 + d) - y) / y) with d by (field; lra). lra.
Qed.
Lemma G_rel y d e : 0 <= d <= 1 / 4 -> 0 <= e -> G y - G (y - d * Rabs y - e) <= 2 * d + e /\ G (y + d * Rabs y + e) - G y <= 2 * d + e.
Proof.
  intros Hd He. assert (B : G y - G (y - d * Rabs y) <= 2 * d /\ G (y + d * Rabs y) - G y <= 2 * d).
  { destruct (Rtotal_order y 0) as [C|[->|C]].
    - rewrite Rabs_left by exact C. destruct (G_rel_pos (- y) d ltac:(lra) Hd) as [A1 A2]. replace (y - d * - y) with (- (- y * (1 + d))) by ring. replace (y + d * - y) with (- (- y * (1 - d))) by ring. rewrite !G_odd. rewrite G_odd in A1, A2. lra.
    - rewrite Rabs_R0, Rmult_0_r, Rminus_0_r, Rplus_0_r. lra.
    - rewrite Rabs_pos_eq by lra. destruct (G_rel_pos y d C Hd) as [A1 A2]. replace (y - d * y) with (y * (1 - d)) by ring. replace (y + d * y) with (y * (1 + d)) by ring. lra. }
  pose proof (G_lip (y - d * Rabs y - e) (y - d * Rabs y) ltac:(lra)). pose proof (G_lip (y + d * Rabs y) (y + d * Rabs y + e) ltac:(lra)). lra.
Qed.
Lemma PhiN_mono a b : a <= b -> 0 <= PhiN b - PhiN a <= G b - G a.
Proof.
  intros H. pose proof (G_mono a b H) as M. pose proof Ginf_pos as P. replace (PhiN b - PhiN a) with ((G b - G a) * / (2 * Ginf)) by (unfold PhiN; field; lra).
  assert (0 < / (2 * Ginf) <= 1) by (split; [apply Rinv_0_lt_compat; lra|rewrite <- Rinv_1; apply Rinv_le_contravar; lra]). split; [apply Rmult_le_pos; lra|]. rewrite <- (Rmult_1_r (G b - G a)) at 2. apply Rmult_le_compat_l; lra.
Qed.

(** ** Rounding *)
Notation hh := (bpow radix2 (-1075)).
Lemma rnd_err x : Rabs (rnd x - x) <= / 2 ^ 53 * Rabs x + hh.
Proof.
  destruct (Rle_or_lt 0 x) as [C|C]; [rewrite (Rabs_pos_eq x) by exact C; now apply rnd_error|]. rewrite (Rabs_left x) by exact C. pose proof (rnd_error (- x) ltac:(lra)) as E. rewrite rnd_opp in E. replace (- rnd x - - x) with (- (rnd x - x)) in E by ring. now rewrite Rabs_Ropp in E.
Qed.
Definition low (x : R) : R := x - / 2 ^ 52 * Rabs x - 2 * hh.
Definition high (x : R) : R := x + / 2 ^ 52 * Rabs x + 2 * hh.
Lemma hh_pos : 0 < hh. Proof. apply bpow_gt_0. Qed.
Lemma rnd_low x y : y <= low x -> rnd y <= x.
Proof.
  intros H. apply Rle_trans with (rnd (low x)); [now apply rnd_le|]. pose proof (rnd_err (low x)) as E. pose proof hh_pos as HP. pose proof small53 as S3. pose proof small52 as S2. unfold low in *. pose proof (Rabs_pos x) as A. set (a := Rabs x) in *. set (h := hh) in *.
  assert (B : Rabs (x - / 2 ^ 52 * a - 2 * h) <= a + / 2 ^ 52 * a + 2 * h). { pose proof (Rle_abs x) as L1. pose proof (Rle_abs (- x)) as L2. rewrite Rabs_Ropp in L2. fold a in L1, L2. assert (0 <= / 2 ^ 52 * a) by (apply Rmult_le_pos; lra). apply Rabs_le. lra. }
  set (q := Rabs (x - / 2 ^ 52 * a - 2 * h)) in *. clearbody a h q. apply Rabs_le_inv in E. assert (/ 2 ^ 53 * q <= / 2 ^ 53 * (a + / 2 ^ 52 * a + 2 * h)) by (apply Rmult_le_compat_l; lra).
  assert (0 <= (/ 2 ^ 52 - / 2 ^ 53 - / 2 ^ 53 * / 2 ^ 52) * a) by (apply Rmult_le_pos; lra). assert (0 <= (1 - 2 * / 2 ^ 53) * h) by (apply Rmult_le_pos; lra). lra.
Qed.
Lemma rnd_high x y : rnd y <= x -> y <= high x.
Proof.
  intros H. destruct (Rle_or_lt y (high x)) as [C|C]; [exact C|exfalso]. assert (L : - x < rnd (- high x) \/ rnd (- high x) <= - x) by lra. 
  assert (E : rnd (- high x) <= - x). { apply rnd_low. unfold low, high. rewrite Rabs_Ropp. lra. }
  rewrite rnd_opp in E. pose proof (rnd_le (high x) y ltac:(lra)) as M. assert (EQ : rnd (high x) = x) by lra. pose proof (rnd_err (high x)) as R1. rewrite EQ in R1. clear E L. 
  pose proof hh_pos as HP. pose proof small53 as S3. pose proof small52 as S2. unfold high in R1. pose proof (Rabs_pos x) as A. set (a := Rabs x) in *. set (h := hh) in *.
  assert (B : Rabs (x + / 2 ^ 52 * a + 2 * h) <= a + / 2 ^ 52 * a + 2 * h). { pose proof (Rle_abs x) as L1. pose proof (Rle_abs (- x)) as L2. rewrite Rabs_Ropp in L2. fold a in L1, L2. assert (0 <= / 2 ^ 52 * a) by (apply Rmult_le_pos; lra). apply Rabs_le. lra. }
  set (q := Rabs (x + / 2 ^ 52 * a + 2 * h)) in *. clearbody a h q. apply Rabs_le_inv in R1. assert (/ 2 ^ 53 * q <= / 2 ^ 53 * (a + / 2 ^ 52 * a + 2 * h)) by (apply Rmult_le_compat_l; lra).
  assert (0 <= (/ 2 ^ 52 - / 2 ^ 53 - / 2 ^ 53 * / 2 ^ 52) * a) by (apply Rmult_le_pos; lra). assert (0 < (1 - 2 * / 2 ^ 53) * h) by (apply Rmult_lt_0_compat; lra). lra.
Qed.
(** the result of an operation whose exact value is rounded to y, with overflow *)
Definition extends (f : float64) (y : R) : Prop := (Rabs y < fmax /\ fvalue f y) \/ (fmax <= y /\ f = B754_infinity false) \/ (y <= - fmax /\ f = B754_infinity true).
Lemma fmax_pos : 0 < fmax. Proof. apply bpow_gt_0. Qed.
Lemma fmul_extends x y : is_finite x = true -> is_finite y = true -> extends (fmul x y) (rnd (B2R x * B2R y)).
Proof.
  intros Fx Fy. destruct (Rlt_or_le (Rabs (rnd (B2R x * B2R y))) fmax) as [C|C].
  - left. split; [exact C|]. destruct (fmul_R x y Fx Fy C) as (V & F & _). now split.
  - right. rewrite (fmul_overflow x y Fx Fy C). pose proof fmax_pos as FP. destruct (Rle_or_lt 0 (rnd (B2R x * B2R y))) as [D|D].
    + left. rewrite Rabs_pos_eq in C by exact D. split; [exact C|]. f_equal. destruct (Bsign x) eqn:SX, (Bsign y) eqn:SY; try reflexivity; exfalso.
      * pose proof (sign_R x Fx SX). pose proof (sign_R' y Fy SY). assert (B2R x * B2R y <= 0) by (rewrite <- (Rmult_0_l (B2R y)); apply Rmult_le_compat_r; lra). pose proof (rnd_le _ 0 H1) as M. rewrite rnd_0 in M. lra.
      * pose proof (sign_R' x Fx SX). pose proof (sign_R y Fy SY). assert (B2R x * B2R y <= 0) by (rewrite <- (Rmult_0_r (B2R x)); apply Rmult_le_compat_l; lra). pose proof (rnd_le _ 0 H1) as M. rewrite rnd_0 in M. lra.
    + right. rewrite Rabs_left in C by exact D. split; [lra|]. f_equal. destruct (Bsign x) eqn:SX, (Bsign y) eqn:SY; try reflexivity; exfalso.
      * pose proof (sign_R x Fx SX). pose proof (sign_R y Fy SY). assert (0 <= B2R x * B2R y) by (replace (B2R x * B2R y) with (- B2R x * - B2R y) by ring; apply Rmult_le_pos; lra). pose proof (rnd_le 0 _ H1) as M. rewrite rnd_0 in M. lra.
      * pose proof (sign_R' x Fx SX). pose proof (sign_R' y Fy SY). assert (0 <= B2R x * B2R y) by (apply Rmult_le_pos; lra). pose proof (rnd_le 0 _ H1) as M. rewrite rnd_0 in M. lra.
Qed.
Lemma fadd_extends x y : is_finite x = true -> is_finite y = true -> extends (fadd x y) (rnd (B2R x + B2R y)).
Proof.
  intros Fx Fy. destruct (Rlt_or_le (Rabs (rnd (B2R x + B2R y))) fmax) as [C|C].
  - left. split; [exact C|]. destruct (fadd_R x y Fx Fy C) as (V & F). now split.
  - right. destruct (fadd_overflow x y Fx Fy C) as [-> SE]. pose proof fmax_pos as FP. destruct (Rle_or_lt 0 (rnd (B2R x + B2R y))) as [D|D].
    + left. rewrite Rabs_pos_eq in C by exact D. split; [exact C|]. f_equal. destruct (Bsign x) eqn:SX; [exfalso|reflexivity]. pose proof (sign_R x Fx SX). pose proof (sign_R y Fy (eq_sym SE)). pose proof (rnd_le (B2R x + B2R y) 0 ltac:(lra)) as M. rewrite rnd_0 in M. lra.
    + right. rewrite Rabs_left in C by exact D. split; [lra|]. f_equal. destruct (Bsign x) eqn:SX; [reflexivity|exfalso]. pose proof (sign_R' x Fx SX). pose proof (sign_R' y Fy (eq_sym SE)). pose proof (rnd_le 0 (B2R x + B2R y) ltac:(lra)) as M. rewrite rnd_0 in M. lra.
Qed.
Lemma ffma_extends x y z : is_finite x = true -> is_finite y = true -> is_finite z = true -> extends (ffma x y z) (rnd (B2R x * B2R y + B2R z)).
Proof.
  intros Fx Fy Fz. destruct (ffma_cases x y z Fx Fy Fz) as [(C & V & F)|[C|C]]; [left|right; left|right; right]; auto. split; [exact C|]. now split.
Qed.
Definition nab (x : R) (f : float64) : bool := match f with B754_infinity true => true | _ => lefb x f end.
Lemma nab_spec x f : nab x f = true <-> not_above x f.
Proof.
  unfold not_above. rewrite <- lefb_spec. destruct f as [b|b| |b mm e H]; cbn [nab]; try (split; [auto|intros [E|E]; [discriminate E|exact E]]). destruct b; [|cbn; split; [discriminate|intros [E|E]; [discriminate E|exact E]]]. split; [left; reflexivity|reflexivity].
Qed.
Lemma extends_nab x f y : extends f y -> Rabs x < fmax -> nab x f = true <-> y <= x.
Proof.
  intros E X. apply Rabs_lt_inv in X. rewrite nab_spec. destruct E as [[C V]|[[C ->]|[C ->]]]; unfold not_above.
  - split; [intros [->|(v & Vv & Hv)]; [destruct V; discriminate|destruct V, Vv; lra]|]. intros H. right. exists y. auto.
  - split; [intros [E|(v & [Vv _] & _)]; discriminate|lra].
  - split; [lra|]. intros _. left. reflexivity.
Qed.
Section Affine.
  Variables (mean sd : float64) (x : R).
  Notation m := (B2R mean).
  Notation s := (B2R sd).
  Hypothesis (Fm : is_finite mean = true) (Fs : is_finite sd = true) (S : 0 < s) (M : Rabs m <= bpow radix2 1022) (X : Rabs x <= bpow radix2 1022).
  Lemma x_fmax : Rabs x < fmax.
  Proof. apply Rle_lt_trans with (1 := X). apply bpow_lt. reflexivity. Qed.
  Lemma two_1022 : 2 * bpow radix2 1022 < fmax /\ 1 < bpow radix2 1022.
  Proof. split; [change 2 with (bpow radix2 1); rewrite <- bpow_plus; apply bpow_lt; reflexivity|change 1 with (bpow radix2 0); apply bpow_lt; reflexivity]. Qed.
  (** when the result is not above x, in terms of the standard variate *)
  Lemma affine_true v a : fvalue v a -> a * s <= low (low x - m) -> nab x (add_mul NormalSite mean v sd) = true.
  Proof.
    intros [Fv <-] H. unfold add_mul. destruct (fuses NormalSite).
    { pose proof (ffma_extends v sd mean Fv Fs Fm) as E. apply (extends_nab x _ _ E x_fmax). apply rnd_low.
      assert (LY : forall y, low y <= y). { intros y. unfold low. pose proof hh_pos. pose proof small52. assert (0 <= / 2 ^ 52 * Rabs y) by (apply Rmult_le_pos; [lra|apply Rabs_pos]). lra. }
      pose proof (LY (low x - m)). lra. }
    apply rnd_low in H. pose proof two_1022 as T2. pose proof (Rle_abs x) as X1. pose proof (Rle_abs (- m)) as M1. rewrite Rabs_Ropp in M1. assert (LX : low x <= x). { unfold low. pose proof hh_pos. pose proof small52. assert (0 <= / 2 ^ 52 * Rabs x) by (apply Rmult_le_pos; [lra|apply Rabs_pos]). lra. }
    destruct (fmul_extends v sd Fv Fs) as [[C [Fw Vw]]|[[C E]|[C E]]].
    - pose proof (fadd_extends mean (fmul v sd) Fm Fw) as E2. rewrite Vw in E2. apply (extends_nab x _ _ E2 x_fmax). apply rnd_low. lra.
    - exfalso. lra.
    - rewrite E. destruct mean; try discriminate Fm; reflexivity.
  Qed.
  Lemma affine_inv v a : fvalue v a -> nab x (add_mul NormalSite mean v sd) = true -> a * s <= high (high x - m).
  Proof.
    intros [Fv <-] H. unfold add_mul in H. destruct (fuses NormalSite).
    { pose proof (ffma_extends v sd mean Fv Fs Fm) as E. apply (extends_nab x _ _ E x_fmax) in H. apply rnd_high in H.
      assert (LY : forall y, y <= high y). { intros y. unfold high. pose proof hh_pos. pose proof small52. assert (0 <= / 2 ^ 52 * Rabs y) by (apply Rmult_le_pos; [lra|apply Rabs_pos]). lra. }
      pose proof (LY (high x - m)). lra. }
    apply rnd_high. pose proof two_1022 as T2. pose proof (Rle_abs (- x)) as X1. rewrite Rabs_Ropp in X1. pose proof (Rle_abs m) as M1. assert (LX : x <= high x). { unfold high. pose proof hh_pos. pose proof small52. assert (0 <= / 2 ^ 52 * Rabs x) by (apply Rmult_le_pos; [lra|apply Rabs_pos]). lra. }
    destruct (fmul_extends v sd Fv Fs) as [[C [Fw Vw]]|[[C E]|[C E]]].
    - pose proof (fadd_extends mean (fmul v sd) Fm Fw) as E2. rewrite Vw in E2. apply (extends_nab x _ _ E2 x_fmax) in H. apply rnd_high in H. lra.
    - exfalso. rewrite E in H. destruct mean; try discriminate Fm; discriminate H.
    - lra.
  Qed.
End Affine.
Lemma margin_low m s x : 0 < s -> PhiN ((x - rounding_margin x - m) / s) - / 2 ^ 51 <= PhiN (low (low x - m) / s).
Proof.
  intros S. set (y := (x - rounding_margin x - m) / s). set (t := low (low x - m) / s). pose proof small52 as S2. pose proof hh_pos as HP.
  assert (H8 : bpow radix2 (-1072) = 8 * hh) by (change 8 with (bpow radix2 3); rewrite <- bpow_plus; reflexivity).
  assert (L : y - / 2 ^ 52 * Rabs y - 0 <= t).
  { assert (Es : y * s = low x - m - 6 * hh). { unfold y, low, rounding_margin. rewrite H8. field. lra. } assert (AY : Rabs y * s = Rabs (low x - m - 6 * hh)) by (rewrite <- Es, Rabs_mult, (Rabs_pos_eq s); lra).
    apply Rmult_le_reg_r with s; [exact S|]. rewrite Rminus_0_r, Rmult_minus_distr_r, Rmult_assoc, AY, Es. unfold t, Rdiv. rewrite Rmult_assoc, Rinv_l, Rmult_1_r by lra. unfold low at 3. set (D := low x - m) in *. clearbody D. set (h := hh) in *. clearbody h.
    assert (T : Rabs D <= Rabs (D - 6 * h) + 6 * h). { pose proof (Rabs_triang (D - 6 * h) (6 * h)) as T. replace (D - 6 * h + 6 * h) with D in T by ring. rewrite (Rabs_pos_eq (6 * h)) in T by lra. exact T. }
    assert (/ 2 ^ 52 * Rabs D <= / 2 ^ 52 * (Rabs (D - 6 * h) + 6 * h)) by (apply Rmult_le_compat_l; lra). lra. }
  pose proof (G_rel y (/ 2 ^ 52) 0 ltac:(lra) ltac:(lra)) as [R _]. pose proof (PhiN_mono _ _ L) as M1. assert (LY : y - / 2 ^ 52 * Rabs y - 0 <= y) by (assert (0 <= / 2 ^ 52 * Rabs y) by (apply Rmult_le_pos; [lra|apply Rabs_pos]); lra). pose proof (PhiN_mono _ _ LY) as M2. lra.
Qed.
Lemma margin_high m s x : 0 < s -> PhiN (high (high x - m) / s) <= PhiN ((x + rounding_margin x - m) / s) + / 2 ^ 51.
Proof.
  intros S. pose proof (margin_low (- m) s (- x) S) as H. assert (LN : forall z, low (- z) = - high z) by (intros z; unfold low, high; rewrite Rabs_Ropp; ring).
  rewrite LN in H. replace (- high x - - m) with (- (high x - m)) in H by ring. rewrite LN in H. replace (- high (high x - m) / s) with (- (high (high x - m) / s)) in H by (field; lra).
  replace ((- x - rounding_margin (- x) - - m) / s) with (- ((x + rounding_margin x - m) / s)) in H by (unfold rounding_margin; rewrite Rabs_Ropp; field; lra). rewrite !PhiN_neg in H. lra.
Qed.

Section NormalProp.
  Variables math_exp math_log : float64 -> float64.
  Hypothesis (AE : accurate_exp math_exp) (AL : accurate_log math_log).
  Definition normal_draws (mean sd : float64) (fuel : nat) (ws : list N) : outcome (float64 * list N) := Normal_Next tape math_exp math_log mean sd fuel fuel ws.
  Lemma normal_transfer mean sd (P : float64 -> Prop) q : draw_prob (fun fuel ws => GenNext tape (zn math_exp math_log fuel) fuel ws) (fun v => P (add_mul NormalSite mean v sd)) q -> draw_prob (normal_draws mean sd) P q.
  Proof.
    apply draw_prob_ext. intros ws. unfold normal_draws, Normal_Next. split.
    - intros (fuel & f & ws' & E & Hf). exists fuel, (add_mul NormalSite mean f sd), ws'. split; [|exact Hf]. change (normalZig tape math_exp math_log fuel) with (zn math_exp math_log fuel). now rewrite E.
    - intros (fuel & f & ws' & E & Hf). change (normalZig tape math_exp math_log fuel) with (zn math_exp math_log fuel) in E. destruct (GenNext tape (zn math_exp math_log fuel) fuel ws) as [[g wg]| |] eqn:Eg; cbn [bind] in E; try discriminate E.
      exists fuel, g, wg. split; [exact Eg|]. congruence.
  Qed.
  Lemma normal_core mean m sd s x : fvalue mean m -> fvalue sd s -> 0 < s -> Rabs m <= bpow radix2 1022 -> Rabs x <= bpow radix2 1022 ->
    exists p, draw_prob (normal_draws mean sd) (not_above x) p /\
      PhiN ((x - rounding_margin x - m) / s) - 3 / 10 ^ 11 <= p <= PhiN ((x + rounding_margin x - m) / s) + 3 / 10 ^ 11.
  Proof.
    intros [Fm <-] [Fs <-] S M X. set (p := fun v => nab x (add_mul NormalSite mean v sd)). exists (Q math_exp math_log p). pose proof small52 as S2. split.
    - apply normal_transfer. apply (normal_draw math_exp math_log AE AL p). intros v. apply nab_spec.
    - pose proof (margin_low (B2R mean) (B2R sd) x S) as L. pose proof (margin_high (B2R mean) (B2R sd) x S) as H. split.
      + apply Rle_trans with (PhiN (low (low x - B2R mean) / B2R sd) - 21 / 10 ^ 12); [lra|]. apply (normal_lower math_exp math_log AE AL). intros v a Vv Ha. apply (affine_true mean sd x Fm Fs M X v a Vv).
        apply (Rmult_lt_compat_r (B2R sd)) in Ha; [|exact S]. unfold Rdiv in Ha. rewrite Rmult_assoc, Rinv_l, Rmult_1_r in Ha by lra. lra.
      + apply Rle_trans with (PhiN (high (high x - B2R mean) / B2R sd) + 21 / 10 ^ 12); [|lra]. apply (normal_upper math_exp math_log AE AL). intros v a Vv Ha. pose proof (affine_inv mean sd x Fm Fs M X v a Vv Ha) as I.
        apply Rmult_le_reg_r with (B2R sd); [exact S|]. unfold Rdiv. rewrite Rmult_assoc, Rinv_l, Rmult_1_r by lra. exact I.
  Qed.
  (** With math.Exp and math.Log accurate to one unit in the last place and a source of independent uniform 64-bit words,
      Normal{Mean: m, StdDev: s}.Next is normally distributed: the probability of a result not above x lies between the areas
      under the bell curve up to the points one rounding below and above x, to within 3e-11. *)
  Theorem C62_normal_distribution mean m sd s x : fvalue mean m -> fvalue sd s -> 0 < s -> Rabs m <= bpow radix2 1022 -> Rabs x <= bpow radix2 1022 ->
    exists p A B, draw_prob (normal_draws mean sd) (not_above x) p /\ area_up_to (normal_curve m s) (x - rounding_margin x) A /\ area_up_to (normal_curve m s) (x + rounding_margin x) B /\
      A - 3 / 10 ^ 11 <= p <= B + 3 / 10 ^ 11.
  Proof.
    intros Vm Vs S M X. destruct (normal_core mean m sd s x Vm Vs S M X) as (p & D & B). exists p. do 2 eexists. split; [exact D|]. split; [now apply curve_area|]. split; [now apply curve_area|]. exact B.
  Qed.
  (** Where rounding is small against the standard deviation, the area up to x itself *)
  Theorem C62_normal_distribution_tight mean m sd s x : fvalue mean m -> fvalue sd s -> 0 < s -> Rabs m <= bpow radix2 1022 -> Rabs x <= bpow radix2 1022 -> rounding_margin x <= s / 10 ^ 12 ->
    exists p A, draw_prob (normal_draws mean sd) (not_above x) p /\ area_up_to (normal_curve m s) x A /\ Rabs (p - A) <= 4 / 10 ^ 11.
  Proof.
    intros Vm Vs S M X R. destruct (normal_core mean m sd s x Vm Vs S M X) as (p & D & B). exists p, (PhiN ((x - m) / s)). split; [exact D|]. split; [now apply curve_area|].
    assert (R0 : 0 <= rounding_margin x). { unfold rounding_margin. pose proof small52. pose proof (bpow_gt_0 radix2 (-1072)). assert (0 <= / 2 ^ 52 * Rabs x) by (apply Rmult_le_pos; [lra|apply Rabs_pos]). lra. }
    set (k := rounding_margin x) in *. clearbody k. assert (K : 0 <= k / s <= 1 / 10 ^ 12). { split; [apply Rmult_le_pos; [exact R0|left; now apply Rinv_0_lt_compat]|]. apply Rmult_le_reg_r with s; [exact S|]. unfold Rdiv at 1. rewrite Rmult_assoc, Rinv_l by lra. lra. }
    replace ((x - k - m) / s) with ((x - m) / s - k / s) in B by (field; lra). replace ((x + k - m) / s) with ((x - m) / s + k / s) in B by (field; lra). set (y := (x - m) / s) in *. clearbody y.
    pose proof (PhiN_mono (y - k / s) y ltac:(lra)) as P1. pose proof (PhiN_mono y (y + k / s) ltac:(lra)) as P2. pose proof (G_lip (y - k / s) y ltac:(lra)) as L1. pose proof (G_lip y (y + k / s) ltac:(lra)) as L2. apply Rabs_le. lra.
  Qed.
  (** The standard normal distribution (Mean 0, StdDev 1), for every real x. *)
  Theorem C62_standard_normal x : exists p A, draw_prob (normal_draws (B754_zero false) (of_int 1)) (at_most x) p /\ area_up_to (normal_curve 0 1) x A /\ Rabs (p - A) <= 3 / 10 ^ 11.
  Proof.
    set (p := fun v => lefb x (add_mul NormalSite (B754_zero false) v (of_int 1))). exists (Q math_exp math_log p), (PhiN ((x - 0) / 1)). split; [|split; [apply curve_area; lra|]].
    - apply normal_transfer. apply (normal_draw math_exp math_log AE AL p). intros v. apply lefb_spec.
    - replace ((x - 0) / 1) with x by field. assert (V : forall v a, fvalue v a -> fvalue (add_mul NormalSite (B754_zero false) v (of_int 1)) a).
      { intros v a [Fv <-]. assert (F1 : is_finite (of_int 1) = true) by reflexivity. assert (V1 : B2R (of_int 1) = 1) by (vm_compute; lra). pose proof (representable_B2R v) as RV. pose proof (abs_B2R_lt_emax 53 1024 v) as LV.
        unfold add_mul. destruct (fuses NormalSite).
        { destruct (ffma_R v (of_int 1) (B754_zero false) Fv F1 eq_refl) as [W FW]; [cbn [B2R]; rewrite V1, Rmult_1_r, Rplus_0_r, rnd_id by exact RV; exact LV|]. cbn [B2R] in W. rewrite V1, Rmult_1_r, Rplus_0_r, rnd_id in W by exact RV. now split. }
        destruct (fmul_R v (of_int 1) Fv F1) as (W & FW & _); [rewrite V1, Rmult_1_r, rnd_id by exact RV; exact LV|]. rewrite V1, Rmult_1_r, rnd_id in W by exact RV.
        destruct (fadd_R (B754_zero false) (fmul v (of_int 1)) eq_refl FW) as (W2 & FW2); [cbn [B2R]; rewrite Rplus_0_l, W, rnd_id by exact RV; exact LV|]. cbn [B2R] in W2. rewrite Rplus_0_l, W, rnd_id in W2 by exact RV. now split. }
      pose proof (normal_lower math_exp math_log AE AL p x) as L. pose proof (normal_upper math_exp math_log AE AL p x) as U. cut (PhiN x - 21 / 10 ^ 12 <= Q math_exp math_log p /\ Q math_exp math_log p <= PhiN x + 21 / 10 ^ 12); [intros [A B]; apply Rabs_le; lra|]. split.
      + apply L. intros v a Vv Ha. apply lefb_spec. exists a. split; [now apply V|lra].
      + apply U. intros v a Vv E. apply lefb_spec in E. destruct E as (b & [_ Vb] & Hb). destruct (V v a Vv) as [_ Va]. lra.
  Qed.
  (** ... and a call returns with probability 1. *)
  Theorem C62_normal_returns mean sd : draw_prob (normal_draws mean sd) (fun _ => True) 1.
  Proof.
    apply normal_transfer. assert (E : Q math_exp math_log (fun _ => true) = 1); [|rewrite <- E; apply (normal_draw math_exp math_log AE AL (fun _ => true)); intros v; tauto].
    unfold Q, numer. pose proof (den_big math_exp math_log AE) as DB.
    assert (T1 : accp math_log (fun _ => true) = accall math_log) by (unfold accp, accall; apply mean53_ext; intros k _; apply Rmult_1_l). rewrite T1. pose proof (accall_big math_log AL) as AB.
    pose proof (total (ins (zn math_exp math_log)) tl (below (zn math_exp math_log))) as T. fold (ZigHit.tail_mass (zn math_exp math_log)) in T. rewrite (ZigMirror.tail_mass_mirrored (zn math_exp math_log) normal_density (ZF math_exp math_log AE) eq_refl) in T. rewrite <- (ZigMirror.hit_all_mirrored (zn math_exp math_log)) in T.
    unfold den in *. set (d := 1 - miss _ _ _) in *. apply Rmult_eq_reg_r with d; [|lra]. unfold Rdiv. rewrite Rmult_assoc, Rinv_l, Rmult_1_r by lra. rewrite (Rinv_r (accall math_log)) by lra. unfold d. lra.
  Qed.
End NormalProp.
(** correctly rounded functions meet the hypotheses: IQ scores; half of them are not above the mean, and about 84% not above mean plus one deviation *)
Example C62_nonvacuous : accurate_exp exact_exp /\ accurate_log exact_log /\ fvalue (of_int 100) 100 /\ fvalue (of_int 15) 15 /\
  exists p A, draw_prob (normal_draws exact_exp exact_log (of_int 100) (of_int 15)) (not_above 115) p /\ area_up_to (normal_curve 100 15) 115 A /\ Rabs (p - A) <= 4 / 10 ^ 11 /\ 1 / 2 < A < 1.
Proof.
  assert (V1 : fvalue (of_int 100) 100) by (split; [reflexivity|]; vm_compute; lra). assert (V2 : fvalue (of_int 15) 15) by (split; [reflexivity|]; vm_compute; lra).
  split; [exact exact_exp_accurate|]. split; [exact exact_log_accurate|]. split; [exact V1|]. split; [exact V2|].
  assert (B : 128 <= bpow radix2 1022) by (change 128 with (bpow radix2 7); apply bpow_le; discriminate). pose proof small52 as S2.
  assert (MS : rounding_margin 115 <= 15 / 10 ^ 12). { unfold rounding_margin. rewrite Rabs_pos_eq by lra. assert (bpow radix2 (-1072) <= bpow radix2 (-100)) by (apply bpow_le; discriminate). change (bpow radix2 (-100)) with (/ 1267650600228229401496703205376) in H. lra. }
  destruct (C62_normal_distribution_tight exact_exp exact_log exact_exp_accurate exact_log_accurate (of_int 100) 100 (of_int 15) 15 115 V1 V2 ltac:(lra) ltac:(rewrite Rabs_pos_eq; lra) ltac:(rewrite Rabs_pos_eq; lra) MS) as (p & A & D & AR & C).
  exists p, A. split; [exact D|]. split; [exact AR|]. split; [exact C|].
  assert (EA : A = PhiN 1). { destruct AR as [_ L]. destruct (curve_area 100 15 ltac:(lra) 115) as [_ L2]. apply is_lim_unique in L, L2. rewrite L in L2. replace ((115 - 100) / 15) with 1 in L2 by field. congruence. }
  rewrite EA. unfold PhiN. pose proof Ginf_pos as GP. destruct (G_Ginf 1 ltac:(lra)) as [G1 _].
  assert (GL : 0 < G 1). { pose proof (deriv_le (fun x => / 3 * x) G (fun _ => / 3) normal_density 0 1 ltac:(lra)) as K. cbv beta in K. rewrite G_0 in K. assert (K' : / 3 * 1 - / 3 * 0 <= G 1 - 0); [|lra]. apply K.
    - intros t _. auto_derive; [trivial|ring].
    - intros t _. apply G_deriv.
    - intros t Ht. unfold normal_density. apply Rle_trans with (exp (- (1))); [|apply exp_decr; assert (t * t <= 1 * 1) by (apply Rmult_le_compat; lra); lra]. rewrite exp_Ropp. apply Rinv_le_contravar; [apply exp_pos|exact exp_le_3]. }
  assert (GS : G 1 < 2 * Ginf / 2) by (pose proof (G_lip 0 1 ltac:(lra)) as GL1; rewrite G_0 in GL1; lra).
  assert (0 < G 1 / (2 * Ginf) < 1 / 2); [|lra]. split; [apply Rdiv_lt_0_compat; lra|]. apply Rmult_lt_reg_r with (2 * Ginf); [lra|]. unfold Rdiv at 1. rewrite Rmult_assoc, Rinv_l, Rmult_1_r by lra. lra.
Qed.
End Compiler.
