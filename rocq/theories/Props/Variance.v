(** C90: the second moments of the variates. *)
From Coq Require Import Reals Lia Lra Psatz Bool ZifyN ZifyNat.
From Coquelicot Require Import Coquelicot.
From Flocq Require Import Core BinarySingleNaN.
From Verif Require Import Model.Base Model.Rng Model.Float Model.Distr Model.Ziggurat Model.ExpoNormal Spec.Common Spec.Counting Spec.Floats Spec.Density Spec.Zig Spec.Tails Spec.Prob Spec.Words Spec.Cost Spec.Mean.
From Verif Require Import Proofs.WordLemmas Proofs.FloatProofs Proofs.SumN Proofs.ZigStep Proofs.ZigInst Proofs.ZigTape Proofs.GenLaw Proofs.Gauss Proofs.NormalLaw Proofs.Independent Proofs.CostProofs Proofs.MeanProofs Proofs.FrequencyProofs Proofs.VarianceProofs.
From Verif Require Import Props.Uniform Props.UniformLaw Props.Zig Props.ExpoNormal Props.Draws Props.ExpoLaw Props.NormalLaw Props.Tails Props.Independence Props.Cost Props.Mean.
Local Open Scope R_scope.

(** for every choice of the compiler which x*y + z to fuse (Model/Fused.v) *)
Section Compiler.
Context {fpc : compiler}.

(** *** Exponential *)
Lemma expo_clamp_law math_exp math_log rate r M : accurate_exp math_exp -> accurate_log math_log -> fvalue rate r -> 0 < r -> M <= 2 ^ 1023 -> forall x, 0 <= x < M ->
  exists p, draw_prob (Exponential_Next tape math_exp math_log rate) (fun f => clamp 0 M f <= x) p /\ Rabs (p - (1 - exp (- (r * x)))) <= 2 / 10 ^ 11.
Proof.
  intros AE AL V R0 M1 x [X0 X1]. destruct (C61_exponential_distribution math_exp math_log rate r x AE AL V R0 ltac:(lra)) as (p & D & B). unfold exponential_cdf in B. destruct (Rle_dec 0 x) as [_|N]; [|contradiction].
  exists p. split; [|exact B]. revert D. apply draw_prob_same. intros fu ws f w F E. rewrite (clamp_le 0 M x f) by lra. unfold not_above. split; [tauto|]. intros [N|N]; [|exact N]. exfalso.
  destruct (C36_exponential_nonneg tape math_exp math_log tape_go rate r fu ws f w (proj1 (accurate_bounded _ AL)) V R0 E) as [_ S]. rewrite N in S. discriminate S.
Qed.
Lemma square_le x y : 0 <= x -> 0 <= y -> (x ^ 2 <= y <-> x <= sqrt y).
Proof.
  intros X Y. pose proof (sqrt_sqrt y Y) as S. pose proof (sqrt_pos y) as P. split; intros H; [apply Rnot_lt_le; intros L; assert (sqrt y * sqrt y < x * x) by (apply Rmult_le_0_lt_compat; lra); lra|]. assert (x * x <= sqrt y * sqrt y) by (apply Rmult_le_compat; lra). lra.
Qed.
Lemma sqrt_below y M : 0 < M -> 0 <= y < M ^ 2 -> sqrt y < M.
Proof. intros M0 [Y0 Y1]. rewrite <- (sqrt_Rsqr M) by lra. apply sqrt_lt_1_alt. unfold Rsqr. lra. Qed.
(** The mean square of Exponential(rate), with values beyond M counted as M *)
Theorem C90_exponential_square math_exp math_log rate r M : accurate_exp math_exp -> accurate_log math_log -> fvalue rate r -> 0 < r -> 0 < M <= 2 ^ 1023 ->
  exists e, mean_value (Exponential_Next tape math_exp math_log rate) (fun f => clamp 0 M f ^ 2) e /\ Rabs (e - 2 / r ^ 2 * (1 - (1 + r * M) * exp (- (r * M)))) <= M ^ 2 * (2 / 10 ^ 11).
Proof.
  intros AE AL V R0 [M0 M1]. set (next := Exponential_Next tape math_exp math_log rate). assert (M2 : 0 < M ^ 2) by (apply pow_lt; lra).
  destruct (C87_exponential math_exp math_log rate) as (_ & _ & _ & c & MW & _). destruct (expo_ok math_exp math_log rate) as [ST _].
  destruct (layer_cake next (fun f => clamp 0 M f ^ 2) 0 (M ^ 2) (2 / 10 ^ 11) (2 / r ^ 2 * (1 - (1 + r * M) * exp (- (r * M)))) 1 (fun x => chance next (fun f => clamp 0 M f ^ 2 <= x)) (fun y => 1 - exp (- (r * sqrt y))) ST) as (e & ME & B).
  - intros f. pose proof (clamp_range 0 M f ltac:(lra)). split; [apply pow_le; lra|apply pow_incr; lra].
  - exact M2.
  - exact (cost_returns _ _ MW).
  - intros y Y. pose proof (sqrt_pos y) as SP. pose proof (sqrt_below y M M0 Y) as SB. destruct (expo_clamp_law math_exp math_log rate r M AE AL V R0 M1 (sqrt y) ltac:(lra)) as (p & D & L).
    assert (D' : draw_prob next (fun f => clamp 0 M f ^ 2 <= y) p) by (revert D; apply draw_prob_same; intros fu ws f w _ _; symmetry; apply square_le; [apply (clamp_range 0 M f); lra|lra]). rewrite (chance_eq _ _ _ D'). auto.
  - intros K HK. pose proof (width_pos 0 (M ^ 2) M2 K HK) as WP. pose proof (width_K 0 (M ^ 2) K HK) as WK. set (d := MeanProofs.width 0 (M ^ 2) K) in *.
    rewrite (sm_ext _ (fun k => exp (- (r * sqrt (INR k * d))))) by (intros k _; unfold pt; fold d; rewrite Rplus_0_l; ring).
    pose proof (expo_square_sums r d K R0 WP) as [S1 S2]. rewrite WK, Rminus_0_r in S1, S2. replace (sqrt (M ^ 2)) with M in S1, S2 by (replace (M ^ 2) with (M * M) by ring; symmetry; apply sqrt_square; lra).
    replace (bexp r M - bexp r 0) with (2 / r ^ 2 * (1 - (1 + r * M) * exp (- (r * M)))) in S1, S2; [apply Rabs_le; lra|]. unfold bexp. rewrite Rmult_0_r, Ropp_0, exp_0. field. lra.
  - lra.
  - exists e. split; [exact ME|]. rewrite Rplus_0_l, Rminus_0_r in B. exact B.
Qed.
Lemma exp_m40 : 0 < exp (-40) <= 1 / 10 ^ 12.
Proof.
  split; [apply exp_pos|]. assert (E1 : exp (- (1)) <= / 2) by (rewrite exp_Ropp; apply Rinv_le_contravar; [lra|]; pose proof (exp_ineq1_le 1); lra).
  assert (X : forall n, exp (INR n * - (1)) = exp (- (1)) ^ n). { induction n as [|n IH]; [cbn [INR pow]; rewrite Rmult_0_l; apply exp_0|]. rewrite S_INR, Rmult_plus_distr_r, exp_plus, IH, Rmult_1_l. cbn [pow]. ring. }
  replace (-40) with (INR 40 * - (1)) by (rewrite INR_IZR_INZ; cbn [Z.of_nat Pos.of_succ_nat Pos.succ]; ring). rewrite X. apply Rle_trans with ((/ 2) ^ 40); [apply pow_incr; pose proof (exp_pos (- (1))); lra|]. lra.
Qed.
(** ... so the variance of the values up to 40 / rate is 1 / rate^2, up to a relative error of 1e-7 *)
Theorem C90_exponential_variance math_exp math_log rate r : accurate_exp math_exp -> accurate_log math_log -> fvalue rate r -> 0 < r -> 40 / r <= 2 ^ 1023 ->
  exists e e2, mean_value (Exponential_Next tape math_exp math_log rate) (clamp 0 (40 / r)) e /\ mean_value (Exponential_Next tape math_exp math_log rate) (fun f => clamp 0 (40 / r) f ^ 2) e2 /\
    Rabs (e2 - e ^ 2 - 1 / r ^ 2) <= 1 / 10 ^ 7 * (1 / r ^ 2).
Proof.
  intros AE AL V R0 B. assert (M0 : 0 < 40 / r) by (apply Rdiv_lt_0_compat; lra). destruct (C88_exponential_mean_rate math_exp math_log rate r AE AL V R0 B) as (e & ME & H). destruct (C90_exponential_square math_exp math_log rate r (40 / r) AE AL V R0 (conj M0 B)) as (e2 & ME2 & H2).
  exists e, e2. split; [exact ME|]. split; [exact ME2|]. replace (r * (40 / r)) with 40 in H2 by (field; lra). replace (- (40)) with (-40) in H2 by lra. pose proof exp_m40 as E40. set (x := exp (-40)) in *. clearbody x.
  assert (I : 0 < / r) by now apply Rinv_0_lt_compat. assert (II : 1 / r ^ 2 = / r * / r) by (field; lra). replace (2 / r ^ 2) with (2 * (/ r * / r)) in H2 by (field; lra). replace ((40 / r) ^ 2) with (1600 * (/ r * / r)) in H2 by (field; lra). rewrite II. replace (1 / r) with (/ r) in H by (field; lra). set (i := / r) in *. clearbody i. clear II.
  assert (I2 : 0 < i * i) by now apply Rmult_lt_0_compat. apply Rabs_le_inv in H, H2. assert (XI : 0 <= (i * i) * x <= (i * i) * (1 / 10 ^ 12)) by (split; [apply Rmult_le_pos; lra|apply Rmult_le_compat_l; lra]).
  assert (SQ : Rabs (e ^ 2 - i * i) <= 3 / 10 ^ 9 * (i * i)). { replace (e ^ 2 - i * i) with ((e - i) * (e + i)) by ring. rewrite Rabs_mult. apply Rle_trans with ((1 / 10 ^ 9 * i) * (3 * i)); [|right; field]. apply Rmult_le_compat; try apply Rabs_pos; apply Rabs_le; lra. }
  apply Rabs_le_inv in SQ. apply Rabs_le. set (j := i * i) in *. clearbody j. lra.
Qed.

(** *** Normal *)
(** every event has a probability *)
Lemma has_prob {A} (next : nat -> list N -> outcome (A * list N)) (Q : A -> Prop) : (forall n, draws_only tape (next n) (next n)) -> exists p, draw_prob next Q p.
Proof.
  intros O. destruct (ex_finite_lim_seq_incr (fun n => pr n (fun ws => ev (got next Q ws))) 1) as [p L].
  - intros n. rewrite <- (pr_prefix n 1). rewrite Nat.add_1_r. apply pr_le. intros ws Lw F H. apply (proj1 (ev_iff _)) in H. destruct H as (fu & f & w & R & q). apply ev_true.
    assert (F' := F). rewrite <- (firstn_skipn n ws) in F'. apply Forall_app in F'. destruct F' as [F1 F2]. destruct (f_split next O fu _ f w F1 R) as (used & Eu & X). exists fu, f, (w ++ skipn n ws). split; [|exact q].
    rewrite <- (firstn_skipn n ws) at 1. rewrite Eu, <- app_assoc. apply X. rewrite Eu in F1. apply Forall_app in F1. apply Forall_app. split; [apply F1|exact F2].
  - intros n. apply pr_range.
  - exists p. now apply draw_prob_got.
Qed.
Lemma draw_prob_le {A} (next : nat -> list N -> outcome (A * list N)) (P Q : A -> Prop) p q : (forall f, P f -> Q f) -> draw_prob next P p -> draw_prob next Q q -> p <= q.
Proof.
  intros H DP DQ. apply draw_prob_got in DP, DQ. refine (is_lim_seq_le _ _ (Finite p) (Finite q) _ DP DQ). intros n. apply pr_le. intros ws _ _ E. apply (proj1 (ev_iff _)) in E. destruct E as (fu & f & w & R & X). apply ev_true. exists fu, f, w. auto.
Qed.
Lemma PhiD_lip a b : a <= b -> PhiD b - PhiD a <= b - a.
Proof.
  intros H. pose proof Ginf_pos as GP. pose proof (G_lip a b H) as L. pose proof (G_mono a b H) as L0. unfold PhiD. replace (/ 2 + G b / (2 * Ginf) - (/ 2 + G a / (2 * Ginf))) with ((G b - G a) / (2 * Ginf)) by (field; lra).
  apply Rmult_le_reg_r with (2 * Ginf); [lra|]. unfold Rdiv. rewrite Rmult_assoc, Rinv_l, Rmult_1_r by lra. assert ((b - a) * 1 <= (b - a) * (2 * Ginf)) by (apply Rmult_le_compat_l; lra). lra.
Qed.
Lemma normal_clamp_law math_exp math_log mean m sd s M : accurate_exp math_exp -> accurate_log math_log -> fvalue mean m -> fvalue sd s -> 0 < s -> 0 < M -> Rabs m + M <= 2 ^ 1022 -> rounding_margin (Rabs m + M) <= s / 10 ^ 12 ->
  forall x, m - M <= x < m + M -> exists p, draw_prob (normal_draws math_exp math_log mean sd) (fun f => clamp (m - M) (m + M) f <= x) p /\ Rabs (p - PhiD ((x - m) / s)) <= 4 / 10 ^ 11.
Proof.
  intros AE AL Vm Vs S0 M0 BM MG x X. assert (B22 : 2 ^ 1022 = bpow radix2 1022) by (rewrite <- (IZR_Zpower radix2) by discriminate; rewrite pow_IZR; reflexivity).
  assert (AX : Rabs x <= Rabs m + M) by (apply Rabs_le; pose proof (Rle_abs m); pose proof (Rle_abs (- m)) as A2; rewrite Rabs_Ropp in A2; lra).
  pose proof (Rabs_pos m). destruct (C62_normal_distribution_tight math_exp math_log AE AL mean m sd s x Vm Vs S0 ltac:(lra) ltac:(lra)) as (p & A & D & AR & B).
  { apply Rle_trans with (2 := MG). unfold rounding_margin. pose proof small52. rewrite (Rabs_pos_eq (Rabs m + M)) by lra. apply Rplus_le_compat_r, Rmult_le_compat_l; lra. }
  assert (EA : A = PhiN ((x - m) / s)) by (destruct AR as [_ L]; destruct (curve_area m s S0 x) as [_ L2]; apply is_lim_unique in L, L2; rewrite L in L2; congruence). rewrite EA in B.
  exists p. split; [|exact B]. revert D. apply draw_prob_same. intros fu ws f w _ _. symmetry. now apply clamp_le.
Qed.
(** The mean squared distance from the mean, with distances beyond M counted as M *)
Theorem C90_normal_square math_exp math_log mean m sd s M : accurate_exp math_exp -> accurate_log math_log -> fvalue mean m -> fvalue sd s -> 0 < s -> 0 < M -> Rabs m + M <= 2 ^ 1022 -> rounding_margin (Rabs m + M) <= s / 10 ^ 12 ->
  exists e, mean_value (fun fuel => Normal_Next tape math_exp math_log mean sd fuel fuel) (fun f => (clamp (m - M) (m + M) f - m) ^ 2) e /\
    Rabs (e - s ^ 2) <= M ^ 2 * (8 / 10 ^ 11) + (2 * M ^ 2 + 2 * M * s + 2 * s ^ 2) * exp (- ((M / s) ^ 2 / 2)).
Proof.
  intros AE AL Vm Vs S0 M0 BM MG. set (next := normal_draws math_exp math_log mean sd). change (fun fuel => Normal_Next tape math_exp math_log mean sd fuel fuel) with next. assert (M2 : 0 < M ^ 2) by (apply pow_lt; lra).
  destruct (C87_normal math_exp math_log mean sd AE AL) as (_ & _ & c & MW & _). destruct (normal_ok math_exp math_log mean sd) as [ST O]. set (h := fun f => (clamp (m - M) (m + M) f - m) ^ 2).
  pose proof (normal_clamp_law math_exp math_log mean m sd s M AE AL Vm Vs S0 M0 BM MG) as CL. fold next in CL.
  destruct (layer_cake next h 0 (M ^ 2) (8 / 10 ^ 11) (s * s * (bnorm (M / s) - 1)) 1 (fun x => chance next (fun f => h f <= x)) (fun y => 1 - 2 * (1 - PhiD (sqrt y / s))) ST) as (e & ME & B).
  - intros f. unfold h. pose proof (clamp_range (m - M) (m + M) f ltac:(lra)). split; [apply pow2_ge_0|]. rewrite <- (pow2_abs (_ - m)). apply pow_incr. split; [apply Rabs_pos|apply Rabs_le; lra].
  - exact M2.
  - exact (cost_returns _ _ MW).
  - intros y Y. pose proof (sqrt_pos y) as SP. pose proof (sqrt_below y M M0 Y) as SB. set (t := sqrt y) in *.
    destruct (CL (m + t) ltac:(lra)) as (p1 & D1 & L1). destruct (CL (m - t) ltac:(lra)) as (p2 & D2 & L2). replace (m + t - m) with t in L1 by ring. replace (m - t - m) with (- t) in L2 by ring. replace (- t / s) with (- (t / s)) in L2 by (field; lra).
    destruct (has_prob next (fun f => clamp (m - M) (m + M) f < m - t) O) as (p3 & D3). destruct (has_prob next (fun f => h f <= y) O) as (p & D). rewrite (chance_eq _ _ _ D). split; [exact D|].
    assert (EQ : p1 = p3 + p).
    { assert (D4 : draw_prob next (fun f => clamp (m - M) (m + M) f < m - t \/ h f <= y) (p3 + p)).
      { apply draw_prob_or; [exact ST| |exact D3|exact D]. intros f A1 A2. unfold h in A2. rewrite <- pow2_abs in A2. apply square_le in A2; [|apply Rabs_pos|lra]. fold t in A2. apply Rabs_le_inv in A2. lra. }
      rewrite <- (chance_eq _ _ _ D1). apply chance_eq. revert D4. apply draw_prob_same. intros fu ws f w _ _. unfold h. rewrite <- (pow2_abs (_ - m)), square_le by (try apply Rabs_pos; lra). fold t. split.
      - intros [A|A]; [lra|]. apply Rabs_le_inv in A. lra.
      - intros A. destruct (Rlt_or_le (clamp (m - M) (m + M) f) (m - t)) as [L|L]; [now left|right]. apply Rabs_le. lra. }
    assert (U3 : p3 <= p2) by (revert D3 D2; apply draw_prob_le; intros f H; lra).
    assert (PN : PhiD (- (t / s)) = 1 - PhiD (t / s)) by exact (PhiN_neg (t / s)).
    assert (L3 : PhiD (- (t / s)) - 4 / 10 ^ 11 <= p3).
    { apply Rnot_lt_le. intros LT. set (g := PhiD (- (t / s)) - 4 / 10 ^ 11 - p3). assert (G0 : 0 < g) by (unfold g; lra). set (dl := Rmin ((M - t) / 2) (g * s / 2)). assert (DL : 0 < dl) by (apply Rmin_glb_lt; [lra|apply Rmult_lt_0_compat; [apply Rmult_lt_0_compat; lra|lra]]). assert (DM : dl <= (M - t) / 2) by apply Rmin_l. assert (DG : dl <= g * s / 2) by apply Rmin_r.
      destruct (CL (m - t - dl) ltac:(lra)) as (p4 & D4 & L4). assert (p4 <= p3) by (revert D4 D3; apply draw_prob_le; intros f H; lra). replace ((m - t - dl - m) / s) with (- (t / s) - dl / s) in L4 by (field; lra).
      assert (DS0 : 0 < dl / s) by (apply Rdiv_lt_0_compat; lra). pose proof (PhiD_lip (- (t / s) - dl / s) (- (t / s)) ltac:(lra)) as LP. assert (DS : dl / s <= g / 2) by (apply Rmult_le_reg_r with s; [lra|]; unfold Rdiv; rewrite Rmult_assoc, Rinv_l by lra; lra). apply Rabs_le_inv in L4. unfold g in DS. lra. }
    apply Rabs_le_inv in L1, L2. apply Rabs_le. lra.
  - intros K HK. pose proof (width_pos 0 (M ^ 2) M2 K HK) as WP. pose proof (width_K 0 (M ^ 2) K HK) as WK. set (d := MeanProofs.width 0 (M ^ 2) K) in *.
    rewrite (sm_ext _ (fun k => 2 * (1 - PhiD (sqrt (INR k * d) / s)))) by (intros k _; unfold pt; fold d; rewrite Rplus_0_l; ring).
    pose proof (normal_square_sums s d K S0 WP) as [S1 S2]. rewrite WK, Rminus_0_r in S1, S2. replace (sqrt (M ^ 2)) with M in S1, S2 by (replace (M ^ 2) with (M * M) by ring; symmetry; apply sqrt_square; lra). apply Rabs_le. lra.
  - lra.
  - exists e. split; [exact ME|]. rewrite Rplus_0_l, Rminus_0_r in B. assert (U : 0 <= M / s) by (left; apply Rdiv_lt_0_compat; lra). pose proof (bnorm_near (M / s) U) as N. unfold normal_density in N.
    replace (e - s ^ 2) with ((e - s * s * (bnorm (M / s) - 1)) + s * s * (bnorm (M / s) - 2)) by ring. apply Rle_trans with (1 := Rabs_triang _ _). apply Rplus_le_compat; [exact B|]. rewrite Rabs_mult, (Rabs_pos_eq (s * s)) by (apply Rmult_le_pos; lra).
    apply Rle_trans with (s * s * ((2 * (M / s) ^ 2 + 2 * (M / s) + 2) * exp (- ((M / s) ^ 2 / 2)))); [apply Rmult_le_compat_l; [apply Rmult_le_pos; lra|exact N]|]. right. set (E := exp _). field. lra.
Qed.
(** ... so, counting values within ten standard deviations, the variance is sd^2 up to a relative error of 1e-8 *)
Theorem C90_normal_variance math_exp math_log mean m sd s : accurate_exp math_exp -> accurate_log math_log -> fvalue mean m -> fvalue sd s -> 0 < s -> Rabs m + 10 * s <= 2 ^ 1022 -> rounding_margin (Rabs m + 10 * s) <= s / 10 ^ 12 ->
  exists e, mean_value (fun fuel => Normal_Next tape math_exp math_log mean sd fuel fuel) (fun f => (clamp (m - 10 * s) (m + 10 * s) f - m) ^ 2) e /\ Rabs (e - s ^ 2) <= s ^ 2 / 10 ^ 8.
Proof.
  intros AE AL Vm Vs S0 BM MG. destruct (C90_normal_square math_exp math_log mean m sd s (10 * s) AE AL Vm Vs S0 ltac:(lra) BM MG) as (e & ME & B). exists e. split; [exact ME|]. apply Rle_trans with (1 := B). clear B ME BM MG.
  replace (10 * s / s) with 10 by (field; lra). assert (E50 : exp (- (10 ^ 2 / 2)) <= 1 / 10 ^ 12) by (apply Rle_trans with (exp (-40)); [left; apply exp_increasing; lra|apply exp_m40]). pose proof (exp_pos (- (10 ^ 2 / 2))) as P. set (E := exp (- (10 ^ 2 / 2))) in *. clearbody E.
  assert (S2 : 0 < s ^ 2) by (apply pow_lt; lra). replace (2 * (10 * s) ^ 2 + 2 * (10 * s) * s + 2 * s ^ 2) with (222 * s ^ 2) by ring. replace ((10 * s) ^ 2) with (100 * s ^ 2) by ring. set (v := s ^ 2) in *. clearbody v. assert (222 * v * E <= 222 * v * (1 / 10 ^ 12)) by (apply Rmult_le_compat_l; lra). lra.
Qed.

(** *** Uniform0_1 *)
Lemma one_word_mean' (next : list N -> outcome (float64 * list N)) (f : N -> float64) (h : float64 -> R) : next [] = OutOfFuel -> (forall u ws, w64 u -> next (u :: ws) = Ret (f u, ws)) ->
  mean_value (fun _ => next) h (mean64 (fun u => h (f u))).
Proof.
  intros N0 E. exists (fun ws => match next ws with Ret (x, _) => h x | _ => 0 end). split.
  - intros ws. split.
    + intros _ x w R. now rewrite R.
    + intros N. destruct (next ws) as [[x w]| |] eqn:R; try reflexivity. exfalso. apply N. now exists O, x, w.
  - apply is_lim_seq_incr_1. apply (is_lim_seq_ext (fun _ => mean64 (fun u => h (f u)))); [|apply is_lim_seq_const]. intros n. rewrite average_S. apply mean64_ext. intros u Hu. symmetry. rewrite (average_ext n _ (fun _ => h (f u))); [apply average_const|].
    intros ws _ _. rewrite E; [reflexivity|]. unfold w64. rewrite <- W64_eq. exact Hu.
Qed.
Lemma sum_squares n : sumN (fun k => IZR (Z.of_N k) * IZR (Z.of_N k)) n = IZR (Z.of_N n) * (IZR (Z.of_N n) - 1) * (2 * IZR (Z.of_N n) - 1) / 6.
Proof. induction n as [|n IH] using N.peano_ind; [rewrite sumN_0; cbn; field|]. rewrite sumN_S, IH, N2Z.inj_succ, succ_IZR. field. Qed.
(** The variance of Uniform0_1 is (1 - 2^-106) / 12, exactly. *)
Theorem C90_uniform0_1_variance : mean_value (fun _ => Uniform0_1_Next tape) (fun f => (B2R f - (1 / 2 - / IZR (2 ^ 54))) ^ 2) ((1 - / IZR (2 ^ 53) ^ 2) / 12).
Proof.
  refine (eq_ind _ (mean_value _ _) (one_word_mean' (Uniform0_1_Next tape) _ (fun f => (B2R f - (1 / 2 - / IZR (2 ^ 54))) ^ 2) eq_refl uniform01_tape) _ _).
  replace (IZR (2 ^ 54)) with (2 * IZR (2 ^ 53)) by (rewrite <- mult_IZR; reflexivity). assert (P : 0 < IZR (2 ^ 53)) by now apply IZR_lt. set (y := IZR (2 ^ 53)) in *. set (c := 1 / 2 - / (2 * y)).
  rewrite (mean64_ext _ (fun u => (/ y * / y) * (IZR (Z.of_N (u mod 2 ^ 53)) * IZR (Z.of_N (u mod 2 ^ 53))) + ((- (2 * c * / y)) * IZR (Z.of_N (u mod 2 ^ 53)) + c * c))).
  2:{ intros u _. destruct (scale_exact (u mod 2 ^ 53) ltac:(apply N.mod_lt; discriminate)) as [[_ Vu] _]. rewrite Vu. fold y. unfold Rdiv. ring. }
  rewrite (mean64_modp 53 (fun j => (/ y * / y) * (IZR (Z.of_N j) * IZR (Z.of_N j)) + ((- (2 * c * / y)) * IZR (Z.of_N j) + c * c))) by lia. rewrite !sumN_plus, !sumN_scal, sumN_const, sum_squares, sum_all. change (NR (2 ^ 53)) with y. change (Z.of_N (2 ^ 53)) with (2 ^ 53)%Z. fold y. unfold c. field. lra.
Qed.
(** correctly rounded functions meet the hypotheses: waiting times with rate 3, and IQ scores *)
Example C90_nonvacuous :
  (exists e e2, mean_value (Exponential_Next tape exact_exp exact_log (of_int 3)) (clamp 0 (40 / 3)) e /\ mean_value (Exponential_Next tape exact_exp exact_log (of_int 3)) (fun f => clamp 0 (40 / 3) f ^ 2) e2 /\ Rabs (e2 - e ^ 2 - 1 / 9) <= 1 / 10 ^ 7) /\
  (exists e, mean_value (fun fuel => Normal_Next tape exact_exp exact_log (of_int 100) (of_int 15) fuel fuel) (fun f => (clamp (100 - 10 * 15) (100 + 10 * 15) f - 100) ^ 2) e /\ Rabs (e - 225) <= 1 / 10 ^ 5).
Proof.
  assert (V0 : fvalue (of_int 3) 3) by (split; [reflexivity|]; vm_compute; lra). assert (V1 : fvalue (of_int 100) 100) by (split; [reflexivity|]; vm_compute; lra). assert (V2 : fvalue (of_int 15) 15) by (split; [reflexivity|]; vm_compute; lra). split.
  - destruct (C90_exponential_variance exact_exp exact_log (of_int 3) 3 exact_exp_accurate exact_log_accurate V0 ltac:(lra)) as (e & e2 & ME & ME2 & B).
    + apply Rle_trans with (2 ^ 4); [lra|]. apply Rle_pow; [lra|lia].
    + exists e, e2. split; [exact ME|]. split; [exact ME2|]. replace (3 ^ 2) with 9 in B by ring. lra.
  - destruct (C90_normal_variance exact_exp exact_log (of_int 100) 100 (of_int 15) 15 exact_exp_accurate exact_log_accurate V1 V2 ltac:(lra)) as (e & ME & B).
    + rewrite Rabs_pos_eq by lra. apply Rle_trans with (2 ^ 8); [lra|]. apply Rle_pow; [lra|lia].
    + pose proof small52. unfold rounding_margin. rewrite (Rabs_pos_eq 100), Rabs_pos_eq by lra. assert (H2 : bpow radix2 (-1072) <= bpow radix2 (-100)) by (apply bpow_le; discriminate). change (bpow radix2 (-100)) with (/ 1267650600228229401496703205376) in H2. lra.
    + exists e. split; [exact ME|]. replace (15 ^ 2) with 225 in B by ring. lra.
Qed.
End Compiler.
