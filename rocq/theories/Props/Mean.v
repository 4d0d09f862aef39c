(** C88: the means of the variates. *)
From Coq Require Import Reals Lia Lra Psatz Bool ZifyN ZifyNat.
From Coquelicot Require Import Coquelicot.
From Flocq Require Import Core BinarySingleNaN.
From Verif Require Import Model.Base Model.Rng Model.Float Model.Distr Model.Ziggurat Model.ExpoNormal Spec.Common Spec.Counting Spec.Floats Spec.Zig Spec.Tails Spec.Prob Spec.Words Spec.Cost Spec.Mean.
From Verif Require Import Proofs.WordLemmas Proofs.FloatProofs Proofs.SumN Proofs.ZigStep Proofs.ZigFloat Proofs.ZigTape Proofs.GenLaw Proofs.Gauss Proofs.NormalLaw Proofs.CostProofs Proofs.MeanProofs.
From Verif Require Import Props.Uniform Props.UniformLaw Props.Zig Props.ExpoNormal Props.Draws Props.ExpoLaw Props.NormalLaw Props.Tails Props.Independence Props.Cost.
Local Open Scope R_scope.

(** for every choice of the compiler which x*y + z to fuse (Model/Fused.v) *)
Section Compiler.
Context {fpc : compiler}.

(** a program that uses finitely many words on average returns with probability one *)
Lemma cost_returns {A} (next : nat -> list N -> outcome (A * list N)) c : mean_words next c -> draw_prob next (fun _ => True) 1.
Proof.
  intros (q & Hq & S). exists (fun n => 1 - q n). split.
  - intros n. rewrite (needs_ev next n _ (Hq n)). replace (1 - (1 - _)) with (pr n (fun ws => ev (ends next (fun _ => True) ws))) by ring. apply prob_pr. intros ws _ _. symmetry. apply ev_iff.
  - replace (Finite 1) with (Finite (1 - 0)) by (f_equal; ring). apply is_lim_seq_minus'; [apply is_lim_seq_const|]. apply ex_series_lim_0. now exists c.
Qed.
Lemma draw_prob_same {A} (next : nat -> list N -> outcome (A * list N)) P Q p : (forall fuel ws f ws', Forall w64 ws -> next fuel ws = Ret (f, ws') -> (P f <-> Q f)) -> draw_prob next P p -> draw_prob next Q p.
Proof.
  intros H (q & Hq & L). exists q. split; [|exact L]. intros n. destruct (Hq n) as (c & C & E). exists c. split; [|exact E]. revert C. apply Count.has_exactly_ext. intros ws.
  split; intros [[Ln F] (fu & f & w & Ef & X)]; (split; [split; assumption|]); exists fu, f, w; (split; [exact Ef|]); now apply (H _ _ _ _ F Ef).
Qed.
Lemma clamp_range lo hi f : lo <= hi -> lo <= clamp lo hi f <= hi.
Proof.
  intros H. assert (X : forall v, lo <= Rmax lo (Rmin hi v) <= hi) by (intros v; split; [apply Rmax_l|apply Rmax_lub; [exact H|apply Rmin_l]]).
  destruct f as [s|[|]| |s m e b]; cbn [clamp]; try apply X; lra.
Qed.
Lemma clamp_le lo hi x f : lo <= x < hi -> (clamp lo hi f <= x <-> not_above x f).
Proof.
  intros H. assert (X : forall v, Rmax lo (Rmin hi v) <= x <-> v <= x).
  { intros v. split; intros L.
    - assert (M : Rmin hi v <= x) by (apply Rle_trans with (Rmax lo (Rmin hi v)); [apply Rmax_r|exact L]). destruct (Rle_or_lt v hi) as [V|V]; [rewrite Rmin_right in M by exact V; lra|rewrite Rmin_left in M by lra; lra].
    - apply Rmax_lub; [lra|]. pose proof (Rmin_r hi v). lra. }
  unfold not_above, at_most, fvalue. destruct f as [s|[|]| |s m e b]; cbn [clamp].
  - rewrite X. split; [intros L; right; eexists; split; [split; [reflexivity|reflexivity]|exact L]|]. intros [E|(v & [_ Ev] & L)]; [destruct s; discriminate E|rewrite <- Ev in L; exact L].
  - split; [intros _; left; reflexivity|intros _; lra].
  - split; [intros L; lra|]. intros [E|(v & [F _] & _)]; [discriminate E|discriminate F].
  - split; [intros L; lra|]. intros [E|(v & [F _] & _)]; [discriminate E|discriminate F].
  - rewrite X. split; [intros L; right; eexists; split; [split; [reflexivity|reflexivity]|exact L]|]. intros [E|(v & [_ <-] & L)]; [discriminate E|exact L].
Qed.

(** the limit itself *)
Definition chance {A} (next : nat -> list N -> outcome (A * list N)) (Q : A -> Prop) : R := real (Lim_seq (fun n => pr n (fun ws => ev (exists fuel f ws', next fuel ws = Ret (f, ws') /\ Q f)))).
Lemma chance_eq {A} (next : nat -> list N -> outcome (A * list N)) Q p : draw_prob next Q p -> chance next Q = p.
Proof.
  intros (r & Hr & L). unfold chance. replace (Lim_seq _) with (Finite p); [reflexivity|]. symmetry. apply is_lim_seq_unique. apply (is_lim_seq_ext r); [|exact L]. intros n. apply (prob_unique n _ _ _ (Hr n)). apply prob_pr. intros ws _ _. symmetry. apply ev_iff.
Qed.
(** Riemann sums of exp (- r t) *)
Lemma expo_sums r d K : 0 < r -> 0 < d -> let S := d * sm (fun k => exp (- (r * (INR k * d)))) K in let J := (1 - exp (- (r * (INR K * d)))) / r in J <= S <= J + d * (1 - exp (- (r * (INR K * d)))).
Proof.
  intros R0 D0. cbv zeta. induction K as [|K [I1 I2]]; cbn [sm].
  - cbn [INR]. rewrite Rmult_0_l, Rmult_0_r, Ropp_0, exp_0. unfold Rdiv. rewrite Rminus_eq_0, Rmult_0_l. lra.
  - rewrite S_INR. replace (- (r * ((INR K + 1) * d))) with (- (r * (INR K * d)) + - (r * d)) by ring. rewrite exp_plus. set (a := exp (- (r * (INR K * d)))) in *. assert (A0 : 0 < a) by apply exp_pos.
    assert (RD : 0 < r * d) by now apply Rmult_lt_0_compat. set (b := exp (- (r * d))). assert (B1 : 1 - r * d <= b) by (unfold b; pose proof (exp_ineq1_le (- (r * d))); lra).
    assert (B2 : b * (1 + r * d) <= 1). { unfold b. pose proof (exp_ineq1_le (r * d)) as H. apply (Rmult_le_compat_l (exp (- (r * d)))) in H; [|left; apply exp_pos]. rewrite <- exp_plus, Rplus_opp_l, exp_0 in H. exact H. }
    assert (E1 : (1 - a * b) / r = (1 - a) / r + a * (1 - b) / r) by (field; lra).
    assert (L1 : a * (1 - b) / r <= d * a). { apply Rmult_le_reg_r with r; [exact R0|]. unfold Rdiv. rewrite Rmult_assoc, Rinv_l, Rmult_1_r by lra. assert (a * (1 - b) <= a * (r * d)) by (apply Rmult_le_compat_l; lra). lra. }
    assert (L2 : d * a * b <= a * (1 - b) / r). { apply Rmult_le_reg_r with r; [exact R0|]. unfold Rdiv. rewrite (Rmult_assoc (a * (1 - b))), Rinv_l, Rmult_1_r by lra. assert (a * (b * (r * d)) <= a * (1 - b)) by (apply Rmult_le_compat_l; lra). lra. }
    rewrite E1, Rmult_plus_distr_l. split; lra.
Qed.
(** The mean of Exponential(rate), with values beyond M counted as M (an infinite value is possible, C36), is that of an exponential variate up to
    2e-11 M. *)
Theorem C88_exponential_mean math_exp math_log rate r M : accurate_exp math_exp -> accurate_log math_log -> fvalue rate r -> 0 < r -> 0 < M <= 2 ^ 1023 ->
  exists e, mean_value (Exponential_Next tape math_exp math_log rate) (clamp 0 M) e /\ Rabs (e - (1 - exp (- (r * M))) / r) <= M * (2 / 10 ^ 11).
Proof.
  intros AE AL V R0 [M0 M1]. set (next := Exponential_Next tape math_exp math_log rate).
  assert (LAW : forall x, 0 <= x < M -> draw_prob next (fun f => clamp 0 M f <= x) (chance next (fun f => clamp 0 M f <= x)) /\ Rabs (chance next (fun f => clamp 0 M f <= x) - (1 - exp (- (r * x)))) <= 2 / 10 ^ 11).
  { intros x [X0 X1].
    destruct (C61_exponential_distribution math_exp math_log rate r x AE AL V R0 ltac:(lra)) as (p & D & B). unfold exponential_cdf in B. destruct (Rle_dec 0 x) as [_|N]; [|contradiction].
    assert (D' : draw_prob next (fun f => clamp 0 M f <= x) p).
    { revert D. apply draw_prob_same. intros fu ws f w F E. rewrite (clamp_le 0 M x f) by lra. unfold not_above. split; [tauto|]. intros [N|N]; [|exact N]. exfalso.
      destruct (C36_exponential_nonneg tape math_exp math_log tape_go rate r fu ws f w (proj1 (accurate_bounded _ AL)) V R0 E) as [_ S]. rewrite N in S. discriminate S. }
    rewrite (chance_eq _ _ _ D'). auto. }
  destruct (C87_exponential math_exp math_log rate) as (_ & _ & _ & c & MW & _). destruct (expo_ok math_exp math_log rate) as [ST _].
  destruct (layer_cake next (clamp 0 M) 0 M (2 / 10 ^ 11) ((1 - exp (- (r * M))) / r) 1 (fun x => chance next (fun f => clamp 0 M f <= x)) (fun x => 1 - exp (- (r * x))) ST) as (e & ME & B).
  - intros f. apply clamp_range. lra.
  - exact M0.
  - exact (cost_returns _ _ MW).
  - exact LAW.
  - intros K HK. pose proof (width_pos 0 M M0 K HK) as WP. pose proof (width_K 0 M K HK) as WK. set (d := MeanProofs.width 0 M K) in *.
    rewrite (sm_ext _ (fun k => exp (- (r * (INR k * d))))) by (intros k _; unfold pt; fold d; rewrite Rplus_0_l; ring).
    pose proof (expo_sums r d K R0 WP) as [S1 S2]. rewrite WK, Rminus_0_r in S1, S2. pose proof (exp_pos (- (r * M))). assert (d * (1 - exp (- (r * M))) <= d * 1) by (apply Rmult_le_compat_l; lra). apply Rabs_le. lra.
  - lra.
  - exists e. split; [exact ME|]. rewrite Rplus_0_l, Rminus_0_r in B. exact B.
Qed.
(** ... so the mean of values up to 40 / rate is 1 / rate, up to a relative error of 1e-9 *)
Theorem C88_exponential_mean_rate math_exp math_log rate r : accurate_exp math_exp -> accurate_log math_log -> fvalue rate r -> 0 < r -> 40 / r <= 2 ^ 1023 ->
  exists e, mean_value (Exponential_Next tape math_exp math_log rate) (clamp 0 (40 / r)) e /\ Rabs (e - 1 / r) <= 1 / 10 ^ 9 * (1 / r).
Proof.
  intros AE AL V R0 B. destruct (C88_exponential_mean math_exp math_log rate r (40 / r) AE AL V R0) as (e & ME & H); [split; [apply Rdiv_lt_0_compat; lra|exact B]|].
  exists e. split; [exact ME|]. replace (- (r * (40 / r))) with (-40) in H by (field; lra). pose proof (exp_pos (-40)) as P.
  assert (E40 : exp (-40) <= 1 / 10 ^ 12).
  { replace (-40) with (- (1) * 40) by ring. assert (E1 : exp (- (1)) <= / 2) by (rewrite exp_Ropp; apply Rinv_le_contravar; [lra|]; pose proof (exp_ineq1_le 1); lra).
    replace (- (1) * 40) with (INR 40 * - (1)) by (rewrite INR_IZR_INZ; cbn [Z.of_nat Pos.of_succ_nat Pos.succ]; ring).
    assert (X : forall n, exp (INR n * - (1)) = exp (- (1)) ^ n). { induction n as [|n IH]; [cbn [INR pow]; rewrite Rmult_0_l; apply exp_0|]. rewrite S_INR, Rmult_plus_distr_r, exp_plus, IH, Rmult_1_l. cbn [pow]. ring. }
    rewrite X. apply Rle_trans with ((/ 2) ^ 40); [apply pow_incr; pose proof (exp_pos (- (1))); lra|]. lra. }
  assert (I : 0 < / r) by now apply Rinv_0_lt_compat. unfold Rdiv in *. apply Rabs_le_inv in H. apply Rabs_le. set (i := / r) in *. clearbody i. assert (exp (-40) * i <= 1 * / 10 ^ 12 * i) by (apply Rmult_le_compat_r; lra).
  assert (0 <= exp (-40) * i) by (apply Rmult_le_pos; lra). lra.
Qed.
(** reversing a sum *)
Lemma sm_shift f K : sm f (S K) = f O + sm (fun k => f (S k)) K.
Proof. induction K as [|K IH]; cbn [sm] in *; [ring|]. rewrite IH. ring. Qed.
Lemma sm_rev K f : sm (fun k => f (K - k)%nat) K + f O = sm f K + f K.
Proof.
  induction K as [|K IH]; [cbn [sm]; ring|]. rewrite sm_shift. rewrite (sm_ext _ (fun k => f (K - k)%nat)) by (intros k Hk; f_equal; lia). rewrite Nat.sub_0_r. cbn [sm]. lra.
Qed.
(** The mean of Normal(mean, sd), with values further than M from the mean counted as mean - M and mean + M, is the mean parameter up to 8e-11 M, where
    rounding is small against the standard deviation. *)
Theorem C88_normal_mean math_exp math_log mean m sd s M : accurate_exp math_exp -> accurate_log math_log -> fvalue mean m -> fvalue sd s -> 0 < s -> 0 < M ->
  Rabs m + M <= 2 ^ 1022 -> rounding_margin (Rabs m + M) <= s / 10 ^ 12 ->
  exists e, mean_value (fun fuel => Normal_Next tape math_exp math_log mean sd fuel fuel) (clamp (m - M) (m + M)) e /\ Rabs (e - m) <= M * (8 / 10 ^ 11).
Proof.
  intros AE AL Vm Vs S0 M0 BM MG. set (next := normal_draws math_exp math_log mean sd). change (fun fuel => Normal_Next tape math_exp math_log mean sd fuel fuel) with next.
  assert (B22 : 2 ^ 1022 = bpow radix2 1022) by (rewrite <- (IZR_Zpower radix2) by discriminate; rewrite pow_IZR; reflexivity).
  assert (LAW : forall x, m - M <= x < m + M -> draw_prob next (fun f => clamp (m - M) (m + M) f <= x) (chance next (fun f => clamp (m - M) (m + M) f <= x)) /\ Rabs (chance next (fun f => clamp (m - M) (m + M) f <= x) - PhiN ((x - m) / s)) <= 4 / 10 ^ 11).
  { intros x X. assert (AX : Rabs x <= Rabs m + M) by (apply Rabs_le; pose proof (Rle_abs m); pose proof (Rle_abs (- m)) as A2; rewrite Rabs_Ropp in A2; lra).
    pose proof (Rabs_pos m). destruct (C62_normal_distribution_tight math_exp math_log AE AL mean m sd s x Vm Vs S0 ltac:(lra) ltac:(lra)) as (p & A & D & AR & B).
    { apply Rle_trans with (2 := MG). unfold rounding_margin. pose proof small52. rewrite (Rabs_pos_eq (Rabs m + M)) by lra. apply Rplus_le_compat_r, Rmult_le_compat_l; lra. }
    assert (EA : A = PhiN ((x - m) / s)) by (destruct AR as [_ L]; destruct (curve_area m s S0 x) as [_ L2]; apply is_lim_unique in L, L2; rewrite L in L2; congruence). rewrite EA in B.
    assert (D' : draw_prob next (fun f => clamp (m - M) (m + M) f <= x) p) by (revert D; apply draw_prob_same; intros fu ws f w _ _; symmetry; now apply clamp_le).
    rewrite (chance_eq _ _ _ D'). auto. }
  destruct (C87_normal math_exp math_log mean sd AE AL) as (_ & _ & c & MW & _). destruct (normal_ok math_exp math_log mean sd) as [ST _].
  destruct (layer_cake next (clamp (m - M) (m + M)) (m - M) (m + M) (4 / 10 ^ 11) M 1 (fun x => chance next (fun f => clamp (m - M) (m + M) f <= x)) (fun x => PhiN ((x - m) / s)) ST) as (e & ME & B).
  - intros f. apply clamp_range. lra.
  - lra.
  - exact (cost_returns _ _ MW).
  - exact LAW.
  - intros K HK. pose proof (width_pos (m - M) (m + M) ltac:(lra) K HK) as WP. pose proof (width_K (m - M) (m + M) K HK) as WK. set (d := MeanProofs.width (m - M) (m + M) K) in *.
    set (f := fun k => PhiN ((pt (m - M) (m + M) K k - m) / s)). rewrite (sm_ext _ (fun k => 1 - f k)) by (intros k _; reflexivity).
    assert (SY : forall k, (k <= K)%nat -> f (K - k)%nat = 1 - f k).
    { intros k Hk. unfold f. rewrite <- PhiN_neg. f_equal. unfold pt. fold d. rewrite minus_INR by exact Hk. replace ((INR K - INR k) * d) with (INR K * d - INR k * d) by ring. rewrite WK. field. lra. }
    pose proof (sm_rev K f) as RV. rewrite (sm_ext _ (fun k => 1 - f k)) in RV by (intros k Hk; apply SY; lia).
    assert (LN : sm (fun k => 1 - f k) K = INR K - sm f K). { clear. clearbody f. clear. induction K as [|K IH]; [cbn [sm INR]; ring|]. rewrite S_INR. cbn [sm]. rewrite IH. ring. }
    assert (F01 : 0 <= f K - f O <= 1).
    { pose proof (SY O ltac:(lia)) as E0. rewrite Nat.sub_0_r in E0. assert (EK : f K = PhiN (M / s)) by (unfold f, pt; fold d; rewrite WK; f_equal; field; lra).
      assert (Y : 0 <= M / s) by (apply Rlt_le, Rdiv_lt_0_compat; lra). pose proof Ginf_pos as GP. pose proof (G_le_Ginf (M / s) Y) as GL.
      replace (f K - f O) with (2 * f K - 1) by lra. rewrite EK. unfold PhiN. replace (2 * (/ 2 + G (M / s) / (2 * Ginf)) - 1) with (G (M / s) / Ginf) by (field; lra).
      split; [apply Rmult_le_pos; [lra|left; apply Rinv_0_lt_compat; lra]|]. apply Rmult_le_reg_r with Ginf; [lra|]. unfold Rdiv. rewrite Rmult_assoc, Rinv_l by lra. lra. }
    assert (E2 : 2 * sm (fun k => 1 - f k) K = INR K + (f K - f O)) by lra. set (S1 := sm (fun k => 1 - f k) K) in *. replace S1 with ((INR K + (f K - f O)) / 2) by lra.
    replace (d * ((INR K + (f K - f O)) / 2) - M) with (d * ((f K - f O) / 2)) by (assert (INR K * d = 2 * M) by lra; replace (d * ((INR K + (f K - f O)) / 2)) with (INR K * d / 2 + d * ((f K - f O) / 2)) by field; lra).
    rewrite Rabs_pos_eq by (apply Rmult_le_pos; lra). rewrite Rmult_comm. apply Rmult_le_compat_r; lra.
  - lra.
  - exists e. split; [exact ME|]. replace (m - M + M) with m in B by ring. replace (m + M - (m - M)) with (2 * M) in B by ring. lra.
Qed.
(** ... so, counting values within ten standard deviations, the mean is the mean parameter up to a billionth of the standard deviation *)
Theorem C88_normal_mean_sd math_exp math_log mean m sd s : accurate_exp math_exp -> accurate_log math_log -> fvalue mean m -> fvalue sd s -> 0 < s ->
  Rabs m + 10 * s <= 2 ^ 1022 -> rounding_margin (Rabs m + 10 * s) <= s / 10 ^ 12 ->
  exists e, mean_value (fun fuel => Normal_Next tape math_exp math_log mean sd fuel fuel) (clamp (m - 10 * s) (m + 10 * s)) e /\ Rabs (e - m) <= s / 10 ^ 9.
Proof.
  intros AE AL Vm Vs S0 BM MG. destruct (C88_normal_mean math_exp math_log mean m sd s (10 * s) AE AL Vm Vs S0 ltac:(lra) BM MG) as (e & ME & B). exists e. split; [exact ME|]. lra.
Qed.
(** a mean is unique *)
Theorem C88_mean_unique {A} (next : nat -> list N -> outcome (A * list N)) h e e' : mean_value next h e -> mean_value next h e' -> e = e'.
Proof.
  intros (g & V & L) (g' & V' & L'). assert (E : forall n, average n g = average n g').
  { intros n. apply average_ext. intros ws _ _. destruct (V ws) as [A1 A2], (V' ws) as [B1 B2]. destruct (ev (exists fuel f ws', next fuel ws = Ret (f, ws'))) eqn:X.
    - apply (proj1 (ev_iff _)) in X. destruct X as (fu & f & w & X). rewrite (A1 _ _ _ X). symmetry. exact (B1 _ _ _ X).
    - assert (N : ~ exists fuel f ws', next fuel ws = Ret (f, ws')) by (intros N; apply (proj2 (ev_iff _)) in N; congruence). rewrite (A2 N), (B2 N). reflexivity. }
  apply (is_lim_seq_ext _ _ _ E) in L. apply is_lim_seq_unique in L, L'. rewrite L in L'. congruence.
Qed.
(** a program that reads one word *)
Lemma one_word_mean (next : list N -> outcome (float64 * list N)) (f : N -> float64) : next [] = OutOfFuel -> (forall u ws, w64 u -> next (u :: ws) = Ret (f u, ws)) ->
  mean_value (fun _ => next) B2R (mean64 (fun u => B2R (f u))).
Proof.
  intros N0 E. exists (fun ws => match next ws with Ret (x, _) => B2R x | _ => 0 end). split.
  - intros ws. split.
    + intros _ x w R. now rewrite R.
    + intros N. destruct (next ws) as [[x w]| |] eqn:R; try reflexivity. exfalso. apply N. now exists O, x, w.
  - apply is_lim_seq_incr_1. apply (is_lim_seq_ext (fun _ => mean64 (fun u => B2R (f u)))); [|apply is_lim_seq_const]. intros n. rewrite average_S. apply mean64_ext. intros u Hu. symmetry. rewrite (average_ext n _ (fun _ => B2R (f u))); [apply average_const|].
    intros ws _ _. rewrite E; [reflexivity|]. unfold w64. rewrite <- W64_eq. exact Hu.
Qed.
Lemma sum_all n : sumN (fun k => IZR (Z.of_N k)) n = IZR (Z.of_N n) * (IZR (Z.of_N n) - 1) / 2.
Proof. induction n as [|n IH] using N.peano_ind; [rewrite sumN_0; cbn; field|]. rewrite sumN_S, IH, N2Z.inj_succ, succ_IZR. field. Qed.
(** The mean of Uniform0_1 is 1/2 - 2^-54 and that of Uniform1_2 is 3/2 - 2^-53, exactly. *)
Theorem C88_uniform0_1_mean : mean_value (fun _ => Uniform0_1_Next tape) B2R (1 / 2 - / IZR (2 ^ 54)).
Proof.
  refine (eq_ind _ (mean_value _ _) (one_word_mean (Uniform0_1_Next tape) _ eq_refl uniform01_tape) _ _).
  rewrite (mean64_ext _ (fun u => / IZR (2 ^ 53) * IZR (Z.of_N (u mod 2 ^ 53)))). 2:{ intros u _. destruct (scale_exact (u mod 2 ^ 53) ltac:(apply N.mod_lt; discriminate)) as [[_ Vu] _]. rewrite Vu. unfold Rdiv. ring. }
  rewrite (mean64_modp 53 (fun j => / IZR (2 ^ 53) * IZR (Z.of_N j))) by lia. rewrite sumN_scal, sum_all. change (Z.of_N (2 ^ 53)) with (2 ^ 53)%Z. replace (IZR (2 ^ 54)) with (2 * IZR (2 ^ 53)) by (rewrite <- mult_IZR; reflexivity).
  assert (0 < IZR (2 ^ 53)) by now apply IZR_lt. field. lra.
Qed.
Theorem C88_uniform1_2_mean : mean_value (fun _ => Uniform1_2_Next tape) B2R (3 / 2 - / IZR (2 ^ 53)).
Proof.
  refine (eq_ind _ (mean_value _ _) (one_word_mean (Uniform1_2_Next tape) (fun u => Float64frombits (N.lor (le_val (le_bytes 7 u)) 0x3ff0000000000000)) eq_refl (fun u ws _ => proj1 (uniform12_tape u ws))) _ _).
  rewrite (mean64_ext _ (fun u => 1 + / IZR (2 ^ 52) * IZR (Z.of_N (u mod 2 ^ 52)))). 2:{ intros u _. destruct (uniform12_tape u []) as [_ [_ Vu]]. rewrite Vu. unfold Rdiv. ring. }
  rewrite (mean64_modp 52 (fun j => 1 + / IZR (2 ^ 52) * IZR (Z.of_N j))) by lia. rewrite sumN_plus, sumN_const, sumN_scal, sum_all. change (NR (2 ^ 52)) with (IZR (2 ^ 52)). change (Z.of_N (2 ^ 52)) with (2 ^ 52)%Z. replace (IZR (2 ^ 53)) with (2 * IZR (2 ^ 52)) by (rewrite <- mult_IZR; reflexivity).
  assert (0 < IZR (2 ^ 52)) by now apply IZR_lt. field. lra.
Qed.
(** correctly rounded functions meet the hypotheses: waiting times with rate 3, and IQ scores *)
Example C88_nonvacuous : accurate_exp exact_exp /\ accurate_log exact_log /\
  (exists e, mean_value (Exponential_Next tape exact_exp exact_log (of_int 3)) (clamp 0 (40 / 3)) e /\ Rabs (e - 1 / 3) <= 1 / 10 ^ 9) /\
  (exists e, mean_value (fun fuel => Normal_Next tape exact_exp exact_log (of_int 100) (of_int 15) fuel fuel) (clamp (-50) 250) e /\ Rabs (e - 100) <= 2 / 10 ^ 8).
Proof.
  assert (V0 : fvalue (of_int 3) 3) by (split; [reflexivity|]; vm_compute; lra). assert (V1 : fvalue (of_int 100) 100) by (split; [reflexivity|]; vm_compute; lra). assert (V2 : fvalue (of_int 15) 15) by (split; [reflexivity|]; vm_compute; lra).
  split; [exact exact_exp_accurate|]. split; [exact exact_log_accurate|]. split.
  - destruct (C88_exponential_mean_rate exact_exp exact_log (of_int 3) 3 exact_exp_accurate exact_log_accurate V0 ltac:(lra)) as (e & ME & B).
    + apply Rle_trans with (2 ^ 4); [lra|]. apply Rle_pow; [lra|lia].
    + exists e. split; [exact ME|]. lra.
  - destruct (C88_normal_mean_sd exact_exp exact_log (of_int 100) 100 (of_int 15) 15 exact_exp_accurate exact_log_accurate V1 V2 ltac:(lra)) as (e & ME & B).
    + rewrite Rabs_pos_eq by lra. apply Rle_trans with (2 ^ 8); [lra|]. apply Rle_pow; [lra|lia].
    + pose proof small52. unfold rounding_margin. rewrite (Rabs_pos_eq 100), Rabs_pos_eq by lra. assert (H2 : bpow radix2 (-1072) <= bpow radix2 (-100)) by (apply bpow_le; discriminate). change (bpow radix2 (-100)) with (/ 1267650600228229401496703205376) in H2. lra.
    + exists e. split; [|lra]. replace (-50) with (100 - 10 * 15) by ring. replace 250 with (100 + 10 * 15) by ring. exact ME.
Qed.
End Compiler.
