(** The distribution of exponential variates (expo.go, ziggurat.go): C61. *)
From Coq Require Import Reals Lia Lra Psatz ZifyN ZifyNat Bool.
From Coquelicot Require Import Coquelicot.
From Flocq Require Import Core BinarySingleNaN Relative.
From Verif Require Import Model.Base Model.Rng Model.Float Model.Distr Model.Ziggurat Model.ExpoTable Model.ExpoNormal Spec.Common Spec.Counting Spec.Floats Spec.Zig Spec.Tails Spec.Density Spec.Prob.
From Verif Require Import Proofs.FloatProofs Proofs.RelError Proofs.ZigTables Proofs.SumN Proofs.Riemann Proofs.ZigAccept Proofs.ZigBody Proofs.ZigStep Proofs.ZigFloat Proofs.ZigInst Proofs.ZigTape Proofs.ZigHit Proofs.ExpoLaw Props.Uniform Props.Zig Props.ExpoNormal Props.Tails Props.Density.
Local Open Scope R_scope.

(** for every choice of the compiler which x*y + z to fuse (Model/Fused.v) *)
Section Compiler.
Context {fpc : compiler}.

Lemma draw_prob_ext next next' (P P' : float64 -> Prop) p : (forall ws, (exists fuel f ws', next fuel ws = Ret (f, ws') /\ P f) <-> (exists fuel f ws', next' fuel ws = Ret (f, ws') /\ P' f)) ->
  draw_prob next P p -> draw_prob next' P' p.
Proof.
  intros H (q & Q & L). exists q. split; [|exact L]. intros n. destruct (Q n) as (c & (l & ND & I & Len) & E). exists c. split; [|exact E]. exists l. split; [exact ND|]. split; [|exact Len]. intros ws. rewrite I, H. reflexivity.
Qed.
Lemma draw_prob_none next (P : float64 -> Prop) : (forall fuel ws f ws', Forall w64 ws -> next fuel ws = Ret (f, ws') -> ~ P f) -> draw_prob next P 0.
Proof.
  intros H. exists (fun _ => 0). split; [|apply is_lim_seq_const]. intros n. exists 0%N. split; [|cbn; unfold Rdiv; ring]. exists []. split; [constructor|]. split; [|reflexivity].
  intros ws. split; [intros []|]. intros ((_ & W) & fuel & f & ws' & E & Pf). exact (H _ _ _ _ W E Pf).
Qed.
(** rounding moves a real by a relative 2^-53 and an absolute 2^-1075 at most *)
Lemma rnd_error x : 0 <= x -> Rabs (rnd x - x) <= / 2 ^ 53 * x + bpow radix2 (-1075).
Proof.
  intros Hx. destruct (error_N_FLT radix2 (-1074) 53 ltac:(lia) (fun t => negb (Z.even t)) x) as (e & t & He & Ht & _ & E). unfold rnd. rewrite E.
  replace (x * (1 + e) + t - x) with (x * e + t) by ring. apply Rle_trans with (1 := Rabs_triang _ _). rewrite Rabs_mult, (Rabs_pos_eq x) by exact Hx. apply Rplus_le_compat.
  - rewrite Rmult_comm. apply Rmult_le_compat_r; [exact Hx|]. apply Rle_trans with (1 := He). change (bpow radix2 (- (53) + 1)) with (/ 4503599627370496). lra.
  - apply Rle_trans with (1 := Ht). right. change (/ 2) with (bpow radix2 (-1)). rewrite <- bpow_plus. f_equal.
Qed.
Lemma s_exp s : 0 <= s -> s * exp (- (s / 2)) <= 1.
Proof.
  intros Hs. rewrite exp_Ropp. apply Rmult_le_reg_r with (exp (s / 2)); [apply exp_pos|]. rewrite Rmult_assoc, Rinv_l, Rmult_1_r, Rmult_1_l by (apply Rgt_not_eq, exp_pos).
  replace (s / 2) with (s / 4 + s / 4) by field. rewrite exp_plus. pose proof (exp_ge_1plus (s / 4)) as G. apply Rle_trans with ((1 + s / 4) * (1 + s / 4)); [pose proof (Rle_0_sqr (1 - s / 4)) as Q; unfold Rsqr in Q; lra|apply Rmult_le_compat; lra].
Qed.
Lemma exp_le_1 t : 0 <= t -> exp (- t) <= 1.
Proof. intros H. pose proof exp_0 as E. rewrite <- Ropp_0 in E. rewrite <- E. now apply exp_decr. Qed.
(** the exponential cumulative distribution is insensitive to relative errors *)
Lemma exp_shift s d e : 0 <= s -> 0 <= d <= 1 / 4 -> 0 <= e <= 1 -> exp (- (s * (1 - d) - e)) - exp (- s) <= 2 * d + 4 * e.
Proof.
  intros Hs Hd He. assert (M : forall a b, 0 <= b -> exp (- (a - b)) - exp (- a) <= b * exp (- (a - b))).
  { intros a b Hb. replace (exp (- a)) with (exp (- (a - b)) * exp (- b)) by (rewrite <- exp_plus; f_equal; ring). pose proof (exp_ge_1plus (- b)). pose proof (exp_pos (- (a - b))). nra. }
  pose proof (M s (s * d) ltac:(apply Rmult_le_pos; lra)) as M1. pose proof (M (s * (1 - d)) e (proj1 He)) as M2. replace (s - s * d) with (s * (1 - d)) in M1 by ring.
  assert (Q : exp (- (s * (1 - d))) <= exp (- (s / 2))). { apply exp_decr. assert (s * d <= s * (1 / 4)) by (apply Rmult_le_compat_l; lra). lra. }
  pose proof (s_exp s Hs) as S. pose proof (exp_pos (- (s / 2))) as EP.
  assert (M1' : exp (- (s * (1 - d))) - exp (- s) <= d). { apply Rle_trans with (1 := M1). apply Rle_trans with (s * d * exp (- (s / 2))); [apply Rmult_le_compat_l; [apply Rmult_le_pos; lra|exact Q]|]. replace (s * d * exp (- (s / 2))) with (d * (s * exp (- (s / 2)))) by ring. nra. }
  assert (M2' : e * exp (- (s * (1 - d) - e)) <= 3 * e).
  { rewrite (Rmult_comm 3). apply Rmult_le_compat_l; [lra|]. replace (- (s * (1 - d) - e)) with (- (s * (1 - d)) + e) by ring. rewrite exp_plus.
    assert (A : exp (- (s * (1 - d))) <= 1) by (apply exp_le_1; apply Rmult_le_pos; lra). assert (B : exp e <= 3). { apply Rle_trans with (exp 1); [|exact exp_le_3]. replace e with (- - e) by ring. replace 1 with (- - (1)) by ring. apply exp_decr. lra. }
    pose proof (exp_pos (- (s * (1 - d)))). pose proof (exp_pos e). nra. }
  lra.
Qed.

Lemma fdiv_inf_pos rate : is_finite rate = true -> 0 < B2R rate -> fdiv finf rate = finf.
Proof.
  intros Fr Pr. destruct rate as [s|s| |s m e b]; try discriminate Fr; [cbn in Pr; lra|]. destruct s; [|reflexivity]. exfalso.
  assert (H : F2R (Float radix2 (cond_Zopp true (Zpos m)) e) < 0) by (apply F2R_lt_0; reflexivity). change (B2R (B754_finite true m e b)) with (F2R (Float radix2 (cond_Zopp true (Zpos m)) e)) in Pr. lra.
Qed.
Section ExpoProp.
  Variables math_exp math_log : float64 -> float64.

  (** With math.Exp and math.Log accurate to one unit in the last place and a source of independent uniform 64-bit words,
      Exponential{Rate: r}.Next has the exponential distribution: the probability of a result at most x differs by at most
      2e-11 from 1 - e^(-r x). For every finite positive rate and all x up to 2^1023. *)
  Theorem C61_exponential_distribution rate r x : accurate_exp math_exp -> accurate_log math_log -> fvalue rate r -> 0 < r -> x <= 2 ^ 1023 ->
    exists p, draw_prob (Exponential_Next tape math_exp math_log rate) (at_most x) p /\ Rabs (p - exponential_cdf r x) <= 2 / 10 ^ 11.
  Proof.
    intros AE AL [Fr <-] Pr X. set (r := B2R rate) in *. unfold exponential_cdf. destruct (Rle_dec 0 x) as [X0|X0].
    2: { exists 0. split; [|rewrite Rminus_0_r, Rabs_R0; lra]. apply draw_prob_none. intros fuel ws f ws' W E (v & Vv & Hv).
      destruct (C36_exponential_nonneg tape math_exp math_log tape_go rate r fuel ws f ws' (proj1 (accurate_bounded _ AL)) (conj Fr eq_refl) Pr E) as [_ S].
      destruct Vv as [Ff <-]. destruct f as [s|s| |s m e b]; try discriminate Ff; cbn in S, Hv; [lra|]. subst s. assert (0 < F2R (Float radix2 (cond_Zopp false (Zpos m)) e)) by (apply F2R_gt_0; reflexivity). lra. }
    pose proof small53 as S3. pose proof small52 as S2. set (h := bpow radix2 (-1075)). assert (H0 : 0 < h) by apply bpow_gt_0. assert (RH : r * h <= / 2 ^ 51).
    { assert (RB : r <= bpow radix2 1024). { left. apply Rle_lt_trans with (1 := Rle_abs _). apply (abs_B2R_lt_emax 53 1024). }
      apply Rle_trans with (bpow radix2 1024 * h); [apply Rmult_le_compat_r; lra|]. unfold h. rewrite <- bpow_plus. right. change (bpow radix2 (1024 + -1075)) with (/ 2251799813685248). lra. }
    set (d := / 2 ^ 52) in *. set (x1 := Rmax 0 (r * (x * (1 - d) - 2 * h))). set (x2 := r * (x * (1 + d) + 2 * h)).
    assert (SX : 0 <= r * x) by (apply Rmult_le_pos; lra). assert (SD : 0 <= r * x * d) by (apply Rmult_le_pos; lra). assert (RHP : 0 <= r * h) by (apply Rmult_le_pos; lra).
    assert (X1 : 0 <= x1) by apply Rmax_l. assert (X12 : x1 <= x2). { unfold x1, x2. apply Rmax_lub; nra. }
    assert (FD : forall v a, fvalue v a -> 0 <= a -> rnd (a / r) < fmax -> fvalue (fdiv v rate) (rnd (a / r))).
    { intros v a [Fv <-] Ha Hr. destruct (fdiv_R v rate Fv) as (A & B & _); [fold r; lra| |split; [exact B|exact A]]. fold r. rewrite Rabs_pos_eq; [exact Hr|]. rewrite <- rnd_0. apply rnd_le. apply Rmult_le_pos; [exact Ha|left; now apply Rinv_0_lt_compat]. }
    assert (PX : 2 ^ 1023 = bpow radix2 1023). { change (bpow radix2 1023) with (IZR (2 ^ Z.of_nat 1023)). now rewrite <- pow_IZR. }
    assert (RE : forall a, 0 <= a -> 0 <= a / r /\ Rabs (rnd (a / r) - a / r) <= / 2 ^ 53 * (a / r) + h).
    { intros a Ha. assert (0 <= a / r) by (apply Rmult_le_pos; [exact Ha|left; now apply Rinv_0_lt_compat]). split; [assumption|now apply rnd_error]. }
    destruct (expo_law math_exp math_log AE AL (fun v => lefb x (fdiv v rate)) x1 x2 X1 X12) with (P := fun v => at_most x (fdiv v rate)) as (q & Q & B).
    - intros v a Vv [A0 A1]. apply lefb_spec. destruct (RE a A0) as [T0 T]. apply Rabs_le_inv in T.
      assert (RX : rnd (a / r) <= x).
      { destruct (Req_dec a 0) as [->|NZ]; [unfold Rdiv; rewrite Rmult_0_l, rnd_0; exact X0|]. assert (A2 : a <= r * (x * (1 - d) - 2 * h)) by (unfold x1 in A1; unfold Rmax in A1; destruct Rle_dec; lra).
        assert (A3 : a / r <= x * (1 - d) - 2 * h) by (apply Rmult_le_reg_l with r; [exact Pr|]; replace (r * (a / r)) with a by (field; lra); exact A2). set (t := a / r) in *. clearbody t.
        assert (/ 2 ^ 53 * t <= d * x); [|lra]. apply Rmult_le_compat; try lra; [unfold d; lra|]. assert (0 <= x * d) by (apply Rmult_le_pos; lra). lra. }
      exists (rnd (a / r)). split; [|exact RX]. apply (FD v a Vv A0). apply Rle_lt_trans with (1 := RX). apply Rle_lt_trans with (1 := X). rewrite PX. apply bpow_lt. lia.
    - intros v a Vv A0 E. apply lefb_spec in E. destruct E as (b & Vb & Hb). destruct (RE a A0) as [T0 T]. apply Rabs_le_inv in T.
      assert (RX : rnd (a / r) <= x).
      { destruct (Rlt_or_le (rnd (a / r)) fmax) as [L|L].
        - destruct (FD v a Vv A0 L) as [_ V1]. destruct Vb as [_ V2]. lra.
        - exfalso. destruct Vv as [Fv <-]. pose proof (fdiv_overflow v rate Fv ltac:(fold r; lra)) as O. fold r in O. rewrite Rabs_pos_eq in O by (pose proof (bpow_gt_0 radix2 1024); unfold fmax in L; lra). specialize (O L). destruct Vb as [Fb _]. rewrite O in Fb. discriminate Fb. }
      assert (A3 : a / r <= x * (1 + d) + 2 * h).
      { set (t := a / r) in *. clearbody t. unfold d. assert (t * (1 - / 2 ^ 53) <= x + h) by lra. assert (0 <= x * / 2 ^ 52) by (apply Rmult_le_pos; lra). destruct (Rle_or_lt t (x * (1 + / 2 ^ 52) + 2 * h)) as [G|G]; [exact G|exfalso].
        assert ((x * (1 + / 2 ^ 52) + 2 * h) * (1 - / 2 ^ 53) < t * (1 - / 2 ^ 53)) by (apply Rmult_lt_compat_r; lra). assert (0 <= x * (/ 2 ^ 52 - / 2 ^ 53 - / 2 ^ 52 * / 2 ^ 53)) by (apply Rmult_le_pos; lra). assert (0 <= h * (1 - 2 * / 2 ^ 53)) by (apply Rmult_le_pos; lra). lra. }
      unfold x2. replace a with (r * (a / r)) by (field; lra). apply Rmult_le_compat_l; lra.
    - rewrite (fdiv_inf_pos rate Fr Pr). reflexivity.
    - intros v. apply lefb_spec.
    - exists q. split.
      + revert Q. apply draw_prob_ext. intros ws. split.
        * intros (fuel & f & ws' & E & Hf). exists fuel, (fdiv f rate), ws'. split; [|exact Hf]. unfold Exponential_Next. change (expoZig tape math_exp math_log) with (ze math_exp math_log). now rewrite E.
        * intros (fuel & f & ws' & E & Hf). unfold Exponential_Next in E. change (expoZig tape math_exp math_log) with (ze math_exp math_log) in E. destruct (GenNext tape (ze math_exp math_log) fuel ws) as [[g wg]| |] eqn:Eg; cbn [bind] in E; try discriminate E.
          exists fuel, g, wg. split; [exact Eg|]. congruence.
      + assert (E1 : exp (- x1) - exp (- (r * x)) <= 2 * d + 4 * (2 * (r * h))).
        { apply Rle_trans with (exp (- (r * x * (1 - d) - 2 * (r * h))) - exp (- (r * x))); [|apply exp_shift; [exact SX|unfold d; lra|lra]]. apply Rplus_le_compat_r. apply exp_decr. unfold x1. apply Rle_trans with (2 := Rmax_r _ _). right. ring. }
        assert (E2 : exp (- (r * x)) - exp (- x2) <= 2 * d + 4 * (2 * (r * h))).
        { set (s := r * x) in *. assert (M : exp (- x2) >= exp (- s) * (1 - (s * d + 2 * (r * h)))).
          { replace (- x2) with (- s + - (s * d + 2 * (r * h))) by (unfold x2, s; ring). rewrite exp_plus. apply Rle_ge, Rmult_le_compat_l; [left; apply exp_pos|]. pose proof (exp_ge_1plus (- (s * d + 2 * (r * h)))). lra. }
          assert (K1 : s * exp (- s) <= 1). { apply Rle_trans with (2 := s_exp s SX). apply Rmult_le_compat_l; [exact SX|]. apply exp_decr. lra. } assert (K2 : exp (- s) <= 1) by (apply exp_le_1; exact SX). pose proof (exp_pos (- s)) as K3.
          assert (d * (s * exp (- s)) <= d * 1) by (apply Rmult_le_compat_l; lra). assert (2 * (r * h) * exp (- s) <= 2 * (r * h) * 1) by (apply Rmult_le_compat_l; lra). lra. }
        apply Rabs_le. lra.
  Qed.
  (** ... and a call returns with probability 1: the chance that n words do not suffice vanishes as n grows. *)
  Theorem C61_exponential_returns rate : accurate_exp math_exp -> draw_prob (Exponential_Next tape math_exp math_log rate) (fun _ => True) 1.
  Proof.
    intros AE. set (z := ze math_exp math_log). pose proof (ze_for math_exp math_log AE) as ZF. fold z in ZF. pose proof (miss_eq math_exp math_log AE) as ME. fold z in ME.
    assert (MP : miss (ins (fun _ => z)) tl (below (fun _ => z)) < 1).
    { pose proof (body_value math_exp math_log AE 16 ltac:(lra)) as B. fold z in B. pose proof (strip_bounds math_exp math_log) as SB. fold z in SB.
      assert (R16 : edge z 1023 <= 16) by (pose proof (zf_16 z _ ZF); pose proof (edge_le0 z _ ZF 1023 ltac:(lia)); lra). rewrite (Rmin_right 16) in B by exact R16. destruct (edge_pos z _ ZF 1023 ltac:(lia)) as [PR _].
      pose proof (outside_value math_exp math_log AE) as OV. fold z in OV. unfold expo_density in OV. pose proof (exp_le_1 (edge z 1023) ltac:(lra)) as E1. pose proof (exp_pos (- edge z 1023)) as E0.
      assert (C : 98 / 100 <= / (1024 * strip z)). { apply Rmult_le_reg_l with (1024 * strip z); [lra|]. rewrite Rinv_r by lra. lra. } unfold Rdiv in B, OV. apply Rabs_le_inv in B. apply Rabs_le_inv in OV. set (c := / (1024 * strip z)) in *. set (e := exp (- edge z 1023)) in *. clearbody c e. lra. }
    apply draw_prob_ext with (next := fun fuel ws => GenNext tape z fuel ws) (P := fun _ => True).
    - intros ws. unfold Exponential_Next. change (expoZig tape math_exp math_log) with z. split.
      + intros (fuel & f & ws' & E & _). exists fuel, (fdiv f rate), ws'. split; [now rewrite E|trivial].
      + intros (fuel & f & ws' & E & _). destruct (GenNext tape z fuel ws) as [[g wg]| |] eqn:Eg; cbn [bind] in E; try discriminate E. exists fuel, g, wg. split; [exact Eg|trivial].
    - replace 1 with ((hit (ins (fun _ => z)) tl (le (fun _ => z) (fun _ => true)) (below (fun _ => z)) + outside (fun _ => z)) / (1 - miss (ins (fun _ => z)) tl (below (fun _ => z)))).
      + apply (draw_limit (fun _ => z)); auto.
        * apply (tables_full z (zf_tables z _ ZF)).
        * intros _. repeat split.
        * apply is_lim_seq_ext with (fun _ => outside (fun _ => z)); [|apply is_lim_seq_const]. intros n. rewrite (tails_const math_exp math_log (fun _ => true)). fold z. rewrite (tail_unmirrored (fun _ => z) expo_density ZF eq_refl).
          unfold tp. cbn [ind]. rewrite mean53_const. ring.
      + rewrite ME. pose proof (hit_all math_exp math_log AE) as HA. fold z in HA.
        assert (E : hit (ins (fun _ => z)) tl (le (fun _ => z) (fun _ => true)) (below (fun _ => z)) = mean64 (fun u => if ins (fun _ => z) u then 1 else if tl u then 0 else frac (below (fun _ => z)) u)).
        { unfold hit. apply mean64_ext. intros u _. unfold le. cbn [ind]. destruct (ins _ u); [reflexivity|]. destruct (tl u); ring. }
        rewrite E, HA. unfold Rdiv. apply Rinv_r. lra.
  Qed.
End ExpoProp.

(** correctly rounded functions are accurate *)
Definition exact_exp (u : float64) : float64 := nearest_double (exp (B2R u)).
Lemma exact_exp_accurate : accurate_exp exact_exp.
Proof.
  intros u x [F <-] X. set (x := B2R u) in *. unfold exact_exp. fold x. assert (E1 : exp x <= 1) by (replace x with (- - x) by ring; apply exp_le_1; lra).
  assert (E0 : / 2 ^ 120 <= exp x).
  { apply Rle_trans with (exp (- (50))); [|replace x with (- - x) by ring; apply exp_decr; lra]. rewrite exp_Ropp. apply Rinv_le_contravar; [apply exp_pos|]. replace 50 with (INR 50 * 1) by (rewrite INR_IZR_INZ; simpl Z.of_nat; lra).
    rewrite exp_nat. apply Rle_trans with (3 ^ 50); [apply pow_incr; split; [left; apply exp_pos|exact exp_le_3]|]. lra. }
  pose proof (rel_rnd (exp x) ltac:(apply normal_range; exact E0)) as RR. unfold rel in RR. pose proof small53 as S3. pose proof (exp_pos x) as P.
  destruct (nearest_double_value (exp x)) as [FF V].
  - apply Rle_lt_trans with 4; [|apply Rlt_trans with (2 := fmax_big); lra]. apply Rabs_le. assert (/ 2 ^ 53 * exp x <= 1 * exp x) by (apply Rmult_le_compat_r; lra). lra.
  - split; [exact FF|]. rewrite V. apply Rle_trans with (/ 2 ^ 53 * exp x); [apply Rabs_le; lra|]. apply Rmult_le_compat_r; lra.
Qed.
(** the rate 3 and the median: about half of the draws are at most ln 2 / 3 *)
Example C61_nonvacuous : accurate_exp exact_exp /\ accurate_log exact_log /\ fvalue (of_int 3) 3 /\ exists p, draw_prob (Exponential_Next tape exact_exp exact_log (of_int 3)) (at_most (ln 2 / 3)) p /\ Rabs (p - 1 / 2) <= 2 / 10 ^ 11.
Proof.
  assert (V : fvalue (of_int 3) 3) by (split; [reflexivity|]; vm_compute; lra).
  split; [exact exact_exp_accurate|]. split; [exact exact_log_accurate|]. split; [exact V|].
  assert (L0 : 0 < ln 2) by (rewrite <- ln_1; apply ln_increasing; lra). assert (L1 : ln 2 <= 1) by (pose proof (ln_le_minus1 2 ltac:(lra)); lra).
  destruct (C61_exponential_distribution exact_exp exact_log (of_int 3) 3 (ln 2 / 3) exact_exp_accurate exact_log_accurate V ltac:(lra)) as (p & D & B).
  - apply Rle_trans with 1; [lra|]. apply pow_R1_Rle. lra.
  - exists p. split; [exact D|]. revert B. unfold exponential_cdf. destruct Rle_dec as [_|N]; [|exfalso; apply N; lra]. replace (3 * (ln 2 / 3)) with (ln 2) by field. rewrite exp_Ropp, exp_ln by lra. replace (1 - / 2) with (1 / 2) by field. trivial.
Qed.
End Compiler.
