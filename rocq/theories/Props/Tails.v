(** C59: the tails in terms of real logarithms; Rate, Mean and StdDev only scale and shift. *)
From Coq Require Import Reals Lia Lra Psatz ZifyN ZifyNat ZifyBool.
From Flocq Require Import Core BinarySingleNaN.
From Verif Require Import Model.Base Model.Rng Model.Util Model.Float Model.Distr Model.Ziggurat Model.ExpoTable Model.NormalTable Model.ExpoNormal.
From Verif Require Import Spec.Common Spec.Counting Spec.Floats Spec.Zig Spec.Tails.
From Verif Require Import Proofs.WordLemmas Proofs.FloatProofs Proofs.FusedProofs Proofs.RelError Proofs.ZigTables Props.Rng Props.Uniform Props.Zig Props.ExpoNormal.
Local Open Scope R_scope.

(** for every choice of the compiler which x*y + z to fuse (Model/Fused.v) *)
Section Compiler.
Context {fpc : compiler}.

Lemma inv53 : / IZR (2 ^ 53) = / 2 ^ 53 /\ 0 < / IZR (2 ^ 53).
Proof. split; [f_equal; cbn [Z.pow Z.pow_pos Pos.iter Z.mul Pos.mul]; lra|apply Rinv_0_lt_compat; now apply IZR_lt]. Qed.
(** an accurate logarithm satisfies the weaker conditions of C36 and C37 *)
Lemma accurate_bounded log : accurate_log log -> log_bounded log.
Proof.
  intros [L0 L1]. assert (U : 0 < / 2 ^ 52 <= 1 / 10 ^ 15) by lra. split; [split; [exact L0|]|].
  - intros u x V X. destruct (L1 u x V X) as [F H]. exists (B2R (log u)). split; [split; [exact F|reflexivity]|].
    assert (N : ln x < 0) by (rewrite <- ln_1; apply ln_increasing; lra). rewrite (Rabs_left (ln x)) in H by exact N. apply Rabs_le_inv in H. nra.
  - intros u x V X. destruct inv53 as [_ I]. destruct (L1 u x V) as [F H]; [lra|].
    assert (N : ln x < 0) by (rewrite <- ln_1; apply ln_increasing; lra). rewrite (Rabs_left (ln x)) in H by exact N. apply Rabs_le_inv in H.
    pose proof (ln_lower x (proj1 X)). nra.
Qed.
Section C59.
  Context {W : Type} (read : reader W) (math_exp math_log : float64 -> float64).
  Hypothesis (G : go_reader read).

  (** a uniform draw is 0 or between 2^-53 and 1 - 2^-53; what minus its logarithm is *)
  Lemma draw_log w u w' : accurate_log math_log -> Uniform0_1_Next read w = Ret (u, w') ->
    u = B754_zero false /\ fvalue u 0 /\ fneg (math_log u) = finf \/
    exists x, fvalue u x /\ 0 < x < 1 /\ is_finite (math_log u) = true /\ is_finite (fneg (math_log u)) = true /\
      rel (/ 2 ^ 52) (B2R (fneg (math_log u))) (- ln x) /\ / 2 ^ 53 <= - ln x <= 369 / 10.
  Proof.
    intros [L0 L1] U. destruct (uniform01_inv read w u w' G U) as (k & Hk & ->). destruct (scale_exact k Hk) as [V S]. pose proof (frac53 k Hk) as FB. destruct inv53 as [I1 I2].
    destruct (uniform_cases k Hk) as [[Z K0]|(x & Vx & B)].
    - left. rewrite Z. split; [reflexivity|]. split; [split; [reflexivity|cbn; lra]|]. now rewrite L0.
    - right. exists x. split; [exact Vx|]. split; [lra|]. destruct (L1 _ x Vx) as [F H]; [lra|]. split; [exact F|].
      unfold fneg. rewrite is_finite_Bopp, B2R_Bopp. split; [exact F|].
      assert (N : ln x < 0) by (rewrite <- ln_1; apply ln_increasing; lra). rewrite (Rabs_left (ln x)) in H by exact N. apply Rabs_le_inv in H.
      split; [unfold rel; lra|]. split; [|pose proof (ln_lower x (proj1 B)); lra].
      assert (X1 : x <= 1 - / 2 ^ 53).
      { destruct Vx as [_ <-]. destruct V as [_ ->]. assert (H1 : IZR (Z.of_N k) <= IZR (2 ^ 53) - 1) by (rewrite <- minus_IZR; apply IZR_le; lia).
        assert (P : 0 < IZR (2 ^ 53)) by now apply IZR_lt. rewrite <- I1. apply Rmult_le_reg_r with (IZR (2 ^ 53)); [exact P|].
        unfold Rdiv. rewrite Rmult_minus_distr_r, Rmult_assoc, Rinv_l by lra. lra. }
      pose proof (ln_le_minus1 x ltac:(lra)). lra.
  Qed.
  Lemma small53 : 0 < / 2 ^ 53 <= 12 / 10 ^ 17. Proof. lra. Qed.
  Lemma small52 : 0 < / 2 ^ 52 <= 23 / 10 ^ 17. Proof. lra. Qed.
  Lemma normal_range x : / 2 ^ 120 <= x -> bpow radix2 (-1022) <= x.
  Proof.
    intros H. apply Rle_trans with (2 := H). apply Rle_trans with (bpow radix2 (-120)); [apply bpow_le; lia|]. right.
    change (bpow radix2 (-120)) with (/ IZR (2 ^ 120)). f_equal. cbn [Z.pow Z.pow_pos Pos.iter Z.mul Pos.mul]. lra.
  Qed.
  Lemma fmax_big : 100 < fmax.
  Proof. apply Rlt_trans with (bpow radix2 7); [cbn; lra|apply bpow_emax_lt; lia]. Qed.

  (** One uniform draw u decides the exponential tail: R - ln u, up to 2e-14; +Inf for u = 0. *)
  Theorem C59_expo_tail w f w' : accurate_log math_log -> expoTail read math_log w = Ret (f, w') ->
    exponential_tail read (2 / 10 ^ 14) (B2R expoR) w f w'.
  Proof.
    intros L E. unfold expoTail in E. destruct (Uniform0_1_Next read w) as [[u w1]| |] eqn:U; cbn [bind] in E; try discriminate E.
    assert (f = fsub expoR (math_log u)) as -> by congruence. assert (w' = w1) as -> by congruence.
    destruct (draw_log w u w1 L U) as [(Z & V & _)|(x & V & X & F & _ & H & B)].
    - exists 0. split; [exists u; auto|]. split; [|lra]. intros _. rewrite Z, (proj1 L). apply B2SF_inj. reflexivity.
    - exists x. split; [exists u; auto|]. split; [lra|]. intros _. destruct expoR_value as (FR & _ & BR).
      unfold fneg in H. rewrite B2R_Bopp in H. set (l := B2R (math_log u)) in *. set (r := B2R expoR) in *. pose proof small52 as S2. pose proof small53 as S3.
      unfold rel in H. set (t := ln x) in *.
      assert (D : / 2 ^ 52 * - t <= 23 / 10 ^ 17 * (369 / 10)) by (apply Rmult_le_compat; lra).
      assert (D0 : 0 <= / 2 ^ 52 * - t) by (apply Rmult_le_pos; lra).
      assert (RB : 9 <= r - l <= 47) by lra.
      pose proof (rel_rnd (r - l) ltac:(apply normal_range; lra)) as RR. unfold rel in RR.
      assert (D1 : / 2 ^ 53 * (r - l) <= 12 / 10 ^ 17 * 47) by (apply Rmult_le_compat; lra).
      destruct (fsub_R expoR (math_log u) FR F) as [V1 F1].
      { fold r l. pose proof fmax_big. rewrite Rabs_pos_eq; lra. }
      exists (rnd (r - l)). split; [split; [exact F1|exact V1]|]. apply Rabs_le. lra.
  Qed.
  (** normalTail is Marsaglia's tail method; decisions within 2e-13, results within 1e-14. *)
  Theorem C59_normal_tail fuel : accurate_log math_log -> forall w f w', normalTail read math_log fuel w = Ret (f, w') ->
    marsaglia_tail read (2 / 10 ^ 13) (1 / 10 ^ 14) (B2R normalR) w f w'.
  Proof.
    intros L. induction fuel as [|fuel IH]; intros w f w' E; [discriminate E|]. pose proof E as E0. cbn [normalTail] in E.
    destruct (Uniform0_1_Next read w) as [[u w1]| |] eqn:U; cbn [bind] in E; try discriminate E.
    destruct (Uniform0_1_Next read w1) as [[v w2]| |] eqn:V; cbn [bind] in E; try discriminate E. cbv zeta in E.
    pose proof (accurate_bounded _ L) as LB. destruct normalR_value as (FR & _ & BR). set (r := B2R normalR) in *.
    destruct (draw_log w u w1 L U) as [(Zu & Vu & Iu)|(x & Vu & X & Fu & Fu' & Hu & Bu)].
    - assert (Du : uniform_draw read w 0 w1) by (exists u; auto).
      rewrite Zu in U. destruct (C37_tail_zero_attempt read math_exp math_log G fuel w w1 v w2 LB U V) as [T1 T2].
      destruct (draw_log w1 v w2 L V) as [(Zv & Vv & Iv)|(y & Vv & Y & _)].
      + specialize (T1 Zv). assert (f = finf /\ w' = w2) as [-> ->] by (split; congruence).
        apply tail_accept with 0 w1 0; [exact Du|exists v; auto|now left|reflexivity|lra].
      + assert (NZ : v <> B754_zero false) by (intros ->; destruct Vv as [_ Vv]; cbn in Vv; lra). specialize (T2 NZ).
        apply tail_reject with 0 w1 y w2; [exact Du|exists v; auto|lra|now left|]. apply IH. congruence.
    - assert (Du : uniform_draw read w x w1) by (exists u; auto). pose proof small52 as S2. pose proof small53 as S3.
      set (l := fneg (math_log u)) in *. set (lu := - ln x) in *. set (q := lu / r).
      assert (Ir : / 5 <= / r <= / 4) by (split; apply Rinv_le_contravar; lra).
      assert (Q : / 2 ^ 56 <= q <= 93 / 10).
      { unfold q, Rdiv. split.
        - apply Rle_trans with (/ 2 ^ 53 * / 5); [lra|apply Rmult_le_compat; lra].
        - apply Rle_trans with (369 / 10 * / 4); [apply Rmult_le_compat; lra|lra]. }
      assert (R1 : rel (/ 2 ^ 52) (B2R l / r) q) by (apply rel_scale; [lra|exact Hu]).
      assert (P1 : / 2 ^ 57 <= B2R l / r <= 10).
      { unfold rel in R1. assert (/ 2 ^ 52 * q <= / 4 * q) by (apply Rmult_le_compat_r; lra). lra. }
      pose proof (rel_rnd (B2R l / r) ltac:(apply normal_range; lra)) as R2.
      assert (R3 : rel (2 * / 2 ^ 52) (rnd (B2R l / r)) q).
      { apply rel_weaken with (/ 2 ^ 53 + / 2 ^ 52 + / 2 ^ 53 * / 2 ^ 52); [lra|lra|]. apply rel_trans with (B2R l / r); auto; lra. }
      assert (P3 : / 2 ^ 58 <= rnd (B2R l / r) <= 10).
      { unfold rel in R3. assert (2 * / 2 ^ 52 * q <= / 4 * q) by (apply Rmult_le_compat_r; lra).
        assert (2 * / 2 ^ 52 * q <= / 100 * q) by (apply Rmult_le_compat_r; lra). lra. }
      destruct (fdiv_R l normalR Fu') as (V1 & F1 & _); [fold r; lra|fold r; pose proof fmax_big; rewrite Rabs_pos_eq; lra|]. fold r in V1.
      set (xx := fdiv l normalR) in *. rewrite <- V1 in R3, P3. clear R2 P1 R1.
      (* the result *)
      assert (RES : near (1 / 10 ^ 14) (fadd xx normalR) (r - ln x / r)).
      { assert (D0 : 2 * / 2 ^ 52 * q <= 2 * (23 / 10 ^ 17) * (93 / 10)) by (apply Rmult_le_compat; lra).
        pose proof (rel_rnd (B2R xx + r) ltac:(apply normal_range; lra)) as RR. unfold rel in RR, R3.
        assert (D1 : / 2 ^ 53 * (B2R xx + r) <= 12 / 10 ^ 17 * 15) by (apply Rmult_le_compat; lra).
        assert (D2 : 0 <= 2 * / 2 ^ 52 * q) by (apply Rmult_le_pos; lra).
        destruct (fadd_R xx normalR F1 FR) as [V2 F2]; [fold r; pose proof fmax_big; rewrite Rabs_pos_eq; lra|]. fold r in V2.
        exists (rnd (B2R xx + r)). split; [split; [exact F2|exact V2]|]. replace (r - ln x / r) with (r + q) by (unfold q, lu; field; lra).
        apply Rabs_le. lra. }
      (* x * x *)
      assert (QQ : / 2 ^ 112 <= q * q <= 87).
      { split; [apply Rle_trans with (/ 2 ^ 56 * / 2 ^ 56); [lra|apply Rmult_le_compat; lra]|].
        apply Rle_trans with (93 / 10 * (93 / 10)); [apply Rmult_le_compat; lra|lra]. }
      assert (R4 : rel (5 * / 2 ^ 52) (rnd (B2R xx * B2R xx)) (q * q)).
      { assert (M : rel (2 * / 2 ^ 52 + 2 * / 2 ^ 52 + 2 * / 2 ^ 52 * (2 * / 2 ^ 52)) (B2R xx * B2R xx) (q * q)) by (apply rel_mult; auto; lra).
        assert (N : / 2 ^ 116 <= B2R xx * B2R xx) by (apply Rle_trans with (/ 2 ^ 58 * / 2 ^ 58); [lra|apply Rmult_le_compat; lra]).
        pose proof (rel_rnd _ ltac:(apply normal_range with (x := B2R xx * B2R xx); lra)) as RR.
        apply (fun a b c d e => rel_weaken _ (5 * / 2 ^ 52) _ _ d e (rel_trans _ _ _ _ _ a b c RR M)); lra. }
      assert (PX : 0 <= rnd (B2R xx * B2R xx) <= 99).
      { unfold rel in R4. assert (5 * / 2 ^ 52 * (q * q) <= / 100 * (q * q)) by (apply Rmult_le_compat_r; lra). lra. }
      destruct (fmul_R xx xx F1 F1) as (V4 & F4 & _); [pose proof fmax_big; rewrite Rabs_pos_eq; lra|]. rewrite <- V4 in R4, PX.
      replace ((ln x / r) ^ 2) with (q * q) in * by (unfold q, lu; field; lra).
      assert (EQQ : (ln x / r) ^ 2 = q * q) by (unfold q, lu; field; lra).
      destruct (draw_log w1 v w2 L V) as [(Zv & Vv & Iv)|(y & Vv & Y & _ & Fv' & Hv & Bv)].
      + rewrite Iv in E. replace (fadd finf finf) with finf in E by (apply B2SF_inj; vm_compute; reflexivity).
        unfold fge, finf in E. rewrite (fle_inf_r _ F4) in E. assert (f = fadd xx normalR /\ w' = w2) as [-> ->] by (split; congruence).
        apply tail_accept with x w1 0; [exact Du|exists v; auto|now left|lra|intros _; exact RES].
      + assert (Dv : uniform_draw read w1 y w2) by (exists v; auto). set (m := fneg (math_log v)) in *. set (ly := - ln y) in *.
        assert (R5 : rel (2 * / 2 ^ 52) (rnd (B2R m + B2R m)) (2 * ly)).
        { assert (M : rel (/ 2 ^ 52) (B2R m + B2R m) (2 * ly)) by (replace (B2R m + B2R m) with (B2R m * 2) by ring; rewrite (Rmult_comm 2); apply rel_scale; [lra|exact Hv]).
          assert (N : / 2 ^ 116 <= B2R m + B2R m) by (unfold rel in M; assert (/ 2 ^ 52 * (2 * ly) <= / 4 * (2 * ly)) by (apply Rmult_le_compat_r; lra); lra).
          pose proof (rel_rnd _ ltac:(apply normal_range with (x := B2R m + B2R m); lra)) as RR.
          apply (fun a b c d e => rel_weaken _ (2 * / 2 ^ 52) _ _ d e (rel_trans _ _ _ _ _ a b c RR M)); lra. }
        assert (PY : 0 <= rnd (B2R m + B2R m) <= 99).
        { unfold rel in R5. assert (2 * / 2 ^ 52 * (2 * ly) <= / 100 * (2 * ly)) by (apply Rmult_le_compat_r; lra). lra. }
        destruct (fadd_R m m Fv' Fv') as [V5 F5]; [pose proof fmax_big; rewrite Rabs_pos_eq; lra|]. rewrite <- V5 in R5, PY.
        unfold fge in E. rewrite fle_R in E by assumption. unfold rel in R4, R5.
        assert (D4 : 0 <= 5 * / 2 ^ 52 * (q * q) <= 5 * (23 / 10 ^ 17) * 87) by (split; [apply Rmult_le_pos|apply Rmult_le_compat]; lra).
        assert (D5 : 0 <= 2 * / 2 ^ 52 * (2 * ly) <= 2 * (23 / 10 ^ 17) * 74) by (split; [apply Rmult_le_pos|apply Rmult_le_compat]; lra).
        assert (E2 : - 2 * ln y = 2 * ly) by (unfold ly; lra).
        destruct (Rle_bool_spec (B2R (fmul xx xx)) (B2R (fadd m m))) as [C|C].
        * assert (f = fadd xx normalR /\ w' = w2) as [-> ->] by (split; congruence).
          apply tail_accept with x w1 y; [exact Du|exact Dv|right|lra|intros _; exact RES]. split; [lra|]. rewrite EQQ, E2. lra.
        * apply tail_reject with x w1 y w2; [exact Du|exact Dv|lra|right|exact (IH _ _ _ E)]. rewrite EQQ, E2. lra.
  Qed.
End C59.

(** ** Rate, Mean and StdDev *)
Lemma one_value : is_finite (of_int 1) = true /\ B2R (of_int 1) = 1 /\ Bsign (of_int 1) = false.
Proof. destruct (of_int_exact 1) as (V & F & S); [lia|]. auto. Qed.
Lemma fdiv_1 x : fdiv x (of_int 1) = x.
Proof.
  destruct one_value as (F1 & V1 & S1). destruct (is_finite x) eqn:F.
  - assert (Q : B2R x / B2R (of_int 1) = B2R x) by (rewrite V1; field).
    destruct (fdiv_R x (of_int 1) F) as (V & F' & S); [rewrite V1; lra|rewrite Q, rnd_id by apply representable_B2R; now apply representable_lt_fmax|].
    rewrite Q, rnd_id in V by apply representable_B2R. apply (B2R_Bsign_inj 53 1024); auto. rewrite S, S1. apply Bool.xorb_false_r.
  - destruct x as [s|s| |s m e H]; try discriminate F; apply B2SF_inj; destruct (of_int 1) as [s1|s1| |s1 m1 e1 H1]; cbn in F1, S1, V1; try discriminate; try lra; subst; try reflexivity; cbn; now rewrite Bool.xorb_false_r.
Qed.
Lemma fmul_1 x : fmul x (of_int 1) = x.
Proof.
  destruct one_value as (F1 & V1 & S1). destruct (is_finite x) eqn:F.
  - assert (Q : B2R x * B2R (of_int 1) = B2R x) by (rewrite V1; ring).
    destruct (fmul_R x (of_int 1) F F1) as (V & F' & S); [rewrite Q, rnd_id by apply representable_B2R; now apply representable_lt_fmax|].
    rewrite Q, rnd_id in V by apply representable_B2R. apply (B2R_Bsign_inj 53 1024); auto. rewrite S, S1. apply Bool.xorb_false_r.
  - destruct x as [s|s| |s m e H]; try discriminate F; apply B2SF_inj; destruct (of_int 1) as [s1|s1| |s1 m1 e1 H1]; cbn in F1, S1, V1; try discriminate; try lra; subst; try reflexivity; cbn; now rewrite Bool.xorb_false_r.
Qed.
Lemma B2R_zero (x : float64) : is_finite x = true -> B2R x = 0 -> exists s, x = B754_zero s.
Proof.
  destruct x as [s|s| |s m e H]; try discriminate; intros _ E; [eauto|]. exfalso. cbn in E. apply eq_0_F2R in E. destruct s; discriminate E.
Qed.
Lemma fadd_0 x : x <> B754_zero true -> fadd (B754_zero false) x = x.
Proof.
  intros NZ. destruct (is_finite x) eqn:F.
  - assert (Q : B2R (B754_zero false : float64) + B2R x = B2R x) by (cbn; ring).
    destruct (fadd_R (B754_zero false) x eq_refl F) as [V F']; [rewrite Q, rnd_id by apply representable_B2R; now apply representable_lt_fmax|].
    rewrite Q, rnd_id in V by apply representable_B2R.
    destruct (Rtotal_order (B2R x) 0) as [H|[H|H]].
    + apply (B2R_Bsign_inj 53 1024); auto. rewrite !sign_neg; auto. now rewrite V.
    + destruct (B2R_zero x F H) as ([] & ->); [now destruct NZ|reflexivity].
    + apply (B2R_Bsign_inj 53 1024); auto. rewrite !sign_pos; auto. now rewrite V.
  - destruct x as [s|s| |s m e H]; try discriminate F; reflexivity.
Qed.
Lemma ffma_1_0 x : x <> B754_zero true -> ffma x (of_int 1) (B754_zero false) = x.
Proof.
  intros NZ. destruct one_value as (F1 & V1 & S1). destruct (is_finite x) eqn:F.
  - assert (Q : B2R x * B2R (of_int 1) + B2R (B754_zero false : float64) = B2R x) by (rewrite V1; cbn; ring).
    destruct (ffma_R x (of_int 1) (B754_zero false) F F1 eq_refl) as [V F']; [rewrite Q, rnd_id by apply representable_B2R; now apply representable_lt_fmax|].
    rewrite Q, rnd_id in V by apply representable_B2R.
    destruct (Rtotal_order (B2R x) 0) as [H|[H|H]].
    + apply (B2R_Bsign_inj 53 1024); auto. rewrite !sign_neg; auto. now rewrite V.
    + destruct (B2R_zero x F H) as ([] & ->); [now destruct NZ|]. apply B2SF_inj. vm_compute. reflexivity.
    + apply (B2R_Bsign_inj 53 1024); auto. rewrite !sign_pos; auto. now rewrite V.
  - destruct x as [s|s| |s m e H]; try discriminate F; apply B2SF_inj; [destruct s|]; vm_compute; reflexivity.
Qed.
Lemma add_mul_0_1 i x : x <> B754_zero true -> add_mul i (B754_zero false) x (of_int 1) = x.
Proof. intros NZ. unfold add_mul. destruct (fuses i); [now apply ffma_1_0|]. now rewrite fmul_1, fadd_0. Qed.
Section Scale.
  Context {W : Type} (read : reader W) (math_exp math_log : float64 -> float64).
  (** For every source state, Exponential{Rate: r}.Next is Exponential{Rate: 1}.Next divided by r (one rounding), with the
      same final state of the source; a run that panics or does not return does so for every rate. *)
  Theorem C59_exponential_rate rate fuel w : Exponential_Next read math_exp math_log rate fuel w =
    match Exponential_Next read math_exp math_log (of_int 1) fuel w with
    | Ret (x, w') => Ret (fdiv x rate, w')
    | Panic => Panic
    | OutOfFuel => OutOfFuel
    end.
  Proof. unfold Exponential_Next. destruct (GenNext _ _ fuel w) as [[x w']| |]; cbn [bind]; [now rewrite fdiv_1|reflexivity|reflexivity]. Qed.
  (** ... so the real result is x/r correctly rounded, unless that overflows. *)
  Theorem C59_exponential_value rate r fuel w x v w' : fvalue rate r -> r <> 0 -> Exponential_Next read math_exp math_log (of_int 1) fuel w = Ret (x, w') ->
    fvalue x v -> Rabs (rnd (v / r)) < fmax -> exists f, Exponential_Next read math_exp math_log rate fuel w = Ret (f, w') /\ fvalue f (rnd (v / r)).
  Proof.
    intros [_ <-] NZ E [Fx <-] B. rewrite C59_exponential_rate, E. eexists. split; [reflexivity|].
    destruct (fdiv_R x rate Fx NZ B) as (V & F & _). now split.
  Qed.
  Hypothesis (G : go_reader read).
  Lemma point_not_negzero {W'} (z : Ziggurat W') u : ziggurat_tables z -> edge z 0 <= 16 -> (u < 2 ^ 64)%N -> point z u <> B754_zero true.
  Proof.
    intros T E16 Hu H. destruct (point_finite z u T E16 Hu) as (_ & S & _). rewrite H in S. cbn in S. symmetry in S. apply Z.ltb_lt in S.
    destruct (layer_bits u Hu) as (_ & L & _). destruct (tables_finite z T (layer u) L) as (FW & _ & PE & _).
    assert (A : B2R (point z u) = 0) by (rewrite H; reflexivity). unfold point in A. destruct (C33_abscissa_exact z u) as [Fj Vj]. pose proof (abscissa_range (zMirrored z) u) as R.
    set (j := abscissa (zMirrored z) u) in *. set (wi := tW z (layer u)) in *. assert (P53 : 0 < IZR (2 ^ 53)) by now apply IZR_lt.
    assert (Pw : 0 < B2R wi). { unfold edge in PE. fold wi in PE. apply Rmult_lt_reg_l with (IZR (2 ^ 53)); [exact P53|]. now rewrite Rmult_0_r. }
    assert (Hj : IZR j <= -1) by (apply IZR_le; lia).
    (* |j * W| is at least W, which is representable: no underflow to zero *)
    assert (RJ : rnd (IZR j * B2R wi) <= - B2R wi).
    { apply rnd_le_rep; [apply representable_opp, representable_B2R|]. nra. }
    assert (B : Rabs (rnd (IZR j * B2R wi)) < fmax).
    { destruct (point_finite z u T E16 Hu) as (F' & _ & _). destruct (Rlt_or_le (Rabs (rnd (IZR j * B2R wi))) fmax) as [Hl|Hl]; [exact Hl|].
      unfold point in F'. fold j wi in F'. rewrite fmul_overflow in F'; [discriminate F'|exact Fj|exact FW|]. now rewrite Vj. }
    destruct (fmul_R (of_int j) wi Fj FW) as (V & _ & _); [now rewrite Vj|]. rewrite V, Vj in A. lra.
  Qed.
  Notation zig_n := (normalZig read math_exp math_log).
  Lemma normal_edge0 tf : edge (zig_n tf) 0 <= 16.
  Proof.
    destruct (edge_value (zig_n tf) _ _ _ 1 eq_refl normal_table_ok _ _ eq_refl eq_refl 0) as (_ & -> & _); [lia|].
    assert (E : (nz (map (scale 112) normalW_bin) 0 <= 2 ^ 63)%Z) by (vm_compute; discriminate). apply IZR_le in E.
    assert (P : 0 < IZR (2 ^ 59)) by now apply IZR_lt. apply Rmult_le_reg_r with (IZR (2 ^ 59)); [exact P|].
    unfold Rdiv. rewrite Rmult_assoc, Rinv_l, Rmult_1_r by lra. change (IZR (2 ^ 63)) with (IZR (16 * 2 ^ 59)) in E. rewrite mult_IZR in E. exact E.
  Qed.
  Lemma normal_not_negzero tf n u w x w' : log_like math_log -> zig read (zig_n tf) n u w x w' -> x <> B754_zero true.
  Proof.
    intros L H. induction H as [w u w1 Eu Hi|w u w1 y w2 Eu Hi Hl Ey Eb|w u w1 x w2 Eu Hi Hl Et|w u w1 y w2 n u' x w' Eu Hi Hl Ey Eb H IH].
    - apply point_not_negzero; [apply C35_normal_tables|apply normal_edge0|exact (draw_w read G _ _ _ Eu)].
    - apply point_not_negzero; [apply C35_normal_tables|apply normal_edge0|exact (draw_w read G _ _ _ Eu)].
    - cbn [zTail normalZig] in Et. apply (C37_tail_beyond_R read math_log G tf L) in Et.
      assert (N : forall s, x <> B754_zero s). { intros s ->. revert Et. destruct s; vm_compute; discriminate. }
      destruct (_ <? 0)%Z; [|apply N]. intros E. apply (N false). rewrite <- (fneg_invol x), E. reflexivity.
    - exact IH.
  Qed.
  (** For every source state, Normal{Mean: m, StdDev: s}.Next is m + x*s (two roundings, or one
      if the compiler fuses the expression) with x = Normal{0, 1}.Next. *)
  Theorem C59_normal_mean_stddev mean sd tf fuel w : log_like math_log -> Normal_Next read math_exp math_log mean sd tf fuel w =
    match Normal_Next read math_exp math_log (B754_zero false) (of_int 1) tf fuel w with
    | Ret (x, w') => Ret (if fuses NormalSite then ffma x sd mean else fadd mean (fmul x sd), w')
    | Panic => Panic
    | OutOfFuel => OutOfFuel
    end.
  Proof.
    intros L. unfold Normal_Next. destruct (GenNext read (zig_n tf) fuel w) as [[x w']| |] eqn:E; cbn [bind]; [|reflexivity|reflexivity].
    apply (C33_gennext_is_ziggurat read (zig_n tf) G (tables_full _ (C35_normal_tables _ _ _ _))) in E. destruct E as (n & u & _ & H).
    rewrite add_mul_0_1; [reflexivity|]. exact (normal_not_negzero tf n u w x w' L H).
  Qed.
  Theorem C59_normal_value mean m sd s tf fuel w x v w' : log_like math_log -> fvalue mean m -> fvalue sd s ->
    Normal_Next read math_exp math_log (B754_zero false) (of_int 1) tf fuel w = Ret (x, w') -> fvalue x v ->
    let r := if fuses NormalSite then rnd (m + v * s) else rnd (m + rnd (v * s)) in
    (fuses NormalSite = false -> Rabs (rnd (v * s)) < fmax) -> Rabs r < fmax ->
    exists f, Normal_Next read math_exp math_log mean sd tf fuel w = Ret (f, w') /\ fvalue f r.
  Proof.
    intros L [Fm <-] [Fs <-] E [Fx <-] r B1 B2. rewrite C59_normal_mean_stddev, E by exact L. eexists. split; [reflexivity|].
    unfold r in *. clear r. destruct (fuses NormalSite).
    { rewrite Rplus_comm in B2 |- *. destruct (ffma_R x sd mean Fx Fs Fm B2). now split. }
    specialize (B1 eq_refl). destruct (fmul_R x sd Fx Fs B1) as (V1 & F1 & _). destruct (fadd_R mean (fmul x sd) Fm F1) as [V2 F2]; [now rewrite V1|]. rewrite V1 in V2. now split.
  Qed.
End Scale.

(** ** The assumption on math.Log can be met: the correctly rounded logarithm *)
Definition nearest_double (y : R) : float64 :=
  let r := rnd y in mkfloat false (Ztrunc (scaled_mantissa radix2 (FLT_exp (-1074) 53) r)) (cexp radix2 (FLT_exp (-1074) 53) r).
Lemma nearest_double_value y : Rabs (rnd y) < fmax -> fvalue (nearest_double y) (rnd y).
Proof.
  intros B. unfold nearest_double. cbv zeta. set (r := rnd y) in *. set (e := cexp radix2 (FLT_exp (-1074) 53) r). set (m := Ztrunc (scaled_mantissa radix2 (FLT_exp (-1074) 53) r)).
  assert (Gr : representable r) by (apply generic_format_round; [exact valid_exp64|apply valid_rnd_N]).
  assert (E : r = IZR m * bpow radix2 e) by exact Gr.
  destruct (Req_dec r 0) as [Z|NZ].
  { assert (m = 0%Z) as -> by (unfold m; rewrite Z; unfold scaled_mantissa; rewrite Rmult_0_l; apply Ztrunc_IZR). rewrite Z. split; reflexivity. }
  assert (He : (-1074 <= e <= 971 /\ mag radix2 r - 53 <= e)%Z).
  { unfold e, cexp, FLT_exp. pose proof (mag_le_bpow radix2 r 1024 NZ B). lia. }
  assert (Hm : (Z.abs m < 2 ^ 53)%Z).
  { apply lt_IZR. rewrite abs_IZR. apply Rmult_lt_reg_r with (bpow radix2 e); [apply bpow_gt_0|].
    rewrite <- (Rabs_pos_eq (bpow radix2 e)) at 1 by apply bpow_ge_0. rewrite <- Rabs_mult, <- E.
    change (IZR (2 ^ 53)) with (bpow radix2 53). rewrite <- bpow_plus. apply Rlt_le_trans with (bpow radix2 (mag radix2 r)); [apply bpow_mag_gt|apply bpow_le; lia]. }
  destruct (mkfloat_exact false m e Hm) as (V & F & _); [lia|]. split; [exact F|]. now rewrite V.
Qed.
Definition exact_log (u : float64) : float64 := match u with B754_zero _ => fninf | _ => nearest_double (ln (B2R u)) end.
Lemma double_below_1 (u : float64) x : fvalue u x -> 0 < x < 1 -> bpow radix2 (-1074) <= x <= 1 - / 2 ^ 53.
Proof.
  intros [F <-] X. split.
  - rewrite <- (Rabs_pos_eq (B2R u)) by lra. apply (abs_B2R_ge_emin 53 1024 u). destruct u as [s|s| |s m e H]; try discriminate F; [cbn in X; lra|reflexivity].
  - pose proof (representable_B2R u) as Gx. set (x := B2R u) in *. destruct (Rle_or_lt x (1 / 2)) as [H|H]; [lra|].
    assert (Ec : cexp radix2 (FLT_exp (-1074) 53) x = (-53)%Z).
    { unfold cexp. rewrite (mag_unique radix2 x 0); [reflexivity|]. rewrite Rabs_pos_eq by lra. cbn. lra. }
    assert (E : x = IZR (Ztrunc (scaled_mantissa radix2 (FLT_exp (-1074) 53) x)) * bpow radix2 (-53)) by (rewrite <- Ec; exact Gx).
    set (m := Ztrunc _) in E. change (bpow radix2 (-53)) with (/ IZR (2 ^ 53)) in E. destruct inv53 as [I1 I2]. assert (P : 0 < IZR (2 ^ 53)) by now apply IZR_lt.
    assert (M : (m < 2 ^ 53)%Z). { apply lt_IZR. apply Rmult_lt_reg_r with (/ IZR (2 ^ 53)); [exact I2|]. rewrite <- E, Rinv_r by lra. lra. }
    assert (M2 : IZR m <= IZR (2 ^ 53) - 1) by (rewrite <- minus_IZR; apply IZR_le; lia).
    rewrite E, <- I1. apply Rle_trans with ((IZR (2 ^ 53) - 1) * / IZR (2 ^ 53)); [apply Rmult_le_compat_r; lra|]. rewrite Rmult_minus_distr_r, Rinv_r by lra. lra.
Qed.
Lemma exact_log_accurate : accurate_log exact_log.
Proof.
  split; [reflexivity|]. intros u x V X. destruct (double_below_1 u x V X) as [B1 B2].
  assert (E : exact_log u = nearest_double (ln x)). { destruct V as [F <-]. destruct u; try reflexivity. cbn in X. lra. }
  assert (N1 : ln x <= - / 2 ^ 53) by (pose proof (ln_le_minus1 x ltac:(lra)); lra).
  assert (N2 : - 1074 <= ln x).
  { assert (K : exp (- 1074) <= x).
    { apply Rle_trans with (2 := B1). replace (- 1074) with (- (1074)) by lra. rewrite exp_Ropp. change (bpow radix2 (-1074)) with (/ IZR (2 ^ 1074)).
      apply Rinv_le_contravar; [now apply IZR_lt|]. set (n := Z.to_nat 1074). replace 1074 with (INR n * 1) by (rewrite INR_IZR_INZ; unfold n; rewrite Z2Nat.id by lia; lra).
      rewrite exp_nat. replace (IZR (2 ^ 1074)) with (2 ^ n) by (rewrite pow_IZR; f_equal). apply pow_incr. pose proof (exp_ge_1plus 1). lra. }
    destruct K as [K|K]; [left; rewrite <- (ln_exp (- 1074)); apply ln_increasing; [apply exp_pos|exact K]|right; now rewrite <- K, ln_exp]. }
  pose proof small53 as S3. pose proof (rel_rnd (- ln x) ltac:(apply normal_range; lra)) as RR. rewrite rnd_opp in RR. unfold rel in RR.
  assert (D : / 2 ^ 53 * - ln x <= / 2 ^ 52 * - ln x) by (apply Rmult_le_compat_r; lra).
  assert (D2 : / 2 ^ 53 * - ln x <= 1 * - ln x) by (apply Rmult_le_compat_r; lra).
  rewrite E. destruct (nearest_double_value (ln x)) as [F VV].
  - apply Rle_lt_trans with 4096; [apply Rabs_le; lra|]. apply Rle_lt_trans with (bpow radix2 12); [cbn; lra|apply bpow_emax_lt; lia].
  - split; [exact F|]. rewrite VV, (Rabs_left (ln x)) by lra. apply Rabs_le. lra.
Qed.
(** with it, and the uniforms 1/2, resp. 1/2 and 0, the tails return finite values *)
Example C59_nonvacuous : accurate_log exact_log /\ go_reader tape /\
  (exists f, expoTail tape exact_log [2 ^ 52]%N = Ret (f, [])) /\ (exists f, normalTail tape exact_log 1 [2 ^ 52; 0]%N = Ret (f, [])).
Proof.
  split; [exact exact_log_accurate|]. split; [exact tape_go|]. split.
  - eexists. unfold expoTail. rewrite tape_uniform by reflexivity. cbn [bind]. reflexivity.
  - cbn [normalTail]. rewrite tape_uniform by reflexivity. cbn [bind]. rewrite tape_uniform by reflexivity. cbn [bind]. cbv zeta. rewrite uniform_zero. cbn [exact_log].
    set (u := fmul (of_int _) lit_scale). assert (Vu : fvalue u (1 / 2)).
    { unfold u. destruct (scale_exact (2 ^ 52) eq_refl) as [[F V] _]. change (2 ^ 52 mod 2 ^ 53)%N with (2 ^ 52)%N. split; [exact F|]. rewrite V.
      change (IZR (Z.of_N (2 ^ 52))) with 4503599627370496. change (IZR (2 ^ 53)) with 9007199254740992. lra. }
    destruct (proj2 exact_log_accurate u _ Vu) as [F H]; [lra|]. set (l := exact_log u) in *.
    assert (P : 0 <= B2R (fneg l)).
    { unfold fneg. rewrite B2R_Bopp. assert (N : ln (1 / 2) < 0) by (rewrite <- ln_1; apply ln_increasing; lra). rewrite (Rabs_left (ln (1 / 2))) in H by exact N.
      apply Rabs_le_inv in H. pose proof small52. assert (/ 2 ^ 52 * - ln (1 / 2) <= 1 * - ln (1 / 2)) by (apply Rmult_le_compat_r; lra). lra. }
    destruct (div_R_range (fneg l)) as [D|[FD PD]].
    + right. split; [unfold fneg; now rewrite is_finite_Bopp|exact P].
    + rewrite D. eexists. vm_compute (fge _ _). reflexivity.
    + set (x := fdiv (fneg l) normalR) in *. assert (A : fge (fadd (fneg fninf) (fneg fninf)) (fmul x x) = true).
      { replace (fadd (fneg fninf) (fneg fninf)) with finf by (apply B2SF_inj; vm_compute; reflexivity). unfold fge.
        destruct (Rlt_or_le (Rabs (rnd (B2R x * B2R x))) fmax) as [Hl|Hl].
        - destruct (fmul_R x x FD FD Hl) as (_ & F2 & _). now apply fle_inf_r.
        - rewrite fmul_overflow by assumption. rewrite Bool.xorb_nilpotent. reflexivity. }
      rewrite A. eexists. reflexivity.
Qed.
End Compiler.
