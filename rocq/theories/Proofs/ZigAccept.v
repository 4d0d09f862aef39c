(** The acceptance test of a wedge: which fraction of the second uniforms passes. *)
From Coq Require Import Reals Lia Lra Psatz ZifyN.
From Flocq Require Import Core BinarySingleNaN.
From Verif Require Import Model.Base Model.Float Model.Distr Spec.Floats.
From Verif Require Import Proofs.FloatProofs Proofs.FusedProofs Proofs.RelError Proofs.SumN Proofs.Riemann Props.Uniform Props.Tails.
Local Open Scope R_scope.

(** for every choice of the compiler which x*y + z to fuse (Model/Fused.v) *)
Section Compiler.
Context {fpc : compiler}.

Definition unif (k : N) : float64 := fmul (of_int (Z.of_N k)) lit_scale.
Definition M53 : N := 2 ^ 53.
Lemma M53_eq : M53 = (2 ^ 53)%N. Proof. reflexivity. Qed.
Lemma NR_M53 : NR M53 = IZR (2 ^ 53). Proof. reflexivity. Qed.
Global Opaque M53.
Lemma P53 : 0 < IZR (2 ^ 53). Proof. now apply IZR_lt. Qed.

Section Accept.
  Variables (Fi Fp P : float64) (fi fp p : R).
  Hypothesis (Vi : fvalue Fi fi) (Vp : fvalue Fp fp) (VP : fvalue P p).
  Hypothesis (Hfi : / 2 ^ 20 <= fi) (Hg : / 2 ^ 20 <= fp - fi) (Hfp : fp <= 1).
  Notation eps := (/ 2 ^ 53).
  Lemma below_1 x : Rabs x <= 4 -> Rabs (rnd x) < fmax.
  Proof.
    intros H. apply Rle_lt_trans with 4; [|apply Rle_lt_trans with (bpow radix2 2); [cbn; lra|apply bpow_emax_lt; lia]].
    apply rnd_abs_le; [|exact H]. replace 4 with (IZR 1 * bpow radix2 2) by (cbn; lra). apply representable_int; lia.
  Qed.
  Lemma height_at k : (k < M53)%N -> exists s, fvalue (add_mul WedgeSite Fi (unif k) (fsub Fp Fi)) s /\
    Rabs (s - (fi + NR k / IZR (2 ^ 53) * (fp - fi))) <= 4 * eps * fp.
  Proof.
    intros Hk. destruct Vi as [FI EI]. destruct Vp as [FP EP]. set (g := fp - fi) in *. pose proof small53 as S3.
    destruct (fsub_R Fp Fi FP FI) as [ED FD]. { rewrite EI, EP. apply below_1. fold g. apply Rabs_le. unfold g in *. lra. }
    rewrite EI, EP in ED. fold g in ED. set (D := fsub Fp Fi) in *.
    assert (T20 : / 2 ^ 120 <= / 2 ^ 20) by lra.
    pose proof (rel_rnd g ltac:(apply normal_range; lra)) as RD. rewrite <- ED in RD. unfold rel in RD.
    assert (G1 : g <= 1) by (unfold g; lra). assert (EG : eps * g <= eps * 1) by (apply Rmult_le_compat_l; lra).
    rewrite M53_eq in Hk. destruct (scale_exact k Hk) as [[FY EY] _]. fold (unif k) in FY, EY. set (y := NR k / IZR (2 ^ 53)) in *.
    assert (Y0 : 0 <= y <= 1).
    { unfold y. pose proof P53. pose proof (NR_pos k). split; [apply Rmult_le_pos; [lra|left; now apply Rinv_0_lt_compat]|].
      apply Rmult_le_reg_r with (IZR (2 ^ 53)); [lra|]. unfold Rdiv. rewrite Rmult_assoc, Rinv_l, Rmult_1_r, Rmult_1_l by lra. apply IZR_le. lia. }
    assert (YD : 0 <= y * B2R D <= B2R D). { split; [apply Rmult_le_pos; lra|]. rewrite <- (Rmult_1_l (B2R D)) at 2. apply Rmult_le_compat_r; lra. }
    unfold add_mul. destruct (fuses WedgeSite).
    { destruct (ffma_R (unif k) D Fi FY FD FI) as [ES FS]. { rewrite EY, EI. apply below_1. apply Rabs_le. unfold g in *. lra. }
      rewrite EY, EI in ES. pose proof (rel_rnd (y * B2R D + fi) ltac:(apply normal_range; lra)) as RS. rewrite <- ES in RS. unfold rel in RS.
      exists (B2R (ffma (unif k) D Fi)). split; [now split|].
      assert (YY : Rabs (y * B2R D - y * g) <= eps * g).
      { rewrite <- Rmult_minus_distr_l, Rabs_mult, (Rabs_pos_eq y) by lra. apply Rle_trans with (1 * Rabs (B2R D - g)); [apply Rmult_le_compat_r; [apply Rabs_pos|lra]|]. rewrite Rmult_1_l. apply Rabs_le. lra. }
      apply Rabs_le_inv in YY. assert (GP : eps * g <= eps * fp) by (apply Rmult_le_compat_l; unfold g; lra).
      assert (FG : fi + g = fp) by (unfold g; ring).
      assert (SM : eps * (y * B2R D + fi) <= eps * (2 * fp)) by (apply Rmult_le_compat_l; unfold g in *; lra).
      apply Rabs_le. split; lra. }
    destruct (fmul_R (unif k) D FY FD) as (EM & FM & _). { rewrite EY. apply below_1. apply Rabs_le. lra. }
    rewrite EY in EM. set (M := fmul (unif k) D) in *.
    assert (RM : rel eps (B2R M) (y * B2R D)).
    { rewrite EM. destruct (N.eq_dec k 0) as [->|K0].
      - unfold y. change (NR 0) with 0. unfold Rdiv. rewrite !Rmult_0_l, rnd_0. unfold rel. lra.
      - apply rel_rnd, normal_range. assert (Y1 : / 2 ^ 53 <= y).
        { unfold y. unfold Rdiv. rewrite <- (proj1 inv53). rewrite <- (Rmult_1_l (/ IZR (2 ^ 53))) at 1. apply Rmult_le_compat_r; [apply Rlt_le, inv53|]. apply IZR_le. lia. }
        assert (D1 : / 2 ^ 21 <= B2R D) by lra. apply Rle_trans with (/ 2 ^ 53 * / 2 ^ 21); [lra|]. apply Rmult_le_compat; lra. }
    unfold rel in RM.
    assert (EYD : eps * (y * B2R D) <= eps * B2R D) by (apply Rmult_le_compat_l; lra).
    assert (ED2 : eps * B2R D <= eps * (g + eps * g)) by (apply Rmult_le_compat_l; lra).
    assert (EEG : eps * (eps * g) <= eps * g) by (apply Rmult_le_compat_l; lra).
    assert (EGG : eps * (eps * g) <= / 10 * (eps * g)) by (apply Rmult_le_compat_r; [apply Rmult_le_pos; lra|lra]).
    assert (YY : Rabs (y * B2R D - y * g) <= eps * g).
    { rewrite <- Rmult_minus_distr_l, Rabs_mult, (Rabs_pos_eq y) by lra. apply Rle_trans with (1 * Rabs (B2R D - g)); [apply Rmult_le_compat_r; [apply Rabs_pos|lra]|]. rewrite Rmult_1_l. apply Rabs_le. lra. }
    apply Rabs_le_inv in YY.
    assert (GP : eps * g <= eps * fp) by (apply Rmult_le_compat_l; unfold g; lra).
    assert (YG : y * g <= g) by (rewrite <- (Rmult_1_l g) at 2; apply Rmult_le_compat_r; lra).
    assert (M0 : 0 <= B2R M). { assert (eps * (y * B2R D) <= 1 * (y * B2R D)) by (apply Rmult_le_compat_r; lra). lra. }
    destruct (fadd_R Fi M FI FM) as [ES FS]. { rewrite EI. apply below_1. apply Rabs_le. unfold g in *. lra. }
    rewrite EI in ES. pose proof (rel_rnd (fi + B2R M) ltac:(apply normal_range; lra)) as RS. rewrite <- ES in RS. unfold rel in RS.
    assert (FG : fi + g = fp) by (unfold g; ring). exists (B2R (fadd Fi M)). split; [now split|].
    assert (SM : eps * (fi + B2R M) <= eps * (fi + (g + 3 * (eps * g)))) by (apply Rmult_le_compat_l; lra).
    assert (SM2 : eps * (fi + (g + 3 * (eps * g))) = eps * fp + 3 * (eps * (eps * g))) by (unfold g; ring).
    apply Rabs_le. split; lra.
  Qed.
  Definition acc (k : N) : bool := flt (add_mul WedgeSite Fi (unif k) (fsub Fp Fi)) P.
  Lemma accept_count : Rabs (sumN (fun k => ind (acc k)) M53 / IZR (2 ^ 53) - clamp 1 ((p - fi) / (fp - fi))) <= 4 * eps * fp / (fp - fi) + eps.
  Proof.
    set (g := fp - fi) in *. pose proof P53 as PP. assert (G0 : 0 < g) by lra. set (e := 4 * eps * fp).
    assert (E0 : 0 <= e) by (unfold e; pose proof small53; apply Rmult_le_pos; unfold g in *; lra).
    assert (IG : 0 < / g) by now apply Rinv_0_lt_compat.
    assert (L : Rmin (NR M53) (IZR (2 ^ 53) * ((p - fi - e) / g)) <= sumN (fun k => ind (acc k)) M53).
    { apply sumN_count_low. intros k Hk Hlo. destruct (height_at k Hk) as (s & [FS ES] & B). fold g e in B. destruct VP as [FP EP]. unfold acc. rewrite flt_R by assumption. rewrite ES, EP. apply Rlt_bool_true.
      apply Rabs_le_inv in B. assert (Q : NR k / IZR (2 ^ 53) < (p - fi - e) / g).
      { apply Rmult_lt_reg_l with (IZR (2 ^ 53)); [exact PP|]. replace (IZR (2 ^ 53) * (NR k / IZR (2 ^ 53))) with (NR k) by (field; lra). exact Hlo. }
      apply (Rmult_lt_compat_r g) in Q; [|exact G0]. unfold Rdiv in Q at 2. rewrite Rmult_assoc, Rinv_l, Rmult_1_r in Q by lra. lra. }
    assert (U : sumN (fun k => ind (acc k)) M53 <= Rmax 0 (Rmin (NR M53) (IZR (2 ^ 53) * ((p - fi + e) / g) + 1))).
    { apply sumN_count_high. intros k Hk Hb. destruct (height_at k Hk) as (s & [FS ES] & B). fold g e in B. destruct VP as [FP EP]. unfold acc in Hb. rewrite flt_R in Hb by assumption. rewrite ES, EP in Hb.
      assert (SP : s < p) by (revert Hb; case Rlt_bool_spec; [auto|discriminate]). apply Rabs_le_inv in B.
      assert (Q : NR k / IZR (2 ^ 53) <= (p - fi + e) / g).
      { apply Rmult_le_reg_r with g; [exact G0|]. unfold Rdiv at 2. rewrite Rmult_assoc, Rinv_l, Rmult_1_r by lra. lra. }
      apply (Rmult_le_compat_l (IZR (2 ^ 53))) in Q; [|lra]. replace (IZR (2 ^ 53) * (NR k / IZR (2 ^ 53))) with (NR k) in Q by (field; lra). exact Q. }
    rewrite NR_M53 in L, U. set (S := sumN _ M53) in *. set (q := (p - fi) / g).
    replace ((p - fi - e) / g) with (q - e / g) in L by (unfold q; field; lra). replace ((p - fi + e) / g) with (q + e / g) in U by (unfold q; field; lra).
    assert (EG : 0 <= e / g) by (apply Rmult_le_pos; lra).
    assert (S0 : 0 <= S) by (unfold S; apply sumN_nonneg; intros; apply ind_range).
    pose proof (proj1 inv53) as I1. assert (SE : S = IZR (2 ^ 53) * (S / IZR (2 ^ 53))) by (field; lra). set (t := S / IZR (2 ^ 53)) in *.
    rewrite SE in L, U, S0. rewrite <- I1. set (T := IZR (2 ^ 53)) in *. clearbody t T S q. clear SE I1.
    assert (L' : Rmin 1 (q - e / g) <= t). { apply Rmult_le_reg_l with T; [exact PP|]. rewrite Rmult_min_distr_l, Rmult_1_r by lra. exact L. }
    assert (U' : t <= Rmax 0 (Rmin 1 (q + e / g + / T))).
    { apply Rmult_le_reg_l with T; [exact PP|]. apply Rle_trans with (1 := U). right. rewrite <- RmaxRmult, Rmult_0_r by lra. f_equal. rewrite Rmult_min_distr_l, Rmult_1_r by lra. f_equal. field. lra. }
    assert (T0 : 0 <= t) by (apply Rmult_le_reg_l with T; [exact PP|lra]). pose proof (Rinv_0_lt_compat T PP) as IT.
    change (4 * eps * fp / g) with (e / g). set (d := e / g) in *. clearbody d. clear - L' U' T0 EG IT. unfold clamp. apply Rabs_le. revert L' U'. unfold Rmin, Rmax. repeat destruct Rle_dec; intros; lra.
  Qed.
End Accept.
End Compiler.
