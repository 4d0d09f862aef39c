(** C88, continued: the mean of Uniform{Low, High}. *)
From Coq Require Import Reals Lia Lra Psatz Bool ZifyN ZifyNat.
From Coquelicot Require Import Coquelicot.
From Flocq Require Import Core BinarySingleNaN.
From Verif Require Import Model.Base Model.Rng Model.Float Model.Distr Spec.Common Spec.Counting Spec.Floats Spec.Zig Spec.Prob Spec.Words Spec.UniformDist.
From Verif Require Import Proofs.WordLemmas Proofs.ReadProofs Proofs.SaveProofs Proofs.FloatProofs Proofs.SumN Proofs.ZigStep Proofs.ZigTape Proofs.GenTape Proofs.GenLaw Proofs.Independent Props.Rng Props.Uniform Props.Zig Props.Independence.
From Verif Require Import Spec.Mean Proofs.MeanProofs Props.UniformLaw Props.Mean.
Local Open Scope R_scope.

(** for every choice of the compiler which x*y + z to fuse (Model/Fused.v) *)
Section Compiler.
Context {fpc : compiler}.
(** one draw of Uniform{Low, High} from a word, as in C73 *)
Lemma uniform_word low high l h word ws : fvalue low l -> fvalue high h -> 0 < h -> Rabs l + h <= bpow radix2 1022 ->
  exists f, Uniform_Next tape low high (word :: ws) = Ret (f, ws) /\ Rabs (B2R f - (l + h * (NR (word mod 2 ^ 52) / NR (2 ^ 52)))) <= / 2 ^ 51 * (Rabs l + h) + bpow radix2 (-1072).
Proof.
  intros Vl Vh H0 HB. set (M := NR (2 ^ 52)). set (e := fun k : N => if fuses UniformSite then rnd (h * (NR k / M) + l) else rnd (rnd (h * (NR k / M)) + l)).
  set (dl := / 2 ^ 51 * (Rabs l + h) + bpow radix2 (-1072)).
  assert (HM : M = 4503599627370496) by reflexivity. assert (PM : 0 < M) by lra.
  assert (E1 : bpow radix2 (-1075) = bpow radix2 (-1072) / 8) by (change (bpow radix2 (-1075)) with (bpow radix2 (-1072 + -3)); rewrite bpow_plus; change (bpow radix2 (-3)) with (/ 8); reflexivity).
  assert (E0 : 0 < bpow radix2 (-1072)) by apply bpow_gt_0. assert (ESM : bpow radix2 (-1072) <= 1) by (change 1 with (bpow radix2 0); apply bpow_le; lia). pose proof (Rabs_pos l) as AL.
  assert (K : forall k, (k < 2 ^ 52)%N -> 0 <= NR k / M < 1). { intros k Hk. pose proof (NR_pos k). split; [apply Rmult_le_pos; [lra|left; now apply Rinv_0_lt_compat]|]. apply Rmult_lt_reg_r with M; [exact PM|]. unfold Rdiv. rewrite Rmult_assoc, Rinv_l, Rmult_1_r, Rmult_1_l by lra. apply IZR_lt. lia. }
  assert (ERR : forall k, (k < 2 ^ 52)%N -> Rabs (e k - (l + h * (NR k / M))) <= dl /\ Rabs (e k) < fmax).
  { intros k Hk. specialize (K k Hk). set (u := NR k / M) in *. assert (HU : 0 <= h * u <= h) by nra. pose proof (rnd_err (h * u)) as R1. rewrite (Rabs_pos_eq (h * u)) in R1 by lra. pose proof (rnd_err (rnd (h * u) + l)) as R2. rewrite E1 in R1, R2.
    assert (FIN : forall z, Rabs (z - (l + h * u)) <= dl -> Rabs z < fmax).
    { intros z TOT. unfold dl in TOT. clear - E0 ESM AL HB HU H0 TOT. apply Rle_lt_trans with (Rabs (z - (l + h * u)) + Rabs (l + h * u)); [replace z with ((z - (l + h * u)) + (l + h * u)) at 1 by ring; apply Rabs_triang|].
      assert (Rabs (l + h * u) <= Rabs l + h) by (eapply Rle_trans; [apply Rabs_triang|]; rewrite (Rabs_pos_eq (h * u)) by lra; lra).
      assert (B2 : bpow radix2 1022 * 4 = fmax) by (unfold fmax; change 1024%Z with (1022 + 2)%Z; rewrite bpow_plus; reflexivity). assert (1 <= bpow radix2 1022) by (change 1 with (bpow radix2 0); apply bpow_le; lia). set (bb := bpow radix2 1022) in *. set (c := bpow radix2 (-1072)) in *. clearbody bb c. lra. }
    unfold e. fold u. destruct (fuses UniformSite).
    { pose proof (rnd_err (h * u + l)) as R3. rewrite E1 in R3. set (z := rnd (h * u + l)) in *. cut (Rabs (z - (l + h * u)) <= dl); [intros TOT; split; [exact TOT|now apply FIN]|].
      unfold dl. rewrite (Rplus_comm l (h * u)). eapply Rle_trans; [exact R3|]. assert (YL : Rabs (h * u + l) <= h + Rabs l) by (eapply Rle_trans; [apply Rabs_triang|]; rewrite (Rabs_pos_eq (h * u)) by lra; lra).
      assert (/ 2 ^ 53 * Rabs (h * u + l) <= / 2 ^ 53 * (h + Rabs l)) by (apply Rmult_le_compat_l; [left; apply Rinv_0_lt_compat, pow_lt; lra|exact YL]). lra. }
    set (y := rnd (h * u)) in *. set (z := rnd (y + l)) in *. unfold dl in FIN |- *. set (c := bpow radix2 (-1072)) in *. clearbody y z c.
    assert (Y : Rabs (y + l) <= h + / 2 ^ 53 * h + c / 8 + Rabs l). { eapply Rle_trans; [apply Rabs_triang|]. apply Rplus_le_compat_r. apply Rabs_le_inv in R1. apply Rabs_le. assert (/ 2 ^ 53 * (h * u) <= / 2 ^ 53 * h) by (apply Rmult_le_compat_l; [left; apply Rinv_0_lt_compat, pow_lt|]; lra). lra. }
    assert (TOT : Rabs (z - (l + h * u)) <= / 2 ^ 51 * (Rabs l + h) + c).
    { replace (z - (l + h * u)) with ((z - (y + l)) + (y - h * u)) by ring. eapply Rle_trans; [apply Rabs_triang|]. eapply Rle_trans; [apply Rplus_le_compat; [exact R2|exact R1]|].
      assert (/ 2 ^ 53 * Rabs (y + l) <= / 2 ^ 53 * (h + / 2 ^ 53 * h + c / 8 + Rabs l)) by (apply Rmult_le_compat_l; [left; apply Rinv_0_lt_compat, pow_lt; lra|exact Y]). lra. }
    split; [exact TOT|]. now apply FIN. }
  assert (KU : (word mod 2 ^ 52 < 2 ^ 52)%N) by (apply N.mod_lt; discriminate). destruct (ERR _ KU) as [ER EF].
  destruct (C32_uniform_value tape low high l h (word :: ws) _ _ _ _ tape_go (tape_read 7 word ws) Vl Vh) as (f & E & V & _). exists f. split; [exact E|]. rewrite low7 in V. destruct (V EF) as [_ VV]. rewrite VV. exact ER.
Qed.
(** The mean of Uniform{Low: l, High: h}.Next is l + h (1/2 - 2^-53) up to rounding: the result is uniform on [l, l + h), not on [l, h) (C32). *)
Theorem C88_uniform_mean low high l h : fvalue low l -> fvalue high h -> 0 < h -> Rabs l + h <= bpow radix2 1022 ->
  exists e, mean_value (fun _ => Uniform_Next tape low high) B2R e /\ Rabs (e - (l + h * (1 / 2 - / IZR (2 ^ 53)))) <= / 2 ^ 51 * (Rabs l + h) + bpow radix2 (-1072).
Proof.
  intros Vl Vh H0 HB. set (f := fun u => match Uniform_Next tape low high [u] with Ret (x, _) => x | _ => low end). exists (mean64 (fun u => B2R (f u))). split.
  - apply one_word_mean; [reflexivity|]. intros u ws _. unfold f. destruct (uniform_word low high l h u ws Vl Vh H0 HB) as (x & E & _). destruct (uniform_word low high l h u [] Vl Vh H0 HB) as (x' & E' & _). rewrite E'. rewrite E. f_equal. f_equal.
    assert (NT : match Uniform_Next tape low high (u :: ws) with Ret (y, _) => y | _ => low end = match Uniform_Next tape low high [u] with Ret (y, _) => y | _ => low end) by reflexivity. rewrite E, E' in NT. exact NT.
  - set (dl := / 2 ^ 51 * (Rabs l + h) + bpow radix2 (-1072)). set (g := fun u => l + h * (NR (u mod 2 ^ 52) / NR (2 ^ 52))).
    assert (EG : mean64 g = l + h * (1 / 2 - / IZR (2 ^ 53))).
    { unfold g. rewrite (mean64_modp 52 (fun j => l + h * (NR j / NR (2 ^ 52)))) by lia. rewrite (sumN_ext _ (fun j => l + h / NR (2 ^ 52) * IZR (Z.of_N j))) by (intros j _; unfold Rdiv, NR; ring). rewrite sumN_plus, sumN_const, sumN_scal, sum_all.
      change (NR (2 ^ 52)) with (IZR (2 ^ 52)). change (Z.of_N (2 ^ 52)) with (2 ^ 52)%Z. replace (IZR (2 ^ 53)) with (2 * IZR (2 ^ 52)) by (rewrite <- mult_IZR; reflexivity). assert (0 < IZR (2 ^ 52)) by now apply IZR_lt. field. lra. }
    rewrite <- EG. assert (B : forall u, Rabs (B2R (f u) - g u) <= dl) by (intros u; unfold f; destruct (uniform_word low high l h u [] Vl Vh H0 HB) as (x & E & X); rewrite E; exact X).
    pose proof (mean64_const dl) as CD. assert (U : mean64 (fun u => B2R (f u)) <= mean64 (fun u => g u + dl)) by (apply mean64_le; intros u _; specialize (B u); apply Rabs_le_inv in B; lra).
    assert (D : mean64 g <= mean64 (fun u => B2R (f u) + dl)) by (apply mean64_le; intros u _; specialize (B u); apply Rabs_le_inv in B; lra). rewrite mean64_plus, CD in U, D. apply Rabs_le. change (mean64 (fun u => g u)) with (mean64 g) in U. lra.
Qed.
(** Uniform{Low: 10, High: 2} has mean close to 11 *)
Example C88_uniform_nonvacuous : fvalue (of_int 10) 10 /\ fvalue (of_int 2) 2 /\ exists e, mean_value (fun _ => Uniform_Next tape (of_int 10) (of_int 2)) B2R e /\ Rabs (e - 11) <= 1 / 10 ^ 13.
Proof.
  assert (V1 : fvalue (of_int 10) 10) by (split; [reflexivity|]; vm_compute; lra). assert (V2 : fvalue (of_int 2) 2) by (split; [reflexivity|]; vm_compute; lra). split; [exact V1|]. split; [exact V2|].
  destruct (C88_uniform_mean (of_int 10) (of_int 2) 10 2 V1 V2 ltac:(lra)) as (e & ME & B).
  - rewrite Rabs_pos_eq by lra. apply Rle_trans with (bpow radix2 4); [cbn; lra|apply bpow_le; lia].
  - exists e. split; [exact ME|]. assert (BB : bpow radix2 (-1072) <= bpow radix2 (-60)) by (apply bpow_le; lia). change (bpow radix2 (-60)) with (/ 1152921504606846976) in BB. rewrite (Rabs_pos_eq 10) in B by lra. change (IZR (2 ^ 53)) with 9007199254740992 in B. apply Rabs_le_inv in B. apply Rabs_le. lra.
Qed.
End Compiler.
