(** Real-number meaning of the table checks, for arbitrary tables. *)
From Coq Require Import Reals ZArith Lia Lra List Bool.
From Verif Require Import Spec.Density Proofs.ZigTables Proofs.ExpBounds Proofs.DensityTables.
Local Open Scope R_scope.
Lemma heights_entry g g' w f i : heights_ok g g' w f = true -> (1 <= i < 1024)%nat ->
  exp_close 80 (g (nz w i)) (g' (nz w i)) 6 6 (nz f i) (2 ^ 68) 2 (10 ^ 15) = true.
Proof. intros H Hi. unfold heights_ok in H. rewrite forallb_forall in H. apply (H i). apply in_seq. lia. Qed.
Lemma expo_args n : IZR (2 ^ Z.of_nat 6 * expo_arg n) / IZR (2 ^ 80) = IZR n / IZR (2 ^ 59).
Proof.
  unfold expo_arg. replace (2 ^ 80)%Z with (2 ^ 59 * (2 ^ 6 * 2 ^ 15))%Z by reflexivity. change (Z.of_nat 6) with 6%Z. rewrite !mult_IZR.
  assert (0 < IZR (2 ^ 59)) by now apply IZR_lt. assert (0 < IZR (2 ^ 6)) by now apply IZR_lt. assert (0 < IZR (2 ^ 15)) by now apply IZR_lt. field. lra.
Qed.
Lemma normal_args n : IZR (2 ^ Z.of_nat 6 * normal_arg n) / IZR (2 ^ 80) <= (IZR n / IZR (2 ^ 59)) ^ 2 / 2 <= IZR (2 ^ Z.of_nat 6 * normal_arg' n) / IZR (2 ^ 80).
Proof.
  unfold normal_arg', normal_arg. rewrite Z.shiftr_div_pow2 by lia. set (q := (n * n / 2 ^ 45)%Z).
  assert (D : (2 ^ 45 * q <= n * n < 2 ^ 45 * (q + 1))%Z).
  { pose proof (Z.mul_div_le (n * n) (2 ^ 45) eq_refl). pose proof (Z.mul_succ_div_gt (n * n) (2 ^ 45) eq_refl). unfold q. lia. }
  clearbody q. destruct D as [D1 D2]. apply IZR_le in D1. apply IZR_lt in D2. rewrite !mult_IZR in D1, D2. change (Z.of_nat 6) with 6%Z. rewrite !mult_IZR.
  replace (2 ^ 80)%Z with (2 ^ 6 * 2 ^ 74)%Z by reflexivity. rewrite mult_IZR.
  assert (0 < IZR (2 ^ 59)) by now apply IZR_lt. assert (0 < IZR (2 ^ 6)) by now apply IZR_lt. assert (P45 : 0 < IZR (2 ^ 45)) by now apply IZR_lt. assert (P74 : 0 < IZR (2 ^ 74)) by now apply IZR_lt.
  assert (E : IZR (2 ^ 59) * IZR (2 ^ 59) * 2 = IZR (2 ^ 45) * IZR (2 ^ 74)) by (rewrite <- !mult_IZR; apply f_equal; reflexivity).
  replace ((IZR n / IZR (2 ^ 59)) ^ 2 / 2) with (IZR n * IZR n / (IZR (2 ^ 59) * IZR (2 ^ 59) * 2)) by (field; lra). rewrite E.
  generalize dependent (IZR (2 ^ 59)). intros a Ha E. generalize dependent (IZR (2 ^ 6)). intros b Hb. clear E a Ha.
  generalize dependent (IZR (2 ^ 45)). intros c D1 D2 Hc. generalize dependent (IZR (2 ^ 74)). intros d Hd.
  assert (K : 0 < c * d) by now apply Rmult_lt_0_compat. rewrite <- !(Rmult_comm d). 
  split.
  - apply Rmult_le_reg_r with (c * d); [exact K|]. replace (b * IZR q / (d * b) * (c * d)) with (c * IZR q) by (field; lra).
    replace (IZR n * IZR n / (d * c) * (c * d)) with (IZR n * IZR n) by (field; lra). exact D1.
  - apply Rmult_le_reg_r with (c * d); [exact K|]. replace (b * IZR (q + 1) / (d * b) * (c * d)) with (c * IZR (q + 1)) by (field; lra).
    replace (IZR n * IZR n / (d * c) * (c * d)) with (IZR n * IZR n) by (field; lra). lra.
Qed.
Lemma tol : IZR 2 / IZR (10 ^ 15) = 2 / 10 ^ 15.
Proof. change (10 ^ 15)%Z with 1000000000000000%Z. cbn. lra. Qed.
Lemma expo_entry w f i : heights_ok expo_arg expo_arg w f = true -> (1 <= i < 1024)%nat ->
  Rabs (IZR (nz f i) / IZR (2 ^ 68) - expo_density (IZR (nz w i) / IZR (2 ^ 59))) <= 2 / 10 ^ 15 * expo_density (IZR (nz w i) / IZR (2 ^ 59)).
Proof.
  intros H Hi. pose proof (heights_entry _ _ w f i H Hi) as C. clear H. generalize dependent (nz w i). intros n C. generalize dependent (nz f i). intros y C.
  unfold expo_density. rewrite <- tol. refine (exp_close_sound 80 (expo_arg n) (expo_arg n) 6 6 y (2 ^ 68) 2 (10 ^ 15) _ _ _ _ _ C _); try lia.
  rewrite expo_args. lra.
Qed.
Lemma normal_entry w f i : heights_ok normal_arg normal_arg' w f = true -> (1 <= i < 1024)%nat ->
  Rabs (IZR (nz f i) / IZR (2 ^ 68) - normal_density (IZR (nz w i) / IZR (2 ^ 59))) <= 2 / 10 ^ 15 * normal_density (IZR (nz w i) / IZR (2 ^ 59)).
Proof.
  intros H Hi. pose proof (heights_entry _ _ w f i H Hi) as C. clear H. generalize dependent (nz w i). intros n C. generalize dependent (nz f i). intros y C.
  unfold normal_density. rewrite <- tol. refine (exp_close_sound 80 (normal_arg n) (normal_arg' n) 6 6 y (2 ^ 68) 2 (10 ^ 15) _ _ _ _ _ C _); try lia.
  apply normal_args.
Qed.
