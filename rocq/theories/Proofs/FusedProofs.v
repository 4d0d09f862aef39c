(** Facts about x*y + z, fused or not (Model/Fused.v). *)
From Coq Require Import Reals Lra Lia.
From Flocq Require Import Core BinarySingleNaN.
From Verif Require Import Model.Base Model.Float Model.Fused Spec.Floats Proofs.FloatProofs.
Open Scope R_scope.

Lemma ffma_R x y z : is_finite x = true -> is_finite y = true -> is_finite z = true -> Rabs (rnd (B2R x * B2R y + B2R z)) < fmax ->
  B2R (ffma x y z) = rnd (B2R x * B2R y + B2R z) /\ is_finite (ffma x y z) = true.
Proof.
  intros Fx Fy Fz H. pose proof (Bfma_correct 53 1024 fprec_gt_0 fprec_lt_emax mode_NE x y z Fx Fy Fz) as K. cbv zeta in K.
  change (round radix2 (SpecFloat.fexp 53 1024) (round_mode mode_NE) (B2R x * B2R y + B2R z)) with (rnd (B2R x * B2R y + B2R z)) in K.
  rewrite Rlt_bool_true in K by exact H. destruct K as (K1 & K2 & _). now split.
Qed.
Lemma ffma_overflow x y z : is_finite x = true -> is_finite y = true -> is_finite z = true -> fmax <= Rabs (rnd (B2R x * B2R y + B2R z)) ->
  ffma x y z = B754_infinity (Rlt_bool (B2R x * B2R y + B2R z) 0).
Proof.
  intros Fx Fy Fz H. pose proof (Bfma_correct 53 1024 fprec_gt_0 fprec_lt_emax mode_NE x y z Fx Fy Fz) as K. cbv zeta in K.
  change (round radix2 (SpecFloat.fexp 53 1024) (round_mode mode_NE) (B2R x * B2R y + B2R z)) with (rnd (B2R x * B2R y + B2R z)) in K.
  rewrite Rlt_bool_false in K by exact H. apply B2SF_inj. exact K.
Qed.
Lemma rnd_lt_0 x : rnd x < 0 -> x < 0.
Proof. intros H. destruct (Rlt_or_le x 0) as [C|C]; [exact C|]. pose proof (rnd_ge 0 x representable_0 C). lra. Qed.
Lemma rnd_gt_0 x : 0 < rnd x -> 0 < x.
Proof. intros H. destruct (Rlt_or_le 0 x) as [C|C]; [exact C|]. pose proof (rnd_le_rep x 0 representable_0 C). lra. Qed.
Lemma ffma_cases x y z : is_finite x = true -> is_finite y = true -> is_finite z = true -> let r := rnd (B2R x * B2R y + B2R z) in
  (Rabs r < fmax /\ B2R (ffma x y z) = r /\ is_finite (ffma x y z) = true) \/
  (fmax <= r /\ ffma x y z = B754_infinity false) \/ (r <= - fmax /\ ffma x y z = B754_infinity true).
Proof.
  intros Fx Fy Fz r. destruct (Rlt_or_le (Rabs r) fmax) as [C|C].
  - left. split; [exact C|]. now apply ffma_R.
  - right. rewrite (ffma_overflow x y z Fx Fy Fz C). assert (FP : 0 < fmax) by apply bpow_gt_0. unfold Rabs in C. destruct (Rcase_abs r) as [D|D].
    + right. split; [lra|]. rewrite Rlt_bool_true; [reflexivity|]. now apply rnd_lt_0.
    + left. split; [lra|]. rewrite Rlt_bool_false; [reflexivity|]. apply Rlt_le, rnd_gt_0. fold r. lra.
Qed.
Lemma finite_lt_fmax (x : float64) : is_finite x = true -> Rabs (B2R x) < fmax.
Proof. intros _. apply abs_B2R_lt_emax. Qed.
Lemma ffma_ge x y z r : is_finite x = true -> is_finite y = true -> is_finite z = true -> is_finite r = true ->
  B2R r <= B2R x * B2R y + B2R z -> fle r (ffma x y z) = true.
Proof.
  intros Fx Fy Fz Fr H. assert (H' := rnd_ge (B2R r) _ (representable_B2R r) H). pose proof (finite_lt_fmax r Fr) as L. apply Rabs_def2 in L.
  destruct (ffma_cases x y z Fx Fy Fz) as [(_ & V & F)|[[_ E]|[C _]]].
  - rewrite fle_R by assumption. rewrite V. now apply Rle_bool_true.
  - rewrite E. destruct r as [[]| | |[] ? ? ?]; cbn in *; try discriminate Fr; reflexivity.
  - lra.
Qed.
Lemma ffma_le x y z r : is_finite x = true -> is_finite y = true -> is_finite z = true -> is_finite r = true ->
  B2R x * B2R y + B2R z <= B2R r -> fle (ffma x y z) r = true.
Proof.
  intros Fx Fy Fz Fr H. assert (H' := rnd_le_rep _ (B2R r) (representable_B2R r) H). pose proof (finite_lt_fmax r Fr) as L. apply Rabs_def2 in L.
  destruct (ffma_cases x y z Fx Fy Fz) as [(_ & V & F)|[[C _]|[_ E]]].
  - rewrite fle_R by assumption. rewrite V. now apply Rle_bool_true.
  - lra.
  - rewrite E. destruct r as [[]| | |[] ? ? ?]; cbn in *; try discriminate Fr; reflexivity.
Qed.
(** an overflowing x*y + z has the sign of z if x*y rounds to a finite number *)
Lemma ffma_overflow_sign x y z : is_finite x = true -> is_finite y = true -> is_finite z = true -> Rabs (rnd (B2R x * B2R y)) < fmax ->
  fmax <= Rabs (rnd (B2R x * B2R y + B2R z)) -> ffma x y z = B754_infinity (Bsign z).
Proof.
  intros Fx Fy Fz P H. pose proof (finite_lt_fmax z Fz) as L. apply Rabs_def2 in L. apply Rabs_def2 in P. assert (FP : 0 < fmax) by apply bpow_gt_0.
  destruct (ffma_cases x y z Fx Fy Fz) as [(C & _)|[[C E]|[C E]]]; [lra| |]; rewrite E; f_equal.
  - destruct (Bsign z) eqn:S; [|reflexivity]. apply (sign_R z Fz) in S.
    assert (rnd (B2R x * B2R y + B2R z) <= rnd (B2R x * B2R y)) by (apply rnd_le; lra). lra.
  - destruct (Bsign z) eqn:S; [reflexivity|]. apply (sign_R' z Fz) in S.
    assert (rnd (B2R x * B2R y) <= rnd (B2R x * B2R y + B2R z)) by (apply rnd_le; lra). lra.
Qed.
