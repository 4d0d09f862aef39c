(** C90, continued: the second moment of Uintn. *)
From Coq Require Import Reals Lia Lra Psatz Bool ZifyN ZifyNat.
From Coquelicot Require Import Coquelicot.
From Flocq Require Import Core BinarySingleNaN.
From Verif Require Import Model.Base Model.Rng Spec.Common Spec.Counting Spec.Zig Spec.Prob Spec.Words Spec.Mean.
From Verif Require Import Proofs.WordLemmas Proofs.SumN Proofs.ZigTape Proofs.GenLaw Proofs.Independent Proofs.MeanProofs Proofs.FrequencyProofs.
From Verif Require Import Props.Rng Props.Draws Props.Independence Props.MeanUintn.
Local Open Scope R_scope.

Lemma weighted_square (c d : R) K : sm (fun k => INR k ^ 2 * (if (k =? 0)%nat then d else c)) K = c * (INR K * (INR K - 1) * (2 * INR K - 1) / 6).
Proof. induction K as [|K IH]; cbn [sm]; [cbn [INR]; field|]. rewrite IH, S_INR. destruct K as [|K]; cbn [Nat.eqb]; [cbn [INR]; field|]. field. Qed.
(** The mean square of Uintn(max): with q = floor((2^b - 1) / max), the (max - 1)(2 max - 1) / 6 of a fair die times q max / (q max + 1). *)
Theorem C90_uintn_square b max : b = 32%N \/ b = 64%N -> (0 < max < 2 ^ b)%N -> let qm := IZR (Z.of_N ((2 ^ b - 1) / max * max)) in let m := IZR (Z.of_N max) in
  mean_value (fun fuel => RNG_Uintn tape fuel b max) (fun x => IZR (Z.of_N x) ^ 2) ((m - 1) * (2 * m - 1) / 6 * (qm / (qm + 1))).
Proof.
  intros Hb Hm qm m. destruct (uintn_ok b max) as [S O].
  pose proof (finite_mean (fun fuel => RNG_Uintn tape fuel b max) N.of_nat (fun x => IZR (Z.of_N x) ^ 2) (fun k => uintn_share b max (N.of_nat k)) (N.to_nat max) S) as F.
  refine (eq_ind _ (mean_value _ _) (F _ _ _) _ _); clear F.
  - intros i j _ _ E. lia.
  - intros fuel ws x ws' R. exists (N.to_nat x). split; [|lia]. enough (x < max)%N by lia. eapply C26_uintn_in_range. exact R.
  - intros k Hk. apply C65_uintn_distribution; auto. lia.
  - unfold uintn_share. set (q := ((2 ^ b - 1) / max)%N) in *. assert (T : IZR (Z.of_N (q * max + 1)) = qm + 1) by (unfold qm; rewrite N2Z.inj_add, plus_IZR; reflexivity). assert (QM : 0 <= qm) by (apply IZR_le; lia).
    rewrite (sm_ext _ (fun k => INR k ^ 2 * (if (k =? 0)%nat then IZR (Z.of_N (q + 1)) / (qm + 1) else IZR (Z.of_N q) / (qm + 1)))).
    2:{ intros k _. rewrite T, INR_IZR_INZ, nat_N_Z. destruct k; reflexivity. }
    rewrite weighted_square. rewrite INR_IZR_INZ, N_nat_Z. fold m. replace qm with (IZR (Z.of_N q) * m) in * by (unfold qm, m; rewrite N2Z.inj_mul, mult_IZR; reflexivity). field. lra.
Qed.
(** ... so the variance of Uintn(max) is that of a fair die, (max^2 - 1) / 12, up to max^2 / (2^b - max) *)
Theorem C90_uintn_variance b max : b = 32%N \/ b = 64%N -> (0 < max < 2 ^ b)%N -> let m := IZR (Z.of_N max) in
  exists e e2, mean_value (fun fuel => RNG_Uintn tape fuel b max) (fun x => IZR (Z.of_N x)) e /\ mean_value (fun fuel => RNG_Uintn tape fuel b max) (fun x => IZR (Z.of_N x) ^ 2) e2 /\
    Rabs (e2 - e ^ 2 - (m ^ 2 - 1) / 12) <= m ^ 2 / IZR (Z.of_N (2 ^ b - max)).
Proof.
  intros Hb Hm m. eexists. eexists. split; [now apply C88_uintn_mean|]. split; [now apply C90_uintn_square|]. fold m. set (Q := ((2 ^ b - 1) / max * max)%N). assert (M1 : 1 <= m) by (apply IZR_le; lia).
  assert (Q1 : (2 ^ b - max <= Q)%N) by (unfold Q; pose proof (N.div_mod (2 ^ b - 1) max ltac:(lia)) as DM; pose proof (N.mod_lt (2 ^ b - 1) max ltac:(lia)) as ML; lia).
  assert (L : IZR (Z.of_N (2 ^ b - max)) <= IZR (Z.of_N Q)) by (apply IZR_le; lia). assert (L0 : 0 < IZR (Z.of_N (2 ^ b - max))) by (apply IZR_lt; lia). set (y := IZR (Z.of_N (2 ^ b - max))) in *. set (x := IZR (Z.of_N Q)) in *. clearbody x y m.
  set (t := / (x + 1)). assert (T : 0 < t <= / y) by (unfold t; split; [apply Rinv_0_lt_compat; lra|apply Rinv_le_contravar; lra]). assert (XT : x / (x + 1) = 1 - t) by (unfold t; field; lra). assert (T1 : t <= 1) by (unfold t; rewrite <- Rinv_1; apply Rinv_le_contravar; lra). rewrite XT. clearbody t.
  apply Rle_trans with (m ^ 2 * t); [|unfold Rdiv; apply Rmult_le_compat_l; [apply pow2_ge_0|lra]].
  replace ((m - 1) * (2 * m - 1) / 6 * (1 - t) - ((m - 1) / 2 * (1 - t)) ^ 2 - (m ^ 2 - 1) / 12) with (t * ((m - 1) ^ 2 / 4 * (2 - t) - (m - 1) * (2 * m - 1) / 6)) by field.
  rewrite Rabs_mult, Rabs_pos_eq, Rmult_comm by lra. apply Rmult_le_compat_r; [lra|]. assert (0 <= (m - 1) ^ 2) by apply pow2_ge_0. assert (0 <= (m - 1) * (2 * m - 1)) by (apply Rmult_le_pos; lra).
  assert (0 <= (m - 1) ^ 2 / 4 * (2 - t) <= (m - 1) ^ 2 / 4 * 2) by (split; [apply Rmult_le_pos; lra|apply Rmult_le_compat_l; lra]). apply Rabs_le. nra.
Qed.
(** a die, counted from 0: mean square 55/6 (2^64 - 4) / (2^64 - 3), and variance 35/12 up to 1e-17 *)
Example C90_uintn_nonvacuous : mean_value (fun fuel => RNG_Uintn tape fuel 64 6) (fun x => IZR (Z.of_N x) ^ 2) (55 / 6 * (IZR (2 ^ 64 - 4) / IZR (2 ^ 64 - 3))) /\
  exists e e2, mean_value (fun fuel => RNG_Uintn tape fuel 64 6) (fun x => IZR (Z.of_N x)) e /\ mean_value (fun fuel => RNG_Uintn tape fuel 64 6) (fun x => IZR (Z.of_N x) ^ 2) e2 /\ Rabs (e2 - e ^ 2 - 35 / 12) <= 1 / 10 ^ 17.
Proof.
  split.
  - refine (eq_ind _ (mean_value _ _) (C90_uintn_square 64 6 (or_intror eq_refl) (conj eq_refl eq_refl)) _ _). change (Z.of_N ((2 ^ 64 - 1) / 6 * 6)) with (2 ^ 64 - 4)%Z. change (Z.of_N 6) with 6%Z. replace (IZR (2 ^ 64 - 3)) with (IZR (2 ^ 64 - 4) + 1) by (rewrite <- plus_IZR; reflexivity). f_equal. lra.
  - destruct (C90_uintn_variance 64 6 (or_intror eq_refl) (conj eq_refl eq_refl)) as (e & e2 & A & B & C). exists e, e2. split; [exact A|]. split; [exact B|]. change (Z.of_N 6) with 6%Z in C. change (Z.of_N (2 ^ 64 - 6)) with (18446744073709551610)%Z in C. replace ((6 ^ 2 - 1) / 12) with (35 / 12) in C by lra. lra.
Qed.
