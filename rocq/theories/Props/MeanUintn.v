(** C88, continued: the mean of Uintn and Intn. *)
From Coq Require Import Reals Lia Lra Psatz Bool ZifyN ZifyNat.
From Coquelicot Require Import Coquelicot.
From Flocq Require Import Core BinarySingleNaN.
From Verif Require Import Model.Base Model.Rng Spec.Common Spec.Counting Spec.Zig Spec.Prob Spec.Words Spec.Mean.
From Verif Require Import Proofs.WordLemmas Proofs.SumN Proofs.ZigTape Proofs.GenLaw Proofs.Independent Proofs.MeanProofs Proofs.FrequencyProofs.
From Verif Require Import Props.Rng Props.Draws Props.Independence.
Local Open Scope R_scope.

(** a program with finitely many results v 0 ... v (K-1): the mean is the sum of the values times their probabilities *)
Lemma finite_mean {A} (next : nat -> list N -> outcome (A * list N)) (v : nat -> A) (h : A -> R) (w : nat -> R) K : steady next ->
  (forall i j, (i < K)%nat -> (j < K)%nat -> v i = v j -> i = j) -> (forall fuel ws x ws', next fuel ws = Ret (x, ws') -> exists k, (k < K)%nat /\ x = v k) ->
  (forall k, (k < K)%nat -> draw_prob next (fun x => x = v k) (w k)) -> mean_value next h (sm (fun k => h (v k) * w k) K).
Proof.
  intros M INJ FIN D. set (g := fun ws => sm (fun k => h (v k) * ind (ev (got next (fun x => x = v k) ws))) K). exists g. split.
  - intros ws. split.
    + intros fu x w' R. destruct (FIN _ _ _ _ R) as (k & Hk & ->). unfold g.
      assert (X : forall n, (n <= K)%nat -> sm (fun i => h (v i) * ind (ev (got next (fun x => x = v i) ws))) n = if (k <? n)%nat then h (v k) else 0).
      { induction n as [|n IH]; intros Hn; cbn [sm]; [reflexivity|]. rewrite IH by lia. destruct (Nat.eq_dec n k) as [->|Nk].
        - rewrite (ev_true (got next (fun x => x = v k) ws)) by (exists fu, (v k), w'; auto). rewrite (proj2 (Nat.ltb_ge k k)), (proj2 (Nat.ltb_lt k (S k))) by lia. cbn [ind]. ring.
        - rewrite (ev_false (got next (fun x => x = v n) ws)).
          + cbn [ind]. destruct (Nat.ltb_spec k n), (Nat.ltb_spec k (S n)); try lia; ring.
          + intros (fu' & x & w2 & R' & ->). pose proof (one_result next M _ _ _ _ _ R R') as Eq. injection Eq as Eq _. apply INJ in Eq; lia. }
      rewrite X by lia. now rewrite (proj2 (Nat.ltb_lt k K)) by exact Hk.
    + intros N. unfold g. rewrite (sm_ext _ (fun _ => 0)); [clear; induction K as [|K IH]; cbn [sm]; lra|]. intros k _. rewrite ev_false; [cbn [ind]; ring|]. intros (fu & x & w' & R & _). apply N. eauto.
  - apply (is_lim_seq_ext (fun n => sm (fun k => h (v k) * pr n (fun ws => ev (got next (fun x => x = v k) ws))) K)).
    + intros n. unfold g. rewrite average_sm. apply sm_ext. intros k _. rewrite average_scal, average_pr. reflexivity.
    + apply (sm_lim (fun n k => h (v k) * pr n (fun ws => ev (got next (fun x => x = v k) ws))) (fun k => h (v k) * w k)). intros k Hk. apply (is_lim_seq_scal_l _ (h (v k)) (w k)). apply (proj1 (draw_prob_got next _ _)), D, Hk.
Qed.
Lemma weighted (c d : R) K : sm (fun k => INR k * (if (k =? 0)%nat then d else c)) K = c * (INR K * (INR K - 1) / 2).
Proof. induction K as [|K IH]; cbn [sm]; [cbn [INR]; field|]. rewrite IH, S_INR. destruct K as [|K]; cbn [Nat.eqb]; [cbn [INR]; field|]. field. Qed.
(** The mean of Uintn(max): with q = floor((2^b - 1) / max), it is (max - 1) / 2 times q max / (q max + 1) -- a little below the (max - 1) / 2 of a fair die. *)
Theorem C88_uintn_mean b max : b = 32%N \/ b = 64%N -> (0 < max < 2 ^ b)%N -> let qm := IZR (Z.of_N ((2 ^ b - 1) / max * max)) in
  mean_value (fun fuel => RNG_Uintn tape fuel b max) (fun x => IZR (Z.of_N x)) ((IZR (Z.of_N max) - 1) / 2 * (qm / (qm + 1))).
Proof.
  intros Hb Hm qm. destruct (uintn_ok b max) as [S O].
  pose proof (finite_mean (fun fuel => RNG_Uintn tape fuel b max) N.of_nat (fun x => IZR (Z.of_N x)) (fun k => uintn_share b max (N.of_nat k)) (N.to_nat max) S) as F.
  refine (eq_ind _ (mean_value _ _) (F _ _ _) _ _); clear F.
  - intros i j _ _ E. lia.
  - intros fuel ws x ws' R. exists (N.to_nat x). split; [|lia]. enough (x < max)%N by lia. eapply C26_uintn_in_range. exact R.
  - intros k Hk. apply C65_uintn_distribution; auto. lia.
  - unfold uintn_share. set (q := ((2 ^ b - 1) / max)%N) in *. assert (T : IZR (Z.of_N (q * max + 1)) = qm + 1) by (unfold qm; rewrite N2Z.inj_add, plus_IZR; reflexivity). assert (QM : 0 <= qm) by (apply IZR_le; lia).
    rewrite (sm_ext _ (fun k => INR k * (if (k =? 0)%nat then IZR (Z.of_N (q + 1)) / (qm + 1) else IZR (Z.of_N q) / (qm + 1)))).
    2:{ intros k _. rewrite T, INR_IZR_INZ, nat_N_Z. destruct k; reflexivity. }
    rewrite weighted. rewrite INR_IZR_INZ, N_nat_Z. unfold qm at 2. rewrite N2Z.inj_mul, mult_IZR. field. lra.
Qed.
(** ... it is short of (max - 1) / 2 by at most 1/2 max / (2^b - max) *)
Theorem C88_uintn_mean_near b max : b = 32%N \/ b = 64%N -> (0 < max < 2 ^ b)%N ->
  exists e, mean_value (fun fuel => RNG_Uintn tape fuel b max) (fun x => IZR (Z.of_N x)) e /\ 0 <= (IZR (Z.of_N max) - 1) / 2 - e <= IZR (Z.of_N max) / 2 / IZR (Z.of_N (2 ^ b - max)).
Proof.
  intros Hb Hm. eexists. split; [now apply C88_uintn_mean|]. set (Q := ((2 ^ b - 1) / max * max)%N). set (m := IZR (Z.of_N max)). assert (M1 : 1 <= m) by (apply IZR_le; lia).
  assert (Q1 : (2 ^ b - max <= Q)%N) by (unfold Q; pose proof (N.div_mod (2 ^ b - 1) max ltac:(lia)) as DM; pose proof (N.mod_lt (2 ^ b - 1) max ltac:(lia)) as ML; lia).
  assert (L : IZR (Z.of_N (2 ^ b - max)) <= IZR (Z.of_N Q)) by (apply IZR_le; lia). assert (L0 : 0 < IZR (Z.of_N (2 ^ b - max))) by (apply IZR_lt; lia). set (y := IZR (Z.of_N (2 ^ b - max))) in *. set (x := IZR (Z.of_N Q)) in *. clearbody x y m.
  replace ((m - 1) / 2 - (m - 1) / 2 * (x / (x + 1))) with ((m - 1) / 2 / (x + 1)) by (field; lra). split.
  - apply Rmult_le_pos; [lra|]. left. apply Rinv_0_lt_compat. lra.
  - unfold Rdiv. apply Rmult_le_compat; [lra|left; apply Rinv_0_lt_compat; lra|lra|]. apply Rinv_le_contravar; lra.
Qed.
(** a die: the mean of 0 ... 5 is 5/2 (2^64 - 4) / (2^64 - 3) *)
Example C88_uintn_nonvacuous : mean_value (fun fuel => RNG_Uintn tape fuel 64 6) (fun x => IZR (Z.of_N x)) (5 / 2 * (IZR (2 ^ 64 - 4) / IZR (2 ^ 64 - 3))).
Proof.
  refine (eq_ind _ (mean_value _ _) (C88_uintn_mean 64 6 (or_intror eq_refl) ltac:(split; reflexivity)) _ _). change (Z.of_N ((2 ^ 64 - 1) / 6 * 6)) with (2 ^ 64 - 4)%Z. change (Z.of_N 6) with 6%Z.
  replace (IZR (2 ^ 64 - 3)) with (IZR (2 ^ 64 - 4) + 1) by (rewrite <- plus_IZR; reflexivity). f_equal. lra.
Qed.
