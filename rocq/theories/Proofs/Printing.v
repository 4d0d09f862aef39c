(** Printed numbers are read back as they were. *)
From Coq Require Import Reals Lia Lra Psatz List NArith ZArith.
From Flocq Require Import Core.
From Verif Require Import Model.ZigScript Spec.Literals.
Import ListNotations.

(** ** hexadecimal *)
Local Open Scope N_scope.
Lemma hex_fold acc a : fold_left (fun a d => 16 * a + d) acc a = a * 16 ^ N.of_nat (length acc) + hex_value acc.
Proof.
  unfold hex_value. revert a. induction acc as [|d acc IH] using rev_ind; intros a; [cbn; lia|].
  rewrite !fold_left_app, app_length. cbn [fold_left length]. rewrite IH. replace (N.of_nat (length acc + 1)) with (N.succ (N.of_nat (length acc))) by lia. rewrite N.pow_succ_r'.
  set (p := 16 ^ N.of_nat (length acc)). set (q := fold_left _ acc 0). clearbody p q. ring.
Qed.
Lemma hex_value_cons d acc : hex_value (d :: acc) = d * 16 ^ N.of_nat (length acc) + hex_value acc.
Proof. unfold hex_value at 1. simpl fold_left. rewrite hex_fold. reflexivity. Qed.
Lemma hex_value_zeros m l : hex_value (repeat 0 m ++ l) = hex_value l.
Proof. induction m as [|m IH]; [reflexivity|]. cbn [repeat app]. rewrite hex_value_cons, IH. lia. Qed.
Lemma hex_fuel fuel : forall k acc, k < 2 ^ N.of_nat fuel -> hex_value (hex_digits_fuel fuel k acc) = k * 16 ^ N.of_nat (length acc) + hex_value acc.
Proof.
  induction fuel as [|g IH]; intros k acc H.
  - simpl in *. assert (k = 0) by lia. subst. lia.
  - cbn [hex_digits_fuel]. destruct (k =? 0) eqn:E; [apply N.eqb_eq in E; subst; lia|]. apply N.eqb_neq in E.
    rewrite IH.
    + rewrite hex_value_cons. cbn [length]. replace (N.of_nat (S (length acc))) with (N.succ (N.of_nat (length acc))) by lia. rewrite N.pow_succ_r'.
      assert (D := N.div_mod k 16 ltac:(lia)). set (p := 16 ^ N.of_nat (length acc)). nia.
    + replace (N.of_nat (S g)) with (N.succ (N.of_nat g)) in H by lia. rewrite N.pow_succ_r' in H. apply N.div_lt_upper_bound; [lia|]. lia.
Qed.
Lemma hex_fuel_small fuel : forall k acc, Forall (fun d => d < 16) acc -> Forall (fun d => d < 16) (hex_digits_fuel fuel k acc).
Proof.
  induction fuel as [|g IH]; intros k acc H; [exact H|]. cbn [hex_digits_fuel]. destruct (k =? 0); [exact H|]. apply IH. constructor; [|exact H].
  apply N.mod_lt. lia.
Qed.
Lemma hex_roundtrip w k : hex_value (hex_digits w k) = k /\ Forall (fun d => d < 16) (hex_digits w k) /\ (w <= length (hex_digits w k))%nat.
Proof.
  unfold hex_digits. split; [|split].
  - rewrite hex_value_zeros, hex_fuel; [simpl; unfold hex_value; simpl; lia|]. rewrite N2Nat.id. apply N.size_gt.
  - apply Forall_app. split; [|apply hex_fuel_small; constructor]. apply Forall_forall. intros d H. apply repeat_spec in H. lia.
  - rewrite app_length, repeat_length. lia.
Qed.

(** ** decimal *)
Local Open Scope R_scope.
Notation fexp := (FLT_exp (-1074) 53).
Lemma ulp_big x : x <> 0 -> bpow radix2 (-53) * Rabs x <= ulp radix2 fexp x.
Proof.
  intros H. rewrite ulp_neq_0 by exact H. unfold cexp, FLT_exp. apply Rle_trans with (bpow radix2 (-53) * bpow radix2 (mag radix2 x)).
  - apply Rmult_le_compat_l; [apply bpow_ge_0|]. left. apply bpow_mag_gt.
  - rewrite <- bpow_plus. apply bpow_le. lia.
Qed.
Lemma pred_far x : 0 < x -> bpow radix2 (-53) * x <= x - pred radix2 fexp x.
Proof.
  intros H. rewrite pred_eq_pos by lra. unfold pred_pos. destruct (Req_bool_spec x (bpow radix2 (mag radix2 x - 1))) as [E|E].
  - assert (Q : bpow radix2 (-53) * x <= bpow radix2 (fexp (mag radix2 x - 1))); [|lra]. rewrite E at 1. rewrite <- bpow_plus. apply bpow_le. unfold FLT_exp. lia.
  - assert (U := ulp_big x). rewrite Rabs_right in U by lra. assert (bpow radix2 (-53) * x <= ulp radix2 fexp x) by (apply U; lra). lra.
Qed.
Lemma near_is x d c : generic_format radix2 fexp x -> 0 < x -> Rabs (d - x) < bpow radix2 (-54) * x -> round radix2 fexp (Znearest c) d = x.
Proof.
  intros F H N. apply Rabs_def2 in N. assert (E : bpow radix2 (-53) = 2 * bpow radix2 (-54)) by (change 2 with (bpow radix2 1); rewrite <- bpow_plus; reflexivity).
  assert (P := pred_far x H). assert (U := ulp_big x). rewrite Rabs_right in U by lra. assert (U' : bpow radix2 (-53) * x <= ulp radix2 fexp x) by (apply U; lra).
  rewrite E in P, U'. apply Rle_antisym.
  - apply round_N_le_midp; [now apply FLT_exp_valid|exact F|]. rewrite succ_eq_pos by lra. lra.
  - apply round_N_ge_midp; [now apply FLT_exp_valid|exact F|]. lra.
Qed.
Lemma near_any x d : generic_format radix2 fexp x -> x <> 0 -> Rabs (d - x) < bpow radix2 (-54) * Rabs x -> round radix2 fexp ZnearestE d = x.
Proof.
  intros F H N. destruct (Rlt_or_le 0 x) as [L|L].
  - apply near_is; auto. now rewrite (Rabs_right x) in N by lra.
  - assert (E : round radix2 fexp ZnearestE (- d) = - x); [|rewrite round_NE_opp in E; lra].
    apply near_is; [now apply generic_format_opp|lra|]. rewrite (Rabs_left x) in N by lra. rewrite <- Rabs_Ropp. now replace (- (- d - - x)) with (d - x) by ring.
Qed.
Lemma decimal_roundtrip x d : generic_format radix2 fexp x -> prints x d -> round radix2 fexp ZnearestE d = x.
Proof.
  intros F [[-> ->]|(e & q & [B _] & _ & D)]; [apply round_0; auto with typeclass_instances|].
  assert (P : 0 < powerRZ 10 e) by (apply powerRZ_lt; lra).
  assert (X : x <> 0) by (intros ->; rewrite Rabs_R0 in B; lra).
  apply near_any; auto. apply Rle_lt_trans with (1 := D). unfold Z.sub. rewrite powerRZ_add by lra.
  change (bpow radix2 (-54)) with (/ IZR (2 ^ 54)). change (powerRZ 10 (- (17))) with (/ 10 ^ 17).
  assert (/ IZR (2 ^ 54) * powerRZ 10 e <= / IZR (2 ^ 54) * Rabs x) by (apply Rmult_le_compat_l; [left; apply Rinv_0_lt_compat; now apply IZR_lt|exact B]).
  apply Rlt_le_trans with (2 := H). replace (powerRZ 10 e * / 10 ^ 17 / 2) with (/ (2 * 10 ^ 17) * powerRZ 10 e) by (field; lra).
  apply Rmult_lt_compat_r; [exact P|]. apply Rinv_lt_contravar; [apply Rmult_lt_0_compat; [now apply IZR_lt|lra]|].
  change (IZR (2 ^ 54)) with 18014398509481984. lra.
Qed.
