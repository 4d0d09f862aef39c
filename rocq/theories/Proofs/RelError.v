(** Relative errors of rounded operations on non-negative numbers; bounds for the natural logarithm on (0,1). *)
From Coq Require Import Reals Lia Lra Psatz.
From Flocq Require Import Core BinarySingleNaN Relative.
From Verif Require Import Model.Base Model.Float Spec.Floats Proofs.FloatProofs.
Local Open Scope R_scope.

(** a is within relative error d of b *)
Definition rel (d a b : R) : Prop := b - d * b <= a <= b + d * b.
Lemma rel_weaken d d' a b : 0 <= b -> d <= d' -> rel d a b -> rel d' a b.
Proof. unfold rel. intros. assert (d * b <= d' * b) by (apply Rmult_le_compat_r; lra). lra. Qed.
Lemma rel_trans d1 d2 a b c : 0 <= c -> 0 <= d1 -> 0 <= d2 <= 1 -> rel d1 a b -> rel d2 b c -> rel (d1 + d2 + d1 * d2) a c.
Proof.
  unfold rel. intros Hc H1 H2 Ha Hb. assert (0 <= b) by (assert (d2 * c <= 1 * c) by (apply Rmult_le_compat_r; lra); lra).
  assert (d1 * b <= d1 * (c + d2 * c)) by (apply Rmult_le_compat_l; lra). split; [|lra].
  assert (d1 * (c + d2 * c) = d1 * c + d1 * d2 * c) by ring. lra.
Qed.
Lemma rel_mult d1 d2 a1 b1 a2 b2 : 0 <= b1 -> 0 <= b2 -> 0 <= d1 <= 1 -> 0 <= d2 <= 1 -> rel d1 a1 b1 -> rel d2 a2 b2 -> rel (d1 + d2 + d1 * d2) (a1 * a2) (b1 * b2).
Proof.
  unfold rel. intros B1 B2 D1 D2 H1 H2. assert (d1 * b1 <= 1 * b1) by (apply Rmult_le_compat_r; lra). assert (d2 * b2 <= 1 * b2) by (apply Rmult_le_compat_r; lra).
  assert (0 <= b1 * b2) by (apply Rmult_le_pos; lra).
  split.
  - assert ((b1 - d1 * b1) * (b2 - d2 * b2) <= a1 * a2) by (apply Rmult_le_compat; lra).
    assert (0 <= d1 * d2 * (b1 * b2)) by (apply Rmult_le_pos; [apply Rmult_le_pos; lra|lra]). nra.
  - assert (a1 * a2 <= (b1 + d1 * b1) * (b2 + d2 * b2)) by (apply Rmult_le_compat; nra). nra.
Qed.
Lemma rel_scale d a b k : 0 <= k -> rel d a b -> rel d (a * k) (b * k).
Proof.
  unfold rel. intros K [H1 H2]. split.
  - replace (b * k - d * (b * k)) with ((b - d * b) * k) by ring. now apply Rmult_le_compat_r.
  - replace (b * k + d * (b * k)) with ((b + d * b) * k) by ring. now apply Rmult_le_compat_r.
Qed.
(** rounding to double, away from underflow *)
Lemma rel_rnd x : bpow radix2 (-1022) <= x -> rel (/ 2 ^ 53) (rnd x) x.
Proof.
  intros H. pose proof (bpow_gt_0 radix2 (-1022)) as P.
  pose proof (relative_error_N_FLT radix2 (-1074) 53 ltac:(lia) (fun x => negb (Z.even x)) x) as K. rewrite Rabs_pos_eq in K by lra. specialize (K H).
  change (round radix2 (FLT_exp (-1074) 53) (Znearest (fun x => negb (Z.even x))) x) with (rnd x) in K.
  replace (/ 2 * bpow radix2 (- (53) + 1)) with (/ 2 ^ 53) in K by (change (bpow radix2 (- (53) + 1)) with (/ IZR (2 ^ 52)); cbn [Z.pow Z.pow_pos Pos.iter Z.mul Pos.mul]; lra).
  apply Rabs_le_inv in K. unfold rel. set (t := / 2 ^ 53 * x) in *. clearbody t. lra.
Qed.

(** exp and ln *)
Lemma exp_nat x n : exp (INR n * x) = exp x ^ n.
Proof.
  induction n as [|n IH]; [cbn; rewrite Rmult_0_l; apply exp_0|]. rewrite S_INR, Rmult_plus_distr_r, Rmult_1_l, exp_plus, IH. cbn [pow]. ring.
Qed.
Lemma exp_ge_1plus x : 1 + x <= exp x.
Proof. destruct (Req_dec x 0) as [->|N]; [rewrite exp_0; lra|]. left. now apply exp_ineq1. Qed.
Lemma ln_le_minus1 x : 0 < x -> ln x <= x - 1.
Proof. intros H. pose proof (exp_ge_1plus (ln x)) as K. rewrite exp_ln in K by exact H. lra. Qed.
(** 2^53 <= (129/128)^4723 <= exp (4723/128), and 4723/128 < 36.9 *)
Lemma exp37_check : (2 ^ 53 * 128 ^ 4723 <=? 129 ^ 4723)%Z = true.
Proof. vm_cast_no_check (eq_refl true). Qed.
Lemma exp37 : IZR (2 ^ 53) <= exp (369 / 10).
Proof.
  apply Rle_trans with (exp (4723 / 128)).
  2:{ left. apply exp_increasing. lra. }
  set (n := Z.to_nat 4723). replace (4723 / 128) with (INR n * (1 / 128)).
  2:{ rewrite INR_IZR_INZ. unfold n. rewrite Z2Nat.id by lia. lra. }
  rewrite exp_nat. apply Rle_trans with ((129 / 128) ^ n).
  - pose proof exp37_check as C. apply Z.leb_le, IZR_le in C. rewrite mult_IZR in C.
    assert (P : forall k, IZR (k ^ 4723) = IZR k ^ n).
    { intros k. rewrite pow_IZR. f_equal. }
    rewrite (P 128%Z), (P 129%Z) in C. unfold Rdiv. rewrite Rpow_mult_distr, pow_inv.
    assert (P1 : 0 < 128 ^ n) by (apply pow_lt; lra). apply Rmult_le_reg_r with (128 ^ n); [exact P1|].
    rewrite Rmult_assoc, Rinv_l, Rmult_1_r by lra. exact C.
  - apply pow_incr. split; [lra|]. pose proof (exp_ge_1plus (1 / 128)). lra.
Qed.
Lemma ln_lower x : / IZR (2 ^ 53) <= x -> - (369 / 10) <= ln x.
Proof.
  intros H. assert (P : 0 < / IZR (2 ^ 53)) by (apply Rinv_0_lt_compat; now apply IZR_lt).
  assert (E : exp (- (369 / 10)) <= x). { apply Rle_trans with (2 := H). rewrite exp_Ropp. apply Rinv_le_contravar; [now apply IZR_lt|exact exp37]. }
  destruct E as [E|E].
  - left. rewrite <- (ln_exp (- (369 / 10))). apply ln_increasing; [apply exp_pos|exact E].
  - right. now rewrite <- E, ln_exp.
Qed.
