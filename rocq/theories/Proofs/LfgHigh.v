(** The high bits of an additive sequence modulo 2^64 (C85). *)
From Coq Require Import NArith ZArith Lia ZifyN ZifyNat ZifyBool List Bool.
From Verif Require Import Proofs.WordLemmas Proofs.LfgPeriod Proofs.LfgPeriodCert.
Import ListNotations.

(** ** periodic integer solutions of e(n+335) = e(n+334) + e(n) have period six *)
Section Six.
  Local Open Scope Z_scope.
  Variables (e : nat -> Z) (T : nat).
  Hypothesis (Tpos : (0 < T)%nat) (Per : forall n, e (n + T)%nat = e n) (Rec : forall n, e (n + 335)%nat = e (n + 334)%nat + e n).
  Fixpoint total (f : nat -> Z) (n : nat) : Z := match n with O => 0 | S n => total f n + f n end.
  Lemma total_ext f g n : (forall k, f k = g k) -> total f n = total g n.
  Proof. intros H. induction n as [|n IH]; cbn [total]; [reflexivity|]. now rewrite IH, H. Qed.
  Lemma total_lin a b f g n : total (fun k => a * f k + b * g k) n = a * total f n + b * total g n.
  Proof. induction n as [|n IH]; cbn [total]; [ring|]. rewrite IH. ring. Qed.
  Lemma total_shift1 f n : total (fun k => f (k + 1)%nat) n = total f n + f n - f 0%nat.
  Proof. induction n as [|n IH]; cbn [total]; [ring|]. rewrite IH. replace (n + 1)%nat with (S n) by lia. ring. Qed.
  Lemma total_shift f a : (forall k, f (k + T)%nat = f k) -> total (fun k => f (k + a)%nat) T = total f T.
  Proof.
    intros P. induction a as [|a IH]; [apply total_ext; intros; f_equal; lia|]. rewrite <- IH.
    rewrite (total_ext _ (fun k => (fun k => f (k + a)%nat) (k + 1)%nat)) by (intros; f_equal; lia). rewrite (total_shift1 (fun k => f (k + a)%nat)).
    replace (T + a)%nat with (a + T)%nat by lia. rewrite P. rewrite Nat.add_0_l. ring.
  Qed.
  Lemma total_zero f n : (forall k, 0 <= f k) -> total f n = 0 -> forall k, (k < n)%nat -> f k = 0.
  Proof.
    intros P. assert (N : forall n, 0 <= total f n) by (induction n0 as [|m IH]; cbn [total]; [lia|specialize (P m); lia]).
    induction n as [|n IH]; intros H k Hk; [lia|]. cbn [total] in H. pose proof (N n). pose proof (P n).
    destruct (Nat.eq_dec k n) as [->|E]; [lia|]. apply IH; lia.
  Qed.
  Definition corr (k : nat) : Z := total (fun n => e n * e (n + k)%nat) T.
  Lemma corr_at a k : total (fun n => e (n + a)%nat * e (n + a + k)%nat) T = corr k.
  Proof.
    unfold corr. apply (total_shift (fun n => e n * e (n + k)%nat) a). intros n. rewrite Per.
    replace (n + T + k)%nat with (n + k + T)%nat by lia. now rewrite Per.
  Qed.
  Lemma corr_rec j : (1 <= j <= 335)%nat -> corr j = corr (j - 1) + corr (335 - j).
  Proof.
    intros Hj. rewrite <- (corr_at (335 - j) j), <- (corr_at (335 - j) (j - 1)), <- (corr_at 0 (335 - j)).
    rewrite <- (Z.mul_1_l (total (fun n => e (n + (335 - j))%nat * e (n + (335 - j) + (j - 1))%nat) T)),
      <- (Z.mul_1_l (total (fun n => e (n + 0)%nat * e (n + 0 + (335 - j))%nat) T)), <- total_lin. apply total_ext. intros n.
    replace (n + (335 - j) + j)%nat with (n + 335)%nat by lia. replace (n + (335 - j) + (j - 1))%nat with (n + 334)%nat by lia.
    rewrite Rec, !Nat.add_0_r. ring.
  Qed.
  Lemma corr_square : corr 0 = 2 * corr 0 + 2 * corr 334.
  Proof.
    rewrite <- (corr_at 335 0) at 1. replace (2 * corr 0) with (1 * corr 0 + 1 * corr 0) by ring. rewrite <- (corr_at 334 0) at 1. unfold corr. rewrite <- !total_lin.
    replace (total (fun k => 1 * (e (k + 334)%nat * e (k + 334 + 0)%nat) + 1 * (e k * e (k + 0)%nat)) T)
      with (1 * total (fun k => 1 * (e (k + 334)%nat * e (k + 334 + 0)%nat) + 1 * (e k * e (k + 0)%nat)) T) by ring.
    rewrite <- total_lin. apply total_ext. intros n. rewrite !Nat.add_0_r, Rec. ring.
  Qed.
  Theorem six : forall n, e (n + 2)%nat = e (n + 1)%nat - e n.
  Proof.
    set (w := fun n => e (n + 2)%nat - e (n + 1)%nat + e n).
    assert (Z0 : total (fun n => w n * w n) T = 0).
    { assert (E : total (fun n => w n * w n) T = 3 * corr 0 - 4 * corr 1 + 2 * corr 2).
      { replace (3 * corr 0 - 4 * corr 1 + 2 * corr 2) with (1 * (1 * (1 * corr 0 + 1 * corr 0) + 1 * corr 0) + 2 * (1 * corr 2 + -1 * (1 * corr 1 + 1 * corr 1))) by ring.
        rewrite <- (corr_at 2 0) at 1. rewrite <- (corr_at 1 0) at 1. rewrite <- (corr_at 1 1) at 1. unfold corr. rewrite <- !total_lin. apply total_ext.
        intros n. unfold w. rewrite !Nat.add_0_r. replace (n + 1 + 1)%nat with (n + 2)%nat by lia. ring. }
      rewrite E. pose proof (corr_rec 1 ltac:(lia)) as C1. pose proof (corr_rec 2 ltac:(lia)) as C2. pose proof (corr_rec 334 ltac:(lia)) as C334. pose proof corr_square as C0.
      cbn [Nat.sub] in *. lia. }
    assert (W : forall n, w n = 0).
    { assert (WT : forall q n, w (n + q * T)%nat = w n).
      { induction q as [|q IH]; intros n; [f_equal; lia|]. replace (n + S q * T)%nat with (n + q * T + T)%nat by lia. rewrite <- (IH n). unfold w.
        set (m := (n + q * T)%nat). replace (m + T + 2)%nat with (m + 2 + T)%nat by lia. replace (m + T + 1)%nat with (m + 1 + T)%nat by lia. now rewrite !Per. }
      intros n. rewrite (Nat.div_mod n T) by lia. rewrite Nat.add_comm, Nat.mul_comm, WT.
      pose proof (total_zero (fun n => w n * w n) T ltac:(intros; apply Z.square_nonneg) Z0 (n mod T) ltac:(apply Nat.mod_upper_bound; lia)) as Q. cbv beta in Q. nia. }
    intros n. specialize (W n). unfold w in W. lia.
  Qed.
End Six.

(** ** all bits but the last *)
Local Open Scope N_scope.
Definition high_period (s : N -> N) (p : N) : Prop := forall n, s (n + p) / 2 = s n / 2.
Lemma high_six s p : wrec s -> high_period s p -> (6 | p) -> forall n, s (n + p) = s n.
Proof.
  intros H P [m Hm].
  set (e := fun n : nat => (Z.of_N (s (N.of_nat n + p)%N) - Z.of_N (s (N.of_nat n)))%Z).
  assert (Near : forall x y : N, x / 2 = y / 2 -> (-1 <= Z.of_N x - Z.of_N y <= 1)%Z).
  { intros x y E. pose proof (N.div_mod x 2 ltac:(discriminate)). pose proof (N.div_mod y 2 ltac:(discriminate)).
    pose proof (N.mod_lt x 2 ltac:(discriminate)). pose proof (N.mod_lt y 2 ltac:(discriminate)). lia. }
  assert (B : forall n, (-1 <= e n <= 1)%Z) by (intros n; apply Near, P).
  assert (R : forall n, e (n + 335)%nat = (e (n + 334)%nat + e n)%Z).
  { intros n. pose proof (B (n + 335)%nat) as B1. pose proof (B (n + 334)%nat) as B2. pose proof (B n) as B3. unfold e in *. clearbody e. clear Hm B P.
    replace (N.of_nat (n + 335)) with (N.of_nat n + 335) in * by lia. replace (N.of_nat (n + 334)) with (N.of_nat n + 334) in * by lia.
    replace (N.of_nat n + 335 + p) with (N.of_nat n + p + 335) in * by lia. replace (N.of_nat n + 334 + p) with (N.of_nat n + p + 334) in * by lia.
    destruct (H (N.of_nat n)) as [_ E1]. destruct (H (N.of_nat n + p)) as [_ E2]. rewrite E1, E2 in *.
    set (a := s (N.of_nat n + 334)) in *. set (b := s (N.of_nat n)) in *. set (a' := s (N.of_nat n + p + 334)) in *. set (b' := s (N.of_nat n + p)) in *.
    pose proof (N.div_mod (a + b) (2 ^ 64) ltac:(discriminate)) as D. pose proof (N.div_mod (a' + b') (2 ^ 64) ltac:(discriminate)) as D'.
    revert B1 D D'. generalize ((a + b) mod 2 ^ 64), ((a + b) / 2 ^ 64), ((a' + b') mod 2 ^ 64), ((a' + b') / 2 ^ 64). intros x q x' q' B1 D D'.
    change (2 ^ 64) with 18446744073709551616 in *. lia. }
  assert (ET : exists T, (0 < T)%nat /\ forall n, e (n + T)%nat = e n).
  { exists (N.to_nat lfgTo). pose proof lfgTo_pos as TP. apply N.ltb_lt in TP. pose proof (wrec_period s H) as PT. revert TP PT. generalize lfgTo. intros T TP PT.
    split; [lia|]. intros n. unfold e. replace (N.of_nat (n + N.to_nat T)) with (N.of_nat n + T) by lia. rewrite PT.
    replace (N.of_nat n + T + p) with (N.of_nat n + p + T) by lia. now rewrite PT. }
  destruct ET as (T & T0 & ET). pose proof (six e T T0 ET R) as S6.
  assert (P6 : forall n, e (n + 6)%nat = e n).
  { intros n. pose proof (S6 n). pose proof (S6 (n + 1)%nat). pose proof (S6 (n + 2)%nat). pose proof (S6 (n + 3)%nat). pose proof (S6 (n + 4)%nat).
    replace (n + 1 + 2)%nat with (n + 3)%nat in * by lia. replace (n + 1 + 1)%nat with (n + 2)%nat in * by lia. replace (n + 2 + 2)%nat with (n + 4)%nat in * by lia.
    replace (n + 2 + 1)%nat with (n + 3)%nat in * by lia. replace (n + 3 + 2)%nat with (n + 5)%nat in * by lia. replace (n + 3 + 1)%nat with (n + 4)%nat in * by lia.
    replace (n + 4 + 2)%nat with (n + 6)%nat in * by lia. replace (n + 4 + 1)%nat with (n + 5)%nat in * by lia. lia. }
  assert (Pk : forall k n, e (n + 6 * k)%nat = e n).
  { induction k as [|k IH]; intros n; [f_equal; lia|]. replace (n + 6 * S k)%nat with (n + 6 * k + 6)%nat by lia. now rewrite P6, IH. }
  intros n. specialize (Pk (N.to_nat m) (N.to_nat n)).
  replace (N.to_nat n + 6 * N.to_nat m)%nat with (N.to_nat (n + p)) in Pk by lia. unfold e in Pk. rewrite !N2Nat.id in Pk.
  pose proof (Near (s (n + p + p)) (s n)) as Q. rewrite (P (n + p)), (P n) in Q. specialize (Q eq_refl). lia.
Qed.
Lemma lfgTo_36 : (lfgTo mod 36 =? 0) = true.
Proof. vm_cast_no_check (eq_refl true). Qed.
Theorem high_exact s : wrec s -> nondeg s -> forall p, high_period s p <-> (lfgTo | p).
Proof.
  intros H ND p. split.
  - intros P. assert (P6 : high_period s (6 * p)) by (intros n; exact (per_mul (fun n => s n / 2) p P 6 n)).
    pose proof (high_six s (6 * p) H P6 (N.divide_factor_l 6 p)) as E. apply (wrec_exact s H ND) in E.
    pose proof lfgTo_36 as D. apply N.eqb_eq, N.mod_divide in D; [|discriminate]. pose proof (proj1 (wrec_exact s H ND p)) as F. revert E D F. generalize lfgTo. intros T [a Ha] [b Hb] F.
    apply F. apply (high_six s p H P). exists (a * b). lia.
  - intros D n. now rewrite (proj2 (wrec_exact s H ND p) D).
Qed.
