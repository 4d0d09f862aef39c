(** One layer: the fraction of accepted abscissae up to x is the area of the layer under the curve up to x. *)
From Coq Require Import Reals Lia Lra Psatz ZifyN.
From Coquelicot Require Import Coquelicot.
From Flocq Require Import Core.
From Verif Require Import Proofs.SumN Proofs.Riemann.
Local Open Scope R_scope.

Section Layer.
  Variable h : R -> R.
  Hypothesis C : forall x, continuous h x.
  Hypothesis D : forall x y, 0 <= x <= y -> h y <= h x.
  Hypothesis B : forall x, 0 <= x -> 0 <= h x <= 1.
  Lemma int_le a b : 0 <= a -> 0 <= b -> RInt h 0 b <= RInt h 0 a + Rmax 0 (b - a).
  Proof.
    intros Ha Hb. rewrite <- (int_chasles h C 0 a b). destruct (Rle_dec a b) as [L|L].
    - rewrite Rmax_right by lra. pose proof (int_between h C D a b ltac:(lra)) as I. pose proof (B a Ha) as Q.
      assert ((b - a) * h a <= (b - a) * 1) by (apply Rmult_le_compat_l; lra). lra.
    - rewrite Rmax_left by lra. pose proof (int_between h C D b a ltac:(lra)) as I. pose proof (B a Ha).
      assert (S : RInt h a b = - RInt h b a) by (rewrite <- (opp_RInt_swap h b a) by apply (h_int h C); reflexivity).
      rewrite S. pose proof (Rmult_le_pos (a - b) (h a) ltac:(lra) ltac:(lra)). lra.
  Qed.
  Variables (n : N) (w delta : R) (pt alpha : N -> R).
  Hypothesis (Hn : (0 < n)%N) (Hw : 0 < w) (Hd : 0 <= delta).
  Hypothesis P : forall j, (j < n)%N -> Rabs (pt j - NR j * w) <= w.
  Hypothesis A : forall j, (j < n)%N -> Rabs (alpha j - h (NR j * w)) <= delta.
  Lemma layer_sum x : 0 <= x ->
    Rabs (w * sumN (fun j => ind (Rle_bool (pt j) x) * alpha j) n - RInt h 0 (Rmin x (NR n * w))) <= NR n * w * delta + 3 * w.
  Proof.
    intros Hx. set (b := fun j => Rle_bool (pt j) x).
    assert (E1 : Rabs (sumN (fun j => ind (b j) * alpha j) n - sumN (fun j => ind (b j) * h (NR j * w)) n) <= NR n * delta).
    { apply sumN_close. intros j Hj. specialize (A j Hj). destruct (b j); cbn [ind]; rewrite ?Rmult_1_l, ?Rmult_0_l; [exact A|]. rewrite Rminus_0_r, Rabs_R0. exact Hd. }
    set (q := Zfloor (x / w)). assert (XW : 0 <= x / w) by (apply Rmult_le_pos; [exact Hx|left; now apply Rinv_0_lt_compat]).
    assert (Q0 : (0 <= q)%Z) by (unfold q; apply Zfloor_lub; exact XW). pose proof (Zfloor_lb (x / w)) as Q1. pose proof (Zfloor_ub (x / w)) as Q2. fold q in Q1, Q2.
    assert (XE : x / w * w = x) by (field; lra).
    assert (Q1' : IZR q * w <= x) by (rewrite <- XE; apply Rmult_le_compat_r; lra). assert (Q2' : x < (IZR q + 1) * w) by (rewrite <- XE at 1; apply Rmult_lt_compat_r; lra).
    set (m1 := N.min n (Z.to_N q)). set (m2 := N.min n (Z.to_N q + 2)).
    assert (HB : forall k, 0 <= NR k * w) by (intros k; apply Rmult_le_pos; [apply NR_pos|lra]).
    assert (POS : forall j, 0 <= ind (b j) * h (NR j * w)) by (intros j; apply Rmult_le_pos; [apply ind_range|apply B, HB]).
    assert (L1 : sumN (fun j => h (NR j * w)) m1 <= sumN (fun j => ind (b j) * h (NR j * w)) n).
    { replace n with (m1 + (n - m1))%N by (unfold m1; lia). rewrite sumN_add. rewrite <- (Rplus_0_r (sumN (fun j => h (NR j * w)) m1)). apply Rplus_le_compat; [|apply sumN_nonneg; intros; apply POS].
      right. apply sumN_ext. intros j Hj. assert (Hjn : (j < n)%N) by (unfold m1 in Hj; lia). specialize (P j Hjn). apply Rabs_le_inv in P.
      unfold b. rewrite Rle_bool_true; [cbn; ring|]. assert (J : (Z.of_N j + 1 <= q)%Z) by (unfold m1 in Hj; lia). apply IZR_le in J. rewrite plus_IZR in J.
      assert ((NR j + 1) * w <= IZR q * w) by (apply Rmult_le_compat_r; lra). lra. }
    assert (L2 : sumN (fun j => ind (b j) * h (NR j * w)) n <= sumN (fun j => h (NR j * w)) m2).
    { replace n with (m2 + (n - m2))%N by (unfold m2; lia). rewrite sumN_add. rewrite <- (Rplus_0_r (sumN (fun j => h (NR j * w)) m2)). apply Rplus_le_compat.
      - apply sumN_le. intros j _. rewrite <- (Rmult_1_l (h (NR j * w))) at 2. apply Rmult_le_compat_r; [apply B, HB|apply ind_range].
      - right. rewrite (sumN_ext _ (fun _ => 0)); [rewrite sumN_const; ring|]. intros k Hk. assert (Hjn : (m2 + k < n)%N) by lia. specialize (P _ Hjn). apply Rabs_le_inv in P.
        unfold b. rewrite Rle_bool_false; [cbn; ring|]. assert (J : (q + 2 <= Z.of_N (m2 + k))%Z) by (unfold m2 in *; lia). apply IZR_le in J. rewrite plus_IZR in J.
        assert ((IZR q + 2) * w <= NR (m2 + k) * w) by (apply Rmult_le_compat_r; lra). lra. }
    pose proof (left_sum h C D w ltac:(lra) m1) as S1. pose proof (left_sum h C D w ltac:(lra) m2) as S2.
    pose proof (B _ (HB m1)) as B1. pose proof (B _ (HB m2)) as B2. pose proof (B 0 ltac:(lra)) as B0.
    assert (MX : 0 <= Rmin x (NR n * w)) by (apply Rmin_glb; [exact Hx|apply HB]).
    pose proof (int_le (NR m1 * w) (Rmin x (NR n * w)) (HB m1) MX) as I1. pose proof (int_le (Rmin x (NR n * w)) (NR m2 * w) MX (HB m2)) as I2.
    assert (G1 : Rmax 0 (Rmin x (NR n * w) - NR m1 * w) <= w).
    { apply Rmax_lub; [lra|]. destruct (N.le_gt_cases n (Z.to_N q)) as [L|L].
      - replace m1 with n by (unfold m1; lia). pose proof (Rmin_r x (NR n * w)). lra.
      - replace m1 with (Z.to_N q) by (unfold m1; lia). rewrite Z2N.id by exact Q0. pose proof (Rmin_l x (NR n * w)). lra. }
    assert (G2 : Rmax 0 (NR m2 * w - Rmin x (NR n * w)) <= 2 * w).
    { apply Rmax_lub; [lra|]. assert (U1 : NR m2 <= NR n) by (apply IZR_le; unfold m2; lia). assert (U2 : NR m2 <= IZR q + 2) by (rewrite <- (plus_IZR q 2); apply IZR_le; unfold m2; lia).
      assert (NR m2 * w <= NR n * w) by (apply Rmult_le_compat_r; lra). assert (NR m2 * w <= (IZR q + 2) * w) by (apply Rmult_le_compat_r; lra).
      apply Rmin_case; lra. }
    apply (Rmult_le_compat_l w) in L1; [|lra]. apply (Rmult_le_compat_l w) in L2; [|lra].
    apply Rabs_le_inv in E1. destruct E1 as [E1 E2]. apply (Rmult_le_compat_l w) in E1; [|lra]. apply (Rmult_le_compat_l w) in E2; [|lra].
    rewrite Rmult_minus_distr_l in E1, E2.
    assert (w * (h 0 - h (NR m2 * w)) <= w) by (apply Rle_trans with (w * 1); [apply Rmult_le_compat_l; lra|lra]).
    replace (w * - (NR n * delta)) with (- (NR n * w * delta)) in E1 by ring. replace (w * (NR n * delta)) with (NR n * w * delta) in E2 by ring. change (fun j => ind (Rle_bool (pt j) x) * alpha j) with (fun j => ind (b j) * alpha j).
    apply Rabs_le. split; lra.
  Qed.
End Layer.
