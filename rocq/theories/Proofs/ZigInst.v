(** The shipped tables fit their densities. *)
From Coq Require Import Reals Lia Lra Psatz ZifyN ZifyNat Bool.
From Coquelicot Require Import Coquelicot.
From Flocq Require Import Core BinarySingleNaN.
From Verif Require Import Model.Base Model.Rng Model.Float Model.Distr Model.Ziggurat Model.ExpoTable Model.NormalTable Model.ExpoNormal Spec.Floats Spec.Zig Spec.Density Spec.Prob.
From Verif Require Import Proofs.FloatProofs Proofs.RelError Proofs.ZigTables Proofs.SumN Proofs.Riemann Proofs.ZigAccept Proofs.ZigBody Proofs.ZigFloat Props.Uniform Props.Zig Props.ExpoNormal Props.Tails Props.Density.
Local Open Scope R_scope.

Definition steep_ok (f : list Z) : bool :=
  forallb (fun i => (nz f (i - 1) <=? 500 * (nz f (i - 1) - nz f i)) && (2 ^ 48 <=? nz f i) && (2 ^ 48 <=? nz f (i - 1) - nz f i))%Z (seq 1 1023).
Lemma expo_steep : steep_ok (map (scale 68) expoF_bin) = true.
Proof. vm_cast_no_check (eq_refl true). Qed.
Lemma normal_steep : steep_ok (map (scale 68) normalF_bin) = true.
Proof. vm_cast_no_check (eq_refl true). Qed.
(** numerators a/1000 below the first edge and above the last *)
Definition width_ok (w : list Z) (a b : Z) : bool := (a * 2 ^ 59 <=? 1000 * nz w 1)%Z && (1000 * nz w 1023 <=? b * 2 ^ 59)%Z.
Lemma expo_width : width_ok (map (scale 112) expoW_bin) 30 9300 = true.
Proof. vm_cast_no_check (eq_refl true). Qed.
Lemma normal_width : width_ok (map (scale 112) normalW_bin) 135 4040 = true.
Proof. vm_cast_no_check (eq_refl true). Qed.
Lemma k0_ok : ((1 <? nth 0 expoK 0) && (1 <? nth 0 normalK 0))%N = true.
Proof. vm_cast_no_check (eq_refl true). Qed.

Section Gen.
  Context {W : Type} (z : Ziggurat W) (w f : list Z).
  Hypothesis EH : forall i, (i < 1024)%nat -> edge z i = IZR (nz w i) / IZR (2 ^ 59) /\ height z i = IZR (nz f i) / IZR (2 ^ 68).
  Lemma steep_gen : steep_ok f = true -> forall i, (1 <= i < 1024)%nat -> height z (i - 1) <= 500 * (height z (i - 1) - height z i) /\ / 2 ^ 20 <= height z i /\ / 2 ^ 20 <= height z (i - 1) - height z i.
  Proof.
    intros H i Hi. unfold steep_ok in H. pose proof (forallb_seq _ _ _ H i ltac:(lia)) as C. rewrite !andb_true_iff, !Z.leb_le in C. destruct C as [[C1 C2] C3].
    destruct (EH i ltac:(lia)) as [_ ->]. destruct (EH (i - 1)%nat ltac:(lia)) as [_ ->]. clear H EH. generalize dependent (nz f i). generalize (nz f (i - 1)). intros a b C1 C2 C3.
    apply IZR_le in C1, C2, C3. rewrite mult_IZR, minus_IZR in C1. rewrite minus_IZR in C3. change (IZR (2 ^ 48)) with (281474976710656) in *. change (IZR (2 ^ 68)) with (295147905179352825856). lra.
  Qed.
  Lemma width_gen a b : width_ok w a b = true -> IZR a / 1000 <= edge z 1 /\ edge z 1023 <= IZR b / 1000.
  Proof.
    unfold width_ok. rewrite andb_true_iff, !Z.leb_le. intros [C1 C2]. destruct (EH 1%nat ltac:(lia)) as [-> _]. destruct (EH 1023%nat ltac:(lia)) as [-> _]. clear EH.
    generalize dependent (nz w 1). generalize dependent (nz w 1023). intros c C2 d C1. apply IZR_le in C1, C2. rewrite !mult_IZR in C1, C2. change (IZR (2 ^ 59)) with (576460752303423488) in *. lra.
  Qed.
  Lemma base_gen d : (0 <= d <= 1)%Z -> 0 < edge z 0 -> (Z.of_N (tK z 0) = Zfloor (IZR (2 ^ 53) * edge z 1023 / edge z 0) + d)%Z ->
    Rabs (NR (tK z 0) * (edge z 0 / IZR (2 ^ 53)) - edge z 1023) <= 3 * (edge z 0 / IZR (2 ^ 53)).
  Proof.
    intros Hd P E. rewrite E. pose proof P53 as PP. set (q := IZR (2 ^ 53) * edge z 1023 / edge z 0) in *. pose proof (Zfloor_lb q) as L. pose proof (Zfloor_ub q) as U. rewrite plus_IZR.
    assert (D : 0 <= IZR d <= 1) by (split; [apply (IZR_le 0)|apply (IZR_le d 1)]; lia). set (v := edge z 0 / IZR (2 ^ 53)). assert (V0 : 0 < v) by (apply Rdiv_lt_0_compat; lra).
    assert (QV : q * v = edge z 1023) by (unfold q, v; field; lra). set (k := IZR (Zfloor q) + IZR d) in *.
    assert (k * v <= (q + 3) * v) by (apply Rmult_le_compat_r; unfold k; lra). assert ((q - 3) * v <= k * v) by (apply Rmult_le_compat_r; unfold k; lra). apply Rabs_le. lra.
  Qed.
End Gen.

Lemma exp_decr x y : x <= y -> exp (- y) <= exp (- x).
Proof. intros [H| ->]; [left; apply exp_increasing; lra|lra]. Qed.
Lemma exp_pdf math_exp x v t d : accurate_exp math_exp -> fvalue x (- v) -> 0 <= v <= 50 -> 0 <= d <= 48 / 10 ^ 16 -> Rabs (v - t) <= d ->
  exists p, fvalue (math_exp x) p /\ Rabs (p - exp (- t)) <= (d + 27 / 10 ^ 17) * exp (- t).
Proof.
  intros AE V Hv Hd D. destruct (AE x (- v) V ltac:(lra)) as [F B]. exists (B2R (math_exp x)). split; [now split|].
  apply Rabs_le_inv in D. pose proof (exp_pos (- t)) as PT. pose proof (exp_pos (- v)) as PV. pose proof small52 as S2.
  assert (E1 : exp (- v) = exp (- t) * exp (t - v)) by (rewrite <- exp_plus; f_equal; ring). assert (E2 : exp (- t) = exp (- v) * exp (v - t)) by (rewrite <- exp_plus; f_equal; ring).
  pose proof (exp_ge_1plus (t - v)) as G1. pose proof (exp_ge_1plus (v - t)) as G2.
  set (a := exp (- t)) in *. set (b := exp (- v)) in *.
  assert (L : a * (1 - d) <= b) by (rewrite E1; apply Rmult_le_compat_l; lra).
  assert (U : b * (1 - d) <= a) by (rewrite E2; apply Rmult_le_compat_l; lra).
  assert (AD : 0 <= a * d <= a * (48 / 10 ^ 16)) by (split; [apply Rmult_le_pos; lra|apply Rmult_le_compat_l; lra]).
  assert (BD : 0 <= b * d <= b * (48 / 10 ^ 16)) by (split; [apply Rmult_le_pos; lra|apply Rmult_le_compat_l; lra]).
  assert (BA : b <= 2 * a) by lra.
  assert (U2 : b <= a + a * d + a * (1 / 10 ^ 28)).
  { assert (b * d <= (a + b * (48 / 10 ^ 16)) * d) by (apply Rmult_le_compat_r; lra). assert (b * (48 / 10 ^ 16) * d <= (2 * a * (48 / 10 ^ 16)) * (48 / 10 ^ 16)) by (apply Rmult_le_compat; lra). lra. }
  assert (BB : / 2 ^ 52 * b <= 23 / 10 ^ 17 * (a + a * (49 / 10 ^ 16))) by (apply Rmult_le_compat; lra).
  apply Rabs_le_inv in B. apply Rabs_le. lra.
Qed.

Section Inst.
  Context {W : Type} (read : reader W) (math_exp math_log : float64 -> float64).
  Hypothesis AE : accurate_exp math_exp.
  Notation zig_e := (expoZig read math_exp math_log).
  Lemma expo_zig_for : zig_for zig_e expo_density.
  Proof.
    pose proof (C35_expo_tables read math_exp math_log) as T.
    assert (EH : forall i, (i < 1024)%nat -> edge zig_e i = IZR (nz (map (scale 112) expoW_bin) i) / IZR (2 ^ 59) /\ height zig_e i = IZR (nz (map (scale 68) expoF_bin) i) / IZR (2 ^ 68)).
    { intros i Hi. destruct (expo_edge read math_exp math_log i Hi) as (A & B & _). auto. }
    destruct (width_gen zig_e _ _ EH 30 9300 expo_width) as [W1 W2]. pose proof (expo_edge0 read math_exp math_log) as E0.
    assert (EP : forall i, (i < 1024)%nat -> 0 < edge zig_e i) by (intros i Hi; apply (tables_finite zig_e T i Hi)).
    assert (EL : forall i, (1 <= i < 1024)%nat -> edge zig_e 1 <= edge zig_e i <= edge zig_e 1023).
    { intros i Hi. split; [destruct (Nat.eq_dec i 1) as [->|]; [lra|]; left; apply (edges_increase zig_e T); lia|destruct (Nat.eq_dec i 1023) as [->|]; [lra|]; left; apply (edges_increase zig_e T); lia]. }
    pose proof small53 as S3.
    assert (WS : forall i, (1 <= i < 1024)%nat -> 0 < edge zig_e i / IZR (2 ^ 53) <= 12 / 10 ^ 16).
    { intros i Hi. rewrite edge_small. specialize (EL i Hi). split; [apply Rmult_lt_0_compat; lra|]. apply Rle_trans with (93 / 10 * (12 / 10 ^ 17)); [apply Rmult_le_compat; lra|lra]. }
    assert (HH : forall i, (1 <= i < 1024)%nat -> expo_density (edge zig_e i) - 2 / 10 ^ 15 * expo_density (edge zig_e i) <= height zig_e i <= expo_density (edge zig_e i) + 2 / 10 ^ 15 * expo_density (edge zig_e i)).
    { intros i Hi. pose proof (C60_expo_heights read math_exp math_log i Hi) as H. apply Rabs_le_inv in H. lra. }
    split.
    - exact T.
    - exact E0.
    - lra.
    - intros x. apply (ex_derive_continuous expo_density x). unfold expo_density. auto_derive. trivial.
    - intros x y H. apply exp_decr. lra.
    - unfold expo_density. rewrite Ropp_0. apply exp_0.
    - exact (steep_gen zig_e _ _ EH expo_steep).
    - intros i t Hi Ht. specialize (HH (i - 1)%nat ltac:(lia)). specialize (WS i ltac:(lia)). set (e := edge zig_e (i - 1)) in *. set (w := edge zig_e i / IZR (2 ^ 53)) in *.
      assert (D : expo_density (e + w) <= expo_density t) by (apply exp_decr; lra). unfold expo_density in *.
      assert (E : exp (- (e + w)) = exp (- e) * exp (- w)) by (rewrite <- exp_plus; f_equal; ring). pose proof (exp_ge_1plus (- w)) as G. pose proof (exp_pos (- e)) as P. set (a := exp (- e)) in *.
      assert (a * (1 - 12 / 10 ^ 16) <= a * exp (- w)) by (apply Rmult_le_compat_l; lra). lra.
    - intros i t Hi Ht Ht2. specialize (HH (i - 1)%nat ltac:(lia)). specialize (WS i ltac:(lia)). set (e := edge zig_e (i - 1)) in *. set (w := edge zig_e i / IZR (2 ^ 53)) in *.
      assert (D : expo_density t <= expo_density (e - 3 * w)) by (apply exp_decr; lra). unfold expo_density in *.
      assert (E : exp (- e) = exp (- (e - 3 * w)) * exp (- (3 * w))) by (rewrite <- exp_plus; f_equal; ring). pose proof (exp_ge_1plus (- (3 * w))) as G. pose proof (exp_pos (- (e - 3 * w))) as P. set (a := exp (- (e - 3 * w))) in *.
      assert (a * (1 - 36 / 10 ^ 16) <= a * exp (- (3 * w))) by (apply Rmult_le_compat_l; lra). lra.
    - intros i t Hi Ht. specialize (HH i Hi). specialize (EL i Hi). set (e := edge zig_e i) in *. assert (D : expo_density t <= expo_density (e + 9 / 10 ^ 15)) by (apply exp_decr; lra). unfold expo_density in *.
      assert (E : exp (- e) = exp (- (e + 9 / 10 ^ 15)) * exp (9 / 10 ^ 15)) by (rewrite <- exp_plus; f_equal; lra). pose proof (exp_ge_1plus (9 / 10 ^ 15)) as G. pose proof (exp_pos (- (e + 9 / 10 ^ 15))) as P. set (a := exp (- (e + 9 / 10 ^ 15))) in *.
      assert (a * (1 + 9 / 10 ^ 15) <= a * exp (9 / 10 ^ 15)) by (apply Rmult_le_compat_l; lra). lra.
    - pose proof (HH 1023%nat ltac:(lia)) as H. pose proof (exp_pos (- edge zig_e 1023)) as P. unfold expo_density in *. lra.
    - split.
      + pose proof k0_ok as K. apply andb_true_iff in K. destruct K as [K _]. apply N.ltb_lt in K. exact K.
      + apply (base_gen zig_e 0); [lia|apply EP; lia|]. rewrite Z.add_0_r. apply C35_expo_base.
    - intros i m Hi Hm. assert (ZP : exists v, fvalue (pointf zig_e i m) v /\ 0 <= v <= 16 /\ rel (/ 2 ^ 53) v (NR m * (edge zig_e i / IZR (2 ^ 53)))).
      { destruct (pointf_value0 zig_e T E0 ltac:(lra) i m ltac:(lia) Hm) as (v & V1 & _ & V2 & V3). eauto. }
      destruct ZP as (v & V & V16 & R). set (t := NR m * (edge zig_e i / IZR (2 ^ 53))) in *.
      destruct (exp_pdf math_exp (fneg (pointf zig_e i m)) v t (18 / 10 ^ 16) AE) as (p & VP & BP); try lra.
      + destruct V as [F E]. split; [unfold fneg; now rewrite is_finite_Bopp|unfold fneg; rewrite B2R_Bopp, E; reflexivity].
      + pose proof (abscissa_le zig_e T i m ltac:(lia) Hm) as TB. fold t in TB. specialize (EL i Hi). unfold rel in R. assert (/ 2 ^ 53 * t <= 12 / 10 ^ 17 * (93 / 10)) by (apply Rmult_le_compat; lra). apply Rabs_le. lra.
      + exists p. split; [exact VP|]. unfold expo_density. pose proof (exp_pos (- t)). lra.
  Qed.
End Inst.
