(** The shipped normal table fits its density. *)
From Coq Require Import Reals Lia Lra Psatz ZifyN ZifyNat Bool.
From Coquelicot Require Import Coquelicot.
From Flocq Require Import Core BinarySingleNaN.
From Verif Require Import Model.Base Model.Rng Model.Float Model.Distr Model.Ziggurat Model.ExpoTable Model.NormalTable Model.ExpoNormal Spec.Floats Spec.Zig Spec.Density Spec.Prob.
From Verif Require Import Proofs.FloatProofs Proofs.RelError Proofs.ZigTables Proofs.SumN Proofs.Riemann Proofs.ZigAccept Proofs.ZigBody Proofs.ZigFloat Proofs.ZigInst Proofs.Gauss Props.Uniform Props.Zig Props.ExpoNormal Props.Tails Props.Density.
Local Open Scope R_scope.

Lemma minus_half : is_finite (mkfloat false (-1) (-1)) = true /\ B2R (mkfloat false (-1) (-1)) = - / 2.
Proof. destruct (mkfloat_exact false (-1) (-1)) as (V & F & _); [lia|lia|]. split; [exact F|]. rewrite V. change (bpow radix2 (-1)) with (/ 2). lra. Qed.
(** the argument of math.Exp for a point of the normal table *)
Lemma normal_arg x v : fvalue x v -> 0 <= v <= 16 -> v = 0 \/ / 2 ^ 56 <= v ->
  exists a, fvalue (fmul (fmul (mkfloat false (-1) (-1)) x) x) (- a) /\ rel (21 / 10 * / 2 ^ 53) a (v * v / 2).
Proof.
  intros [F E] Hv C. destruct minus_half as [Fh Eh]. pose proof small53 as S3. pose proof fmax_big as FM.
  assert (H1 : B2R (mkfloat false (-1) (-1)) * B2R x = - (v / 2)) by (rewrite Eh, E; field).
  assert (B1 : rel (/ 2 ^ 53) (rnd (v / 2)) (v / 2)). { destruct C as [->|C]; [unfold Rdiv; rewrite Rmult_0_l, rnd_0; unfold rel; lra|]. apply rel_rnd. apply normal_range. lra. }
  assert (P1 : 0 <= rnd (v / 2) <= 9) by (unfold rel in B1; assert (0 <= / 2 ^ 53 * (v / 2) <= 1 / 100 * (v / 2)) by (split; [apply Rmult_le_pos; lra|apply Rmult_le_compat_r; lra]); lra).
  destruct (fmul_R (mkfloat false (-1) (-1)) x Fh F) as (V1 & F1 & _); [rewrite H1, rnd_opp, Rabs_Ropp, Rabs_pos_eq; lra|]. rewrite H1, rnd_opp in V1. set (y := fmul (mkfloat false (-1) (-1)) x) in *.
  set (h := rnd (v / 2)) in *. assert (H2 : B2R y * B2R x = - (h * v)) by (rewrite V1, E; ring).
  assert (B2 : rel (/ 2 ^ 53) (h * v) (v * v / 2)) by (replace (v * v / 2) with (v / 2 * v) by field; apply rel_scale; [lra|exact B1]).
  assert (B3 : rel (/ 2 ^ 53) (rnd (h * v)) (h * v)).
  { destruct C as [C|C]; [rewrite C, Rmult_0_r, rnd_0; unfold rel; lra|]. apply rel_rnd. apply normal_range. apply Rle_trans with (/ 2 ^ 58 * / 2 ^ 56); [lra|]. apply Rmult_le_compat; try lra. unfold rel in B1. assert (/ 2 ^ 53 * (v / 2) <= 1 / 2 * (v / 2)) by (apply Rmult_le_compat_r; lra). lra. }
  assert (VV : 0 <= v * v / 2 <= 128) by (assert (0 <= v * v <= 16 * 16) by (split; [apply Rmult_le_pos|apply Rmult_le_compat]; lra); lra).
  assert (B4 : rel (21 / 10 * / 2 ^ 53) (rnd (h * v)) (v * v / 2)).
  { apply rel_weaken with (/ 2 ^ 53 + / 2 ^ 53 + / 2 ^ 53 * / 2 ^ 53); [lra|lra|]. apply rel_trans with (h * v); auto; lra. }
  assert (P2 : 0 <= h * v <= 9 * 16) by (split; [apply Rmult_le_pos|apply Rmult_le_compat]; lra).
  destruct (fmul_R y x F1 F) as (V2 & F2 & _).
  { rewrite H2, rnd_opp, Rabs_Ropp. apply Rle_lt_trans with 512; [|apply Rle_lt_trans with (bpow radix2 9); [cbn; lra|apply bpow_emax_lt; lia]]. unfold rel in B3. assert (0 <= / 2 ^ 53 * (h * v) <= 1 * (h * v)) by (split; [apply Rmult_le_pos; lra|apply Rmult_le_compat_r; lra]). rewrite Rabs_pos_eq; lra. }
  exists (rnd (h * v)). split; [|exact B4]. split; [exact F2|]. now rewrite V2, H2, rnd_opp.
Qed.
Lemma density_mul a b : normal_density (a + b) = normal_density a * exp (- (a * b + b * b / 2)).
Proof. unfold normal_density. rewrite <- exp_plus. f_equal. field. Qed.
Lemma density_decr x y : 0 <= x <= y -> normal_density y <= normal_density x.
Proof. intros H. apply exp_decr. assert (x * x <= y * y) by (apply Rmult_le_compat; lra). lra. Qed.

Section Inst.
  Context {W : Type} (read : reader W) (math_exp math_log : float64 -> float64).
  Hypothesis AE : accurate_exp math_exp.
  Variable tf : nat.
  Notation zig_n := (normalZig read math_exp math_log tf).
  Lemma normal_zig_for : zig_for zig_n normal_density.
  Proof.
    pose proof (C35_normal_tables read math_exp math_log tf) as T.
    assert (EH : forall i, (i < 1024)%nat -> edge zig_n i = IZR (nz (map (scale 112) normalW_bin) i) / IZR (2 ^ 59) /\ height zig_n i = IZR (nz (map (scale 68) normalF_bin) i) / IZR (2 ^ 68)).
    { intros i Hi. destruct (normal_edge read math_exp math_log tf i Hi) as (A & B & _). auto. }
    destruct (width_gen zig_n _ _ EH 135 4040 normal_width) as [W1 W2]. pose proof (normal_edge0 read math_exp math_log tf) as E0.
    assert (EP : forall i, (i < 1024)%nat -> 0 < edge zig_n i) by (intros i Hi; apply (tables_finite zig_n T i Hi)).
    assert (EL : forall i, (1 <= i < 1024)%nat -> edge zig_n 1 <= edge zig_n i <= edge zig_n 1023).
    { intros i Hi. split; [destruct (Nat.eq_dec i 1) as [->|]; [lra|]; left; apply (edges_increase zig_n T); lia|destruct (Nat.eq_dec i 1023) as [->|]; [lra|]; left; apply (edges_increase zig_n T); lia]. }
    pose proof small53 as S3.
    assert (WS : forall i, (1 <= i < 1024)%nat -> / 2 ^ 56 <= edge zig_n i / IZR (2 ^ 53) <= 46 / 10 ^ 17).
    { intros i Hi. rewrite edge_small. specialize (EL i Hi). split; [apply Rle_trans with (135 / 1000 * / 2 ^ 53); [lra|apply Rmult_le_compat_r; lra]|]. apply Rle_trans with (404 / 100 * (/ 2 ^ 53)); [apply Rmult_le_compat_r; lra|lra]. }
    assert (HH : forall i, (1 <= i < 1024)%nat -> normal_density (edge zig_n i) - 2 / 10 ^ 15 * normal_density (edge zig_n i) <= height zig_n i <= normal_density (edge zig_n i) + 2 / 10 ^ 15 * normal_density (edge zig_n i)).
    { intros i Hi. pose proof (C60_normal_heights read math_exp math_log tf i Hi) as H. apply Rabs_le_inv in H. lra. }
    split.
    - exact T.
    - exact E0.
    - lra.
    - apply density_cont.
    - intros x y H. now apply density_decr.
    - unfold normal_density. replace (- (0 ^ 2 / 2)) with 0 by field. apply exp_0.
    - exact (steep_gen zig_n _ _ EH normal_steep).
    - intros i t Hi Ht. specialize (HH (i - 1)%nat ltac:(lia)). specialize (WS i ltac:(lia)). pose proof (EL (i - 1)%nat ltac:(lia)) as EL'. set (e := edge zig_n (i - 1)) in *. set (w := edge zig_n i / IZR (2 ^ 53)) in *.
      assert (D : normal_density (e + w) <= normal_density t) by (apply density_decr; lra). rewrite density_mul in D. pose proof (exp_ge_1plus (- (e * w + w * w / 2))) as G1. pose proof (density_pos e) as P. set (a := normal_density e) in *.
      assert (EW : e * w + w * w / 2 <= 404 / 100 * (46 / 10 ^ 17) + 46 / 10 ^ 17 * (46 / 10 ^ 17)) by (apply Rplus_le_compat; [apply Rmult_le_compat; lra|assert (w * w <= 46 / 10 ^ 17 * (46 / 10 ^ 17)) by (apply Rmult_le_compat; lra); lra]).
      assert (a * (1 - 19 / 10 ^ 16) <= a * exp (- (e * w + w * w / 2))) by (apply Rmult_le_compat_l; lra). lra.
    - intros i t Hi Ht Ht2. specialize (HH (i - 1)%nat ltac:(lia)). specialize (WS i ltac:(lia)). pose proof (EL (i - 1)%nat ltac:(lia)) as EL'. set (e := edge zig_n (i - 1)) in *. set (w := edge zig_n i / IZR (2 ^ 53)) in *.
      assert (D : normal_density t <= normal_density (e - 3 * w)) by (apply density_decr; lra).
      assert (E : normal_density e = normal_density (e - 3 * w) * exp (- ((e - 3 * w) * (3 * w) + 3 * w * (3 * w) / 2))) by (rewrite <- density_mul; f_equal; ring). pose proof (exp_ge_1plus (- ((e - 3 * w) * (3 * w) + 3 * w * (3 * w) / 2))) as G1. pose proof (density_pos (e - 3 * w)) as P. set (a := normal_density (e - 3 * w)) in *.
      assert (EW : (e - 3 * w) * (3 * w) + 3 * w * (3 * w) / 2 <= 1 / 1000) by (assert ((e - 3 * w) * (3 * w) <= 5 * (3 * (46 / 10 ^ 17))) by (apply Rmult_le_compat; lra); assert (3 * w * (3 * w) <= 1 * (3 * (46 / 10 ^ 17))) by (apply Rmult_le_compat; lra); lra).
      assert (a * (1 - 1 / 1000) <= a * exp (- ((e - 3 * w) * (3 * w) + 3 * w * (3 * w) / 2))) by (apply Rmult_le_compat_l; lra). lra.
    - intros i t Hi Ht. specialize (HH i Hi). specialize (EL i Hi). set (e := edge zig_n i) in *. set (d := e * (3 / 10 ^ 13)). assert (D0 : 405 / 10 ^ 16 <= d) by (unfold d; lra).
      assert (D : normal_density t <= normal_density (e + d)) by (apply density_decr; unfold d; lra).
      assert (E : normal_density e = normal_density (e + d) * exp (e * d + d * d / 2)) by (rewrite density_mul, Rmult_assoc, <- exp_plus; replace (- (e * d + d * d / 2) + (e * d + d * d / 2)) with 0 by ring; rewrite exp_0; ring).
      pose proof (exp_ge_1plus (e * d + d * d / 2)) as G1. pose proof (density_pos (e + d)) as P. set (a := normal_density (e + d)) in *. assert (EW : 5 / 10 ^ 15 <= e * d + d * d / 2) by (assert (135 / 1000 * (405 / 10 ^ 16) <= e * d) by (apply Rmult_le_compat; lra); assert (0 <= d * d) by (apply Rmult_le_pos; lra); lra).
      assert (a * (1 + 5 / 10 ^ 15) <= a * exp (e * d + d * d / 2)) by (apply Rmult_le_compat_l; lra). lra.
    - pose proof (HH 1023%nat ltac:(lia)) as H. pose proof (density_pos (edge zig_n 1023)) as P. lra.
    - split.
      + pose proof k0_ok as K. apply andb_true_iff in K. destruct K as [_ K]. apply N.ltb_lt in K. exact K.
      + apply (base_gen zig_n 1); [lia|apply EP; lia|]. apply C35_normal_base.
    - intros i m Hi Hm. destruct (pointf_value0 zig_n T E0 ltac:(lra) i m ltac:(lia) Hm) as (v & V & _ & V16 & R). pose proof (abscissa_le zig_n T i m ltac:(lia) Hm) as TB. set (t := NR m * (edge zig_n i / IZR (2 ^ 53))) in *.
      pose proof (EL i Hi) as ELi. assert (T4 : 0 <= t <= 404 / 100) by lra.
      assert (TC : t = 0 \/ / 2 ^ 56 <= t). { destruct (N.eq_dec m 0) as [->|M0]; [left; unfold t; change (NR 0) with 0; ring|right]. specialize (WS i Hi). unfold t. apply Rle_trans with (1 * (edge zig_n i / IZR (2 ^ 53))); [lra|]. apply Rmult_le_compat_r; [lra|]. apply IZR_le. lia. }
      assert (RT : 0 <= / 2 ^ 53 * t <= 1 / 4 * t) by (split; [apply Rmult_le_pos; lra|apply Rmult_le_compat_r; lra]).
      destruct (normal_arg (pointf zig_n i m) v V V16) as (a & Va & Ra).
      { unfold rel in R. destruct TC as [TC|TC]; [left; lra|right]. assert (WV : / 2 ^ 56 <= v); [|exact WV]. destruct (N.eq_dec m 0) as [->|M0]; [exfalso; unfold t in TC; change (NR 0) with 0 in TC; lra|].
        assert (TW : 135 / 1000 * / 2 ^ 53 <= t). { unfold t. rewrite edge_small. apply Rle_trans with (1 * (135 / 1000 * / 2 ^ 53)); [lra|]. apply Rmult_le_compat; [lra|lra|apply IZR_le; lia|apply Rmult_le_compat_r; lra]. }
        assert (/ 2 ^ 53 * t <= 1 / 100 * t) by (apply Rmult_le_compat_r; lra). lra. }
      assert (RV : rel (/ 2 ^ 53 + / 2 ^ 53 + / 2 ^ 53 * / 2 ^ 53) (v * v) (t * t)) by (apply rel_mult; auto; lra). apply (rel_scale _ _ _ (/ 2)) in RV; [|lra].
      assert (RA : rel (42 / 10 * / 2 ^ 53) a (t * t / 2)).
      { assert (T2 : 0 <= t * t) by (apply Rmult_le_pos; lra). apply (fun x y z u v => rel_weaken _ (42 / 10 * / 2 ^ 53) _ _ u v (rel_trans _ _ _ _ _ x y z Ra RV)); lra. }
      assert (TT : 0 <= t * t <= 404 / 100 * (404 / 100)) by (split; [apply Rmult_le_pos|apply Rmult_le_compat]; lra). assert (TD : 0 <= 42 / 10 * / 2 ^ 53 * (t * t / 2) <= 42 / 10 * (112 / 10 ^ 18) * (404 / 100 * (404 / 100) / 2)) by (split; [apply Rmult_le_pos|apply Rmult_le_compat]; lra).
      unfold rel in RA. destruct (exp_pdf math_exp _ a (t ^ 2 / 2) (47 / 10 ^ 16) AE Va) as (p & VP & BP); [|lra| |].
      + lra.
      + apply Rabs_le. lra.
      + exists p. split; [exact VP|]. unfold normal_density. pose proof (exp_pos (- (t ^ 2 / 2))). lra.
  Qed.
End Inst.
