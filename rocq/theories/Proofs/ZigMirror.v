(** A mirrored ziggurat: the probability of a property in one round is the mean over both signs. *)
From Coq Require Import Reals Lia Lra Psatz ZifyN ZifyNat Bool.
From Coquelicot Require Import Coquelicot.
From Flocq Require Import Core BinarySingleNaN.
From Verif Require Import Model.Base Model.Rng Model.Float Model.Distr Model.Ziggurat Spec.Common Spec.Floats Spec.Zig.
From Verif Require Import Proofs.FloatProofs Proofs.SumN Proofs.Riemann Proofs.ZigAccept Proofs.ZigBody Proofs.ZigStep Proofs.ZigFloat Proofs.ZigTape Proofs.ZigHit Props.Uniform Props.Zig.
Local Open Scope R_scope.

(** for every choice of the compiler which x*y + z to fuse (Model/Fused.v) *)
Section Compiler.
Context {fpc : compiler}.

Lemma of_int_neg m : (0 < m <= 2 ^ 53)%N -> of_int (- Z.of_N m) = fneg (of_int (Z.of_N m)).
Proof.
  intros H. destruct (N.eq_dec m (2 ^ 53)) as [->|E]; [apply B2SF_inj; vm_compute; reflexivity|]. apply of_int_opp; lia.
Qed.
Lemma mean53_rev (g : N -> R) : mean53 (fun m => g (2 ^ 53 - m)%N) = mean53 g + (g (2 ^ 53)%N - g 0%N) / IZR (2 ^ 53).
Proof.
  unfold mean53. rewrite (sumN_ext _ (fun m => g (M53 - m)%N)) by (intros m _; now rewrite M53_eq). rewrite sumN_rev, M53_eq. pose proof P53. field. lra.
Qed.

Section Mirror.
  Variable zt : nat -> Ziggurat (list N).
  Notation z := (zt 0%nat).
  Variable f : R -> R.
  Hypothesis ZF : zig_for z f.
  Hypothesis MI : zMirrored z = true.
  Hypothesis EVEN : forall x, zPDF z (fneg x) = zPDF z x.
  Lemma point_plus i m : (m < 2 ^ 53)%N -> point z (i * 2 ^ 54 + m) = pointf z (N.to_nat i) m.
  Proof. intros Hm. unfold point, pointf. rewrite MI. replace (i * 2 ^ 54 + m)%N with (i * 2 ^ 54 + 0 + m)%N by lia. rewrite absc_true by auto. replace (i * 2 ^ 54 + 0 + m)%N with (i * 2 ^ 54 + m)%N by lia. rewrite layer_split by lia. f_equal. f_equal. lia. Qed.
  Lemma point_minus i m : (m < 2 ^ 53)%N -> point z (i * 2 ^ 54 + 2 ^ 53 + m) = fneg (pointf z (N.to_nat i) (2 ^ 53 - m)).
  Proof.
    intros Hm. unfold point, pointf. rewrite MI. rewrite absc_true by auto. replace (i * 2 ^ 54 + 2 ^ 53 + m)%N with (i * 2 ^ 54 + (2 ^ 53 + m))%N by lia. rewrite layer_split by lia.
    replace (Z.of_N m - Z.of_N (2 ^ 53))%Z with (- Z.of_N (2 ^ 53 - m))%Z by lia. rewrite of_int_neg by lia. apply fmul_opp_l.
  Qed.
  Section Prop_.
  Variable p : float64 -> bool.
  Definition qp (i m : N) : bool := p (pointf z (N.to_nat i) m).
  Definition qm (i m : N) : bool := p (fneg (pointf z (N.to_nat i) m)).
  Lemma hit_mirrored : Rabs (hit (ins zt) tl (le zt p) (below zt) - (part zt qp + part zt qm) / 2) <= / IZR (2 ^ 53).
  Proof.
    pose proof P53 as PP. pose proof (Rinv_0_lt_compat _ PP) as IP.
    unfold hit. rewrite mean64_split. rewrite <- !(take_part zt f ZF).
    assert (SP : forall i m, (m < 2 ^ 53)%N -> (if ins zt (i * 2 ^ 54 + m) then ind (le zt p (i * 2 ^ 54 + m)) else if tl (i * 2 ^ 54 + m) then 0 else ind (le zt p (i * 2 ^ 54 + m)) * frac (below zt) (i * 2 ^ 54 + m)) = take zt i m (qp i m)).
    { intros i m Hm. unfold qp. rewrite <- (point_plus i m Hm). apply (integrand_take zt p).
      - apply layer_split. lia.
      - rewrite MI. replace (i * 2 ^ 54 + m)%N with (i * 2 ^ 54 + 0 + m)%N by lia. rewrite absc_true by auto. lia.
      - now rewrite point_plus. }
    assert (SM : forall i m, (m < 2 ^ 53)%N -> (if ins zt (i * 2 ^ 54 + 2 ^ 53 + m) then ind (le zt p (i * 2 ^ 54 + 2 ^ 53 + m)) else if tl (i * 2 ^ 54 + 2 ^ 53 + m) then 0 else ind (le zt p (i * 2 ^ 54 + 2 ^ 53 + m)) * frac (below zt) (i * 2 ^ 54 + 2 ^ 53 + m)) = take zt i (2 ^ 53 - m) (qm i (2 ^ 53 - m))).
    { intros i m Hm. unfold qm. rewrite <- (point_minus i m Hm). apply (integrand_take zt p).
      - replace (i * 2 ^ 54 + 2 ^ 53 + m)%N with (i * 2 ^ 54 + (2 ^ 53 + m))%N by lia. apply layer_split. lia.
      - rewrite MI. rewrite absc_true by auto. lia.
      - rewrite point_minus by exact Hm. apply EVEN. }
    rewrite (sumN_ext _ (fun i => (mean53 (fun m => take zt i m (qp i m)) + mean53 (fun m => take zt i m (qm i m))) / 2 + (take zt i (2 ^ 53) (qm i (2 ^ 53)%N) - take zt i 0 (qm i 0%N)) / IZR (2 ^ 53) / 2)).
    2: { intros i _. rewrite (mean53_ext _ _ (SP i)), (mean53_ext _ _ (SM i)). rewrite (mean53_rev (fun m => take zt i m (qm i m))). field. lra. }
    rewrite sumN_plus. rewrite (sumN_ext _ (fun i => / 2 * mean53 (fun m => take zt i m (qp i m)) + / 2 * mean53 (fun m => take zt i m (qm i m)))) by (intros; field). rewrite sumN_plus, !sumN_scal.
    set (a := sumN _ 1024). set (b := sumN (fun i => mean53 (fun m => take zt i m (qm i m))) 1024). set (e := sumN _ 1024).
    replace ((/ 2 * a + / 2 * b + e) / 1024 - (a / 1024 + b / 1024) / 2) with (e / 1024) by field.
    assert (BE : Rabs (e - sumN (fun _ => 0) 1024) <= NR 1024 * (/ IZR (2 ^ 53))).
    { apply sumN_close. intros i _. rewrite Rminus_0_r. pose proof (take_range zt i (2 ^ 53) (qm i (2 ^ 53)%N)) as R1. pose proof (take_range zt i 0 (qm i 0%N)) as R2. set (t1 := take zt i (2 ^ 53) _) in *. set (t2 := take zt i 0 _) in *.
      unfold Rdiv. set (k := / IZR (2 ^ 53)) in *. assert (0 <= t1 * k <= 1 * k) by (split; [apply Rmult_le_pos|apply Rmult_le_compat_r]; lra). assert (0 <= t2 * k <= 1 * k) by (split; [apply Rmult_le_pos|apply Rmult_le_compat_r]; lra). apply Rabs_le. lra. }
    rewrite sumN_const, Rmult_0_r, Rminus_0_r in BE. change (NR 1024) with 1024 in BE. apply Rabs_le_inv in BE. apply Rabs_le. lra.
  Qed.
  (** the chance of the property in the tail, for the two signs *)
  Definition Tp (n : nat) : R := pr (S n) (fun ws => evb p (zTail (zt (S (length ws))) ws)).
  Definition Tm (n : nat) : R := pr (S n) (fun ws => evb (fun v => p (fneg v)) (zTail (zt (S (length ws))) ws)).
  Definition outside' : R := outside zt + / IZR (2 ^ 53) / 1024.
  Lemma tails_mirrored n : tails (ins zt) tl (TE zt p) n = (outside zt * Tp n + outside' * Tm n) / 2.
  Proof.
    pose proof P53 as PP. unfold tails. rewrite mean64_split.
    assert (SP : forall i m, (m < 2 ^ 53)%N -> (if ins zt (i * 2 ^ 54 + m) then 0 else if tl (i * 2 ^ 54 + m) then pr (S n) (TE zt p (i * 2 ^ 54 + m)) else 0) = (if (i =? 0)%N then 1 - ind (m <? tK z 0)%N else 0) * Tp n).
    { intros i m Hm. assert (A : abscissa (zMirrored z) (i * 2 ^ 54 + m) = Z.of_N m) by (rewrite MI; replace (i * 2 ^ 54 + m)%N with (i * 2 ^ 54 + 0 + m)%N by lia; rewrite absc_true by auto; lia).
      rewrite <- (tail_take zt (i * 2 ^ 54 + m) i m); [|apply layer_split; lia|rewrite A; lia]. destruct (ins zt _); [ring|]. destruct (tl _); [|ring]. rewrite Rmult_1_l. unfold Tp. apply pr_ext. intros ws _ _. unfold TE. rewrite A. replace (Z.of_N m <? 0)%Z with false by (symmetry; apply Z.ltb_ge; lia). reflexivity. }
    assert (SM : forall i m, (m < 2 ^ 53)%N -> (if ins zt (i * 2 ^ 54 + 2 ^ 53 + m) then 0 else if tl (i * 2 ^ 54 + 2 ^ 53 + m) then pr (S n) (TE zt p (i * 2 ^ 54 + 2 ^ 53 + m)) else 0) = (if (i =? 0)%N then 1 - ind (2 ^ 53 - m <? tK z 0)%N else 0) * Tm n).
    { intros i m Hm. assert (A : abscissa (zMirrored z) (i * 2 ^ 54 + 2 ^ 53 + m) = (- Z.of_N (2 ^ 53 - m))%Z) by (rewrite MI; rewrite absc_true by auto; lia).
      rewrite <- (tail_take zt (i * 2 ^ 54 + 2 ^ 53 + m) i (2 ^ 53 - m)); [|replace (i * 2 ^ 54 + 2 ^ 53 + m)%N with (i * 2 ^ 54 + (2 ^ 53 + m))%N by lia; apply layer_split; lia|rewrite A; lia]. destruct (ins zt _); [ring|]. destruct (tl _); [|ring]. rewrite Rmult_1_l. unfold Tm. apply pr_ext. intros ws _ _. unfold TE. rewrite A. replace (- Z.of_N (2 ^ 53 - m) <? 0)%Z with true by (symmetry; apply Z.ltb_lt; lia). reflexivity. }
    assert (O : mean53 (fun m => 1 - ind (m <? tK z 0)%N) = 1024 * outside zt) by (rewrite (outside_mean zt f ZF); field).
    assert (O' : mean53 (fun m => 1 - ind (2 ^ 53 - m <? tK z 0)%N) = 1024 * outside').
    { rewrite (mean53_rev (fun m => 1 - ind (m <? tK z 0)%N)), O. unfold outside'. destruct (zf_base z f ZF) as [K1 _]. pose proof (inside_bound z (zf_tables z f ZF) 0 ltac:(lia)) as K2.
      replace (2 ^ 53 <? tK z 0)%N with false by (symmetry; apply N.ltb_ge; lia). replace (0 <? tK z 0)%N with true by (symmetry; apply N.ltb_lt; lia). cbn [ind]. field. lra. }
    rewrite (sumN_ext _ (fun i => if (i =? 0)%N then 1024 * ((outside zt * Tp n + outside' * Tm n) / 2) else 0)).
    - change 1024%N with (N.succ 1023). rewrite sumN_first. field.
    - intros i _. rewrite (mean53_ext _ _ (SP i)), (mean53_ext _ _ (SM i)). destruct (i =? 0)%N.
      + assert (MS : forall g c, mean53 (fun m => g m * c) = mean53 g * c). { intros g c. unfold mean53. rewrite (sumN_ext _ (fun m => c * g m)) by (intros; ring). rewrite sumN_scal. field. lra. }
        rewrite !MS, O, O'. field.
      + rewrite (mean53_ext _ (fun _ => 0)) by (intros; ring). rewrite (mean53_ext (fun _ => 0 * Tm n) (fun _ => 0)) by (intros; ring). rewrite mean53_const. field.
  Qed.
  End Prop_.
  Lemma qp_neg p i m : qp (fun v => negb (p (fneg v))) i m = negb (qm p i m). Proof. reflexivity. Qed.
  Lemma qm_neg p i m : qm (fun v => negb (p (fneg v))) i m = negb (qp p i m). Proof. unfold qm, qp. now rewrite fneg_invol. Qed.
  Lemma part_negb q : part zt (fun i m => negb (q i m)) = part zt (fun _ _ => true) - part zt q.
  Proof.
    rewrite <- !(take_part zt f ZF). unfold Rdiv. rewrite <- Rmult_minus_distr_r. f_equal. rewrite <- sumN_minus. apply sumN_ext. intros i _. unfold mean53. unfold Rdiv. rewrite <- Rmult_minus_distr_r. f_equal. rewrite <- sumN_minus. apply sumN_ext. intros m _.
    unfold take. destruct (m <? _)%N; [destruct (q i m); cbn; ring|]. destruct (i =? 0)%N; [ring|]. destruct (q i m); cbn; ring.
  Qed.
  Lemma part_ext q q' : (forall i m, q i m = q' i m) -> part zt q = part zt q'.
  Proof.
    intros H. unfold part. f_equal. f_equal; [apply sumN_ext; intros k _; apply mean53_ext; intros m _; now rewrite H|]. f_equal. apply sumN_ext. intros m _. now rewrite H.
  Qed.
  Lemma part_le q q' : (forall i m, (i < 1024)%N -> (m <= 2 ^ 53)%N -> q i m = true -> q' i m = true) -> part zt q <= part zt q'.
  Proof.
    intros H. assert (K0 : (tK z 0 < 2 ^ 53)%N) by (apply (inside_bound z (zf_tables z f ZF)); lia). pose proof (Rinv_0_lt_compat _ P53) as IP.
    assert (LE : forall i m, (i < 1024)%N -> (m <= 2 ^ 53)%N -> ind (q i m) <= ind (q' i m)). { intros i m Hi Hm. specialize (H i m Hi Hm). destruct (q i m); [rewrite H by reflexivity; lra|apply ind_range]. }
    unfold part. apply Rmult_le_compat_r; [lra|]. apply Rplus_le_compat.
    - apply sumN_le. intros k Hk. unfold mean53. apply Rmult_le_compat_r; [lra|]. apply sumN_le. intros m Hm. rewrite M53_eq in Hm. apply Rmult_le_compat_r; [apply accept_range|]. apply LE; lia.
    - apply Rmult_le_compat_r; [lra|]. apply sumN_le. intros m Hm. apply LE; lia.
  Qed.
  Lemma hit_all_mirrored : hit (ins zt) tl (le zt (fun _ => true)) (below zt) = mean64 (fun u => if ins zt u then 1 else if tl u then 0 else frac (below zt) u).
  Proof. unfold hit. apply mean64_ext. intros u _. unfold le. cbn [ind]. destruct (ins _ u); [reflexivity|]. destruct (tl u); ring. Qed.
  Lemma tail_mass_mirrored : tail_mass zt = (outside zt + outside') / 2.
  Proof.
    pose proof P53 as PP. unfold tail_mass. rewrite mean64_split.
    assert (SP : forall i m, (m < 2 ^ 53)%N -> (if ins zt (i * 2 ^ 54 + m) then 0 else if tl (i * 2 ^ 54 + m) then 1 else 0) = (if (i =? 0)%N then 1 - ind (m <? tK z 0)%N else 0)).
    { intros i m Hm. apply (tail_take zt); [apply layer_split; lia|]. rewrite MI. replace (i * 2 ^ 54 + m)%N with (i * 2 ^ 54 + 0 + m)%N by lia. rewrite absc_true by auto. lia. }
    assert (SM : forall i m, (m < 2 ^ 53)%N -> (if ins zt (i * 2 ^ 54 + 2 ^ 53 + m) then 0 else if tl (i * 2 ^ 54 + 2 ^ 53 + m) then 1 else 0) = (if (i =? 0)%N then 1 - ind (2 ^ 53 - m <? tK z 0)%N else 0)).
    { intros i m Hm. apply (tail_take zt); [replace (i * 2 ^ 54 + 2 ^ 53 + m)%N with (i * 2 ^ 54 + (2 ^ 53 + m))%N by lia; apply layer_split; lia|]. rewrite MI. rewrite absc_true by auto. lia. }
    assert (O : mean53 (fun m => 1 - ind (m <? tK z 0)%N) = 1024 * outside zt) by (rewrite (outside_mean zt f ZF); field).
    assert (O' : mean53 (fun m => 1 - ind (2 ^ 53 - m <? tK z 0)%N) = 1024 * outside').
    { rewrite (mean53_rev (fun m => 1 - ind (m <? tK z 0)%N)), O. unfold outside'. destruct (zf_base z f ZF) as [K1 _]. pose proof (inside_bound z (zf_tables z f ZF) 0 ltac:(lia)) as K2.
      replace (2 ^ 53 <? tK z 0)%N with false by (symmetry; apply N.ltb_ge; lia). replace (0 <? tK z 0)%N with true by (symmetry; apply N.ltb_lt; lia). cbn [ind]. field. lra. }
    rewrite (sumN_ext _ (fun i => if (i =? 0)%N then 1024 * ((outside zt + outside') / 2) else 0)).
    - change 1024%N with (N.succ 1023). rewrite sumN_first. field.
    - intros i _. rewrite (mean53_ext _ _ (SP i)), (mean53_ext _ _ (SM i)). destruct (i =? 0)%N; [rewrite O, O'; field|]. rewrite mean53_const. field.
  Qed.
  (** every point of the tables is at most 16 *)
  Lemma part_true : part zt (fun _ _ => true) = zig_body z 16.
  Proof.
    rewrite (zig_body_part zt). assert (A : part zt (fun i m => Rle_bool (pointv z i m) 16) <= part zt (fun _ _ => true)) by (apply part_le; auto).
    apply Rle_antisym; [|exact A]. apply part_le. intros i m Hi Hm _. destruct (pointf_value z _ ZF (N.to_nat i) m ltac:(lia) Hm) as (v & Vv & _ & B & _). unfold pointv. rewrite (proj2 Vv). apply Rle_bool_true. lra.
  Qed.
End Mirror.
End Compiler.
