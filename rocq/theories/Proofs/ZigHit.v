(** The probability that one round of the ziggurat returns a point with a property, in terms of layers and abscissae. *)
From Coq Require Import Reals Lia Lra Psatz ZifyN ZifyNat Bool.
From Coquelicot Require Import Coquelicot.
From Flocq Require Import Core BinarySingleNaN.
From Verif Require Import Model.Base Model.Rng Model.Float Model.Distr Model.Ziggurat Spec.Common Spec.Floats Spec.Zig.
From Verif Require Import Proofs.FloatProofs Proofs.SumN Proofs.Riemann Proofs.ZigAccept Proofs.ZigBody Proofs.ZigStep Proofs.ZigFloat Proofs.ZigTape Props.Uniform Props.Zig.
Local Open Scope R_scope.

(** for every choice of the compiler which x*y + z to fuse (Model/Fused.v) *)
Section Compiler.
Context {fpc : compiler}.

Lemma layer_split i r : (r < 2 ^ 54)%N -> layer (i * 2 ^ 54 + r) = N.to_nat i.
Proof. intros H. unfold layer. f_equal. symmetry. apply (N.div_unique _ _ i r); lia. Qed.
Lemma absc_false i b m : (m < 2 ^ 53)%N -> (b = 0 \/ b = 2 ^ 53)%N -> abscissa false (i * 2 ^ 54 + b + m) = Z.of_N m.
Proof.
  intros H Hb. unfold abscissa. symmetry. destruct Hb as [->| ->].
  - apply (Z.mod_unique_pos _ (2 ^ 53) (2 * Z.of_N i)); lia.
  - apply (Z.mod_unique_pos _ (2 ^ 53) (2 * Z.of_N i + 1)); lia.
Qed.
Lemma absc_true i b m : (m < 2 ^ 53)%N -> (b = 0 \/ b = 2 ^ 53)%N -> abscissa true (i * 2 ^ 54 + b + m) = (Z.of_N m - Z.of_N b)%Z.
Proof.
  intros H Hb. unfold abscissa. cbv zeta. replace (Z.of_N (i * 2 ^ 54 + b + m) mod 2 ^ 54)%Z with (Z.of_N (b + m)).
  - destruct Hb as [->| ->]; [replace (Z.of_N (0 + m) <? 2 ^ 53)%Z with true by (symmetry; apply Z.ltb_lt; lia)|replace (Z.of_N (2 ^ 53 + m) <? 2 ^ 53)%Z with false by (symmetry; apply Z.ltb_ge; lia)]; lia.
  - apply (Z.mod_unique_pos _ (2 ^ 54) (Z.of_N i)); destruct Hb as [->| ->]; lia.
Qed.
Lemma mean53_ext f g : (forall k, (k < 2 ^ 53)%N -> f k = g k) -> mean53 f = mean53 g.
Proof. intros H. unfold mean53. f_equal. apply sumN_ext. intros k Hk. apply H. now rewrite <- M53_eq. Qed.
Lemma mean53_const c : mean53 (fun _ => c) = c.
Proof. unfold mean53. rewrite sumN_const, NR_M53. pose proof P53. field. lra. Qed.
Lemma sumN_below (f : N -> R) k n : (k <= n)%N -> sumN (fun m => if (m <? k)%N then f m else 0) n = sumN f k.
Proof.
  intros H. replace n with (k + (n - k))%N by lia. rewrite sumN_add.
  assert (E1 : sumN (fun m => if (m <? k)%N then f m else 0) k = sumN f k).
  { apply sumN_ext. intros m Hm. destruct (N.ltb_spec m k); [reflexivity|lia]. }
  assert (E2 : sumN (fun j => if (k + j <? k)%N then f (k + j)%N else 0) (n - k) = sumN (fun _ => 0) (n - k)).
  { apply sumN_ext. intros m Hm. destruct (N.ltb_spec (k + m) k); [lia|reflexivity]. }
  rewrite E1, E2, sumN_const. ring.
Qed.
Lemma sumN_head (f : N -> R) n : sumN f (N.succ n) = f 0%N + sumN (fun k => f (N.succ k)) n.
Proof.
  induction n as [|n IH] using N.peano_ind; [change (N.succ 0) with 1%N; change 1%N with (N.succ 0); rewrite sumN_S, !sumN_0; ring|].
  rewrite sumN_S, IH, sumN_S. ring.
Qed.
(** reversing the order of summation *)
Lemma sumN_rev (f : N -> R) n : sumN (fun m => f (n - m)%N) n = sumN f n + f n - f 0%N.
Proof.
  induction n as [|n IH] using N.peano_ind; [rewrite !sumN_0; ring|].
  rewrite sumN_head, N.sub_0_r, sumN_S. rewrite (sumN_ext _ (fun m => f (n - m)%N)) by (intros; f_equal; lia). rewrite IH. ring.
Qed.

Section Hit.
  Variable zt : nat -> Ziggurat (list N).
  Notation z := (zt 0%nat).
  Variable f : R -> R.
  Hypothesis ZF : zig_for z f.
  Hypothesis SAME : forall a, zPDF (zt a) = zPDF z /\ zMirrored (zt a) = zMirrored z /\ zK (zt a) = zK z /\ zW (zt a) = zW z /\ zF (zt a) = zF z.
  Hypothesis TMONO : forall a b w r, (a <= b)%nat -> zTail (zt a) w = Ret r -> zTail (zt b) w = Ret r.
  Hypothesis TBOUND : forall a w r, zTail (zt a) w = Ret r -> zTail (zt (S (length w))) w = Ret r.
  (** probability that layer i, abscissa m is taken and b holds *)
  Definition take (i m : N) (b : bool) : R :=
    if (m <? tK z (N.to_nat i))%N then ind b else if (i =? 0)%N then 0 else ind b * mean53 (fun k => ind (wedge z (N.to_nat i) m k)).
  Definition part (q : N -> N -> bool) : R :=
    (sumN (fun k => mean53 (fun m => ind (q (N.succ k) m) * accept z (N.succ k) m)) 1023 + sumN (fun m => ind (q 0%N m)) (tK z 0) / IZR (2 ^ 53)) / 1024.
  Lemma zig_body_part x : zig_body z x = part (fun i m => Rle_bool (pointv z i m) x).
  Proof. reflexivity. Qed.
  Lemma take_part q : sumN (fun i => mean53 (fun m => take i m (q i m))) 1024 / 1024 = part q.
  Proof.
    unfold part. f_equal. change 1024%N with (N.succ 1023). rewrite sumN_head, Rplus_comm. f_equal.
    - apply sumN_ext. intros k _. apply mean53_ext. intros m _. unfold take, accept. destruct (m <? _)%N; [ring|]. replace (N.succ k =? 0)%N with false by (symmetry; apply N.eqb_neq; lia). reflexivity.
    - unfold mean53. f_equal. rewrite <- (sumN_below (fun m => ind (q 0%N m)) (tK z 0) M53).
      + apply sumN_ext. intros m _. unfold take. reflexivity.
      + pose proof (inside_bound z (zf_tables z f ZF) 0 ltac:(lia)). rewrite M53_eq. lia.
  Qed.
  Lemma take_range i m b : 0 <= take i m b <= 1.
  Proof.
    unfold take. pose proof (ind_range b). destruct (_ <? _)%N; [lra|]. destruct (_ =? _)%N; [lra|]. pose proof (mean53_range (fun k => ind (wedge z (N.to_nat i) m k)) ltac:(intros; apply ind_range)) as R.
    split; [apply Rmult_le_pos; lra|]. replace 1 with (1 * 1) by ring. apply Rmult_le_compat; lra.
  Qed.
  Variable p : float64 -> bool.
  Notation "'integrand' u" := (if ins zt u then ind (le zt p u) else if tl u then 0 else ind (le zt p u) * frac (below zt) u) (at level 10).
  (** the draw u has layer i and |abscissa| m, and its point is the point of (i, m) up to a sign the density ignores *)
  Lemma integrand_take u i m : layer u = N.to_nat i -> Z.abs (abscissa (zMirrored z) u) = Z.of_N m ->
    zPDF z (point z u) = zPDF z (pointf z (N.to_nat i) m) -> integrand u = take i m (le zt p u).
  Proof.
    intros HL HA HP. unfold ins, take, tl. destruct (inside_dec z u) as [H|H]; unfold inside in H; rewrite HA, HL in H.
    - replace (m <? tK z (N.to_nat i))%N with true by (symmetry; apply N.ltb_lt; lia). reflexivity.
    - replace (m <? tK z (N.to_nat i))%N with false by (symmetry; apply N.ltb_ge; lia). rewrite HL.
      replace (N.to_nat i =? 0)%nat with (i =? 0)%N by (destruct (N.eqb_spec i 0); destruct (Nat.eqb_spec (N.to_nat i) 0); lia). destruct (i =? 0)%N; [reflexivity|]. f_equal.
      unfold frac. apply mean53_ext. intros k _. unfold below, below_curve, wedge. rewrite HP, HL. reflexivity.
  Qed.
  Lemma tail_take u i m : layer u = N.to_nat i -> Z.abs (abscissa (zMirrored z) u) = Z.of_N m ->
    (if ins zt u then 0 else if tl u then 1 else 0) = if (i =? 0)%N then 1 - ind (m <? tK z 0)%N else 0.
  Proof.
    intros HL HA. unfold ins, tl. rewrite HL. replace (N.to_nat i =? 0)%nat with (i =? 0)%N by (destruct (N.eqb_spec i 0); destruct (Nat.eqb_spec (N.to_nat i) 0); lia).
    destruct (N.eqb_spec i 0) as [->|]; [|destruct (inside_dec z u); reflexivity].
    destruct (inside_dec z u) as [H|H]; unfold inside in H; rewrite HA, HL in H; change (N.to_nat 0) with 0%nat in H.
    - replace (m <? tK z 0)%N with true by (symmetry; apply N.ltb_lt; lia). cbn. ring.
    - replace (m <? tK z 0)%N with false by (symmetry; apply N.ltb_ge; lia). cbn. ring.
  Qed.
  Definition tail_mass : R := mean64 (fun u => if ins zt u then 0 else if tl u then 1 else 0).
  Definition outside : R := (1 - NR (tK z 0) / IZR (2 ^ 53)) / 1024.
  Lemma outside_mean : outside = mean53 (fun m => 1 - ind (m <? tK z 0)%N) / 1024.
  Proof.
    unfold outside, mean53. f_equal. rewrite sumN_minus, sumN_const, NR_M53. pose proof (inside_bound z (zf_tables z f ZF) 0 ltac:(lia)) as B.
    rewrite (sumN_ext (fun m => ind (m <? tK z 0)%N) (fun m => if (m <? tK z 0)%N then 1 else 0)) by reflexivity. rewrite (sumN_below (fun _ => 1)) by (rewrite M53_eq; lia). rewrite sumN_const. pose proof P53. field. lra.
  Qed.
  Lemma sumN_first (c : R) n : sumN (fun i => if (i =? 0)%N then c else 0) (N.succ n) = c.
  Proof.
    rewrite sumN_head. rewrite (sumN_ext (fun k => _) (fun _ => 0)) by (intros k _; replace (N.succ k =? 0)%N with false by (symmetry; apply N.eqb_neq; lia); reflexivity).
    rewrite sumN_const. change (0 =? 0)%N with true. cbv iota. ring.
  Qed.

  Section Unmirrored.
    Hypothesis UM : zMirrored z = false.
    Lemma point_unmirrored i b m : (m < 2 ^ 53)%N -> (b = 0 \/ b = 2 ^ 53)%N -> point z (i * 2 ^ 54 + b + m) = pointf z (N.to_nat i) m.
    Proof. intros Hm Hb. unfold point, pointf. rewrite UM, absc_false by assumption. replace (i * 2 ^ 54 + b + m)%N with (i * 2 ^ 54 + (b + m))%N by lia. now rewrite layer_split by lia. Qed.
    Lemma hit_unmirrored : hit (ins zt) tl (le zt p) (below zt) = part (fun i m => p (pointf z (N.to_nat i) m)).
    Proof.
      unfold hit. rewrite mean64_split, <- take_part. f_equal. apply sumN_ext. intros i Hi.
      assert (S : forall b m, (m < 2 ^ 53)%N -> (b = 0 \/ b = 2 ^ 53)%N -> integrand (i * 2 ^ 54 + b + m)%N = take i m (p (pointf z (N.to_nat i) m))).
      { intros b m Hm Hb. rewrite <- (point_unmirrored i b m Hm Hb). apply integrand_take.
        - replace (i * 2 ^ 54 + b + m)%N with (i * 2 ^ 54 + (b + m))%N by lia. apply layer_split. lia.
        - rewrite UM, absc_false by assumption. lia.
        - now rewrite point_unmirrored by assumption. }
      rewrite (mean53_ext (fun m => integrand (i * 2 ^ 54 + m)%N) (fun m => take i m (p (pointf z (N.to_nat i) m)))) by (intros m Hm; rewrite <- (N.add_0_r (i * 2 ^ 54)); apply S; auto).
      rewrite (mean53_ext (fun m => integrand (i * 2 ^ 54 + 2 ^ 53 + m)%N) (fun m => take i m (p (pointf z (N.to_nat i) m)))) by (intros m Hm; apply S; auto). field.
    Qed.
    Lemma tail_unmirrored : tail_mass = outside.
    Proof.
      unfold tail_mass. rewrite mean64_split, outside_mean. f_equal.
      assert (S : forall i b m, (m < 2 ^ 53)%N -> (b = 0 \/ b = 2 ^ 53)%N -> (if ins zt (i * 2 ^ 54 + b + m)%N then 0 else if tl (i * 2 ^ 54 + b + m)%N then 1 else 0) = if (i =? 0)%N then 1 - ind (m <? tK z 0)%N else 0).
      { intros i b m Hm Hb. apply tail_take.
        - replace (i * 2 ^ 54 + b + m)%N with (i * 2 ^ 54 + (b + m))%N by lia. apply layer_split. lia.
        - rewrite UM, absc_false by assumption. lia. }
      rewrite (sumN_ext _ (fun i => if (i =? 0)%N then mean53 (fun m => 1 - ind (m <? tK z 0)%N) else 0)); [apply (sumN_first _ 1023)|].
      intros i _. rewrite (mean53_ext (fun m => _) (fun m => if (i =? 0)%N then 1 - ind (m <? tK z 0)%N else 0)) at 1 by (intros m Hm; rewrite <- (N.add_0_r (i * 2 ^ 54)); apply S; auto).
      rewrite (mean53_ext (fun m => if ins zt (i * 2 ^ 54 + 2 ^ 53 + m) then 0 else _) (fun m => if (i =? 0)%N then 1 - ind (m <? tK z 0)%N else 0)) by (intros m Hm; apply S; auto).
      destruct (i =? 0)%N; [field|]. rewrite mean53_const. field.
    Qed.
  End Unmirrored.
End Hit.
End Compiler.
