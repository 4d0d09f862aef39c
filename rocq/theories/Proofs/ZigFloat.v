(** A 1024-layer table in floating point, used with a density it fits: acceptance probabilities. *)
From Coq Require Import Reals Lia Lra Psatz ZifyN ZifyNat.
From Coquelicot Require Import Coquelicot.
From Flocq Require Import Core BinarySingleNaN.
From Verif Require Import Model.Base Model.Float Model.Distr Model.Ziggurat Spec.Floats Spec.Zig.
From Verif Require Import Proofs.FloatProofs Proofs.RelError Proofs.SumN Proofs.Riemann Proofs.ZigLayer Proofs.ZigAccept Proofs.ZigBody Proofs.ZigStep Props.Uniform Props.Zig Props.Tails.
From Verif Require Export Spec.ZigFit.
Local Open Scope R_scope.

(** for every choice of the compiler which x*y + z to fuse (Model/Fused.v) *)
Section Compiler.
Context {fpc : compiler}.

Lemma small_W {W} (z : Ziggurat W) i : edge z i / IZR (2 ^ 53) = B2R (tW z i).
Proof. unfold edge. pose proof P53. field. lra. Qed.
Lemma edge_small {W} (z : Ziggurat W) i : edge z i / IZR (2 ^ 53) = edge z i * / 2 ^ 53.
Proof. unfold Rdiv. now rewrite (proj1 inv53). Qed.
Lemma of_int_M53 m : (m <= 2 ^ 53)%N -> is_finite (of_int (Z.of_N m)) = true /\ B2R (of_int (Z.of_N m)) = NR m /\ Bsign (of_int (Z.of_N m)) = false.
Proof.
  intros H. destruct (N.eq_dec m (2 ^ 53)) as [->|E].
  - destruct (mkfloat_exact false 1 53) as (V & F & S); [lia|lia|]. assert (Em : of_int (Z.of_N (2 ^ 53)) = mkfloat false 1 53) by (apply B2SF_inj; vm_compute; reflexivity). rewrite Em, F, S. split; [reflexivity|]. split; [|reflexivity].
    rewrite V, Rmult_1_l. reflexivity.
  - destruct (of_int_exact (Z.of_N m)) as (V & F & S); [lia|]. split; [exact F|]. split; [exact V|]. rewrite S. apply Z.ltb_ge. lia.
Qed.
Section Points.
  Context {W : Type} (z : Ziggurat W).
  Hypothesis (T : ziggurat_tables z) (E16 : edge z 0 <= 16) (Wd : / 2 ^ 20 <= edge z 1).
  Lemma edge_le_ i : (1 <= i < 1024)%nat -> edge z i <= edge z 1023.
  Proof. intros H. destruct (Nat.eq_dec i 1023) as [->|N]; [lra|]. left. apply (edges_increase z T); lia. Qed.
  Lemma edge_le0_ i : (i < 1024)%nat -> edge z i <= edge z 0.
  Proof. intros H. destruct (Nat.eq_dec i 0) as [->|N]; [lra|]. pose proof (edge_le_ i ltac:(lia)). pose proof (base_wider z T). lra. Qed.
  Lemma edge_ge_ i : (i < 1024)%nat -> / 2 ^ 20 <= edge z i.
  Proof.
    intros H. destruct (Nat.eq_dec i 0) as [->|N0]; [pose proof (edge_le0_ 1 ltac:(lia)); lra|].
    destruct (Nat.eq_dec i 1) as [->|N1]; [exact Wd|]. pose proof (edges_increase z T 1 i ltac:(lia) ltac:(lia)). lra.
  Qed.
  (** the point of an abscissa *)
  Lemma pointf_value0 i m : (i < 1024)%nat -> (m <= 2 ^ 53)%N -> exists v, fvalue (pointf z i m) v /\ Bsign (pointf z i m) = false /\ 0 <= v <= 16 /\
    rel (/ 2 ^ 53) v (NR m * (edge z i / IZR (2 ^ 53))).
  Proof.
    intros Hi Hm. destruct (tables_finite z T i Hi) as (FW & _ & PE & _). pose proof P53 as PP. rewrite small_W. unfold pointf. set (wi := tW z i) in *.
    assert (Pw : 0 < B2R wi). { unfold edge in PE. fold wi in PE. apply Rmult_lt_reg_l with (IZR (2 ^ 53)); [exact PP|]. now rewrite Rmult_0_r. }
    destruct (of_int_M53 m Hm) as (Fm & Vm & Sm). pose proof (edge_le0_ i Hi) as E0.
    assert (A : 0 <= NR m * B2R wi <= 16).
    { split; [apply Rmult_le_pos; [apply NR_pos|lra]|]. apply Rle_trans with (edge z i); [|lra]. unfold edge. fold wi. apply Rmult_le_compat_r; [lra|]. apply IZR_le. lia. }
    assert (R16 : representable 16) by (replace 16 with (IZR 1 * bpow radix2 4) by (cbn; lra); apply representable_int; lia).
    assert (Lt : 16 < fmax) by (replace 16 with (bpow radix2 4) by (cbn; lra); apply bpow_emax_lt; lia).
    assert (A2 : 0 <= rnd (NR m * B2R wi) <= 16) by (split; [apply rnd_ge; [apply representable_0|lra]|apply rnd_le_rep; [exact R16|lra]]).
    destruct (fmul_R (of_int (Z.of_N m)) wi Fm FW) as (V & F & S); [rewrite Vm, Rabs_pos_eq; lra|].
    exists (rnd (NR m * B2R wi)). split; [split; [exact F|rewrite V, Vm; reflexivity]|]. split; [rewrite S, Sm, (sign_pos wi FW Pw); reflexivity|]. split; [exact A2|].
    destruct (N.eq_dec m 0) as [->|M0]; [change (NR 0) with 0; rewrite Rmult_0_l, rnd_0; unfold rel; lra|].
    apply rel_rnd. apply Rle_trans with (B2R wi).
    - apply normal_range. unfold wi. rewrite <- small_W, edge_small. pose proof (edge_ge_ i Hi). apply Rle_trans with (/ 2 ^ 20 * / 2 ^ 53); [lra|apply Rmult_le_compat_r; lra].
    - rewrite <- (Rmult_1_l (B2R wi)) at 1. apply Rmult_le_compat_r; [lra|]. apply IZR_le. lia.
  Qed.
  Lemma abscissa_le i m : (i < 1024)%nat -> (m <= 2 ^ 53)%N -> 0 <= NR m * (edge z i / IZR (2 ^ 53)) <= edge z i.
  Proof.
    intros Hi Hm. pose proof P53 as PP. destruct (tables_finite z T i Hi) as (_ & _ & PE & _). assert (W0 : 0 < edge z i / IZR (2 ^ 53)) by (apply Rdiv_lt_0_compat; lra). split; [apply Rmult_le_pos; [apply NR_pos|lra]|].
    replace (edge z i) with (IZR (2 ^ 53) * (edge z i / IZR (2 ^ 53))) at 2 by (field; lra). apply Rmult_le_compat_r; [lra|]. apply IZR_le. lia.
  Qed.
End Points.
Section Z.
  Context {W : Type} (z : Ziggurat W) (f : R -> R) (ZF : zig_for z f).
  Notation X i := (edge z (N.to_nat i)).
  Notation Fh i := (height z (N.to_nat i)).
  Notation T := (zf_tables z f ZF).
  Lemma edge_pos i : (i < 1024)%nat -> 0 < edge z i /\ 0 < height z i.
  Proof. intros H. destruct (tables_finite z T i H) as (_ & _ & A & B). auto. Qed.
  Lemma edge_le i : (1 <= i < 1024)%nat -> edge z i <= edge z 1023.
  Proof. intros H. destruct (Nat.eq_dec i 1023) as [->|N]; [lra|]. left. apply (edges_increase z T); lia. Qed.
  Lemma edge_le0 i : (i < 1024)%nat -> edge z i <= edge z 0.
  Proof. intros H. destruct (Nat.eq_dec i 0) as [->|N]; [lra|]. pose proof (edge_le i ltac:(lia)). pose proof (base_wider z T). lra. Qed.
  Lemma edge_ge i : (i < 1024)%nat -> / 2 ^ 20 <= edge z i.
  Proof.
    intros H. pose proof (zf_wide z f ZF) as H1. destruct (Nat.eq_dec i 0) as [->|N0]; [pose proof (edge_le0 1 ltac:(lia)); lra|].
    destruct (Nat.eq_dec i 1) as [->|N1]; [exact H1|]. pose proof (edges_increase z T 1 i ltac:(lia) ltac:(lia)). lra.
  Qed.
  Lemma pointf_value i m : (i < 1024)%nat -> (m <= 2 ^ 53)%N -> exists v, fvalue (pointf z i m) v /\ Bsign (pointf z i m) = false /\ 0 <= v <= 16 /\
    rel (/ 2 ^ 53) v (NR m * (edge z i / IZR (2 ^ 53))).
  Proof. apply pointf_value0; [exact T|exact (zf_16 z f ZF)|exact (zf_wide z f ZF)]. Qed.
  (** acceptance probability of abscissa m in layer i >= 1 *)
  Definition wedge (i : nat) (m k : N) : bool := flt (add_mul WedgeSite (tF z i) (unif k) (fsub (tF z (i - 1)) (tF z i))) (zPDF z (pointf z i m)).
  Definition accept (i m : N) : R := if (m <? tK z (N.to_nat i))%N then 1 else mean53 (fun k => ind (wedge (N.to_nat i) m k)).
  Definition pointv (i m : N) : R := B2R (pointf z (N.to_nat i) m).
  Lemma ratio_bounds i : (2 <= i < 1024)%nat ->
    NR (tK z i) * (edge z i / IZR (2 ^ 53)) <= edge z (i - 1) + 2 * (edge z i / IZR (2 ^ 53)) /\ edge z (i - 1) - 3 * (edge z i / IZR (2 ^ 53)) <= NR (tK z i) * (edge z i / IZR (2 ^ 53)).
  Proof.
    intros Hi. pose proof (inside_ratio z T i Hi) as Q. destruct (edge_pos i ltac:(lia)) as [P _]. pose proof P53 as PP. set (q := IZR (2 ^ 53) * edge z (i - 1) / edge z i) in *.
    pose proof (Zfloor_lb q) as L. pose proof (Zfloor_ub q) as U. set (fl := Zfloor q) in *. set (w := edge z i / IZR (2 ^ 53)).
    assert (W0 : 0 < w) by (apply Rdiv_lt_0_compat; lra). assert (QW : q * w = edge z (i - 1)) by (unfold q, w; field; lra).
    assert (B1 : NR (tK z i) <= IZR fl + 2) by (rewrite <- (plus_IZR fl 2); apply IZR_le; lia). assert (B2 : IZR fl - 2 <= NR (tK z i)) by (rewrite <- (minus_IZR fl 2); apply IZR_le; lia).
    assert (C1 : NR (tK z i) * w <= (q + 2) * w) by (apply Rmult_le_compat_r; lra). assert (C2 : (q - 3) * w <= NR (tK z i) * w) by (apply Rmult_le_compat_r; lra). lra.
  Qed.
  Lemma accept_range i m : 0 <= accept i m <= 1.
  Proof. unfold accept. destruct (_ <? _)%N; [lra|]. apply mean53_range. intros. apply ind_range. Qed.
  Lemma f_le_1 t : 0 <= t -> f t <= 1.
  Proof. intros H. rewrite <- (zf_0 z f ZF). apply (zf_dec z f ZF). lra. Qed.
  Lemma accept_close i m : is_layer i -> (m < M53)%N ->
    Rabs (accept i m - clamp 1 ((f (NR m * (X i / IZR (2 ^ 53))) - Fh i) / (Fh (N.pred i) - Fh i))) <= 28 / 10 ^ 13.
  Proof.
    unfold is_layer. intros Hi Hm. rewrite M53_eq in Hm. rewrite N2Nat.inj_pred. replace (Nat.pred (N.to_nat i)) with (N.to_nat i - 1)%nat by lia. unfold accept. assert (Hn : (1 <= N.to_nat i < 1024)%nat) by lia. set (n := N.to_nat i) in *. clearbody n. clear i Hi.
    destruct (zf_steep z f ZF n Hn) as (S1 & S2 & S3). destruct (tables_finite z T n ltac:(lia)) as (_ & FF & PE & PH). destruct (tables_finite z T (n - 1)%nat ltac:(lia)) as (_ & FF' & PE' & PH').
    set (w := edge z n / IZR (2 ^ 53)). set (t := NR m * w). pose proof P53 as PP. assert (W0 : 0 < w) by (apply Rdiv_lt_0_compat; lra). assert (T0 : 0 <= t) by (apply Rmult_le_pos; [apply NR_pos|lra]).
    set (g := height z (n - 1) - height z n) in *. assert (G0 : 0 < g) by lra. pose proof (Rinv_0_lt_compat g G0) as IG.
    assert (SG : height z (n - 1) * / g <= 500). { apply Rmult_le_reg_r with g; [exact G0|]. rewrite Rmult_assoc, Rinv_l, Rmult_1_r by lra. exact S1. }
    destruct (N.ltb_spec m (tK z n)) as [HK|HK].
    - assert (N2 : (2 <= n)%nat). { destruct (Nat.eq_dec n 1) as [->|]; [|lia]. rewrite (top_has_no_inside z T) in HK. lia. }
      destruct (ratio_bounds n ltac:(lia)) as [RB _]. fold w in RB.
      assert (TB : t <= edge z (n - 1) + w).
      { assert (NR m + 1 <= NR (tK z n)) by (rewrite <- (plus_IZR _ 1); apply IZR_le; lia). assert ((NR m + 1) * w <= NR (tK z n) * w) by (apply Rmult_le_compat_r; lra). unfold t. lra. }
      pose proof (zf_inner z f ZF n t ltac:(lia) ltac:(unfold w in TB; lra)) as FI.
      assert (Q : 1 - 2 / 10 ^ 12 <= (f t - height z n) / g).
      { apply Rle_trans with ((g - 4 / 10 ^ 15 * height z (n - 1)) * / g); [|apply Rmult_le_compat_r; [lra|unfold g; lra]]. rewrite Rmult_minus_distr_r, Rinv_r by lra. rewrite Rmult_assoc. lra. }
      pose proof (clamp_range 1 ((f t - height z n) / g) ltac:(lra)) as CR. pose proof (clamp_mono 1 _ _ Q) as CM. rewrite (clamp_id 1 (1 - 2 / 10 ^ 12)) in CM by lra. apply Rabs_le. lra.
    - destruct (zf_pdf z f ZF n m Hn ltac:(lia)) as (p & VP & BP). fold w t in BP.
      assert (FT : f t <= 101 / 100 * height z (n - 1)).
      { destruct (Nat.eq_dec n 1) as [->|N1].
        - change (1 - 1)%nat with 0%nat. rewrite (height_top z T). pose proof (f_le_1 t T0). lra.
        - apply (zf_outer z f ZF n); [lia|exact T0|]. fold w. destruct (ratio_bounds n ltac:(lia)) as [_ RB]. fold w in RB. assert (NR (tK z n) <= NR m) by (apply IZR_le; lia).
          assert (NR (tK z n) * w <= NR m * w) by (apply Rmult_le_compat_r; lra). unfold t. lra. }
      assert (H1 : height z (n - 1) <= 1).
      { destruct (Nat.eq_dec n 1) as [->|N1]; [change (1 - 1)%nat with 0%nat; rewrite (height_top z T); lra|]. rewrite <- (height_top z T). left. apply (heights_decrease z T). lia. }
      pose proof (accept_count (tF z n) (tF z (n - 1)) (zPDF z (pointf z n m)) (height z n) (height z (n - 1)) p (conj FF eq_refl) (conj FF' eq_refl) VP S2 S3 H1) as AC. fold g in AC.
      change (sumN (fun k => ind (acc (tF z n) (tF z (n - 1)) (zPDF z (pointf z n m)) k)) M53 / IZR (2 ^ 53)) with (mean53 (fun k => ind (wedge n m k))) in AC. set (a := mean53 _) in *.
      pose proof (clamp_lip 1 ((p - height z n) / g) ((f t - height z n) / g)) as CL. replace ((p - height z n) / g - (f t - height z n) / g) with ((p - f t) * / g) in CL by (field; lra).
      rewrite Rabs_mult, (Rabs_pos_eq (/ g)) in CL by lra.
      assert (BG : Rabs (p - f t) * / g <= 5 / 10 ^ 15 * (101 / 100 * 500)).
      { apply Rle_trans with (5 / 10 ^ 15 * (101 / 100 * height z (n - 1)) * / g); [apply Rmult_le_compat_r; [lra|]|].
        - apply Rle_trans with (1 := BP). apply Rmult_le_compat_l; lra.
        - rewrite !Rmult_assoc. repeat (apply Rmult_le_compat_l; [lra|]). exact SG. }
      assert (EG : 4 * / 2 ^ 53 * height z (n - 1) / g <= 4 * / 2 ^ 53 * 500) by (unfold Rdiv; rewrite (Rmult_assoc (4 * / 2 ^ 53)); apply Rmult_le_compat_l; [lra|exact SG]).
      apply Rabs_le_inv in AC. apply Rabs_le_inv in CL. pose proof small53. apply Rabs_le. lra.
  Qed.
  Lemma point_close i m : (i < 1024)%N -> (m < M53)%N -> Rabs (pointv i m - NR m * (X i / IZR (2 ^ 53))) <= X i / IZR (2 ^ 53).
  Proof.
    intros Hi Hm. rewrite M53_eq in Hm. destruct (pointf_value (N.to_nat i) m ltac:(lia) ltac:(lia)) as (v & [_ V] & _ & _ & R). unfold pointv. rewrite V. destruct (edge_pos (N.to_nat i) ltac:(lia)) as [P _]. set (w := X i / IZR (2 ^ 53)) in *.
    pose proof P53 as PP. assert (W0 : 0 < w) by (apply Rdiv_lt_0_compat; lra). unfold rel in R.
    assert (B : / 2 ^ 53 * (NR m * w) <= 1 * w).
    { rewrite <- Rmult_assoc. apply Rmult_le_compat_r; [lra|]. rewrite <- (proj1 inv53). apply Rmult_le_reg_l with (IZR (2 ^ 53)); [exact PP|]. rewrite <- Rmult_assoc, Rinv_r, Rmult_1_l, Rmult_1_r by lra. apply IZR_le. lia. }
    apply Rabs_le. lra.
  Qed.
  Definition zig_body (x : R) : R := body (tK z 0) pointv accept x.
  Lemma zig_body_prob x : 0 <= x -> Rabs (zig_body x - RInt f 0 (Rmin x (edge z 1023)) / (1024 * strip z)) <= 35 / 10 ^ 13.
  Proof.
    intros Hx. assert (L : forall i, is_layer i -> (1 <= N.to_nat i < 1024)%nat) by (unfold is_layer; lia).
    apply Rle_trans with (28 / 10 ^ 13 + 3 / 10 ^ 13 + 3 / 10 ^ 13); [|lra].
    apply (body_prob f (zf_cont z f ZF) (zf_dec z f ZF) (fun i => X i) (fun i => Fh i) (tK z 0) pointv accept (strip z)); try lra.
    - change (N.to_nat 0) with 0%nat. rewrite (height_top z T), (zf_0 z f ZF). lra.
    - intros i Hi. split; [apply edge_pos; lia|apply edge_le0; lia].
    - intros i Hi. apply edge_le, L, Hi.
    - intros i Hi. specialize (L i Hi). rewrite N2Nat.inj_pred. replace (Nat.pred (N.to_nat i)) with (N.to_nat i - 1)%nat by lia. pose proof (zf_steep z f ZF _ L). lra.
    - apply edge_pos. lia.
    - exact accept_close.
    - exact point_close.
    - reflexivity.
    - intros i Hi. specialize (L i Hi). rewrite N2Nat.inj_pred. replace (Nat.pred (N.to_nat i)) with (N.to_nat i - 1)%nat by lia. apply (equal_areas z T _ L).
    - intros i t Hi. apply (zf_cut z f ZF). now apply L.
    - exact (zf_last z f ZF).
    - pose proof (zf_base z f ZF) as [B _]. pose proof (inside_bound z T 0 ltac:(lia)). rewrite M53_eq. lia.
    - exact (proj2 (zf_base z f ZF)).
  Qed.
End Z.
End Compiler.
