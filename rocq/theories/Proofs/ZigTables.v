(** The ziggurat tables: integer checks over all 1024 entries, and what they mean for the float64 values. *)
From Coq Require Import Reals Lia Lra ZifyN ZifyNat ZifyBool.
From Flocq Require Import Core BinarySingleNaN.
From Verif Require Import Model.Base Model.Float Model.ExpoTable Model.NormalTable Model.ExpoNormal Spec.Floats.
From Verif Require Import Proofs.FloatProofs.

(** every binary entry is the double nearest to its literal *)
Fixpoint literals_ok (b d : list (Z * Z)) : bool :=
  match b, d with
  | [], [] => true
  | (m, e) :: b, (D, k) :: d => literal_ok m e D k && literals_ok b d
  | _, _ => false
  end.
Lemma literals_check b : forall d, literals_ok b d = true ->
  length b = length d /\ forall i, (i < length b)%nat -> is_literal (nth i (floats b) B754_nan) (fst (nth i d (0, 0)%Z)) (snd (nth i d (0, 0)%Z)).
Proof.
  induction b as [|[m e] b IH]; intros [|[D k] d] H; try discriminate H.
  - split; [reflexivity|]. cbn. lia.
  - cbn [literals_ok] in H. apply Bool.andb_true_iff in H. destruct H as [H1 H2]. destruct (IH d H2) as [L I]. split; [cbn; lia|].
    intros [|i] Hi; cbn [floats map nth fst snd].
    + now apply literal_check.
    + apply I. cbn in Hi. lia.
Qed.

(** entry m * 2^e scaled by 2^s *)
Definition scale (s : Z) (p : Z * Z) : Z := (fst p * 2 ^ (snd p + s))%Z.
Definition entry_ok (s : Z) (p : Z * Z) : bool := ((0 <? fst p) && (fst p <? 2 ^ 53) && (- s <=? snd p) && (snd p <=? 0))%Z%bool.
Lemma scale_value s l i : (0 <= s <= 1074)%Z -> forallb (entry_ok s) l = true -> (i < length l)%nat ->
  fvalue (nth i (floats l) B754_nan) (IZR (nth i (map (scale s) l) 0%Z) / IZR (2 ^ s)) /\ (0 < nth i (map (scale s) l) 0)%Z.
Proof.
  intros Hs H Hi. rewrite forallb_forall in H. specialize (H (nth i l (0, 0)%Z) (nth_In _ _ Hi)).
  unfold floats. rewrite (nth_indep _ B754_nan (to_float (0, 0)%Z)) by (rewrite map_length; exact Hi).
  rewrite (nth_indep (map (scale s) l) 0%Z (scale s (0, 0)%Z)) by (rewrite map_length; exact Hi). rewrite !map_nth. unfold to_float.
  destruct (nth i l (0, 0)%Z) as [m e]. unfold entry_ok, scale in *. cbn [fst snd] in *.
  rewrite !Bool.andb_true_iff, !Z.ltb_lt, !Z.leb_le in H. destruct H as (((H1 & H2) & H3) & H4).
  split; [|apply Z.mul_pos_pos; [exact H1|apply Z.pow_pos_nonneg; lia]].
  destruct (mkfloat_exact false m e) as (V & F & _); [lia|lia|]. split; [exact F|]. rewrite V, mult_IZR.
  change 2%Z with (radix_val radix2). rewrite !IZR_Zpower by lia. rewrite bpow_plus. field. apply Rgt_not_eq, bpow_gt_0.
Qed.

(** the checks, on the table K and the scaled tables W * 2^112, F * 2^68 *)
Definition nz (l : list Z) (i : nat) : Z := nth i l 0%Z.
Section Checks.
  Variables (K : list N) (w f : list Z).
  Local Open Scope Z_scope.
  Definition k_ok (i : nat) : bool := (nth i K 0 <? 2 ^ 53)%N.
  Definition w_ok (i : nat) : bool := nz w i <? nz w (S i).
  Definition f_ok (i : nat) : bool := nz f (S i) <? nz f i.
  (** K[i] and floor(2^53 * W[i-1] / W[i]) differ by at most 2, for i = S (S j) *)
  Definition ratio_ok (i : nat) : bool := Z.abs (Z.of_N (nth (S i) K 0%N) - 2 ^ 53 * nz w i / nz w (S i)) <=? 2.
  Definition ratio0_ok (d : Z) : bool := Z.of_N (nth 0 K 0%N) - 2 ^ 53 * nz w 1023 / nz w 0 =? d.
  (** area of layer S i against the area of the base strip, relative error at most 1.1e-13 *)
  Definition area_ok (i : nat) : bool := 10 ^ 14 * Z.abs (nz w (S i) * (nz f i - nz f (S i)) - nz w 0 * nz f 1023) <=? 11 * (nz w 0 * nz f 1023).
  Definition all_ok (d : Z) : bool :=
    forallb k_ok (seq 0 1024) && (nth 1 K 1 =? 0)%N && forallb w_ok (seq 1 1022) && (nz w 1023 <? nz w 0) &&
    forallb f_ok (seq 0 1023) && (nz f 0 =? 2 ^ 68) && forallb ratio_ok (seq 1 1022) && ratio0_ok d && forallb area_ok (seq 0 1023).
End Checks.
Definition table_ok (K : list N) (W F : list (Z * Z)) (d : Z) : bool :=
  (Nat.eqb (length K) 1024) && (Nat.eqb (length W) 1024) && (Nat.eqb (length F) 1024) &&
  forallb (entry_ok 112) W && forallb (entry_ok 68) F && all_ok K (map (scale 112) W) (map (scale 68) F) d.

Lemma expoW_literals : literals_ok expoW_bin expoW_dec = true. Proof. vm_cast_no_check (eq_refl true). Qed.
Lemma expoF_literals : literals_ok expoF_bin expoF_dec = true. Proof. vm_cast_no_check (eq_refl true). Qed.
Lemma normalW_literals : literals_ok normalW_bin normalW_dec = true. Proof. vm_cast_no_check (eq_refl true). Qed.
Lemma normalF_literals : literals_ok normalF_bin normalF_dec = true. Proof. vm_cast_no_check (eq_refl true). Qed.
Lemma expo_table_ok : table_ok expoK expoW_bin expoF_bin 0 = true. Proof. vm_cast_no_check (eq_refl true). Qed.
Lemma normal_table_ok : table_ok normalK normalW_bin normalF_bin 1 = true. Proof. vm_cast_no_check (eq_refl true). Qed.
Lemma expoR_literal : is_literal expoR 925616454426554 14. Proof. apply literal_check. reflexivity. Qed.
Lemma normalR_literal : is_literal normalR 40388498461095 13. Proof. apply literal_check. reflexivity. Qed.

From Verif Require Import Model.Ziggurat Spec.Common Spec.Zig.
Lemma forallb_seq (p : nat -> bool) a n : forallb p (seq a n) = true -> forall i, a <= i < a + n -> p i = true.
Proof. rewrite forallb_forall. intros H i Hi. apply H, in_seq. exact Hi. Qed.
Lemma increasing (g : nat -> Z) a b : (forall i, a <= i -> S i < b -> (g i < g (S i))%Z) -> forall i j, a <= i -> i < j -> j < b -> (g i < g j)%Z.
Proof.
  intros H i j Hi Hj Hb. induction j as [|j IH]; [lia|]. destruct (Nat.eq_dec i j) as [->|N]; [apply H; lia|].
  apply Z.lt_trans with (g j); [apply IH; lia|apply H; lia].
Qed.
Section Meaning.
  Context {W : Type} (z : Ziggurat W) (K : list N) (Wb Fb : list (Z * Z)) (d : Z).
  Hypothesis (EK : zK z = K) (EW : zW z = floats Wb) (EF : zF z = floats Fb) (OK : table_ok K Wb Fb d = true).
  Variables (w f : list Z).
  Hypothesis (Ew : map (scale 112) Wb = w) (Ef : map (scale 68) Fb = f).
  Local Open Scope R_scope.
  Lemma ok_parts : length K = 1024%nat /\ length Wb = 1024%nat /\ length Fb = 1024%nat /\ forallb (entry_ok 112) Wb = true /\ forallb (entry_ok 68) Fb = true /\
    forallb (k_ok K) (seq 0 1024) = true /\ nth 1 K 1%N = 0%N /\ forallb (w_ok w) (seq 1 1022) = true /\ (nz w 1023 < nz w 0)%Z /\
    forallb (f_ok f) (seq 0 1023) = true /\ nz f 0 = (2 ^ 68)%Z /\ forallb (ratio_ok K w) (seq 1 1022) = true /\ ratio0_ok K w d = true /\ forallb (area_ok w f) (seq 0 1023) = true.
  Proof.
    pose proof OK as H. unfold table_ok, all_ok in H. rewrite Ew, Ef in H. rewrite !Bool.andb_true_iff, !Nat.eqb_eq, N.eqb_eq, Z.ltb_lt, Z.eqb_eq in H. tauto.
  Qed.
  Lemma edge_value i : (i < 1024)%nat -> is_finite (tW z i) = true /\ edge z i = IZR (nz w i) / IZR (2 ^ 59) /\ (0 < nz w i)%Z.
  Proof.
    intros Hi. destruct ok_parts as (_ & L & _ & O & _). unfold edge, tW. rewrite EW. 
    destruct (scale_value 112 Wb i ltac:(lia) O ltac:(lia)) as [[F V] P]. split; [exact F|]. split; [|rewrite Ew in P; exact P].
    rewrite V. unfold nz. rewrite Ew in *. change (IZR (2 ^ 112)) with (IZR (2 ^ 53 * 2 ^ 59)). rewrite (mult_IZR (2 ^ 53)). assert (0 < IZR (2 ^ 53)) by now apply IZR_lt. assert (0 < IZR (2 ^ 59)) by now apply IZR_lt.
    field. lra.
  Qed.
  Lemma height_value i : (i < 1024)%nat -> is_finite (tF z i) = true /\ height z i = IZR (nz f i) / IZR (2 ^ 68) /\ (0 < nz f i)%Z.
  Proof.
    intros Hi. destruct ok_parts as (_ & _ & L & _ & O & _). unfold height, tF. rewrite EF.
    destruct (scale_value 68 Fb i ltac:(lia) O ltac:(lia)) as [[F V] P]. split; [exact F|]. rewrite Ef in *. split; [exact V|exact P].
  Qed.
  Lemma div_lt a b c : 0 < c -> (a < b)%Z -> IZR a / c < IZR b / c.
  Proof. intros Hc H. apply Rmult_lt_compat_r; [now apply Rinv_0_lt_compat|now apply IZR_lt]. Qed.
  Lemma ratio_floor i j : (i < 1024)%nat -> (j < 1024)%nat -> Zfloor (IZR (2 ^ 53) * edge z i / edge z j) = (2 ^ 53 * nz w i / nz w j)%Z.
  Proof.
    intros Hi Hj. destruct (edge_value i Hi) as (_ & -> & _). destruct (edge_value j Hj) as (_ & -> & P). assert (P59 : 0 < IZR (2 ^ 59)) by now apply IZR_lt.
    apply IZR_lt in P as Pj. replace (IZR (2 ^ 53) * (IZR (nz w i) / IZR (2 ^ 59)) / (IZR (nz w j) / IZR (2 ^ 59))) with (IZR (2 ^ 53 * nz w i) / IZR (nz w j)).
    - apply Zfloor_div. lia.
    - rewrite mult_IZR. field. lra.
  Qed.
  Ltac slia := repeat match goal with H : context [forallb] |- _ => clear H | H : context [ratio0_ok] |- _ => clear H | H : context [nz] |- _ => clear H
     | H : context [length] |- _ => clear H | H : context [nth] |- _ => clear H | H : @eq bool _ _ |- _ => clear H end; lia.
  Lemma areas_sharp i : (1 <= i < 1024)%nat -> Rabs (edge z i * (height z (i - 1) - height z i) - strip z) <= 11 / 10 ^ 14 * strip z.
  Proof.
    destruct ok_parts as (LK & LW & LF & EW1 & EF1 & CK & K1 & CW & W0 & CF & F0 & CR & CR0 & CA).
    assert (P59 : 0 < IZR (2 ^ 59)) by now apply IZR_lt. assert (P68 : 0 < IZR (2 ^ 68)) by now apply IZR_lt.
    intros Hi. unfold strip. destruct (edge_value i) as (_ & -> & _); [slia|]. destruct (edge_value 0) as (_ & -> & _); [slia|].
    destruct (height_value 1023) as (_ & -> & _); [slia|]. destruct (height_value i) as (_ & -> & _); [slia|]. destruct (height_value (i - 1)) as (_ & -> & _); [slia|].
    pose proof (forallb_seq _ _ _ CA (i - 1)%nat ltac:(slia)) as H. unfold area_ok in H. replace (S (i - 1)) with i in H by slia. apply Z.leb_le, IZR_le in H.
    rewrite !mult_IZR, abs_IZR, minus_IZR, !mult_IZR, minus_IZR in H.
    set (A := IZR (nz w i)) in *. set (B := IZR (nz f (i - 1))) in *. set (C := IZR (nz f i)) in *. set (D := IZR (nz w 0)) in *. set (E := IZR (nz f 1023)) in *.
    set (p := IZR (2 ^ 59)) in *. set (q := IZR (2 ^ 68)) in *.
    replace (A / p * (B / q - C / q) - D / p * (E / q)) with ((A * (B - C) - D * E) * / (p * q)) by (field; lra).
    assert (Hpq : 0 < / (p * q)) by (apply Rinv_0_lt_compat, Rmult_lt_0_compat; lra).
    rewrite Rabs_mult, (Rabs_pos_eq (/ (p * q))) by lra.
    replace (11 / 10 ^ 14 * (D / p * (E / q))) with (11 / 10 ^ 14 * (D * E) * / (p * q)) by (field; lra).
    apply Rmult_le_compat_r; [lra|]. change (IZR (10 ^ 14)) with 100000000000000 in H. lra.
  Qed.
  Lemma tables_meaning : ziggurat_tables z.
  Proof.
    destruct ok_parts as (LK & LW & LF & EW1 & EF1 & CK & K1 & CW & W0 & CF & F0 & CR & CR0 & CA).
    assert (P59 : 0 < IZR (2 ^ 59)) by now apply IZR_lt. assert (P68 : 0 < IZR (2 ^ 68)) by now apply IZR_lt.
    split.
    - unfold full_tables. rewrite EK, EW, EF. unfold floats. rewrite !map_length. auto.
    - intros i Hi. destruct (edge_value i Hi) as (F1 & -> & P1). destruct (height_value i Hi) as (F2 & -> & P2). apply IZR_lt in P1, P2.
      repeat split; auto; now apply Rdiv_lt_0_compat.
    - intros i j Hi Hj. destruct (edge_value i) as (_ & -> & _); [slia|]. destruct (edge_value j) as (_ & -> & _); [slia|].
      apply div_lt; [exact P59|]. apply (increasing (nz w) 1 1024); try slia. intros k Hk1 Hk2. apply Z.ltb_lt. apply (forallb_seq _ _ _ CW). lia.
    - destruct (edge_value 1023) as (_ & -> & _); [slia|]. destruct (edge_value 0) as (_ & -> & _); [slia|]. now apply div_lt.
    - destruct (height_value 0) as (_ & -> & _); [slia|]. rewrite F0. field. lra.
    - intros i j Hj. destruct (height_value i) as (_ & -> & _); [slia|]. destruct (height_value j) as (_ & -> & _); [slia|].
      apply div_lt; [exact P68|]. assert (I : (- nz f i < - nz f j)%Z); [|clear - I; lia].
      apply (increasing (fun k => - nz f k)%Z 0 1024); try slia. intros k Hk1 Hk2. pose proof (forallb_seq _ _ _ CF k ltac:(slia)) as H. unfold f_ok in H. apply Z.ltb_lt in H. clear - H. lia.
    - intros i Hi. pose proof (forallb_seq _ _ _ CK i ltac:(slia)) as H. unfold tK. rewrite EK. now apply N.ltb_lt.
    - unfold tK. rewrite EK, (nth_indep K 0%N 1%N) by (rewrite LK; slia). exact K1.
    - intros i Hi. rewrite ratio_floor by slia. pose proof (forallb_seq _ _ _ CR (i - 1)%nat ltac:(slia)) as H. unfold ratio_ok in H.
      unfold tK. rewrite EK. replace (S (i - 1)) with i in H by slia. now apply Z.leb_le.
    - intros i Hi. apply Rle_trans with (1 := areas_sharp i Hi). apply Rmult_le_compat_r; [|lra]. unfold strip. destruct (edge_value 0) as (_ & -> & P1); [slia|]. destruct (height_value 1023) as (_ & -> & P2); [slia|]. apply IZR_lt in P1, P2. apply Rmult_le_pos; left; now apply Rdiv_lt_0_compat.
  Qed.
  Lemma base_ratio : Z.of_N (tK z 0) = (Zfloor (IZR (2 ^ 53) * edge z 1023 / edge z 0) + d)%Z.
  Proof.
    destruct ok_parts as (_ & _ & _ & _ & _ & _ & _ & _ & _ & _ & _ & _ & CR0 & _). rewrite ratio_floor by slia. unfold ratio0_ok in CR0. apply Z.eqb_eq in CR0.
    unfold tK. rewrite EK. clear - CR0. lia.
  Qed.
End Meaning.
