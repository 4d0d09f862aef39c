(** MT64: the recurrence behind Uint64, tempering, seeding, save and restore. *)
From Coq Require Import Lia ZifyN ZifyNat ZifyBool.
From Verif Require Import Proofs.WordLemmas Proofs.ReadProofs Proofs.SaveProofs Proofs.PureGen Proofs.Gf2
  Proofs.SplitMix Proofs.XoshiProofs Proofs.IvWords
  Model.GenRead Model.Lfg Model.Mt64 Model.Api Spec.States Spec.MtRef.
Ltac Zify.zify_post_hook ::= Z.div_mod_to_equations.
Local Open Scope nat_scope.

Ltac nolia := cbv [mt64N mt64M] in *; lia.

Lemma lor_add_disjoint a b n : (b < 2 ^ n)%N -> N.lor (a * 2 ^ n) b = (a * 2 ^ n + b)%N.
Proof.
  intros Hb. rewrite <- N.lxor_lor.
  - symmetry. apply N.add_nocarry_lxor. apply N.bits_inj_0. intros k. rewrite N.land_spec.
    destruct (N.lt_ge_cases k n) as [H|H].
    + rewrite N.mul_pow2_bits_low by exact H. reflexivity.
    + rewrite (testbit_above b n k) by assumption. apply andb_false_r.
  - apply N.bits_inj_0. intros k. rewrite N.land_spec.
    destruct (N.lt_ge_cases k n) as [H|H].
    + rewrite N.mul_pow2_bits_low by exact H. reflexivity.
    + rewrite (testbit_above b n k) by assumption. apply andb_false_r.
Qed.
Lemma twist_ref a b : w64 a -> mt_twist a b = ref_twist a b.
Proof.
  intros Ha. unfold mt_twist, ref_twist.
  assert (E : N.lor (N.land a 0xffffffff80000000) (N.land b 0x000000007fffffff)
              = ((a / 2 ^ 31) * 2 ^ 31 + b mod 2 ^ 31)%N).
  { rewrite <- lor_add_disjoint by (apply N.mod_lt; discriminate). f_equal.
    - rewrite <- N.shiftr_div_pow2, <- N.shiftl_mul_pow2. apply N.bits_inj. intros k.
      rewrite N.land_spec. destruct (N.lt_ge_cases k 31) as [H|H].
      + rewrite N.shiftl_spec_low by exact H. change 0xffffffff80000000%N with (N.shiftl (N.ones 33) 31).
        rewrite N.shiftl_spec_low by exact H. apply andb_false_r.
      + rewrite N.shiftl_spec_high', N.shiftr_spec' by exact H. replace (k - 31 + 31)%N with k by lia.
        change 0xffffffff80000000%N with (N.shiftl (N.ones 33) 31). rewrite N.shiftl_spec_high' by exact H.
        destruct (N.lt_ge_cases (k - 31) 33) as [H'|H'].
        * rewrite N.ones_spec_low by exact H'. apply andb_true_r.
        * rewrite N.ones_spec_high by exact H'. rewrite (testbit_w64 a k) by (try exact Ha; lia). reflexivity.
    - change 0x7fffffff%N with (N.ones 31). apply N.land_ones. }
  rewrite E. cbv zeta. set (x := ((a / 2 ^ 31) * 2 ^ 31 + b mod 2 ^ 31)%N).
  unfold shr64. rewrite N.shiftr_div_pow2. change (2 ^ 1)%N with 2%N. f_equal.
  change 1%N with (N.ones 1) at 1. rewrite N.land_ones. change (2 ^ 1)%N with 2%N.
  assert (O : (x mod 2)%N = N.b2n (N.odd x)) by (rewrite <- N.bit0_mod, N.bit0_odd; reflexivity).
  rewrite O. destruct (N.odd x); reflexivity.
Qed.
Lemma ref_twist_w a b : w64 a -> w64 (ref_twist a b).
Proof.
  intros Ha. rewrite <- twist_ref by exact Ha. unfold mt_twist. apply lxor_w; [|apply mul64_w].
  apply shr64_w, lor_w.
  - apply land_bound_l. exact Ha.
  - apply land_bound_r. reflexivity.
Qed.
Lemma rec_w u : mt_recurrence u -> (forall n, n < 312 -> w64 (u n)) -> forall n, w64 (u n).
Proof.
  intros R H0 n. induction n as [n IH] using lt_wf_ind.
  destruct (Nat.lt_ge_cases n 312) as [H|H]; [now apply H0|].
  replace n with (n - 312 + 312) by lia. rewrite R. apply lxor_w; [apply IH; lia|]. apply ref_twist_w, IH. lia.
Qed.

(** the array holds u(b+312+j) for j < i and u(b+j) for the others *)
Definition win (u : nat -> N) (b i : nat) (s : list N) : Prop :=
  length s = 312 /\ forall j, j < 312 -> nth j s 0%N = if j <? i then u (b + 312 + j) else u (b + j).

Lemma win_set u b i s v : win u b i s -> i < 312 -> v = u (b + 312 + i) -> win u b (S i) (lupd s i v).
Proof.
  intros [L H] Hi ->. split; [now rewrite lupd_length|]. intros j Hj. rewrite nth_lupd by lia.
  destruct (Nat.eqb_spec j i) as [->|Hne].
  - replace (i <? S i) with true by (symmetry; apply Nat.ltb_lt; lia). reflexivity.
  - rewrite H by exact Hj. destruct (Nat.ltb_spec j i), (Nat.ltb_spec j (S i)); try lia; reflexivity.
Qed.
Lemma win_get u b i s j : win u b i s -> j < 312 ->
  aget s j = Ret (if j <? i then u (b + 312 + j) else u (b + j)).
Proof. intros [L H] Hj. rewrite (aget_nth s j 0%N) by lia. now rewrite H. Qed.
Section Regen.
  Variable u : nat -> N.
  Hypothesis R : mt_recurrence u.
  Hypothesis W : forall n, w64 (u n).
  Lemma new_word b i : N.lxor (u (b + i + 156)) (mt_twist (u (b + i)) (u (b + i + 1))) = u (b + 312 + i).
  Proof. rewrite twist_ref by apply W. replace (b + 312 + i) with (b + i + 312) by lia. now rewrite R. Qed.
  Lemma mt_loop1_spec b k : forall i s, i + k = 156 -> win u b i s ->
    exists s', mt_loop1 k i s = Ret s' /\ win u b 156 s'.
  Proof.
    induction k as [|k IH]; intros i s Hk Hw; cbn [mt_loop1].
    - replace 156 with i by lia. eauto.
    - change mt64M with 156. rewrite !(win_get u b i s) by (assumption || lia). cbn [bind].
      replace (i <? i) with false by (symmetry; apply Nat.ltb_ge; lia).
      replace (i + 1 <? i) with false by (symmetry; apply Nat.ltb_ge; lia).
      replace (i + 156 <? i) with false by (symmetry; apply Nat.ltb_ge; lia).
      rewrite !Nat.add_assoc, new_word. destruct Hw as [L H]. rewrite aset_ok by lia. cbn [bind].
      apply IH; [lia|]. apply win_set; [split; assumption|lia|reflexivity].
  Qed.
  Lemma mt_loop2_spec b k : forall i s, i + k = 311 -> 156 <= i -> win u b i s ->
    exists s', mt_loop2 k i s = Ret s' /\ win u b 311 s'.
  Proof.
    induction k as [|k IH]; intros i s Hk Hi Hw; cbn [mt_loop2].
    - replace 311 with i by lia. eauto.
    - change (mt64N - mt64M) with 156. rewrite !(win_get u b i s) by (assumption || lia). cbn [bind].
      replace (i <? i) with false by (symmetry; apply Nat.ltb_ge; lia).
      replace (i + 1 <? i) with false by (symmetry; apply Nat.ltb_ge; lia).
      replace (i - 156 <? i) with true by (symmetry; apply Nat.ltb_lt; lia).
      replace (b + 312 + (i - 156)) with (b + i + 156) by lia.
      rewrite !Nat.add_assoc, new_word. destruct Hw as [L H]. rewrite aset_ok by lia. cbn [bind].
      apply IH; [lia|lia|]. apply win_set; [split; assumption|lia|reflexivity].
  Qed.
  Lemma mt_regen_spec b s : win u b 0 s -> exists s', mt_regen s = Ret s' /\ win u (b + 312) 0 s'.
  Proof.
    intros H0. unfold mt_regen. change (mt64N - mt64M) with 156.
    destruct (mt_loop1_spec b 156 0 s eq_refl H0) as (s1 & -> & H1). cbn [bind].
    change (mt64N - 1 - 156) with 155.
    destruct (mt_loop2_spec b 155 156 s1 eq_refl (le_n _) H1) as (s2 & -> & H2). cbn [bind].
    change (mt64N - 1) with 311. change (mt64M - 1) with 155.
    rewrite !(win_get u b 311 s2) by (assumption || lia). cbn [bind].
    replace (311 <? 311) with false by reflexivity. replace (0 <? 311) with true by reflexivity.
    replace (155 <? 311) with true by reflexivity.
    pose proof (new_word b 311) as E.
    replace (b + 311 + 156) with (b + 312 + 155) in E by lia. replace (b + 311 + 1) with (b + 312 + 0) in E by lia.
    rewrite E. pose proof H2 as [L2 _]. rewrite aset_ok by lia. eexists; split; [reflexivity|].
    apply win_set with (v := u (b + 312 + 311)) in H2; [|lia|reflexivity].
    destruct H2 as [L3 H3]. split; [exact L3|]. intros j Hj. rewrite H3 by exact Hj.
    replace (j <? 312) with true by (symmetry; apply Nat.ltb_lt; lia).
    replace (j <? 0) with false by (destruct j; reflexivity). reflexivity.
  Qed.

  (** state g is about to output position n of the sequence *)
  Definition mt_at (n : nat) (g : mt64) : Prop :=
    exists b, win u b 0 (ms g) /\ n = b + Nat.min (N.to_nat (mi g)) 312.
  Lemma mt_at_step n g : mt_at n g -> exists g', MT64_Uint64 g = Ret (mt_temper (u n), g') /\ mt_at (S n) g'.
  Proof.
    intros (b & Hw & ->). unfold MT64_Uint64. change (N.of_nat mt64N) with 312%N.
    destruct (N.leb_spec 312 (mi g)) as [H|H].
    - destruct (mt_regen_spec b (ms g) Hw) as (s' & -> & H'). cbn [bind ms mi N.to_nat].
      rewrite (win_get u (b + 312) 0 s' 0) by (assumption || lia). cbn [bind Nat.ltb Nat.leb].
      rewrite Nat.min_r by lia. rewrite Nat.add_0_r. eexists; split; [reflexivity|].
      exists (b + 312). split; [exact H'|]. cbn. lia.
    - cbn [bind]. rewrite (win_get u b 0 (ms g) (N.to_nat (mi g))) by (assumption || lia). cbn [bind].
      replace (N.to_nat (mi g) <? 0) with false by (symmetry; apply Nat.ltb_ge; lia).
      rewrite Nat.min_l by lia. eexists; split; [reflexivity|].
      exists b. split; [exact Hw|]. cbn [mi]. lia.
  Qed.
  Lemma mt_at_runs n g xs g' : mt_at n g -> runs MT64_Uint64 g xs g' ->
    mt_at (n + length xs) g' /\ forall k, k < length xs -> nth k xs 0%N = mt_temper (u (n + k)).
  Proof.
    intros H Hr. revert n H. induction Hr as [g|g x g1 xs g' Hx _ IH]; intros n H.
    - cbn [length]. rewrite Nat.add_0_r. split; [exact H|]. intros k Hk; lia.
    - destruct (mt_at_step n g H) as (g2 & E & H2). rewrite E in Hx. inversion Hx; subst x g2.
      destruct (IH _ H2) as [A B]. split.
      + cbn [length]. replace (n + S (length xs)) with (S n + length xs) by lia. exact A.
      + intros [|k] Hk; cbn [nth length] in *; [now rewrite Nat.add_0_r|].
        rewrite B by lia. do 2 f_equal. lia.
  Qed.
End Regen.

(** the sequence of a state exists: shift register *)
Definition mt_shift (s : list N) : list N := tl s ++ [N.lxor (nth 156 s 0%N) (ref_twist (nth 0 s 0%N) (nth 1 s 0%N))].
Fixpoint shifted (n : nat) (s : list N) : list N := match n with O => s | S n' => shifted n' (mt_shift s) end.
Definition mt_seq (s : list N) (n : nat) : N := nth 0 (shifted n s) 0%N.
Lemma mt_shift_length s : length s = 312 -> length (mt_shift s) = 312.
Proof. intros H. unfold mt_shift. rewrite app_length. destruct s; cbn [length tl] in *; lia. Qed.
Lemma nth_mt_shift s j : length s = 312 -> j < 311 -> nth j (mt_shift s) 0%N = nth (S j) s 0%N.
Proof.
  intros H Hj. unfold mt_shift. destruct s as [|a s]; [discriminate|]. cbn [length tl] in *.
  rewrite app_nth1 by lia. reflexivity.
Qed.
Lemma nth_mt_shift_last s : length s = 312 ->
  nth 311 (mt_shift s) 0%N = N.lxor (nth 156 s 0%N) (ref_twist (nth 0 s 0%N) (nth 1 s 0%N)).
Proof.
  intros H. unfold mt_shift. rewrite app_nth2 by (destruct s; cbn [length tl] in *; lia).
  replace (311 - length (tl s)) with 0 by (destruct s; cbn [length tl] in *; lia). reflexivity.
Qed.
Lemma mt_seq_nth j : forall s, length s = 312 -> j < 312 -> nth j s 0%N = mt_seq s j.
Proof.
  unfold mt_seq. induction j as [|j IH]; intros s Hs Hj; [reflexivity|].
  cbn [shifted]. rewrite <- IH by (try apply mt_shift_length; auto; lia). rewrite nth_mt_shift by (auto; lia). reflexivity.
Qed.
Lemma shifted_length n : forall s, length s = 312 -> length (shifted n s) = 312.
Proof. induction n as [|n IH]; intros s H; cbn [shifted]; auto using mt_shift_length. Qed.
Lemma shifted_S n : forall s, shifted (S n) s = mt_shift (shifted n s).
Proof. induction n as [|n IH]; intros s; [reflexivity|]. cbn [shifted] in *. now rewrite <- IH. Qed.
Lemma shifted_add n m : forall s, shifted (n + m) s = shifted m (shifted n s).
Proof. induction n as [|n IH]; intros s; [reflexivity|]. cbn [shifted Nat.add]. apply IH. Qed.
Lemma mt_seq_shift s n m : mt_seq s (n + m) = mt_seq (shifted n s) m.
Proof. unfold mt_seq. now rewrite shifted_add. Qed.
Lemma mt_seq_rec s : length s = 312 -> mt_recurrence (mt_seq s).
Proof.
  intros H n. rewrite !mt_seq_shift.
  replace (mt_seq s n) with (mt_seq (shifted n s) 0) by (rewrite <- mt_seq_shift; f_equal; lia).
  set (t := shifted n s). assert (Lt : length t = 312) by (apply shifted_length, H).
  rewrite <- (mt_seq_nth 0 t), <- (mt_seq_nth 1 t), <- (mt_seq_nth 156 t) by (auto; lia).
  change 312 with (1 + 311). rewrite mt_seq_shift. rewrite <- (mt_seq_nth 311) by (try apply shifted_length; auto; lia).
  cbn [shifted]. now rewrite nth_mt_shift_last.
Qed.
Lemma mt_typed_seq g : mt_typed g -> exists u, mt_recurrence u /\ (forall n, w64 (u n)) /\
  (forall n, n < 312 -> u n = nth n (ms g) 0%N).
Proof.
  intros [L W]. exists (mt_seq (ms g)).
  assert (R := mt_seq_rec (ms g) L).
  assert (E : forall n, n < 312 -> mt_seq (ms g) n = nth n (ms g) 0%N) by (intros; symmetry; now apply mt_seq_nth).
  split; [exact R|]. split; [|exact E]. apply rec_w; [exact R|].
  intros n Hn. rewrite E by exact Hn. rewrite Forall_forall in W. apply W, nth_In. lia.
Qed.
Lemma mt_typed_at u g : mt_typed g -> (forall n, n < 312 -> u n = nth n (ms g) 0%N) ->
  mt_at u (Nat.min (N.to_nat (mi g)) 312) g.
Proof.
  intros [L W] E. exists 0. split; [|lia]. split; [exact L|]. intros j Hj. cbn [Nat.ltb Nat.leb]. rewrite <- E by exact Hj.
  destruct j; reflexivity.
Qed.

(** ** no panics *)
Lemma win_typed u b s : (forall n, w64 (u n)) -> win u b 0 s -> length s = 312 /\ Forall w64 s.
Proof.
  intros W [L H]. split; [exact L|]. apply Forall_forall. intros x Hx. apply In_nth with (d := 0%N) in Hx.
  destruct Hx as (j & Hj & <-). rewrite H by lia. destruct j; cbn; apply W.
Qed.
Lemma mt_total g : mt_typed g -> exists x g', MT64_Uint64 g = Ret (x, g') /\ mt_typed g'.
Proof.
  intros Hg. destruct (mt_typed_seq g Hg) as (u & R & W & E).
  destruct (mt_at_step u R W _ g (mt_typed_at u g Hg E)) as (g' & Eg & (b & Hb & _)).
  eexists _, g'. split; [exact Eg|]. apply (win_typed u b); assumption.
Qed.

(** ** tempering *)
Lemma shl_land_mask x k m : w64 m -> N.land (shl64 x k) m = N.land (x * 2 ^ k) m.
Proof.
  intros Hm. apply N.bits_inj. intros n. rewrite !N.land_spec, testbit_shl64.
  destruct (N.ltb_spec n 64) as [H|H].
  - cbn [andb]. f_equal. destruct (N.leb_spec k n) as [H'|H'].
    + rewrite N.mul_pow2_bits_high by exact H'. reflexivity.
    + rewrite N.mul_pow2_bits_low by exact H'. reflexivity.
  - rewrite (testbit_w64 m n) by assumption. now rewrite !andb_false_r.
Qed.
Lemma temper_ref x : mt_temper x = ref_temper x.
Proof.
  unfold mt_temper, ref_temper. cbv zeta. unfold shr64. rewrite !N.shiftr_div_pow2.
  rewrite !shl_land_mask by reflexivity. reflexivity.
Qed.
Lemma mt_temper_w x : w64 x -> w64 (mt_temper x).
Proof.
  intros H. unfold mt_temper. cbv zeta.
  repeat first [apply lxor_w | apply land_bound_r; reflexivity | apply shr64_w | exact H].
Qed.
Definition rs (k m x : N) : N := N.land (shr64 x k) m.
Definition lsh (k m x : N) : N := N.land (shl64 x k) m.
Lemma rs_lxor k m a b : rs k m (N.lxor a b) = N.lxor (rs k m a) (rs k m b).
Proof.
  unfold rs. rewrite shr64_lxor. apply N.bits_inj. intros n. rewrite !N.land_spec, !N.lxor_spec, !N.land_spec.
  destruct (N.testbit (shr64 a k) n), (N.testbit (shr64 b k) n), (N.testbit m n); reflexivity.
Qed.
Lemma lsh_lxor k m a b : lsh k m (N.lxor a b) = N.lxor (lsh k m a) (lsh k m b).
Proof.
  unfold lsh. rewrite shl64_lxor. apply N.bits_inj. intros n. rewrite !N.land_spec, !N.lxor_spec, !N.land_spec.
  destruct (N.testbit (shl64 a k) n), (N.testbit (shl64 b k) n), (N.testbit m n); reflexivity.
Qed.
(** inverse of x ^ f x for an f with f^4 = 0 (on 64-bit words): x ^ f x ^ f f x ^ f f f x *)
Definition unx (f : N -> N) (y : N) : N := N.lxor y (f (N.lxor y (f (N.lxor y (f y))))).
Lemma unx_lxor f : (forall a b, f (N.lxor a b) = N.lxor (f a) (f b)) ->
  forall a b, unx f (N.lxor a b) = N.lxor (unx f a) (unx f b).
Proof. intros Hf a b. unfold unx. repeat rewrite !Hf. xor_bits. Qed.
Definition mt_untemper (y : N) : N :=
  unx (rs 29 0x5555555555555555) (unx (lsh 17 0x71D67FFFEDA60000) (unx (lsh 37 0xFFF7EEE000000000)
    (unx (rs 43 0xffffffffffffffff) y))).
Lemma mt_untemper_lxor a b : mt_untemper (N.lxor a b) = N.lxor (mt_untemper a) (mt_untemper b).
Proof.
  unfold mt_untemper. rewrite (unx_lxor _ (rs_lxor 43 _)), (unx_lxor _ (lsh_lxor 37 _)), (unx_lxor _ (lsh_lxor 17 _)),
    (unx_lxor _ (rs_lxor 29 _)). reflexivity.
Qed.
Lemma mt_temper_alt x : mt_temper x =
  let x := N.lxor x (rs 29 0x5555555555555555 x) in
  let x := N.lxor x (lsh 17 0x71D67FFFEDA60000 x) in
  let x := N.lxor x (lsh 37 0xFFF7EEE000000000 x) in
  N.lxor x (shr64 x 43).
Proof. reflexivity. Qed.
Lemma mt_temper_lxor a b : mt_temper (N.lxor a b) = N.lxor (mt_temper a) (mt_temper b).
Proof.
  rewrite !mt_temper_alt. cbv zeta.
  assert (S : forall f x y, (forall a b, f (N.lxor a b) = N.lxor (f a) (f b)) ->
    N.lxor (N.lxor x y) (f (N.lxor x y)) = N.lxor (N.lxor x (f x)) (N.lxor y (f y))).
  { intros f x y Hf. rewrite Hf. xor_bits. }
  rewrite (S _ a b (rs_lxor 29 _)), (S _ _ _ (lsh_lxor 17 _)), (S _ _ _ (lsh_lxor 37 _)).
  apply (S (fun x => shr64 x 43)). intros; apply shr64_lxor.
Qed.
Lemma untemper_basis : forallb (fun i => (mt_untemper (mt_temper (2 ^ N.of_nat i)) =? 2 ^ N.of_nat i)%N &&
  (mt_temper (mt_untemper (2 ^ N.of_nat i)) =? 2 ^ N.of_nat i)%N) (seq 0 64) = true.
Proof. vm_cast_no_check (eq_refl true). Qed.
Lemma untemper_temper x : w64 x -> mt_untemper (mt_temper x) = x.
Proof.
  apply (basis_ext N.lxor (fun x => mt_untemper (mt_temper x)) (fun x => x) 64).
  - intros. now rewrite mt_temper_lxor, mt_untemper_lxor.
  - reflexivity.
  - reflexivity.
  - intros i Hi. pose proof untemper_basis as B. rewrite forallb_forall in B.
    specialize (B i). rewrite andb_true_iff, !N.eqb_eq in B. apply B, in_seq. lia.
Qed.
Lemma temper_untemper x : w64 x -> mt_temper (mt_untemper x) = x.
Proof.
  apply (basis_ext N.lxor (fun x => mt_temper (mt_untemper x)) (fun x => x) 64).
  - intros. now rewrite mt_untemper_lxor, mt_temper_lxor.
  - reflexivity.
  - reflexivity.
  - intros i Hi. pose proof untemper_basis as B. rewrite forallb_forall in B.
    specialize (B i). rewrite andb_true_iff, !N.eqb_eq in B. apply B, in_seq. lia.
Qed.
Lemma unx_w f y : (forall x, w64 (f x)) -> w64 y -> w64 (unx f y).
Proof. intros Hf Hy. unfold unx. now apply lxor_w. Qed.
Lemma mt_untemper_w y : w64 y -> w64 (mt_untemper y).
Proof.
  intros H. unfold mt_untemper. repeat (apply unx_w; [intros x; apply land_bound_r; reflexivity|]). exact H.
Qed.
Lemma mt_temper_inj x y : w64 x -> w64 y -> mt_temper x = mt_temper y -> x = y.
Proof. intros Hx Hy E. rewrite <- (untemper_temper x Hx), <- (untemper_temper y Hy). now f_equal. Qed.
