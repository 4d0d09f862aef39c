(** Facts about the word and byte operations of Model.Base. *)
From Coq Require Import Lia ZifyN ZifyNat ZifyBool.
From Verif Require Export Model.Base Spec.Common.
Local Open Scope N_scope.

Arguments N.add : simpl never.
Arguments N.mul : simpl never.
Arguments N.sub : simpl never.
Arguments N.land : simpl never.
Arguments N.lor : simpl never.
Arguments N.lxor : simpl never.
Arguments N.shiftl : simpl never.
Arguments N.shiftr : simpl never.
Arguments N.modulo : simpl never.
Arguments N.div : simpl never.
Arguments N.pow : simpl never.
Arguments N.testbit : simpl never.
Arguments N.ltb : simpl never.
Arguments N.leb : simpl never.
Arguments N.eqb : simpl never.

(** ** bits *)
Lemma testbit_above (x n k : N) : x < 2 ^ n -> n <= k -> N.testbit x k = false.
Proof.
  intros Hx Hk. destruct (N.eq_dec x 0) as [->|Hz]; [apply N.bits_0|].
  apply N.bits_above_log2.
  assert (N.log2 x < n) by (apply N.log2_lt_pow2; lia). lia.
Qed.

Lemma bits_bound (x n : N) : (forall k, n <= k -> N.testbit x k = false) -> x < 2 ^ n.
Proof.
  intros H. destruct (N.eq_dec x 0) as [->|Hz].
  - apply N.neq_0_lt_0, N.pow_nonzero. lia.
  - apply N.log2_lt_pow2; [lia|].
    destruct (N.lt_ge_cases (N.log2 x) n) as [Hl|Hg]; [exact Hl|].
    specialize (H _ Hg). rewrite N.bit_log2 in H by exact Hz. discriminate.
Qed.

Lemma mask64_ones : mask64 = N.ones 64. Proof. reflexivity. Qed.
Lemma trunc64_mod x : trunc64 x = x mod 2 ^ 64.
Proof. unfold trunc64. rewrite mask64_ones. apply N.land_ones. Qed.
Lemma trunc64_w x : w64 (trunc64 x).
Proof. unfold w64. rewrite trunc64_mod. apply N.mod_lt. discriminate. Qed.
Lemma trunc64_id x : w64 x -> trunc64 x = x.
Proof. intros H. rewrite trunc64_mod. apply N.mod_small. exact H. Qed.

Lemma testbit_trunc64 x n : N.testbit (trunc64 x) n = (n <? 64) && N.testbit x n.
Proof.
  unfold trunc64. rewrite mask64_ones, N.land_spec.
  destruct (N.ltb_spec n 64) as [H|H].
  - rewrite N.ones_spec_low by exact H. apply andb_true_r.
  - rewrite N.ones_spec_high by exact H. apply andb_false_r.
Qed.
Lemma testbit_shl64 x k n : N.testbit (shl64 x k) n = (n <? 64) && ((k <=? n) && N.testbit x (n - k)).
Proof.
  unfold shl64. rewrite testbit_trunc64. f_equal.
  destruct (N.leb_spec k n) as [H|H].
  - rewrite N.shiftl_spec_high' by exact H. reflexivity.
  - rewrite N.shiftl_spec_low by exact H. reflexivity.
Qed.
Lemma testbit_shr64 x k n : N.testbit (shr64 x k) n = N.testbit x (n + k).
Proof. apply N.shiftr_spec'. Qed.
Lemma testbit_w64 x n : w64 x -> 64 <= n -> N.testbit x n = false.
Proof. intros H. apply testbit_above. exact H. Qed.
Lemma testbit_rotl64 x k n : w64 x -> k < 64 ->
  N.testbit (rotl64 x k) n = (n <? 64) && (if n <? k then N.testbit x (n + 64 - k) else N.testbit x (n - k)).
Proof.
  intros Hx Hk. unfold rotl64. rewrite N.lor_spec, testbit_shl64, testbit_shr64.
  destruct (N.ltb_spec n 64) as [Hn|Hn]; cbn [andb].
  - destruct (N.leb_spec k n) as [H1|H1]; destruct (N.ltb_spec n k) as [H2|H2]; try lia; cbn [andb orb].
    + rewrite (testbit_w64 x (n + (64 - k)) Hx) by lia. apply orb_false_r.
    + f_equal; lia.
  - rewrite (testbit_w64 x (n + (64 - k)) Hx) by lia. reflexivity.
Qed.

(** ** bounds *)
Lemma w64_0 : w64 0. Proof. unfold w64; lia. Qed.
Lemma lxor_bound a b n : a < 2 ^ n -> b < 2 ^ n -> N.lxor a b < 2 ^ n.
Proof.
  intros Ha Hb. apply bits_bound. intros k Hk.
  rewrite N.lxor_spec, (testbit_above a n k), (testbit_above b n k) by assumption. reflexivity.
Qed.
Lemma lor_bound a b n : a < 2 ^ n -> b < 2 ^ n -> N.lor a b < 2 ^ n.
Proof.
  intros Ha Hb. apply bits_bound. intros k Hk.
  rewrite N.lor_spec, (testbit_above a n k), (testbit_above b n k) by assumption. reflexivity.
Qed.
Lemma land_bound_l a b n : a < 2 ^ n -> N.land a b < 2 ^ n.
Proof.
  intros Ha. apply bits_bound. intros k Hk.
  rewrite N.land_spec, (testbit_above a n k) by assumption. reflexivity.
Qed.
Lemma land_bound_r a b n : b < 2 ^ n -> N.land a b < 2 ^ n.
Proof. intros H. rewrite N.land_comm. apply land_bound_l, H. Qed.
Lemma shiftr_bound a k n : a < 2 ^ n -> N.shiftr a k < 2 ^ n.
Proof.
  intros Ha. apply bits_bound. intros i Hi. rewrite N.shiftr_spec'. apply testbit_above with n; [exact Ha|lia].
Qed.
Lemma lxor_w a b : w64 a -> w64 b -> w64 (N.lxor a b). Proof. apply lxor_bound. Qed.
Lemma lor_w a b : w64 a -> w64 b -> w64 (N.lor a b). Proof. apply lor_bound. Qed.
Lemma shr64_w a k : w64 a -> w64 (shr64 a k). Proof. apply shiftr_bound. Qed.
Lemma shl64_w a k : w64 (shl64 a k). Proof. apply trunc64_w. Qed.
Lemma add64_w a b : w64 (add64 a b). Proof. apply trunc64_w. Qed.
Lemma sub64_w a b : w64 (sub64 a b). Proof. apply trunc64_w. Qed.
Lemma mul64_w a b : w64 (mul64 a b). Proof. apply trunc64_w. Qed.
Lemma rotl64_w a k : w64 a -> w64 (rotl64 a k).
Proof. intros H. apply lor_w; [apply shl64_w|apply shr64_w, H]. Qed.

Lemma add64_mod a b : add64 a b = (a + b) mod 2 ^ 64. Proof. apply trunc64_mod. Qed.
Lemma mul64_mod a b : mul64 a b = (a * b) mod 2 ^ 64. Proof. apply trunc64_mod. Qed.

(** ** linearity over GF(2) *)
Lemma shl64_lxor a b k : shl64 (N.lxor a b) k = N.lxor (shl64 a k) (shl64 b k).
Proof.
  apply N.bits_inj. intros n. rewrite N.lxor_spec, !testbit_shl64, N.lxor_spec.
  destruct (n <? 64), (k <=? n), (N.testbit a (n - k)), (N.testbit b (n - k)); reflexivity.
Qed.
Lemma shr64_lxor a b k : shr64 (N.lxor a b) k = N.lxor (shr64 a k) (shr64 b k).
Proof. apply N.shiftr_lxor. Qed.
Lemma rotl64_alt x k : k <= 64 -> w64 x -> rotl64 x k = N.lxor (shl64 x k) (shr64 x (64 - k)).
Proof.
  intros Hk Hx. apply N.bits_inj. intros n. unfold rotl64.
  rewrite N.lxor_spec, N.lor_spec, testbit_shl64, testbit_shr64.
  destruct (N.ltb_spec n 64) as [Hn|Hn]; cbn [andb].
  - destruct (N.leb_spec k n) as [H1|H1]; cbn [andb].
    + rewrite (testbit_w64 x (n + (64 - k)) Hx) by lia. destruct (N.testbit x (n - k)); reflexivity.
    + destruct (N.testbit x (n + (64 - k))); reflexivity.
  - rewrite (testbit_w64 x (n + (64 - k)) Hx) by lia. reflexivity.
Qed.
Lemma rotl64_lxor a b k : k <= 64 -> w64 a -> w64 b ->
  rotl64 (N.lxor a b) k = N.lxor (rotl64 a k) (rotl64 b k).
Proof.
  intros Hk Ha Hb. rewrite !rotl64_alt by (auto using lxor_w).
  rewrite shl64_lxor, shr64_lxor.
  apply N.bits_inj. intros n. rewrite !N.lxor_spec.
  destruct (N.testbit (shl64 a k) n), (N.testbit (shl64 b k) n),
    (N.testbit (shr64 a (64 - k)) n), (N.testbit (shr64 b (64 - k)) n); reflexivity.
Qed.

(** xor normalisation up to AC and nilpotence: compare bit by bit *)
Ltac xor_solve :=
  apply N.bits_inj; let n := fresh "n" in intros n; rewrite ?N.lxor_spec;
  repeat match goal with |- context [N.testbit ?a n] => destruct (N.testbit a n) end; reflexivity.

(** ** bytes *)
Lemma le_bytes_length k x : length (le_bytes k x) = k.
Proof. revert x; induction k as [|k IH]; intros x; cbn; [reflexivity|]. now rewrite IH. Qed.

Lemma land255 x : N.land x 255 = x mod 256.
Proof. change 255 with (N.ones 8). now rewrite N.land_ones. Qed.
Lemma shiftr8 x : N.shiftr x 8 = x / 256.
Proof. now rewrite N.shiftr_div_pow2. Qed.

Lemma le_bytes_isbyte k x : Forall isbyte (le_bytes k x).
Proof.
  revert x; induction k as [|k IH]; intros x; cbn; constructor; auto.
  unfold isbyte. rewrite land255. apply N.mod_lt. lia.
Qed.

Lemma pow256_S k : 256 ^ N.of_nat (S k) = 256 * 256 ^ N.of_nat k.
Proof. rewrite Nat2N.inj_succ, N.pow_succ_r'. reflexivity. Qed.

Lemma le_val_bytes k x : le_val (le_bytes k x) = x mod 256 ^ N.of_nat k.
Proof.
  revert x; induction k as [|k IH]; intros x; cbn [le_bytes le_val].
  - cbn. now rewrite N.mod_1_r.
  - rewrite IH, land255, shiftr8, pow256_S.
    rewrite N.mod_mul_r by (try apply N.pow_nonzero; lia). reflexivity.
Qed.
Lemma pow256_8 : 256 ^ N.of_nat 8 = 2 ^ 64. Proof. reflexivity. Qed.
Lemma le_val_bytes8 x : w64 x -> le_val (le_bytes 8 x) = x.
Proof. intros H. rewrite le_val_bytes, pow256_8. apply N.mod_small, H. Qed.

Lemma le_val_bound bs : Forall isbyte bs -> le_val bs < 256 ^ N.of_nat (length bs).
Proof.
  induction 1 as [|b bs Hb _ IH]; cbn [le_val length]; [cbn; lia|].
  rewrite pow256_S. unfold isbyte in Hb. nia.
Qed.
Lemma le_val_w64 bs : Forall isbyte bs -> length bs = 8%nat -> w64 (le_val bs).
Proof. intros H Hl. apply le_val_bound in H. rewrite Hl in H. exact H. Qed.

Lemma le_bytes_val bs : Forall isbyte bs -> le_bytes (length bs) (le_val bs) = bs.
Proof.
  induction 1 as [|b bs Hb _ IH]; cbn [length le_bytes le_val]; [reflexivity|].
  unfold isbyte in Hb. rewrite land255, shiftr8.
  replace ((b + 256 * le_val bs) mod 256) with b by (rewrite N.mul_comm, N.mod_add, N.mod_small; lia).
  replace ((b + 256 * le_val bs) / 256) with (le_val bs)
    by (rewrite N.mul_comm, N.div_add, N.div_small; lia).
  now rewrite IH.
Qed.

(** byte i of the little-endian encoding *)
Lemma le_bytes_nth k x i : (i < k)%nat -> nth i (le_bytes k x) 0 = (x / 256 ^ N.of_nat i) mod 256.
Proof.
  revert x i; induction k as [|k IH]; intros x i Hi; [lia|].
  cbn [le_bytes]. destruct i as [|i].
  - cbn [nth]. rewrite land255. cbn. now rewrite N.div_1_r.
  - cbn [nth]. rewrite IH by lia. rewrite shiftr8, pow256_S.
    rewrite N.div_div by (try apply N.pow_nonzero; lia). reflexivity.
Qed.

Lemma rev_bytes64_w x : w64 (rev_bytes64 x).
Proof.
  unfold rev_bytes64. apply le_val_w64.
  - apply Forall_rev, le_bytes_isbyte.
  - now rewrite rev_length, le_bytes_length.
Qed.
Lemma rev_bytes64_invol x : w64 x -> rev_bytes64 (rev_bytes64 x) = x.
Proof.
  intros H. unfold rev_bytes64 at 1. unfold rev_bytes64.
  assert (Hl : length (rev (le_bytes 8 x)) = 8%nat) by (now rewrite rev_length, le_bytes_length).
  assert (Hb : Forall isbyte (rev (le_bytes 8 x))) by apply Forall_rev, le_bytes_isbyte.
  rewrite <- Hl at 1. rewrite (le_bytes_val _ Hb), rev_involutive. apply le_val_bytes8, H.
Qed.

(** ** lists *)
Lemma lupd_length {A} (s : list A) i v : length (lupd s i v) = length s.
Proof. revert i; induction s as [|a s IH]; intros [|i]; cbn; auto. Qed.
Lemma nth_lupd {A} (s : list A) i j v d : (i < length s)%nat ->
  nth j (lupd s i v) d = if (j =? i)%nat then v else nth j s d.
Proof.
  revert i j; induction s as [|a s IH]; intros i j Hi; cbn in Hi; [lia|].
  destruct i as [|i], j as [|j]; cbn; try reflexivity.
  rewrite IH by lia. reflexivity.
Qed.
Lemma aget_nth {A} (s : list A) i d : (i < length s)%nat -> aget s i = Ret (nth i s d).
Proof. intros H. unfold aget. rewrite (nth_error_nth' s d H). reflexivity. Qed.
Lemma aget_panic {A} (s : list A) i : (length s <= i)%nat -> aget s i = Panic.
Proof. intros H. unfold aget. apply nth_error_None in H. now rewrite H. Qed.
Lemma aset_ok {A} (s : list A) i v : (i < length s)%nat -> aset s i v = Ret (lupd s i v).
Proof. intros H. unfold aset. apply Nat.ltb_lt in H. now rewrite H. Qed.
Lemma Forall_lupd {A} (P : A -> Prop) s i v : Forall P s -> P v -> Forall P (lupd s i v).
Proof. intros H Hv. revert i; induction H; intros [|i]; cbn; constructor; auto. Qed.
Lemma go_copy_length {A} (d s : list A) : length (go_copy d s) = length d.
Proof. unfold go_copy. rewrite app_length, firstn_length, skipn_length. lia. Qed.
Lemma zeros_length n : length (zeros n) = n. Proof. apply repeat_length. Qed.

Lemma list_eq_nth {A} (d : A) (l l' : list A) :
  length l = length l' -> (forall i, (i < length l)%nat -> nth i l d = nth i l' d) -> l = l'.
Proof.
  revert l'; induction l as [|a l IH]; intros [|b l'] Hl Hn; cbn in Hl; try discriminate; [reflexivity|].
  f_equal.
  - apply (Hn O). cbn; lia.
  - apply IH; [lia|]. intros i Hi. apply (Hn (S i)). cbn; lia.
Qed.
