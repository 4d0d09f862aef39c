(** UTF-8 facts: decoding gives scalar values, and decoding inverts encoding on them. *)
From Coq Require Import Lia ZifyN ZifyNat ZifyBool.
From Verif Require Import Model.Base Model.Rng Model.Util Model.Utf8 Spec.Common.
From Verif Require Import Proofs.WordLemmas.
Local Open Scope N_scope.

(** a Unicode scalar value *)
Definition scalar (r : N) : Prop := r < 0xD800 \/ 0xE000 <= r <= 0x10FFFF.

Definition upto (n : nat) : list N := map N.of_nat (seq 0 n).
Lemma upto_in n x : x < N.of_nat n -> In x (upto n).
Proof. intros H. apply in_map_iff. exists (N.to_nat x). split; [lia|]. apply in_seq. lia. Qed.
Lemma check_upto n (f : N -> bool) : forallb f (upto n) = true -> forall x, x < N.of_nat n -> f x = true.
Proof. intros H x Hx. rewrite forallb_forall in H. apply H, upto_in, Hx. Qed.

Lemma lor_c x : x < 64 -> N.lor 0x80 x = 128 + x.
Proof. intros H. apply N.eqb_eq. apply (check_upto 64 (fun x => N.lor 0x80 x =? 128 + x)); [reflexivity|exact H]. Qed.
Lemma lor_2 x : x < 32 -> N.lor 0xC0 x = 192 + x.
Proof. intros H. apply N.eqb_eq. apply (check_upto 32 (fun x => N.lor 0xC0 x =? 192 + x)); [reflexivity|exact H]. Qed.
Lemma lor_3 x : x < 16 -> N.lor 0xE0 x = 224 + x.
Proof. intros H. apply N.eqb_eq. apply (check_upto 16 (fun x => N.lor 0xE0 x =? 224 + x)); [reflexivity|exact H]. Qed.
Lemma lor_4 x : x < 8 -> N.lor 0xF0 x = 240 + x.
Proof. intros H. apply N.eqb_eq. apply (check_upto 8 (fun x => N.lor 0xF0 x =? 240 + x)); [reflexivity|exact H]. Qed.
Lemma land63 x : N.land x 0x3F = x mod 64. Proof. apply (N.land_ones x 6). Qed.
Lemma land31 x : N.land x 0x1F = x mod 32. Proof. apply (N.land_ones x 5). Qed.
Lemma land15 x : N.land x 0x0F = x mod 16. Proof. apply (N.land_ones x 4). Qed.
Lemma land7 x : N.land x 0x07 = x mod 8. Proof. apply (N.land_ones x 3). Qed.
Lemma lor_add a b k : b < 2 ^ k -> N.lor (N.shiftl a k) b = a * 2 ^ k + b.
Proof.
  intros H. rewrite <- N.lxor_lor, <- N.add_nocarry_lxor.
  - now rewrite N.shiftl_mul_pow2.
  - apply N.bits_inj_0. intros i. rewrite N.land_spec. destruct (N.lt_ge_cases i k).
    + rewrite N.shiftl_spec_low by assumption. reflexivity.
    + rewrite (testbit_above b k i) by assumption. apply andb_false_r.
  - apply N.bits_inj_0. intros i. rewrite N.land_spec. destruct (N.lt_ge_cases i k).
    + rewrite N.shiftl_spec_low by assumption. reflexivity.
    + rewrite (testbit_above b k i) by assumption. apply andb_false_r.
Qed.
Lemma shr6 x : N.shiftr x 6 = x / 64. Proof. apply N.shiftr_div_pow2. Qed.
Lemma shr12 x : N.shiftr x 12 = x / 4096. Proof. apply N.shiftr_div_pow2. Qed.
Lemma shr18 x : N.shiftr x 18 = x / 262144. Proof. apply N.shiftr_div_pow2. Qed.
Lemma cont_c x : x < 64 -> cont (128 + x) = x.
Proof. intros H. unfold cont. rewrite land63. replace (128 + x) with (x + 2 * 64) by lia. rewrite N.mod_add by lia. now apply N.mod_small. Qed.
Lemma rng_c x : x < 64 -> is_cont (128 + x) = true.
Proof. intros H. unfold is_cont, in_rng. lia. Qed.

Lemma decode_scalar b0 bs : scalar (fst (decode_rune b0 bs)).
Proof.
  unfold decode_rune, utf8_first.
  assert (RE : scalar rune_error) by (right; vm_compute; split; discriminate).
  destruct (N.ltb_spec b0 0x80); [left; cbn [fst]; lia|].
  destruct (N.ltb_spec b0 0xC2); [exact RE|].
  assert (C : forall b, cont b < 64) by (intros; unfold cont; rewrite land63; now apply N.mod_lt).
  assert (T3 : forall b1 b2, N.lor (N.shiftl (N.land b0 0x0F) 12) (N.lor (N.shiftl (cont b1) 6) (cont b2)) = (b0 mod 16) * 4096 + (b1 mod 64) * 64 + b2 mod 64).
  { intros b1 b2. rewrite land15. pose proof (C b1). pose proof (C b2). rewrite (lor_add (cont b1)) by assumption.
    rewrite lor_add by (change (2 ^ 6) with 64; change (2 ^ 12) with 4096; lia). unfold cont. rewrite !land63. change (2 ^ 12) with 4096. change (2 ^ 6) with 64. lia. }
  assert (T4 : forall b1 b2 b3, N.lor (N.shiftl (N.land b0 0x07) 18) (N.lor (N.shiftl (cont b1) 12) (N.lor (N.shiftl (cont b2) 6) (cont b3)))
     = (b0 mod 8) * 262144 + (b1 mod 64) * 4096 + (b2 mod 64) * 64 + b3 mod 64).
  { intros b1 b2 b3. rewrite land7. pose proof (C b1). pose proof (C b2). pose proof (C b3). rewrite (lor_add (cont b2)) by assumption.
    rewrite (lor_add (cont b1)) by (change (2 ^ 6) with 64; change (2 ^ 12) with 4096; lia).
    rewrite lor_add by (change (2 ^ 6) with 64; change (2 ^ 12) with 4096; change (2 ^ 18) with 262144; lia).
    unfold cont. rewrite !land63. change (2 ^ 18) with 262144. change (2 ^ 12) with 4096. change (2 ^ 6) with 64. lia. }
  destruct (N.ltb_spec b0 0xE0).
  { destruct bs as [|b1 bs]; [exact RE|]. destruct (in_rng _ _ b1); [|exact RE]. cbn [fst]. rewrite lor_add by apply C. rewrite land31.
    left. pose proof (C b1). pose proof (N.mod_lt b0 32). change (2 ^ 6) with 64. lia. }
  assert (M : forall x, x mod 64 < 64) by (intros; now apply N.mod_lt).
  assert (Mb : forall lo hi q b, in_rng lo hi b = true -> q * 64 <= lo -> hi < q * 64 + 64 -> b mod 64 = b - q * 64).
  { intros lo hi q b E G1 G2. unfold in_rng in E. symmetry. apply (N.mod_unique _ _ q); lia. }
  destruct (N.eqb_spec b0 0xE0) as [->|].
  { destruct bs as [|b1 [|b2 bs]]; try exact RE. destruct (in_rng 0xA0 0xBF b1) eqn:E; [|exact RE]. destruct (is_cont b2); [|exact RE]. cbn [fst andb].
    rewrite T3. rewrite (Mb _ _ 2 _ E) by lia. left. unfold in_rng in E. pose proof (M b2). change (224 mod 16) with 0. lia. }
  destruct (N.eqb_spec b0 0xED) as [->|].
  { destruct bs as [|b1 [|b2 bs]]; try exact RE. destruct (in_rng 0x80 0x9F b1) eqn:E; [|exact RE]. destruct (is_cont b2); [|exact RE]. cbn [fst andb].
    rewrite T3. rewrite (Mb _ _ 2 _ E) by lia. left. unfold in_rng in E. pose proof (M b2). change (237 mod 16) with 13. lia. }
  destruct (N.ltb_spec b0 0xF0).
  { destruct bs as [|b1 [|b2 bs]]; try exact RE. destruct (in_rng 0x80 0xBF b1) eqn:E; [|exact RE]. destruct (is_cont b2); [|exact RE]. cbn [fst andb].
    rewrite T3. assert (E0 : b0 mod 16 = b0 - 224) by (symmetry; apply (N.mod_unique _ _ 14); lia). rewrite E0. pose proof (M b1). pose proof (M b2). unfold scalar. lia. }
  destruct (N.eqb_spec b0 0xF0) as [->|].
  { destruct bs as [|b1 [|b2 [|b3 bs]]]; try exact RE. destruct (in_rng 0x90 0xBF b1) eqn:E; [|exact RE]. destruct (is_cont b2); [|exact RE]. destruct (is_cont b3); [|exact RE]. cbn [fst andb].
    rewrite T4. rewrite (Mb _ _ 2 _ E) by lia. unfold in_rng in E. pose proof (M b2). pose proof (M b3). change (240 mod 8) with 0. right. lia. }
  destruct (N.ltb_spec b0 0xF4).
  { destruct bs as [|b1 [|b2 [|b3 bs]]]; try exact RE. destruct (in_rng 0x80 0xBF b1) eqn:E; [|exact RE]. destruct (is_cont b2); [|exact RE]. destruct (is_cont b3); [|exact RE]. cbn [fst andb].
    rewrite T4. assert (E0 : b0 mod 8 = b0 - 240) by (symmetry; apply (N.mod_unique _ _ 30); lia). rewrite E0. pose proof (M b1). pose proof (M b2). pose proof (M b3). right. lia. }
  destruct (N.eqb_spec b0 0xF4) as [->|]; [|exact RE].
  destruct bs as [|b1 [|b2 [|b3 bs]]]; try exact RE. destruct (in_rng 0x80 0x8F b1) eqn:E; [|exact RE]. destruct (is_cont b2); [|exact RE]. destruct (is_cont b3); [|exact RE]. cbn [fst andb].
  rewrite T4. rewrite (Mb _ _ 2 _ E) by lia. unfold in_rng in E. pose proof (M b2). pose proof (M b3). change (244 mod 8) with 4. right. lia.
Qed.
Lemma string_runes_scalar s : Forall scalar (string_runes s).
Proof.
  unfold string_runes. generalize (length s) as fuel. intros fuel. revert s. induction fuel as [|fuel IH]; intros s; cbn [runes_loop]; [constructor|].
  destruct s as [|b0 bs]; [constructor|]. pose proof (decode_scalar b0 bs) as D. destruct (decode_rune b0 bs) as [r n]. constructor; [exact D|apply IH].
Qed.

Lemma decode_encode r rest : scalar r -> exists b0 bs, encode_rune r = b0 :: bs /\ decode_rune b0 (bs ++ rest) = (r, S (length bs)).
Proof.
  intros Hr. unfold encode_rune. destruct (N.leb_spec r 0x7F).
  { exists r, []. split; [reflexivity|]. unfold decode_rune, utf8_first. destruct (N.ltb_spec r 0x80); [reflexivity|lia]. }
  pose proof (N.mod_lt r 64 ltac:(lia)) as M0. pose proof (N.div_mod r 64 ltac:(lia)) as D0.
  destruct (N.leb_spec r 0x7FF).
  { do 2 eexists. split; [reflexivity|]. rewrite shr6, land63. assert (G1 : r / 64 < 32) by (apply N.div_lt_upper_bound; lia).
    assert (G2 : 2 <= r / 64) by (apply N.div_le_lower_bound; lia).
    rewrite lor_2, lor_c by assumption. cbn [app length]. unfold decode_rune, utf8_first.
    destruct (N.ltb_spec (192 + r / 64) 0x80); [lia|]. destruct (N.ltb_spec (192 + r / 64) 0xC2); [lia|]. destruct (N.ltb_spec (192 + r / 64) 0xE0); [|lia].
    change (in_rng 0x80 0xBF (128 + r mod 64)) with (is_cont (128 + r mod 64)). rewrite rng_c by exact M0. f_equal. rewrite cont_c by exact M0. rewrite lor_add by exact M0.
    rewrite land31. replace (192 + r / 64) with (r / 64 + 6 * 32) by lia. rewrite N.mod_add, (N.mod_small (r / 64)) by lia. change (2 ^ 6) with 64. lia. }
  assert (E0 : (0x10FFFF <? r) || in_rng 0xD800 0xDFFF r = false) by (unfold scalar, in_rng in *; lia). rewrite E0.
  pose proof (N.mod_lt (r / 64) 64 ltac:(lia)) as M1. pose proof (N.div_mod (r / 64) 64 ltac:(lia)) as D1. rewrite N.div_div in D1 by lia. change (64 * 64) with 4096 in D1.
  destruct (N.leb_spec r 0xFFFF).
  { do 2 eexists. split; [reflexivity|]. rewrite shr6, shr12, !land63. assert (G1 : r / 4096 < 16) by (apply N.div_lt_upper_bound; lia).
    rewrite lor_3, !lor_c by assumption. cbn [app length]. unfold decode_rune, utf8_first.
    set (a := r / 4096) in *. set (b := (r / 64) mod 64) in *. set (c := r mod 64) in *.
    assert (T3 : N.lor (N.shiftl (N.land (224 + a) 0x0F) 12) (N.lor (N.shiftl (cont (128 + b)) 6) (cont (128 + c))) = r).
    { rewrite !cont_c by assumption. rewrite (lor_add b) by exact M0. rewrite lor_add by (change (2 ^ 6) with 64; change (2 ^ 12) with 4096; lia).
      rewrite land15. replace (224 + a) with (a + 14 * 16) by lia. rewrite N.mod_add, (N.mod_small a) by lia. change (2 ^ 6) with 64; change (2 ^ 12) with 4096. lia. }
    destruct (N.ltb_spec (224 + a) 0x80); [lia|]. destruct (N.ltb_spec (224 + a) 0xC2); [lia|]. destruct (N.ltb_spec (224 + a) 0xE0); [lia|].
    destruct (N.eqb_spec (224 + a) 0xE0).
    { rewrite (rng_c c) by exact M0. assert (Eb : in_rng 160 191 (128 + b) = true) by (unfold in_rng; lia). rewrite Eb. cbn [andb]. now rewrite T3. }
    destruct (N.eqb_spec (224 + a) 0xED).
    { rewrite (rng_c c) by exact M0. assert (Eb : in_rng 128 159 (128 + b) = true) by (unfold in_rng, scalar in *; lia). rewrite Eb. cbn [andb]. now rewrite T3. }
    destruct (N.ltb_spec (224 + a) 0xF0); [|lia]. change (in_rng 128 191 (128 + b)) with (is_cont (128 + b)). rewrite !rng_c by assumption. cbn [andb]. now rewrite T3. }
  assert (R : r <= 0x10FFFF) by (unfold scalar in Hr; lia).
  pose proof (N.mod_lt (r / 4096) 64 ltac:(lia)) as M2. pose proof (N.div_mod (r / 4096) 64 ltac:(lia)) as D2. rewrite N.div_div in D2 by lia. change (4096 * 64) with 262144 in D2.
  do 2 eexists. split; [reflexivity|]. rewrite shr6, shr12, shr18, !land63. assert (G1 : r / 262144 < 5) by (apply N.div_lt_upper_bound; lia).
  rewrite lor_4, !lor_c by (assumption || lia). cbn [app length]. unfold decode_rune, utf8_first.
  set (a := r / 262144) in *. set (b := (r / 4096) mod 64) in *. set (c := (r / 64) mod 64) in *. set (d := r mod 64) in *.
  assert (T4 : N.lor (N.shiftl (N.land (240 + a) 0x07) 18) (N.lor (N.shiftl (cont (128 + b)) 12) (N.lor (N.shiftl (cont (128 + c)) 6) (cont (128 + d)))) = r).
  { rewrite !cont_c by assumption. rewrite (lor_add c) by exact M0. rewrite (lor_add b) by (change (2 ^ 6) with 64; change (2 ^ 12) with 4096; lia).
    rewrite lor_add by (change (2 ^ 6) with 64; change (2 ^ 12) with 4096; change (2 ^ 18) with 262144; lia).
    rewrite land7. replace (240 + a) with (a + 30 * 8) by lia. rewrite N.mod_add, (N.mod_small a) by lia. change (2 ^ 6) with 64; change (2 ^ 12) with 4096; change (2 ^ 18) with 262144. lia. }
  destruct (N.ltb_spec (240 + a) 0x80); [lia|]. destruct (N.ltb_spec (240 + a) 0xC2); [lia|]. destruct (N.ltb_spec (240 + a) 0xE0); [lia|].
  destruct (N.eqb_spec (240 + a) 0xE0); [lia|]. destruct (N.eqb_spec (240 + a) 0xED); [lia|]. destruct (N.ltb_spec (240 + a) 0xF0); [lia|].
  rewrite (rng_c c), (rng_c d) by assumption.
  destruct (N.eqb_spec (240 + a) 0xF0).
  { assert (Eb : in_rng 0x90 191 (128 + b) = true) by (unfold in_rng; lia). rewrite Eb. cbn [andb]. now rewrite T4. }
  destruct (N.ltb_spec (240 + a) 0xF4).
  { change (in_rng 128 191 (128 + b)) with (is_cont (128 + b)). rewrite rng_c by assumption. cbn [andb]. now rewrite T4. }
  destruct (N.eqb_spec (240 + a) 0xF4); [|lia].
  assert (Eb : in_rng 0x80 0x8F (128 + b) = true) by (unfold in_rng; lia). rewrite Eb. cbn [andb]. now rewrite T4.
Qed.
(** []rune(string(p)) = p for scalar values *)
Lemma runes_roundtrip p : Forall scalar p -> string_runes (runes_string p) = p.
Proof.
  intros H. unfold string_runes.
  assert (K : forall fuel, (length (runes_string p) <= fuel)%nat -> runes_loop fuel (runes_string p) = p); [|apply K; lia].
  induction H as [|r p Hr _ IH]; intros fuel Hf; [destruct fuel; reflexivity|].
  change (runes_string (r :: p)) with (encode_rune r ++ runes_string p) in *.
  destruct (decode_encode r (runes_string p) Hr) as (b0 & bs & E & D). rewrite E in *. cbn [app length] in *. destruct fuel as [|fuel]; [lia|].
  cbn [runes_loop]. rewrite D. f_equal. cbn [skipn]. rewrite skipn_app, skipn_all, Nat.sub_diag, skipn_O. apply IH. rewrite app_length in Hf. lia.
Qed.
