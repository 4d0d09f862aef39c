(** Splitting byte strings into 64-bit words. *)
From Coq Require Import Lia ZifyN ZifyNat ZifyBool.
From Verif Require Import Proofs.WordLemmas Proofs.ReadProofs Proofs.SaveProofs.
Ltac Zify.zify_post_hook ::= Z.div_mod_to_equations.

Lemma le_val_zeros bs n : le_val (bs ++ zeros n) = le_val bs.
Proof.
  induction bs as [|b bs IH]; cbn [app le_val].
  - induction n as [|n IH]; cbn [zeros repeat le_val]; [reflexivity|]. unfold zeros in IH. now rewrite IH.
  - now rewrite IH.
Qed.
Lemma le_val_cut n bs : le_val bs = (le_val (firstn n bs) + 256 ^ N.of_nat n * le_val (skipn n bs))%N.
Proof.
  revert bs; induction n as [|n IH]; intros bs; [cbn [firstn skipn le_val]; cbn; lia|].
  destruct bs as [|b bs]; cbn [firstn skipn le_val]; [lia|]. rewrite (IH bs), pow256_S. nia.
Qed.
Lemma iv_word_w iv k : Forall isbyte iv -> w64 (iv_word iv k).
Proof.
  intros H. unfold iv_word.
  assert (Hb : Forall isbyte (firstn 8 (skipn (8 * k) iv))).
  { apply Forall_forall. intros x Hx. rewrite Forall_forall in H. apply H.
    rewrite <- (firstn_skipn (8 * k) iv). apply in_or_app. right.
    rewrite <- (firstn_skipn 8 (skipn (8 * k) iv)). apply in_or_app. now left. }
  apply le_val_bound in Hb. eapply N.lt_le_trans; [exact Hb|].
  change (2 ^ 64)%N with (256 ^ N.of_nat 8)%N. apply N.pow_le_mono_r; [lia|].
  rewrite firstn_length. lia.
Qed.
Lemma skipn_add {A} a b (l : list A) : skipn (a + b) l = skipn b (skipn a l).
Proof.
  revert l; induction a as [|a IH]; intros l; [reflexivity|]. destruct l as [|x l]; cbn; [now rewrite skipn_nil|apply IH].
Qed.
Lemma iv_words_cons iv : 0 < length iv ->
  iv_words iv = le_val (firstn 8 iv) :: iv_words (skipn 8 iv).
Proof.
  intros H. unfold iv_words. rewrite skipn_length.
  replace (ceil8 (length iv)) with (S (ceil8 (length iv - 8))) by (unfold ceil8; lia).
  cbn [seq map]. f_equal. rewrite <- seq_shift, map_map. apply map_ext. intros k.
  unfold iv_word. rewrite <- skipn_add. do 3 f_equal. lia.
Qed.
Lemma iv_words_nil : iv_words [] = []. Proof. reflexivity. Qed.
Lemma iv_words_length iv : length (iv_words iv) = ceil8 (length iv).
Proof. unfold iv_words. now rewrite map_length, seq_length. Qed.
Lemma iv_words_w iv : Forall isbyte iv -> Forall w64 (iv_words iv).
Proof.
  intros H. unfold iv_words. apply Forall_forall. intros x Hx. apply in_map_iff in Hx.
  destruct Hx as (k & <- & _). now apply iv_word_w.
Qed.

Lemma skipn_zeros n m : skipn n (zeros m) = zeros (m - n).
Proof.
  revert m; induction n as [|n IH]; intros [|m]; cbn [zeros repeat skipn Nat.sub]; auto.
Qed.
(** what Go does: copy into a zeroed 8-byte buffer, decode *)
Lemma get64_padded iv : get64 (go_copy (zeros 8) iv) 0 = Ret (le_val (firstn 8 iv)).
Proof.
  unfold get64. rewrite go_copy_length, zeros_length. cbn [Nat.leb Nat.add skipn]. f_equal.
  rewrite firstn_all2 by (rewrite go_copy_length, zeros_length; lia).
  unfold go_copy. rewrite zeros_length.
  replace (skipn (length iv) (zeros 8)) with (zeros (8 - length iv)); [apply le_val_zeros|].
  symmetry. apply skipn_zeros.
Qed.
Lemma get64_first iv : 8 <= length iv -> get64 iv 0 = Ret (le_val (firstn 8 iv)).
Proof.
  intros H. unfold get64. replace (0 + 8 <=? length iv) with true by (symmetry; apply Nat.leb_le; lia). reflexivity.
Qed.
Lemma slice8_ok {A} (iv : list A) : 8 <= length iv -> slice_from iv 8 = Ret (skipn 8 iv).
Proof.
  intros H. unfold slice_from. replace (8 <=? length iv) with true by (symmetry; apply Nat.leb_le; lia). reflexivity.
Qed.

(** byte strings of 8m bytes are determined by their words *)
Lemma firstn_isbyte n l : Forall isbyte l -> Forall isbyte (firstn n l).
Proof.
  intros H. rewrite <- (firstn_skipn n l) in H. apply Forall_app in H. apply H.
Qed.
Lemma skipn_isbyte n l : Forall isbyte l -> Forall isbyte (skipn n l).
Proof.
  intros H. rewrite <- (firstn_skipn n l) in H. apply Forall_app in H. apply H.
Qed.
Lemma iv_words_inj m : forall iv iv', length iv = 8 * m -> length iv' = 8 * m -> Forall isbyte iv ->
  Forall isbyte iv' -> iv_words iv = iv_words iv' -> iv = iv'.
Proof.
  induction m as [|m IH]; intros iv iv' L L' B B' E.
  - destruct iv, iv'; cbn in *; auto; discriminate.
  - rewrite (iv_words_cons iv), (iv_words_cons iv') in E by lia. pose proof (f_equal (hd 0%N) E) as E1. pose proof (f_equal (@tl N) E) as E2. cbn [hd tl] in E1, E2.
    assert (F : firstn 8 iv = firstn 8 iv').
    { rewrite <- (le_bytes_val (firstn 8 iv)), <- (le_bytes_val (firstn 8 iv')), E1 by (apply firstn_isbyte; assumption).
      rewrite !firstn_length. f_equal. lia. }
    rewrite <- (firstn_skipn 8 iv), <- (firstn_skipn 8 iv'), F. f_equal.
    apply IH; rewrite ?skipn_length; try lia; try (apply skipn_isbyte; assumption). exact E2.
Qed.
Lemma stream_words ws : Forall w64 ws -> iv_words (stream_bytes ws) = ws.
Proof.
  induction 1 as [|w ws Hw _ IH]; [reflexivity|].
  change (stream_bytes (w :: ws)) with (le_bytes 8 w ++ stream_bytes ws).
  rewrite iv_words_cons by (rewrite app_length, le_bytes_length; lia).
  set (b := le_bytes 8 w). assert (Lb : length b = 8) by apply le_bytes_length.
  replace (firstn 8 (b ++ stream_bytes ws)) with b
    by (rewrite <- Lb at 1; rewrite firstn_app, Nat.sub_diag, firstn_all, firstn_O, app_nil_r; reflexivity).
  replace (skipn 8 (b ++ stream_bytes ws)) with (stream_bytes ws)
    by (rewrite <- Lb at 1; rewrite skipn_app, Nat.sub_diag, skipn_all; reflexivity).
  unfold b. rewrite le_val_bytes8 by exact Hw. f_equal. exact IH.
Qed.
