(** Serialising words. *)
From Coq Require Import Lia ZifyN ZifyNat ZifyBool.
From Verif Require Import Proofs.WordLemmas Proofs.ReadProofs Model.Lfg.

Lemma put64_at a m b v : length m = 8 -> put64 (a ++ m ++ b) (length a) v = Ret (a ++ le_bytes 8 v ++ b).
Proof.
  intros Hm. unfold put64. rewrite !app_length, Hm.
  replace (length a + 8 <=? length a + (8 + length b)) with true by (symmetry; apply Nat.leb_le; lia).
  rewrite firstn_app, Nat.sub_diag, firstn_all, firstn_O, app_nil_r.
  replace (length a + 8) with (length (a ++ m)) by (rewrite app_length; lia).
  rewrite (app_assoc a m b), skipn_app, skipn_all, Nat.sub_diag. reflexivity.
Qed.
Lemma get64_at a v b : w64 v -> get64 (a ++ le_bytes 8 v ++ b) (length a) = Ret v.
Proof.
  intros Hv. unfold get64. rewrite !app_length, le_bytes_length.
  replace (length a + 8 <=? length a + (8 + length b)) with true by (symmetry; apply Nat.leb_le; lia).
  rewrite skipn_app, skipn_all, Nat.sub_diag. cbn [skipn app].
  rewrite firstn_app, le_bytes_length, firstn_all2 by (rewrite le_bytes_length; lia).
  replace (firstn (8 - 8) b) with (@nil N) by reflexivity. rewrite app_nil_r, le_val_bytes8 by exact Hv. reflexivity.
Qed.
Lemma get64_ok p o : o + 8 <= length p -> Forall isbyte p -> exists v, get64 p o = Ret v /\ w64 v.
Proof.
  intros Hl Hb. unfold get64. replace (o + 8 <=? length p) with true by (symmetry; apply Nat.leb_le; lia).
  eexists; split; [reflexivity|]. apply le_val_w64.
  - apply Forall_forall. intros x Hx. rewrite Forall_forall in Hb. apply Hb.
    rewrite <- (firstn_skipn o p), in_app_iff. right.
    rewrite <- (firstn_skipn 8 (skipn o p)), in_app_iff. left. exact Hx.
  - rewrite firstn_length, skipn_length. lia.
Qed.
Lemma get64_0 v : w64 v -> get64 (le_bytes 8 v) 0 = Ret v.
Proof. intros H. pose proof (get64_at [] v [] H) as E. cbn [app length] in E. now rewrite app_nil_r in E. Qed.

Lemma put_words_spec vs : forall a base m b, length a = 8 * base -> length m = 8 * length vs ->
  put_words (a ++ m ++ b) base vs = Ret (a ++ stream_bytes vs ++ b).
Proof.
  induction vs as [|v vs IH]; intros a base m b Ha Hm; cbn [put_words].
  - destruct m; [reflexivity|discriminate].
  - cbn [length] in Hm.
    rewrite <- (firstn_skipn 8 m), <- app_assoc, <- Ha.
    rewrite put64_at by (rewrite firstn_length; lia). cbn [bind].
    rewrite app_assoc, (IH (a ++ le_bytes 8 v) (S base) (skipn 8 m) b).
    + change (stream_bytes (v :: vs)) with (le_bytes 8 v ++ stream_bytes vs). now rewrite <- !app_assoc.
    + rewrite app_length, le_bytes_length. lia.
    + rewrite skipn_length. lia.
Qed.

Lemma get_words_spec vs : forall a i b, length a = 8 * i -> Forall w64 vs ->
  get_words (a ++ stream_bytes vs ++ b) i (length vs) = Ret vs.
Proof.
  induction vs as [|v vs IH]; intros a i b Ha Hw; cbn [get_words length]; [reflexivity|].
  inversion Hw; subst.
  change (stream_bytes (v :: vs)) with (le_bytes 8 v ++ stream_bytes vs).
  rewrite <- app_assoc, <- Ha, get64_at by assumption. cbn [bind].
  rewrite app_assoc, (IH (a ++ le_bytes 8 v) (S i) b).
  - reflexivity.
  - rewrite app_length, le_bytes_length. lia.
  - assumption.
Qed.
Lemma get_words_spec0 vs b : Forall w64 vs -> get_words (stream_bytes vs ++ b) 0 (length vs) = Ret vs.
Proof. intros H. apply (get_words_spec vs [] 0 b); auto. Qed.

Lemma get_words_ok n : forall i p, 8 * (i + n) <= length p -> Forall isbyte p ->
  exists vs, get_words p i n = Ret vs /\ length vs = n /\ Forall w64 vs.
Proof.
  induction n as [|n IH]; intros i p Hl Hb; cbn [get_words].
  - exists []. repeat constructor.
  - destruct (get64_ok p (8 * i)) as (v & Ev & Wv); [lia|exact Hb|]. rewrite Ev. cbn [bind].
    destruct (IH (S i) p) as (vs & E & L & W); [lia|exact Hb|]. rewrite E. cbn [bind].
    exists (v :: vs). repeat split; [cbn; lia|constructor; assumption].
Qed.

Lemma zeros_app a b : zeros (a + b) = zeros a ++ zeros b.
Proof. unfold zeros. apply repeat_app. Qed.
Lemma zeros_isbyte n : Forall isbyte (zeros n).
Proof. unfold zeros. apply Forall_forall. intros x Hx. apply repeat_spec in Hx. subst. reflexivity. Qed.
