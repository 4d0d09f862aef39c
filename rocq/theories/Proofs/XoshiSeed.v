(** Xoshiro seeding, save and restore, executions. *)
From Coq Require Import Lia ZifyN ZifyNat ZifyBool.
From Verif Require Import Proofs.WordLemmas Proofs.ReadProofs Proofs.SaveProofs Proofs.PureGen Proofs.SplitMix
  Proofs.IvWords Proofs.XoroProofs Proofs.XoroSeed Proofs.XoshiProofs Model.GenRead Model.Xoroshiro Model.Xoshiro
  Model.Api Spec.States Spec.Seeding.
Ltac Zify.zify_post_hook ::= Z.div_mod_to_equations.
Local Open Scope N_scope.

Lemma splitmix_out_mix s : splitmix_out s = sm_mix s.
Proof. unfold splitmix_out, sm_mix. cbv zeta. rewrite !mul64_mod. unfold shr64. rewrite !N.shiftr_div_pow2. reflexivity. Qed.
Definition smk (k : N) : N := (k * sm_gamma) mod 2 ^ 64.
Lemma smk_succ k : add64 (smk k) sm_gamma = smk (k + 1).
Proof. unfold smk. rewrite add64_mod, N.add_mod_idemp_l by discriminate. f_equal. lia. Qed.
Lemma splitmix64_smk k : splitmix64 k = sm_mix (smk k).
Proof. unfold splitmix64. now rewrite splitmix_out_mix. Qed.
Lemma splitmix64_w k : w64 (splitmix64 k).
Proof. rewrite splitmix64_smk. apply sm_mix_w. unfold smk. apply N.mod_lt. discriminate. Qed.
Lemma add_sm_spec k t : xoshi_add_sm t (smk k) =
  (mkXoshi (N.lxor (xw t) (splitmix64 (k + 1))) (N.lxor (xx t) (splitmix64 (k + 2)))
           (N.lxor (xy t) (splitmix64 (k + 3))) (N.lxor (xz t) (splitmix64 (k + 4))), smk (k + 4)).
Proof.
  unfold xoshi_add_sm. rewrite !smk_succ, !splitmix64_smk.
  replace (k + 1 + 1) with (k + 2) by lia. replace (k + 2 + 1) with (k + 3) by lia.
  replace (k + 3 + 1) with (k + 4) by lia. reflexivity.
Qed.
Lemma after1 s : xoshi_after 1 s = xoshi_step s. Proof. reflexivity. Qed.
Lemma after2 s : xoshi_after 2 s = xoshi_step (xoshi_step s). Proof. reflexivity. Qed.
Lemma after3 s : xoshi_after 3 s = xoshi_step (xoshi_step (xoshi_step s)). Proof. reflexivity. Qed.
Lemma after4 s : xoshi_after 4 s = xoshi_step (xoshi_step (xoshi_step (xoshi_step s))). Proof. reflexivity. Qed.

Lemma words4 iv : (24 < length iv)%nat -> iv_words iv =
  le_val (firstn 8 iv) :: le_val (firstn 8 (skipn 8 iv)) :: le_val (firstn 8 (skipn 16 iv)) ::
  le_val (firstn 8 (skipn 24 iv)) :: iv_words (skipn 32 iv).
Proof.
  intros H. rewrite iv_words_cons by lia.
  rewrite (iv_words_cons (skipn 8 iv)) by (rewrite skipn_length; lia). rewrite <- skipn_add.
  rewrite (iv_words_cons (skipn (8 + 8) iv)) by (rewrite skipn_length; lia). rewrite <- skipn_add.
  rewrite (iv_words_cons (skipn (8 + 8 + 8) iv)) by (rewrite skipn_length; lia). rewrite <- skipn_add.
  reflexivity.
Qed.
Lemma words_end (iv : list N) n : (length iv <= n)%nat -> iv_words (skipn n iv) = [].
Proof. intros H. rewrite skipn_all2 by exact H. reflexivity. Qed.

Definition xoshi_finish (st : xoshi) (sm : N) (iv : list N) : outcome xoshi :=
  if (24 <? length iv)%nat then
    let st := xoshi_step (xoshi_step (xoshi_step (xoshi_step st))) in
    let! a := get64 iv 0 in
    let! iv := slice_from iv 8 in
    let! b := get64 iv 0 in
    let! iv := slice_from iv 8 in
    let! c := get64 iv 0 in
    let! iv := slice_from iv 8 in
    let p := go_copy (zeros 8) iv in
    let! d := get64 p 0 in
    let st := mkXoshi (N.lxor (xw st) a) (N.lxor (xx st) b)
                      (N.lxor (xy st) c) (N.lxor (xz st) d) in
    Ret (fst (xoshi_add_sm st sm))
  else if (16 <? length iv)%nat then
    let st := xoshi_step (xoshi_step (xoshi_step st)) in
    let! a := get64 iv 0 in
    let! iv := slice_from iv 8 in
    let! b := get64 iv 0 in
    let! iv := slice_from iv 8 in
    let p := go_copy (zeros 8) iv in
    let! c := get64 p 0 in
    let st := mkXoshi (N.lxor (xw st) a) (N.lxor (xx st) b)
                      (N.lxor (xy st) c) (xz st) in
    Ret (fst (xoshi_add_sm st sm))
  else if (8 <? length iv)%nat then
    let st := xoshi_step (xoshi_step st) in
    let! a := get64 iv 0 in
    let! iv := slice_from iv 8 in
    let p := go_copy (zeros 8) iv in
    let! b := get64 p 0 in
    let st := mkXoshi (N.lxor (xw st) a) (N.lxor (xx st) b) (xy st) (xz st) in
    Ret (fst (xoshi_add_sm st sm))
  else if (0 <? length iv)%nat then
    let st := xoshi_step st in
    let p := go_copy (zeros 8) iv in
    let! a := get64 p 0 in
    let st := mkXoshi (N.lxor (xw st) a) (xx st) (xy st) (xz st) in
    Ret (fst (xoshi_add_sm st sm))
  else Ret st.

Lemma xoshi_finish_spec st k iv : (length iv < 32)%nat ->
  xoshi_finish st (smk k) iv = Ret (absorb_words k st (iv_words iv)).
Proof.
  intros L. unfold xoshi_finish.
  destruct (Nat.ltb_spec 24 (length iv)) as [H|H].
  { rewrite words4, words_end by lia.
    rewrite (get64_first iv), (slice8_ok iv) by lia. cbn [bind].
    rewrite get64_first, slice8_ok by (rewrite skipn_length; lia). cbn [bind].
    rewrite <- skipn_add. rewrite get64_first, slice8_ok by (rewrite skipn_length; lia). cbn [bind].
    rewrite <- skipn_add. rewrite get64_padded. cbn [bind]. rewrite add_sm_spec. cbn [fst xw xx xy xz Nat.add].
    cbn [absorb_words]. unfold absorb_chunk. rewrite after4. reflexivity. }
  destruct (Nat.ltb_spec 16 (length iv)) as [H'|H'].
  { rewrite iv_words_cons by lia.
    rewrite (iv_words_cons (skipn 8 iv)) by (rewrite skipn_length; lia). rewrite <- skipn_add.
    rewrite (iv_words_cons (skipn (8 + 8) iv)) by (rewrite skipn_length; lia). rewrite <- skipn_add.
    rewrite words_end by lia.
    rewrite (get64_first iv), (slice8_ok iv) by lia. cbn [bind].
    rewrite get64_first, slice8_ok by (rewrite skipn_length; lia). cbn [bind].
    rewrite <- skipn_add. rewrite get64_padded. cbn [bind]. rewrite add_sm_spec. cbn [fst xw xx xy xz Nat.add].
    cbn [absorb_words]. unfold absorb_chunk. rewrite after3, N.lxor_0_r. reflexivity. }
  destruct (Nat.ltb_spec 8 (length iv)) as [H2|H2].
  { rewrite iv_words_cons by lia.
    rewrite (iv_words_cons (skipn 8 iv)) by (rewrite skipn_length; lia). rewrite <- skipn_add.
    rewrite words_end by lia.
    rewrite (get64_first iv), (slice8_ok iv) by lia. cbn [bind].
    rewrite get64_padded. cbn [bind]. rewrite add_sm_spec. cbn [fst xw xx xy xz Nat.add].
    cbn [absorb_words]. unfold absorb_chunk. rewrite after2, !N.lxor_0_r. reflexivity. }
  destruct (Nat.ltb_spec 0 (length iv)) as [H3|H3].
  { rewrite iv_words_cons by lia. rewrite words_end by lia.
    rewrite get64_padded. cbn [bind]. rewrite add_sm_spec. cbn [fst xw xx xy xz Nat.add].
    cbn [absorb_words]. unfold absorb_chunk. rewrite !N.lxor_0_r. reflexivity. }
  destruct iv; [reflexivity|cbn in H3; lia].
Qed.

Lemma xoshi_absorb_spec fuel : forall st k iv, (length iv < fuel)%nat ->
  (let! (st, sm, iv) := xoshi_absorb fuel st (smk k) iv in xoshi_finish st sm iv)
  = Ret (absorb_words k st (iv_words iv)).
Proof.
  induction fuel as [|fuel IH]; intros st k iv Hf; [lia|]. cbn [xoshi_absorb].
  destruct (Nat.leb_spec 32 (length iv)) as [H|H].
  - rewrite words4 by lia.
    rewrite (get64_first iv), (slice8_ok iv) by lia. cbn [bind].
    rewrite get64_first, slice8_ok by (rewrite skipn_length; lia). cbn [bind].
    rewrite <- skipn_add. rewrite get64_first, slice8_ok by (rewrite skipn_length; lia). cbn [bind].
    rewrite <- skipn_add. rewrite get64_first, slice8_ok by (rewrite skipn_length; lia). cbn [bind].
    rewrite <- skipn_add. rewrite add_sm_spec. cbn [fst xw xx xy xz].
    rewrite IH by (rewrite skipn_length; lia).
    cbn [absorb_words]. unfold absorb_chunk. rewrite after4. reflexivity.
  - cbn [bind]. now apply xoshi_finish_spec.
Qed.
Lemma Xoshiro_SeedIV_closed old iv : Xoshiro_SeedIV old iv = Ret (xoshiro_seeded iv).
Proof.
  pose proof (xoshi_absorb_spec (S (length iv))
    (mkXoshi (splitmix64 1) (splitmix64 2) (splitmix64 3) (splitmix64 4)) 4 iv) as E.
  unfold xoshiro_seeded. rewrite <- (E (Nat.lt_succ_diag_r _)). reflexivity.
Qed.

Lemma absorb_chunk_typed k m s a b c d : xoshi_typed s -> w64 a -> w64 b -> w64 c -> w64 d ->
  xoshi_typed (absorb_chunk k m s a b c d).
Proof.
  intros Hs Ha Hb Hc Hd. pose proof (hiter_typed m s Hs) as (? & ? & ? & ?).
  repeat split; cbn; auto using lxor_w, splitmix64_w.
Qed.
Lemma absorb_words_typed n : forall ws, (length ws <= n)%nat -> forall k s, xoshi_typed s -> Forall w64 ws ->
  xoshi_typed (absorb_words k s ws).
Proof.
  induction n as [|n IH]; intros ws Hl k s Hs Hw.
  - destruct ws; [exact Hs|cbn in Hl; lia].
  - destruct ws as [|a [|b [|c [|d ws]]]]; cbn [absorb_words]; [exact Hs|..];
      repeat match goal with H : Forall _ (_ :: _) |- _ => inversion H; clear H; subst end;
      try (apply absorb_chunk_typed; auto using w64_0; fail).
    apply IH; [cbn in Hl; lia|apply absorb_chunk_typed; auto|assumption].
Qed.
Lemma xoshiro_seeded_typed iv : Forall isbyte iv -> xoshi_typed (xoshiro_seeded iv).
Proof.
  intros H. unfold xoshiro_seeded. eapply absorb_words_typed; [apply le_n| |now apply iv_words_w].
  repeat split; apply splitmix64_w.
Qed.

(** 32-byte ivs *)
Definition sm4 : xoshi := mkXoshi (splitmix64 1) (splitmix64 2) (splitmix64 3) (splitmix64 4).
Lemma iv_words_32 iv : length iv = 32%nat -> iv_words iv = [iv_word iv 0; iv_word iv 1; iv_word iv 2; iv_word iv 3].
Proof. intros L. unfold iv_words. rewrite L. reflexivity. Qed.
Lemma xoshiro_seeded_32 iv : length iv = 32%nat ->
  xoshiro_seeded iv = absorb_chunk 4 4 sm4 (iv_word iv 0) (iv_word iv 1) (iv_word iv 2) (iv_word iv 3).
Proof. intros L. unfold xoshiro_seeded. rewrite iv_words_32 by exact L. reflexivity. Qed.
Lemma lxor3_cancel a b c d : N.lxor (N.lxor a b) d = N.lxor (N.lxor a c) d -> b = c.
Proof.
  intros E. rewrite !(N.lxor_comm _ d) in E. apply lxor_cancel_l in E. now apply lxor_cancel_l in E.
Qed.
Lemma absorb_chunk_inj k m s a b c d a' b' c' d' :
  absorb_chunk k m s a b c d = absorb_chunk k m s a' b' c' d' -> a = a' /\ b = b' /\ c = c' /\ d = d'.
Proof.
  unfold absorb_chunk. cbv zeta. intros E. injection E as E1 E2 E3 E4.
  repeat split; eapply lxor3_cancel; eassumption.
Qed.
Lemma xoshiro_seeded_32_inj iv iv' : length iv = 32%nat -> length iv' = 32%nat -> Forall isbyte iv ->
  Forall isbyte iv' -> xoshiro_seeded iv = xoshiro_seeded iv' -> iv = iv'.
Proof.
  intros L L' B B' E. rewrite (xoshiro_seeded_32 iv L), (xoshiro_seeded_32 iv' L') in E.
  apply absorb_chunk_inj in E. destruct E as (E0 & E1 & E2 & E3).
  apply (iv_words_inj 4); try assumption; try lia.
  rewrite (iv_words_32 iv L), (iv_words_32 iv' L'), E0, E1, E2, E3. reflexivity.
Qed.
Lemma xoshiro_seeded_32_onto s : xoshi_typed s -> exists iv, length iv = 32%nat /\ Forall isbyte iv /\ xoshiro_seeded iv = s.
Proof.
  intros (H0 & H1 & H2 & H3). destruct s as [a b c d]; cbn [xw xx xy xz] in *.
  pose (t := xoshi_after 4 sm4).
  assert (Ht : xoshi_typed t) by (apply hiter_typed; repeat split; apply splitmix64_w).
  destruct Ht as (T0 & T1 & T2 & T3).
  pose (w0 := N.lxor (xw t) (N.lxor a (splitmix64 5))). pose (w1 := N.lxor (xx t) (N.lxor b (splitmix64 6))).
  pose (w2 := N.lxor (xy t) (N.lxor c (splitmix64 7))). pose (w3 := N.lxor (xz t) (N.lxor d (splitmix64 8))).
  assert (W : Forall w64 [w0; w1; w2; w3]).
  { repeat apply Forall_cons; try apply Forall_nil; (apply lxor_w; [assumption|apply lxor_w; [assumption|apply splitmix64_w]]). }
  exists (stream_bytes [w0; w1; w2; w3]).
  assert (L : length (stream_bytes [w0; w1; w2; w3]) = 32%nat) by (rewrite stream_bytes_length; reflexivity).
  split; [exact L|]. split; [apply stream_bytes_isbyte|].
  pose proof (stream_words _ W) as E. unfold xoshiro_seeded. rewrite E. fold sm4. cbn [absorb_words].
  unfold absorb_chunk. fold t. cbv zeta. change (4 + 1) with 5. change (4 + 2) with 6. change (4 + 3) with 7. change (4 + 4) with 8.
  assert (X : forall x y z, N.lxor (N.lxor x (N.lxor x (N.lxor y z))) z = y) by (intros; xor_bits).
  unfold w0, w1, w2, w3. now rewrite !X.
Qed.
Lemma xoshiro_seeded_8 x : w64 x -> xoshiro_seeded (seed_bytes x) = absorb_chunk 4 1 sm4 x 0 0 0.
Proof.
  intros Hx. unfold xoshiro_seeded, seed_bytes. rewrite iv_words_8 by apply le_bytes_length.
  rewrite le_val_bytes8 by exact Hx. reflexivity.
Qed.
Lemma xoshiro_seed_nonzero x : w64 x -> xoshiro_seeded (seed_bytes x) <> hzero.
Proof.
  intros Hx E. rewrite xoshiro_seeded_8 in E by exact Hx. unfold absorb_chunk in E. cbv zeta in E.
  apply (f_equal xy) in E. cbn [xy] in E. vm_compute in E. discriminate.
Qed.

(** ** Save, Restore *)
Definition xoshi_bytes (s : xoshi) : list N := stream_bytes [xw s; xx s; xy s; xz s].
Lemma Xoshiro_Save_spec {W} (write : writer W) s w : Xoshiro_Save write s w = write w (xoshi_bytes s).
Proof. reflexivity. Qed.
Lemma Xoshiro_Restore_spec {W} (read : reader W) g w p n e w' :
  read w (zeros 32) = Ret ((p, n, e), w') ->
  Xoshiro_Restore read g w =
    if (n <? 32)%nat then Ret ((n, e), g, w')
    else let! a := get64 p 0 in let! b := get64 p 8 in let! c := get64 p 16 in let! d := get64 p 24 in
         Ret ((n, None), mkXoshi a b c d, w').
Proof. intros H. unfold Xoshiro_Restore. rewrite H. reflexivity. Qed.
Lemma get64_stream ws i : Forall w64 ws -> (i < length ws)%nat -> get64 (stream_bytes ws) (8 * i) = Ret (nth i ws 0).
Proof.
  intros Hw. revert i. intros i Hi.
  rewrite <- (firstn_skipn i ws) at 1. rewrite stream_bytes_app.
  assert (Ls : length (stream_bytes (firstn i ws)) = (8 * i)%nat) by (rewrite stream_bytes_length, firstn_length; lia).
  destruct (skipn i ws) as [|x r] eqn:Es.
  { apply (f_equal (@length N)) in Es. rewrite skipn_length in Es. cbn in Es. lia. }
  assert (Ex : nth i ws 0 = x).
  { rewrite <- (firstn_skipn i ws), app_nth2 by (rewrite firstn_length; lia).
    rewrite firstn_length, Nat.min_l, Nat.sub_diag, Es by lia. reflexivity. }
  change (stream_bytes (x :: r)) with (le_bytes 8 x ++ stream_bytes r).
  rewrite <- Ls, get64_at; [now rewrite Ex|]. rewrite <- Ex. rewrite Forall_forall in Hw. apply Hw, nth_In, Hi.
Qed.
Lemma Xoshiro_Restore_saved {W} (read : reader W) g w s n e w' : xoshi_typed s -> (32 <= n)%nat ->
  read w (zeros 32) = Ret ((xoshi_bytes s, n, e), w') ->
  Xoshiro_Restore read g w = Ret ((n, None), s, w').
Proof.
  intros (H0 & H1 & H2 & H3) Hn E. rewrite (Xoshiro_Restore_spec _ _ _ _ _ _ _ E).
  replace (n <? 32)%nat with false by (symmetry; apply Nat.ltb_ge; lia).
  unfold xoshi_bytes. set (ws := [xw s; xx s; xy s; xz s]).
  assert (Hw : Forall w64 ws) by (unfold ws; auto).
  pose proof (get64_stream ws 0 Hw ltac:(cbn; lia)) as E0. pose proof (get64_stream ws 1 Hw ltac:(cbn; lia)) as E1.
  pose proof (get64_stream ws 2 Hw ltac:(cbn; lia)) as E2. pose proof (get64_stream ws 3 Hw ltac:(cbn; lia)) as E3.
  cbn [Nat.mul Nat.add] in E0, E1, E2, E3. rewrite E0, E1, E2, E3. cbn [bind]. unfold ws. cbn [nth]. now destruct s.
Qed.
Lemma Xoshiro_Restore_ok {W} (read : reader W) g w p n e w' : xoshi_typed g ->
  read w (zeros 32) = Ret ((p, n, e), w') -> length p = 32%nat -> Forall isbyte p ->
  exists g', Xoshiro_Restore read g w = Ret ((n, if (n <? 32)%nat then e else None), g', w') /\ xoshi_typed g'.
Proof.
  intros Hg E Hl Hb. rewrite (Xoshiro_Restore_spec _ _ _ _ _ _ _ E).
  destruct (n <? 32)%nat; [eauto|].
  destruct (get64_ok p 0) as (a & -> & Wa); [lia|exact Hb|].
  destruct (get64_ok p 8) as (b & -> & Wb); [lia|exact Hb|].
  destruct (get64_ok p 16) as (c & -> & Wc); [lia|exact Hb|].
  destruct (get64_ok p 24) as (d & -> & Wd); [lia|exact Hb|]. cbn [bind].
  eexists; split; [reflexivity|]. repeat split; assumption.
Qed.
Lemma xoshi_total s : xoshi_typed s -> exists x s', Xoshiro_Uint64 s = Ret (x, s') /\ xoshi_typed s'.
Proof. intros H. rewrite xoshi_pure. eauto using hstep_typed. Qed.
Lemma Xoshiro_Jump_typed s : xoshi_typed s -> xoshi_typed (Xoshiro_Jump s).
Proof. intros H. rewrite Xoshiro_Jump_spec by exact H. now apply hiter_typed. Qed.
Lemma xoshi_exec_ok s o : xoshi_typed s -> op_ok o ->
  exists b s', exec apiXoshiro s o = Ret (b, s') /\ xoshi_typed s'.
Proof.
  intros Hs Ho. destruct o as [iv|x| | |p| |r| |];
    cbn [exec a_SeedIV a_Seed a_Uint64 a_Int63 a_Read a_Save a_Restore a_Jump a_Reverse apiXoshiro].
  - rewrite Xoshiro_SeedIV_closed. cbn [bind]. eauto using xoshiro_seeded_typed.
  - unfold Xoshiro_Seed. rewrite Xoshiro_SeedIV_closed. cbn [bind].
    eexists _, _; split; [reflexivity|]. apply xoshiro_seeded_typed, le_bytes_isbyte.
  - rewrite xoshi_pure. cbn [bind]. eauto using hstep_typed.
  - eauto.
  - unfold Xoshiro_Read. destruct (read_gt8_spec _ _ xoshi_total p s Hs) as (xs & s' & _ & _ & H' & ->). cbn [bind]. eauto.
  - rewrite Xoshiro_Save_spec. cbn [bind buffer_writer]. eauto.
  - cbn [op_ok] in Ho. pose proof (Ho _ (zeros_isbyte 32)) as Hr.
    destruct (r (zeros 32)) as [[p n] e] eqn:Er. cbn [fst] in Hr. rewrite zeros_length in Hr. destruct Hr as [Hl Hb].
    assert (Erd : fun_reader r tt (zeros 32) = Ret ((p, n, e), tt)) by (unfold fun_reader; now rewrite Er).
    destruct (Xoshiro_Restore_ok _ s _ _ _ _ _ Hs Erd Hl Hb) as (g' & -> & H'). cbn [bind]. eauto.
  - eauto using Xoshiro_Jump_typed.
  - eauto using reverse_typed.
Qed.
