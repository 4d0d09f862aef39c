(** Xoroshiro seeding: closed form, injectivity, zero states; save and restore; executions. *)
From Coq Require Import Lia ZifyN ZifyNat ZifyBool.
From Verif Require Import Proofs.WordLemmas Proofs.ReadProofs Proofs.SaveProofs Proofs.PureGen Proofs.SplitMix
  Proofs.IvWords Proofs.XoroProofs Model.GenRead Model.Xoroshiro Model.Api Spec.States.
Ltac Zify.zify_post_hook ::= Z.div_mod_to_equations.
Local Open Scope N_scope.

Lemma sum64_nil : sum64 [] = 0. Proof. reflexivity. Qed.
Lemma sum64_cons a l : sum64 (a :: l) = add64 a (sum64 l).
Proof. unfold sum64. cbn [fold_right]. rewrite add64_mod, N.add_mod_idemp_r by discriminate. reflexivity. Qed.
Lemma sum64_w l : w64 (sum64 l). Proof. apply N.mod_lt. discriminate. Qed.

Lemma xoro_absorb_spec fuel : forall sm iv, (length iv < fuel)%nat -> (0 < length iv)%nat -> w64 sm ->
  xoro_absorb fuel sm iv =
    Ret (add64 sm (sum64 (map (N.lxor sm_gamma) (removelast (iv_words iv)))),
         skipn (8 * (ceil8 (length iv) - 1)) iv).
Proof.
  induction fuel as [|fuel IH]; intros sm iv Hf Hl Hs; [lia|]. cbn [xoro_absorb].
  destruct (Nat.ltb_spec 8 (length iv)) as [H|H].
  - rewrite get64_padded. cbn [bind]. rewrite Nat.min_l by lia.
    rewrite IH by (rewrite ?skipn_length; try apply add64_w; lia).
    rewrite (iv_words_cons iv) by lia.
    assert (N0 : iv_words (skipn 8 iv) <> []).
    { intros E. apply (f_equal (@length N)) in E. rewrite iv_words_length, skipn_length in E.
      cbn [length] in E. unfold ceil8 in E. lia. }
    destruct (iv_words (skipn 8 iv)) as [|y l] eqn:Ew; [contradiction|].
    change (removelast (le_val (firstn 8 iv) :: y :: l)) with (le_val (firstn 8 iv) :: removelast (y :: l)).
    cbn [map]. rewrite sum64_cons, add64_assoc, <- skipn_add, skipn_length. do 3 f_equal. unfold ceil8. lia.
  - replace (ceil8 (length iv)) with 1%nat by (unfold ceil8; lia).
    rewrite iv_words_cons by lia.
    assert (L : length (iv_words (skipn 8 iv)) = 0%nat).
    { rewrite iv_words_length, skipn_length. unfold ceil8. lia. }
    destruct (iv_words (skipn 8 iv)); [|discriminate]. cbn [removelast map Nat.sub Nat.mul skipn].
    rewrite sum64_nil, add64_mod, N.add_0_r, N.mod_small by exact Hs. reflexivity.
Qed.

(** the closed form *)
Definition xoro_seed_a (iv : list N) : N :=
  add64 (sum64 (map (N.lxor sm_gamma) (removelast (iv_words iv)))) sm_gamma.
Lemma last_word iv : (0 < length iv)%nat ->
  le_val (firstn 8 (skipn (8 * (ceil8 (length iv) - 1)) iv)) = last (iv_words iv) 0.
Proof.
  intros H. unfold iv_words.
  replace (ceil8 (length iv)) with (S (ceil8 (length iv) - 1)) at 2 by (unfold ceil8; lia).
  rewrite seq_S, map_app. cbn [map]. rewrite last_last. reflexivity.
Qed.
Lemma Xoroshiro_SeedIV_closed old iv : iv <> [] ->
  Xoroshiro_SeedIV old iv =
    Ret (mkXoro (sm_mix (add64 (N.lxor (xoro_seed_a iv) (last (iv_words iv) 0)) sm_gamma))
                (sm_mix (xoro_seed_a iv))).
Proof.
  intros Hne. assert (Hl : (0 < length iv)%nat) by (destruct iv; cbn; [contradiction|lia]).
  unfold Xoroshiro_SeedIV. replace (length iv =? 0)%nat with false by (symmetry; apply Nat.eqb_neq; lia).
  rewrite xoro_absorb_spec by (try lia; reflexivity). cbn [bind].
  replace (0 <? length (skipn (8 * (ceil8 (length iv) - 1)) iv))%nat with true
    by (symmetry; apply Nat.ltb_lt; rewrite skipn_length; unfold ceil8; lia).
  rewrite get64_padded. cbn [bind xo0 xo1]. rewrite last_word by exact Hl.
  assert (E : forall x, w64 x -> add64 0 x = x).
  { intros x Hx. rewrite add64_mod. now apply N.mod_small. }
  rewrite E by apply sum64_w. reflexivity.
Qed.
Lemma Xoroshiro_SeedIV_nil old : Xoroshiro_SeedIV old [] =
  Ret (mkXoro (sm_mix sm_gamma) (sm_mix (add64 sm_gamma sm_gamma))).
Proof. reflexivity. Qed.
Lemma Xoroshiro_SeedIV_history old old' iv : Xoroshiro_SeedIV old iv = Xoroshiro_SeedIV old' iv.
Proof.
  destruct iv as [|b iv]; [now rewrite !Xoroshiro_SeedIV_nil|].
  now rewrite !Xoroshiro_SeedIV_closed by discriminate.
Qed.
Lemma Xoroshiro_SeedIV_ok old iv : Forall isbyte iv -> exists s, Xoroshiro_SeedIV old iv = Ret s /\ xoro_typed s.
Proof.
  intros Hb. destruct iv as [|b iv].
  - rewrite Xoroshiro_SeedIV_nil. eexists; split; [reflexivity|]. split; cbn; apply sm_mix_w; [reflexivity|apply add64_w].
  - rewrite Xoroshiro_SeedIV_closed by discriminate. eexists; split; [reflexivity|].
    split; cbn [xo0 xo1]; apply sm_mix_w; apply add64_w.
Qed.

(** 8- and 16-byte ivs *)
Lemma iv_words_8 iv : length iv = 8%nat -> iv_words iv = [le_val iv].
Proof.
  intros L. rewrite iv_words_cons by lia. rewrite firstn_all2, skipn_all2 by lia. reflexivity.
Qed.
Lemma iv_words_16 iv : length iv = 16%nat -> iv_words iv = [iv_word iv 0; iv_word iv 1].
Proof. intros L. unfold iv_words. rewrite L. reflexivity. Qed.
Lemma Xoroshiro_Seed_closed old x : w64 x ->
  Xoroshiro_Seed old x =
    Ret (mkXoro (sm_mix (add64 (N.lxor sm_gamma x) sm_gamma)) (sm_mix sm_gamma)).
Proof.
  intros Hx. unfold Xoroshiro_Seed, seed_bytes.
  rewrite Xoroshiro_SeedIV_closed by (intros E; apply (f_equal (@length N)) in E; rewrite le_bytes_length in E; discriminate).
  unfold xoro_seed_a. rewrite iv_words_8 by apply le_bytes_length. rewrite le_val_bytes8 by exact Hx. reflexivity.
Qed.
Lemma Xoroshiro_SeedIV_16 old iv : length iv = 16%nat ->
  Xoroshiro_SeedIV old iv =
    let a := add64 (N.lxor sm_gamma (iv_word iv 0)) sm_gamma in
    Ret (mkXoro (sm_mix (add64 (N.lxor a (iv_word iv 1)) sm_gamma)) (sm_mix a)).
Proof.
  intros L. rewrite Xoroshiro_SeedIV_closed by (intros ->; discriminate).
  unfold xoro_seed_a. rewrite iv_words_16 by exact L.
  cbn [removelast map last]. rewrite sum64_cons, sum64_nil.
  assert (E : forall a g, add64 (add64 a 0) g = add64 a g).
  { intros a g. rewrite !add64_mod, N.add_0_r, N.add_mod_idemp_l by discriminate. reflexivity. }
  rewrite E. reflexivity.
Qed.

Lemma lxor_cancel_l a b c : N.lxor a b = N.lxor a c -> b = c.
Proof.
  intros E. apply (f_equal (N.lxor a)) in E. now rewrite <- !N.lxor_assoc, N.lxor_nilpotent, !N.lxor_0_l in E.
Qed.
Lemma gamma_w : w64 sm_gamma. Proof. reflexivity. Qed.
Lemma Xoroshiro_SeedIV_16_inj old old' iv iv' s : length iv = 16%nat -> length iv' = 16%nat ->
  Forall isbyte iv -> Forall isbyte iv' ->
  Xoroshiro_SeedIV old iv = Ret s -> Xoroshiro_SeedIV old' iv' = Ret s -> iv = iv'.
Proof.
  intros L L' B B' E E'. rewrite (Xoroshiro_SeedIV_16 old iv L) in E.
  rewrite (Xoroshiro_SeedIV_16 old' iv' L') in E'. rewrite <- E in E'. clear E s. cbv zeta in E'.
  set (a := add64 (N.lxor sm_gamma (iv_word iv 0)) sm_gamma) in *.
  set (a' := add64 (N.lxor sm_gamma (iv_word iv' 0)) sm_gamma) in *.
  assert (Wa : w64 a) by apply add64_w. assert (Wa' : w64 a') by apply add64_w.
  inversion E' as [[E0 E1]].
  apply sm_mix_inj in E1; [|assumption|assumption].
  apply sm_mix_inj in E0; [|apply add64_w|apply add64_w].
  rewrite E1 in E0. apply add64_inj_r in E0; [|apply lxor_w; auto using iv_word_w|apply lxor_w; auto using iv_word_w].
  apply lxor_cancel_l in E0. unfold a, a' in E1.
  apply add64_inj_r in E1; [|apply lxor_w; auto using iv_word_w, gamma_w|apply lxor_w; auto using iv_word_w, gamma_w].
  apply lxor_cancel_l in E1.
  apply (iv_words_inj 2); try assumption; try lia.
  rewrite (iv_words_16 iv L), (iv_words_16 iv' L'). congruence.
Qed.
Lemma Xoroshiro_SeedIV_16_onto old s : xoro_typed s -> exists iv, length iv = 16%nat /\ Forall isbyte iv /\
  Xoroshiro_SeedIV old iv = Ret s.
Proof.
  intros [H0 H1]. destruct s as [s0 s1]. cbn [xo0 xo1] in *.
  set (a := sm_unmix s1). set (w0 := N.lxor sm_gamma (sub64 a sm_gamma)).
  set (w1 := N.lxor a (sub64 (sm_unmix s0) sm_gamma)).
  assert (Wa : w64 a) by now apply sm_unmix_w.
  assert (W0 : w64 w0) by (apply lxor_w; [reflexivity|apply sub64_w]).
  assert (W1 : w64 w1) by (apply lxor_w; [assumption|apply sub64_w]).
  exists (stream_bytes [w0; w1]). assert (L : length (stream_bytes [w0; w1]) = 16%nat) by (rewrite stream_bytes_length; reflexivity).
  split; [exact L|]. split; [apply stream_bytes_isbyte|].
  rewrite Xoroshiro_SeedIV_16 by exact L. cbv zeta.
  assert (Hw : Forall w64 [w0; w1]) by auto.
  pose proof (stream_words [w0; w1] Hw) as E. rewrite iv_words_16 in E by exact L.
  pose proof (f_equal (hd 0) E) as E0. pose proof (f_equal (fun l => nth 1 l 0) E) as E1. cbn [hd nth] in E0, E1.
  rewrite E0, E1.
  assert (X : forall x y, N.lxor x (N.lxor x y) = y) by (intros; now rewrite <- N.lxor_assoc, N.lxor_nilpotent).
  unfold w0, w1. rewrite !X, (add64_sub64 a) by (assumption || reflexivity). rewrite X.
  rewrite add64_sub64 by (try apply sm_unmix_w; assumption || reflexivity).
  unfold a. rewrite !sm_mix_unmix by assumption. reflexivity.
Qed.
Lemma Xoroshiro_Seed_inj old old' x y s : w64 x -> w64 y ->
  Xoroshiro_Seed old x = Ret s -> Xoroshiro_Seed old' y = Ret s -> x = y.
Proof.
  intros Hx Hy E E'. rewrite Xoroshiro_Seed_closed in E, E' by assumption. rewrite <- E in E'.
  inversion E' as [[E0]]. apply sm_mix_inj in E0; [|apply add64_w|apply add64_w].
  apply add64_inj_r in E0; [|apply lxor_w; auto using gamma_w|apply lxor_w; auto using gamma_w].
  symmetry. now apply lxor_cancel_l in E0.
Qed.

(** ** Save, Restore *)
Definition xoro_bytes (s : xoro) : list N := stream_bytes [xo0 s; xo1 s].
Lemma Xoroshiro_Save_spec {W} (write : writer W) s w : Xoroshiro_Save write s w = write w (xoro_bytes s).
Proof. reflexivity. Qed.
Lemma get64_two a b : w64 a -> w64 b ->
  get64 (stream_bytes [a; b]) 0 = Ret a /\ get64 (stream_bytes [a; b]) 8 = Ret b.
Proof.
  intros Ha Hb. split.
  - apply (get64_at [] a (le_bytes 8 b ++ [])), Ha.
  - change 8%nat with (length (le_bytes 8 a)) at 1.
    change (stream_bytes [a; b]) with (le_bytes 8 a ++ le_bytes 8 b ++ []). apply get64_at, Hb.
Qed.
Lemma Xoroshiro_Restore_spec {W} (read : reader W) g w p n e w' :
  read w (zeros 16) = Ret ((p, n, e), w') ->
  Xoroshiro_Restore read g w =
    if (n <? 16)%nat then Ret ((n, e), g, w')
    else let! a := get64 p 0 in let! b := get64 p 8 in Ret ((n, None), mkXoro a b, w').
Proof. intros H. unfold Xoroshiro_Restore. rewrite H. reflexivity. Qed.
Lemma Xoroshiro_Restore_saved {W} (read : reader W) g w s n e w' : xoro_typed s -> (16 <= n)%nat ->
  read w (zeros 16) = Ret ((xoro_bytes s, n, e), w') ->
  Xoroshiro_Restore read g w = Ret ((n, None), s, w').
Proof.
  intros [H0 H1] Hn E. rewrite (Xoroshiro_Restore_spec _ _ _ _ _ _ _ E).
  replace (n <? 16)%nat with false by (symmetry; apply Nat.ltb_ge; lia).
  unfold xoro_bytes. destruct (get64_two _ _ H0 H1) as [-> ->]. cbn [bind]. now destruct s.
Qed.
Lemma Xoroshiro_Restore_ok {W} (read : reader W) g w p n e w' : xoro_typed g ->
  read w (zeros 16) = Ret ((p, n, e), w') -> length p = 16%nat -> Forall isbyte p ->
  exists g', Xoroshiro_Restore read g w = Ret ((n, if (n <? 16)%nat then e else None), g', w') /\ xoro_typed g'.
Proof.
  intros Hg E Hl Hb. rewrite (Xoroshiro_Restore_spec _ _ _ _ _ _ _ E).
  destruct (n <? 16)%nat; [eauto|].
  destruct (get64_ok p 0) as (a & -> & Wa); [lia|exact Hb|].
  destruct (get64_ok p 8) as (b & -> & Wb); [lia|exact Hb|]. cbn [bind].
  eexists; split; [reflexivity|]. split; assumption.
Qed.

(** ** every operation on a well-typed state returns and leaves a well-typed state *)
Lemma xoro_total s : xoro_typed s -> exists x s', Xoroshiro_Uint64 s = Ret (x, s') /\ xoro_typed s'.
Proof. intros H. rewrite xoro_pure. eauto using xstep_typed. Qed.
Lemma rex_total s : xoro_typed s -> exists x s', Rexoroshiro_Uint64 s = Ret (x, s') /\ xoro_typed s'.
Proof. intros H. unfold Rexoroshiro_Uint64. rewrite xoro_pure. cbn [bind]. eauto using xstep_typed. Qed.
Lemma rex_pure s : Rexoroshiro_Uint64 s = Ret (rev_bytes64 (xout s), xstep s).
Proof. unfold Rexoroshiro_Uint64. now rewrite xoro_pure. Qed.
Lemma xoro_exec_ok s o : xoro_typed s -> op_ok o ->
  exists b s', exec apiXoroshiro s o = Ret (b, s') /\ xoro_typed s'.
Proof.
  intros Hs Ho. destruct o as [iv|x| | |p| |r| |];
    cbn [exec a_SeedIV a_Seed a_Uint64 a_Int63 a_Read a_Save a_Restore a_Jump a_Reverse apiXoroshiro].
  - destruct (Xoroshiro_SeedIV_ok s iv Ho) as (s' & -> & H'). cbn [bind]. eauto.
  - unfold Xoroshiro_Seed. destruct (Xoroshiro_SeedIV_ok s (seed_bytes x) (le_bytes_isbyte 8 x)) as (s' & -> & H'). cbn [bind]. eauto.
  - rewrite xoro_pure. cbn [bind]. eauto using xstep_typed.
  - unfold Xoroshiro_Int63. rewrite xoro_pure. cbn [bind]. eauto using xstep_typed.
  - unfold Xoroshiro_Read. destruct (read_ge8_spec _ _ xoro_total p s Hs) as (xs & s' & _ & _ & H' & ->). cbn [bind]. eauto.
  - rewrite Xoroshiro_Save_spec. cbn [bind buffer_writer]. eauto.
  - cbn [op_ok] in Ho. pose proof (Ho _ (zeros_isbyte 16)) as Hr.
    destruct (r (zeros 16)) as [[p n] e] eqn:Er. cbn [fst] in Hr. rewrite zeros_length in Hr. destruct Hr as [Hl Hb].
    assert (Erd : fun_reader r tt (zeros 16) = Ret ((p, n, e), tt)) by (unfold fun_reader; now rewrite Er).
    destruct (Xoroshiro_Restore_ok _ s _ _ _ _ _ Hs Erd Hl Hb) as (g' & -> & H'). cbn [bind]. eauto.
  - eauto.
  - eauto.
Qed.
Lemma rex_exec_ok s o : xoro_typed s -> op_ok o ->
  exists b s', exec apiRexoroshiro s o = Ret (b, s') /\ xoro_typed s'.
Proof.
  intros Hs Ho. destruct o as [iv|x| | |p| |r| |];
    try (apply (xoro_exec_ok s _ Hs Ho));
    cbn [exec a_SeedIV a_Seed a_Uint64 a_Int63 a_Read a_Save a_Restore a_Jump a_Reverse apiRexoroshiro].
  - rewrite rex_pure. cbn [bind]. eauto using xstep_typed.
  - unfold Rexoroshiro_Int63. rewrite rex_pure. cbn [bind]. eauto using xstep_typed.
  - unfold Rexoroshiro_Read. destruct (read_gt8_spec _ _ rex_total p s Hs) as (xs & s' & _ & _ & H' & ->). cbn [bind]. eauto.
Qed.

(** generic: an invariant kept by all operations holds in all reachable states, and programs run *)
Lemma reach_inv {G} (a : api G) (I : G -> Prop) : I (a_new a) ->
  (forall g o, I g -> op_ok o -> exists b g', exec a g o = Ret (b, g') /\ I g') ->
  forall g, reach a g -> I g.
Proof.
  intros H0 HS g. induction 1 as [|g o b g' _ IH Ho E]; [exact H0|].
  destruct (HS g o IH Ho) as (b' & g1 & E' & H1). rewrite E in E'. inversion E'; subst. exact H1.
Qed.
Lemma exec_all_ok {G} (a : api G) (I : G -> Prop) :
  (forall g o, I g -> op_ok o -> exists b g', exec a g o = Ret (b, g') /\ I g') ->
  forall os g, I g -> Forall op_ok os -> exists bs g', exec_all a g os = Ret (bs, g') /\ I g' /\ length bs = length os.
Proof.
  intros HS os. induction os as [|o os IH]; intros g Hg Ho; cbn [exec_all]; [eauto|].
  inversion Ho as [|? ? H1 H2]; subst. destruct (HS g o Hg H1) as (b & g1 & -> & I1). cbn [bind].
  destruct (IH g1 I1 H2) as (bs & g' & -> & I' & L). cbn [bind]. exists (b :: bs), g'. cbn. auto.
Qed.
