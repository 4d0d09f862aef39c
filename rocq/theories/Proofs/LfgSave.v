(** LFG: Save, Restore, reachable states, equivalence of rotated buffers. *)
From Coq Require Import Lia ZifyN ZifyNat ZifyBool.
From Verif Require Import Proofs.WordLemmas Proofs.ReadProofs Proofs.SaveProofs Proofs.LfgProofs
  Model.GenRead Model.Lfg Model.Api Spec.States.
Ltac Zify.zify_post_hook ::= Z.div_mod_to_equations.

Definition rot (g : lfg) : list N := skipn (lt g) (ls g) ++ firstn (lt g) (ls g).

Lemma rot_length g : lfg_ok g -> length (rot g) = 607.
Proof.
  intros (Hl & Ht & _). unfold rot. rewrite app_length, skipn_length, firstn_length. lia.
Qed.
Lemma nth_skipn {A} n (l : list A) i d : nth i (skipn n l) d = nth (n + i) l d.
Proof.
  revert l; induction n as [|n IH]; intros [|a l]; cbn [skipn Nat.add nth]; auto. destruct i; reflexivity.
Qed.
Lemma nth_firstn {A} n (l : list A) i d : i < n -> nth i (firstn n l) d = nth i l d.
Proof.
  revert l i; induction n as [|n IH]; intros l i H; [lia|]. destruct l as [|a l], i as [|i]; cbn; auto.
  apply IH; lia.
Qed.
Lemma rot_nth g i : lfg_ok g -> i < 607 -> nth i (rot g) 0%N = rv g i.
Proof.
  intros (Hl & Ht & _) Hi. unfold rot, rv.
  destruct (Nat.lt_ge_cases i (607 - lt g)) as [H|H].
  - rewrite app_nth1 by (rewrite skipn_length; lia). rewrite nth_skipn. f_equal. lia.
  - rewrite app_nth2 by (rewrite skipn_length; lia). rewrite skipn_length, nth_firstn by lia. f_equal. lia.
Qed.
Lemma rot_w64 g : lfg_ok g -> Forall w64 (rot g).
Proof.
  intros (_ & _ & _ & Hw). unfold rot. apply Forall_app.
  rewrite Forall_forall in Hw. split; apply Forall_forall; intros x Hx; apply Hw.
  - rewrite <- (firstn_skipn (lt g) (ls g)). apply in_or_app. right. exact Hx.
  - rewrite <- (firstn_skipn (lt g) (ls g)). apply in_or_app. left. exact Hx.
Qed.

Lemma LFG_Save_spec {W} (write : writer W) g w : lfg_ok g ->
  LFG_Save write g w = write w (stream_bytes (rot g)).
Proof.
  intros (Hl & Ht & _). unfold LFG_Save, slice_from, slice_to. rewrite Hl.
  replace (lt g <=? 607) with true by (symmetry; apply Nat.leb_le; lia). cbn [bind].
  set (hd := skipn (lt g) (ls g)). set (tl := firstn (lt g) (ls g)).
  assert (Lh : length hd = 607 - lt g) by (unfold hd; rewrite skipn_length; lia).
  assert (Lt : length tl = lt g) by (unfold tl; rewrite firstn_length; lia).
  replace (lfgK * 8) with (8 * length hd + 8 * length tl) by (change lfgK with 607; lia).
  rewrite zeros_app.
  pose proof (put_words_spec hd [] 0 (zeros (8 * length hd)) (zeros (8 * length tl))) as E1.
  cbn [app] in E1. rewrite E1 by (try apply zeros_length; reflexivity). cbn [bind].
  pose proof (put_words_spec tl (stream_bytes hd) (lfgK - lt g) (zeros (8 * length tl)) []) as E2.
  rewrite app_nil_r in E2. rewrite E2.
  - cbn [bind]. rewrite app_nil_r, <- stream_bytes_app. reflexivity.
  - rewrite stream_bytes_length. change lfgK with 607. lia.
  - apply zeros_length.
Qed.

(** the state after restoring p *)
Lemma LFG_Restore_spec {W} (read : reader W) g w p n e w' :
  read w (zeros (lfgK * 8)) = Ret ((p, n, e), w') ->
  LFG_Restore read g w =
    if n <? (lfgK * 8) then Ret ((n, e), g, w')
    else let! s := get_words p 0 607 in Ret ((n, None), mkLFG 334 0 s, w').
Proof. intros H. unfold LFG_Restore. rewrite H. reflexivity. Qed.

Definition lfg_sim (g h : lfg) : Prop :=
  lfg_ok g /\ lfg_ok h /\ forall i, i < 607 -> rv g i = rv h i.

Lemma lfg_sim_refl g : lfg_ok g -> lfg_sim g g.
Proof. intros H. repeat split; auto; apply H. Qed.
Lemma lfg_sim_rot g h : lfg_sim g h -> rot g = rot h.
Proof.
  intros (Hg & Hh & H). apply (list_eq_nth 0%N); rewrite !rot_length by assumption; [reflexivity|].
  intros i Hi. rewrite !rot_nth by assumption. apply H, Hi.
Qed.
Lemma lfg_sim_step g h : lfg_sim g h -> exists x g' h',
  LFG_Uint64 g = Ret (x, g') /\ LFG_Uint64 h = Ret (x, h') /\ lfg_sim g' h'.
Proof.
  intros (Hg & Hh & H).
  destruct (lfg_step g Hg) as (g' & E1 & O1 & _ & R1). destruct (lfg_step h Hh) as (h' & E2 & O2 & _ & R2).
  rewrite (H 334), (H 0) in * by lia.
  exists (add64 (rv h 334) (rv h 0)), g', h'. repeat split; auto; try apply O1; try apply O2.
  intros i Hi. rewrite R1, R2 by exact Hi. destruct (i =? 334); [reflexivity|]. apply H. lia.
Qed.

Lemma LFG_Restore_ok {W} (read : reader W) g w p n e w' : lfg_ok g ->
  read w (zeros (lfgK * 8)) = Ret ((p, n, e), w') -> length p = (lfgK * 8) -> Forall isbyte p ->
  exists g', LFG_Restore read g w = Ret ((n, if n <? (lfgK * 8) then e else None), g', w') /\ lfg_ok g'.
Proof.
  intros Hg E Hl Hb. rewrite (LFG_Restore_spec _ _ _ _ _ _ _ E).
  destruct (n <? (lfgK * 8)); [exists g; auto|].
  destruct (get_words_ok 607 0 p) as (vs & Ev & Lv & Wv); [rewrite Hl; change lfgK with 607; lia|exact Hb|].
  rewrite Ev. cbn [bind]. eexists; split; [reflexivity|]. apply lfg_fresh_ok; assumption.
Qed.

(** every operation keeps similar states similar, with equal observations *)
Lemma lfg_sim_exec g h o : lfg_sim g h -> op_ok o -> exists b g' h',
  exec apiLFG g o = Ret (b, g') /\ exec apiLFG h o = Ret (b, h') /\ lfg_sim g' h'.
Proof.
  intros HR Ho. pose proof HR as (Hg & Hh & Hrv).
  destruct o as [iv|x| | |p| |r| |]; cbn [exec a_SeedIV a_Seed a_Uint64 a_Int63 a_Read a_Save a_Restore a_Jump a_Reverse apiLFG].
  - destruct (LFG_SeedIV_ok g iv) as (g' & E & O); [apply Hg|].
    rewrite (LFG_SeedIV_history h g iv), E by (apply Hg || apply Hh). cbn [bind].
    eauto 10 using lfg_sim_refl.
  - unfold LFG_Seed. destruct (LFG_SeedIV_ok g (Xoroshiro.seed_bytes x)) as (g' & E & O); [apply Hg|].
    rewrite (LFG_SeedIV_history h g _), E by (apply Hg || apply Hh). cbn [bind].
    eauto 10 using lfg_sim_refl.
  - destruct (lfg_sim_step g h HR) as (x & g' & h' & E1 & E2 & H'). rewrite E1, E2. cbn [bind]. eauto 10.
  - unfold LFG_Int63. destruct (lfg_sim_step g h HR) as (x & g' & h' & E1 & E2 & H').
    rewrite E1, E2. cbn [bind]. eauto 10.
  - unfold LFG_Read. destruct (sim_read_gt8 _ _ _ lfg_sim_step g h p HR) as (q & g' & h' & E1 & E2 & H').
    rewrite E1, E2. cbn [bind]. eauto 10.
  - rewrite !LFG_Save_spec by assumption. rewrite (lfg_sim_rot g h HR). cbn [bind buffer_writer]. eauto 10.
  - cbn [op_ok] in Ho. pose proof (Ho _ (zeros_isbyte (lfgK * 8))) as Hr.
    destruct (r (zeros (lfgK * 8))) as [[p n] e] eqn:Er. cbn [fst] in Hr. rewrite zeros_length in Hr.
    destruct Hr as [Hl Hb].
    assert (Erd : fun_reader r tt (zeros (lfgK * 8)) = Ret ((p, n, e), tt)) by (unfold fun_reader; now rewrite Er).
    rewrite (LFG_Restore_spec _ g _ _ _ _ _ Erd), (LFG_Restore_spec _ h _ _ _ _ _ Erd).
    destruct (n <? (lfgK * 8)); [cbn [bind]; eauto 10|].
    destruct (get_words_ok 607 0 p) as (vs & Ev & Lv & Wv); [rewrite Hl; change lfgK with 607; lia|exact Hb|].
    rewrite Ev. cbn [bind]. eauto 10 using lfg_sim_refl, lfg_fresh_ok.
  - eauto 10.
  - eauto 10.
Qed.

Lemma lfg_sim_exec_all os : forall g h, lfg_sim g h -> Forall op_ok os -> exists bs g' h',
  exec_all apiLFG g os = Ret (bs, g') /\ exec_all apiLFG h os = Ret (bs, h') /\ lfg_sim g' h'.
Proof.
  induction os as [|o os IH]; intros g h HR Ho; cbn [exec_all].
  - eauto 10.
  - inversion Ho as [|? ? Ho1 Ho2]; subst. destruct (lfg_sim_exec g h o HR) as (b & g1 & h1 & E1 & E2 & H1); [assumption|].
    rewrite E1, E2. cbn [bind]. destruct (IH g1 h1 H1) as (bs & g' & h' & E1' & E2' & H'); [assumption|].
    rewrite E1', E2'. cbn [bind]. eauto 10.
Qed.

Lemma lfg_new_ok : lfg_ok NewLFG.
Proof.
  apply lfg_fresh_ok; [apply zeros_length|]. unfold zeros. apply Forall_forall.
  intros x Hx. apply repeat_spec in Hx. subst. reflexivity.
Qed.
Lemma lfg_reach_ok g : reach apiLFG g -> lfg_ok g.
Proof.
  induction 1 as [|g o b g' _ IH Ho E]; [apply lfg_new_ok|].
  destruct (lfg_sim_exec g g o (lfg_sim_refl g IH) Ho) as (b' & g1 & h1 & E1 & E2 & H').
  rewrite E in E1. inversion E1; subst. apply H'.
Qed.

(** Save then Restore *)
Lemma lfg_save_restore_sim g h : lfg_ok g -> lfg_ok h ->
  LFG_Restore (fun_reader (fun _ => (stream_bytes (rot g), (lfgK * 8), None))) h tt
    = Ret (((lfgK * 8), None), mkLFG 334 0 (rot g), tt) /\ lfg_sim g (mkLFG 334 0 (rot g)).
Proof.
  intros Hg Hh. split.
  - erewrite LFG_Restore_spec by reflexivity. rewrite Nat.ltb_irrefl.
    pose proof (get_words_spec0 (rot g) [] (rot_w64 g Hg)) as E.
    rewrite app_nil_r, rot_length in E by exact Hg. rewrite E. reflexivity.
  - split; [exact Hg|]. split; [apply lfg_fresh_ok; auto using rot_length, rot_w64|].
    intros i Hi. rewrite <- rot_nth by assumption. unfold rv; cbn [lt ls].
    now rewrite Nat.add_0_l, Nat.mod_small.
Qed.
