(** Facts common to the five generators. *)
From Coq Require Import Lia ZifyN ZifyNat ZifyBool.
From Verif Require Import Proofs.WordLemmas Proofs.ReadProofs Proofs.SaveProofs Proofs.PureGen
  Proofs.LfgProofs Proofs.LfgSave Proofs.XoroProofs Proofs.XoroSeed Proofs.XoshiProofs Proofs.XoshiSeed
  Proofs.MtProofs Proofs.MtSeed
  Model.GenRead Model.Lfg Model.Mt64 Model.Xoroshiro Model.Xoshiro Model.Api Model.Rng
  Spec.States Spec.Kinds.
Ltac Zify.zify_post_hook ::= Z.div_mod_to_equations.
Local Open Scope nat_scope.

Definition inv (k : gen) : state k -> Prop :=
  match k with gLFG => lfg_ok | gMT64 => mt_ok | gXoroshiro | gRexoroshiro => xoro_typed | gXoshiro => xoshi_typed end.
Lemma inv_new k : inv k (a_new (methods k)).
Proof.
  destruct k; cbn [inv methods a_new apiLFG apiMT64 apiXoroshiro apiRexoroshiro apiXoshiro].
  - apply lfg_new_ok.
  - apply mt_new_ok.
  - split; reflexivity.
  - split; reflexivity.
  - repeat split; reflexivity.
Qed.
Lemma inv_exec k s o : inv k s -> op_ok o -> exists b s', exec (methods k) s o = Ret (b, s') /\ inv k s'.
Proof.
  destruct k; cbn [inv methods].
  - intros H Ho. destruct (lfg_sim_exec s s o (lfg_sim_refl s H) Ho) as (b & g' & h' & E & _ & (O & _)). eauto.
  - apply mt_exec_ok.
  - apply xoro_exec_ok.
  - apply rex_exec_ok.
  - apply xoshi_exec_ok.
Qed.
Lemma reachable_inv k s : reachable k s -> inv k s.
Proof. apply (reach_inv (methods k) (inv k) (inv_new k) (inv_exec k)). Qed.
Lemma inv_value k s : inv k s -> any_value k s.
Proof.
  destruct k; cbn [inv any_value]; auto.
  - intros (L & _ & _ & W). split; assumption.
  - intros [H _]. exact H.
Qed.

Lemma mt_u64_w g x g' : mt_typed g -> MT64_Uint64 g = Ret (x, g') -> w64 x.
Proof.
  intros Hg E. destruct (mt_typed_seq g Hg) as (u & R & W & E0).
  destruct (mt_at_step u R W _ g (mt_typed_at u g Hg E0)) as (g2 & Eg & _). rewrite E in Eg. inversion Eg; subst.
  apply mt_temper_w, W.
Qed.
Lemma inv_u64 k s : inv k s -> exists x s', a_Uint64 (methods k) s = Ret (x, s') /\ inv k s' /\ w64 x.
Proof.
  destruct k; cbn [inv methods a_Uint64 apiLFG apiMT64 apiXoroshiro apiRexoroshiro apiXoshiro]; intros H.
  - destruct (lfg_total s H) as (x & s' & E & H'). exists x, s'. split; [exact E|]. split; [exact H'|]. exact (lfg_u64_w s x s' H E).
  - destruct (mt_step_ok s H) as (x & s' & E & H'). destruct H as [H _]. exists x, s'. split; [exact E|]. split; [exact H'|]. exact (mt_u64_w s x s' H E).
  - rewrite xoro_pure. eexists _, _. split; [reflexivity|]. split; [now apply xstep_typed|apply xout_w].
  - rewrite rex_pure. eexists _, _. split; [reflexivity|]. split; [now apply xstep_typed|apply rev_bytes64_w].
  - rewrite xoshi_pure. eexists _, _. split; [reflexivity|]. split; [now apply hstep_typed|apply hout_w].
Qed.
Lemma inv_total k s : inv k s -> exists x s', a_Uint64 (methods k) s = Ret (x, s') /\ inv k s'.
Proof. intros H. destruct (inv_u64 k s H) as (x & s' & E & H' & _). eauto. Qed.
Lemma inv_read k s p : inv k s -> exists xs s', runs (a_Uint64 (methods k)) s xs s' /\
  length xs = read_calls k (length p) /\ inv k s' /\
  a_Read (methods k) s p = Ret ((firstn (length p) (stream_bytes xs), length p, None), s').
Proof.
  intros H. destruct k; cbn [inv methods a_Uint64 a_Read apiLFG apiMT64 apiXoroshiro apiRexoroshiro apiXoshiro read_calls] in *.
  - exact (read_gt8_spec LFG_Uint64 lfg_ok (inv_total gLFG) p s H).
  - exact (read_gt8_spec MT64_Uint64 mt_ok (inv_total gMT64) p s H).
  - exact (read_ge8_spec Xoroshiro_Uint64 xoro_typed (inv_total gXoroshiro) p s H).
  - exact (read_gt8_spec Rexoroshiro_Uint64 xoro_typed (inv_total gRexoroshiro) p s H).
  - exact (read_gt8_spec Xoshiro_Uint64 xoshi_typed (inv_total gXoshiro) p s H).
Qed.
Lemma read_calls_enough k len : len <= 8 * read_calls k len.
Proof. destruct k; cbn [read_calls]; unfold ceil8; lia. Qed.
Lemma inv_runs_w k s xs s' : inv k s -> runs (a_Uint64 (methods k)) s xs s' -> Forall w64 xs.
Proof.
  intros H Hr. induction Hr as [|s x s1 xs s' Hx _ IH]; [constructor|].
  destruct (inv_u64 k s H) as (x' & s1' & E & H1 & Wx). rewrite Hx in E. inversion E; subst. auto.
Qed.

(** two streams of one generator agree on common positions *)
Lemma runs_prefix {S A} (u : S -> outcome (A * S)) d s xs s1 ys s2 : runs u s xs s1 -> runs u s ys s2 ->
  forall k, k < length xs -> k < length ys -> nth k xs d = nth k ys d.
Proof.
  intros Hx. revert ys s2. induction Hx as [|s x s1 xs s' Hx _ IH]; intros ys s2 Hy k Hk1 Hk2; [cbn in Hk1; lia|].
  destruct Hy as [|s y s3 ys s2 Hy Hr]; [cbn in Hk2; lia|]. rewrite Hx in Hy. inversion Hy; subst.
  destruct k as [|k]; [reflexivity|]. cbn [nth length] in *. apply (IH _ _ Hr); lia.
Qed.

(** ** which values are reachable *)
Lemma xoro_reachable s : xoro_typed s -> reachable gXoroshiro s /\ reachable gRexoroshiro s.
Proof.
  intros H. destruct (Xoroshiro_SeedIV_16_onto NewXoroshiro s H) as (iv & _ & B & E). split.
  - eapply (reach_step (methods gXoroshiro) _ (OpSeedIV iv)); [apply reach_new|exact B|].
    cbn [methods exec a_SeedIV apiXoroshiro a_new]. rewrite E. reflexivity.
  - eapply (reach_step (methods gRexoroshiro) _ (OpSeedIV iv)); [apply reach_new|exact B|].
    cbn [methods exec a_SeedIV apiRexoroshiro a_new]. unfold Rexoroshiro_SeedIV, NewRexoroshiro. rewrite E. reflexivity.
Qed.
Lemma xoshi_reachable s : xoshi_typed s -> reachable gXoshiro s.
Proof.
  intros H. destruct (xoshiro_seeded_32_onto s H) as (iv & _ & B & E).
  eapply (reach_step (methods gXoshiro) _ (OpSeedIV iv)); [apply reach_new|exact B|].
  cbn [methods exec a_SeedIV apiXoshiro a_new]. rewrite Xoshiro_SeedIV_closed, E. reflexivity.
Qed.
Lemma mt_reachable g : mt_ok g -> reachable gMT64 g.
Proof.
  intros H. assert (Lb : length (mt_bytes g) = 2 + mt64N * 8).
  { unfold mt_bytes. destruct H as [[L _] _]. rewrite app_length, stream_312 by exact L. reflexivity. }
  eapply (reach_step (methods gMT64) _
    (OpRestore (fun p => if (length p =? length (mt_bytes g))%nat then (mt_bytes g, length (mt_bytes g), None) else (p, 0, None)))).
  - apply reach_new.
  - cbn [op_ok]. intros p Hp. destruct (Nat.eqb_spec (length p) (length (mt_bytes g))) as [E|E]; cbn [fst]; [|auto].
    split; [congruence|]. unfold mt_bytes. apply Forall_app. split; [apply stream_bytes_isbyte|].
    repeat constructor; unfold isbyte; rewrite land255; apply N.mod_lt; discriminate.
  - cbn [methods exec a_Restore apiMT64].
    erewrite MT64_Restore_saved; [reflexivity|exact H|].
    unfold fun_reader. rewrite zeros_length, Lb, Nat.eqb_refl. reflexivity.
Qed.

(** ** save and restore *)
Definition saved (k : gen) : state k -> list N :=
  match k with
  | gLFG => fun g => stream_bytes (rot g) | gMT64 => mt_bytes
  | gXoroshiro | gRexoroshiro => xoro_bytes | gXoshiro => xoshi_bytes
  end.
Lemma saved_length k s : inv k s -> length (saved k s) = saved_size k.
Proof.
  destruct k; cbn [inv saved saved_size]; intros H.
  - rewrite stream_bytes_length, rot_length by exact H. lia.
  - unfold mt_bytes. destruct H as [[L _] _]. rewrite app_length, stream_312 by exact L. reflexivity.
  - reflexivity.
  - reflexivity.
  - reflexivity.
Qed.
Lemma save_spec k {W} (write : writer W) s w : inv k s -> a_Save (methods k) write s w = write w (saved k s).
Proof.
  destruct k; cbn [inv saved methods a_Save apiLFG apiMT64 apiXoroshiro apiRexoroshiro apiXoshiro]; intros H.
  - now apply LFG_Save_spec.
  - apply MT64_Save_spec, H.
  - reflexivity.
  - reflexivity.
  - reflexivity.
Qed.
(** behavioural equality of two states *)
Definition same (k : gen) : state k -> state k -> Prop :=
  match k with gLFG => lfg_sim | _ => fun s t => s = t /\ inv _ s end.
Lemma same_exec k s t o : same k s t -> op_ok o -> exists b s' t',
  exec (methods k) s o = Ret (b, s') /\ exec (methods k) t o = Ret (b, t') /\ same k s' t'.
Proof.
  destruct k; cbn [same]; try (intros [<- H] Ho; destruct (inv_exec _ s o H Ho) as (b & s' & E & H'); eauto 8).
  apply lfg_sim_exec.
Qed.
Lemma same_exec_all k os : forall s t, same k s t -> Forall op_ok os -> exists bs s' t',
  exec_all (methods k) s os = Ret (bs, s') /\ exec_all (methods k) t os = Ret (bs, t') /\ same k s' t'.
Proof.
  induction os as [|o os IH]; intros s t H Ho; cbn [exec_all]; [eauto 8|].
  inversion Ho as [|? ? H1 H2]; subst. destruct (same_exec k s t o H H1) as (b & s1 & t1 & -> & -> & S1). cbn [bind].
  destruct (IH s1 t1 S1 H2) as (bs & s' & t' & -> & -> & S2). cbn [bind]. eauto 8.
Qed.
Lemma restore_saved k {W} (read : reader W) s h w w' : inv k s -> inv k h ->
  read w (zeros (saved_size k)) = Ret ((saved k s, saved_size k, None), w') ->
  exists s', a_Restore (methods k) read h w = Ret ((saved_size k, None), s', w') /\ same k s s'.
Proof.
  destruct k; cbn [inv saved saved_size same methods a_Restore apiLFG apiMT64 apiXoroshiro apiRexoroshiro apiXoshiro]; intros Hs Hh E.
  - destruct (lfg_save_restore_sim s h Hs Hh) as [E1 S1]. exists (mkLFG 334 0 (rot s)). split; [|exact S1].
    rewrite (LFG_Restore_spec _ h _ _ _ _ _ E).
    replace (607 * 8 <? lfgK * 8) with false by reflexivity.
    rewrite <- (app_nil_r (stream_bytes (rot s))).
    pose proof (get_words_spec0 (rot s) [] (rot_w64 s Hs)) as G. rewrite rot_length in G by exact Hs. rewrite G. reflexivity.
  - exists s. split; [|auto]. apply MT64_Restore_saved; assumption.
  - exists s. split; [|auto]. apply (Xoroshiro_Restore_saved _ _ _ _ _ None); auto.
  - exists s. split; [|auto]. apply (Xoroshiro_Restore_saved _ _ _ _ _ None); auto.
  - exists s. split; [|auto]. apply (Xoshiro_Restore_saved _ _ _ _ _ None); auto.
Qed.
