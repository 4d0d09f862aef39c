(** Properties of all built-in generators: C01-C09, C48, C49. *)
From Coq Require Import Lia ZifyN ZifyNat ZifyBool.
From Verif Require Import Model.Base Model.GenRead Model.Rng Model.Lfg Model.Mt64 Model.Xoroshiro Model.Xoshiro
  Model.Api Spec.Common Spec.States Spec.Kinds.
From Verif Require Import Proofs.WordLemmas Proofs.ReadProofs Proofs.SaveProofs Proofs.PureGen
  Proofs.LfgProofs Proofs.LfgSave Proofs.XoroProofs Proofs.XoroSeed Proofs.XoshiProofs Proofs.XoshiSeed
  Proofs.MtProofs Proofs.MtSeed Proofs.KindProofs.
Ltac Zify.zify_post_hook ::= Z.div_mod_to_equations.
Local Open Scope nat_scope.

(** Every state is produced by some program: the hypotheses [reachable] below are not restrictive. *)
Theorem C00_xoroshiro_all_states_reachable s : xoro_typed s -> reachable gXoroshiro s /\ reachable gRexoroshiro s.
Proof. apply xoro_reachable. Qed.
Theorem C00_xoshiro_all_states_reachable s : xoshi_typed s -> reachable gXoshiro s.
Proof. apply xoshi_reachable. Qed.
Theorem C00_mt64_reachable_iff g : reachable gMT64 g <-> mt_typed g /\ (mi g < 65536)%N.
Proof. split; [apply (reachable_inv gMT64)|apply mt_reachable]. Qed.

(** ** C01: byte j of the buffer is byte (j mod 8) of Uint64 value number (j div 8) *)
Theorem C01_read_bytes k s p : reachable k s -> exists q s',
  a_Read (methods k) s p = Ret ((q, length p, None), s') /\ length q = length p /\
  forall xs t, runs (a_Uint64 (methods k)) s xs t -> forall j, j < length p -> j / 8 < length xs ->
    nth j q 0%N = byte_of (nth (j / 8) xs 0%N) (j mod 8).
Proof.
  intros H. apply reachable_inv in H. destruct (inv_read k s p H) as (ys & s' & Hr & L & _ & E).
  exists (firstn (length p) (stream_bytes ys)), s'. split; [exact E|].
  pose proof (read_calls_enough k (length p)) as B. rewrite <- L in B.
  split; [now apply firstn_stream_length|].
  intros xs t Hx j Hj Hj8. rewrite firstn_stream_nth by assumption.
  rewrite (runs_prefix _ 0%N s xs t ys s' Hx Hr (j / 8)) by lia. reflexivity.
Qed.
(** a stream of any length exists, so the quantifier over [xs] is not empty *)
Theorem C01_streams_exist k s n : reachable k s -> exists xs t, runs (a_Uint64 (methods k)) s xs t /\ length xs = n /\ Forall w64 xs.
Proof.
  intros H. apply reachable_inv in H. destruct (runs_total _ (inv k) (inv_total k) n s H) as (xs & t & R & L & _).
  exists xs, t. eauto using inv_runs_w.
Qed.
Example C01_nonvacuous : exists q s', a_Read (methods gXoroshiro) (mkXoro 1 2) (zeros 11) = Ret ((q, 11, None), s') /\
  q = [3;0;0;0;0;0;0;0; 3;192;0]%N /\ reachable gXoroshiro (mkXoro 1 2).
Proof. eexists _, _. split; [vm_compute; reflexivity|]. split; [reflexivity|]. apply C00_xoroshiro_all_states_reachable. split; reflexivity. Qed.

(** ** C02: Read advances the state by a definite number of Uint64 calls *)
Theorem C02_read_advance k s p q n e s' : reachable k s -> a_Read (methods k) s p = Ret ((q, n, e), s') ->
  exists xs, runs (a_Uint64 (methods k)) s xs s' /\ length xs = read_calls k (length p).
Proof.
  intros H E. apply reachable_inv in H. destruct (inv_read k s p H) as (ys & s1 & Hr & L & _ & E1).
  rewrite E in E1. inversion E1; subst. eauto.
Qed.
Example C02_nonvacuous : map (read_calls gMT64) [0; 1; 8; 9; 16] = [1; 1; 1; 2; 2] /\
  map (read_calls gXoroshiro) [0; 1; 8; 9; 16] = [1; 1; 2; 2; 3].
Proof. split; reflexivity. Qed.

(** ** C03: splitting a read at a multiple of 8 bytes *)
Theorem C03_read_split k s p1 p2 a : is_gXoroshiro k = false -> reachable k s ->
  length p1 = 8 * a -> 1 <= a -> 1 <= length p2 ->
  exists q1 q2 s1 s2,
    a_Read (methods k) s p1 = Ret ((q1, length p1, None), s1) /\
    a_Read (methods k) s1 p2 = Ret ((q2, length p2, None), s2) /\
    a_Read (methods k) s (p1 ++ p2) = Ret ((q1 ++ q2, length (p1 ++ p2), None), s2).
Proof.
  intros Hk H L1 Ha L2. apply reachable_inv in H. destruct k; try discriminate Hk.
  - exact (read_gt8_split LFG_Uint64 lfg_ok (inv_total gLFG) p1 p2 s a H L1 Ha L2).
  - exact (read_gt8_split MT64_Uint64 mt_ok (inv_total gMT64) p1 p2 s a H L1 Ha L2).
  - exact (read_gt8_split Rexoroshiro_Uint64 xoro_typed (inv_total gRexoroshiro) p1 p2 s a H L1 Ha L2).
  - exact (read_gt8_split Xoshiro_Uint64 xoshi_typed (inv_total gXoshiro) p1 p2 s a H L1 Ha L2).
Qed.
Theorem C03_xoroshiro_split_differs : exists s q1 q2 q s1 s2 s3, reachable gXoroshiro s /\
  Xoroshiro_Read s (zeros 8) = Ret ((q1, 8, None), s1) /\
  Xoroshiro_Read s1 (zeros 8) = Ret ((q2, 8, None), s2) /\
  Xoroshiro_Read s (zeros 16) = Ret ((q, 16, None), s3) /\
  q1 ++ q2 <> q /\ s2 <> s3.
Proof.
  exists (mkXoro 1 2). do 6 eexists. split; [apply C00_xoroshiro_all_states_reachable; split; reflexivity|].
  split; [vm_compute; reflexivity|]. split; [vm_compute; reflexivity|]. split; [vm_compute; reflexivity|].
  split; discriminate.
Qed.

(** ** C04: RNG{g}.Uint64 against g.Uint64 *)
Lemma rng_gt8_step_all k s : is_gXoroshiro k = false -> inv k s ->
  RNG_Uint64 (a_Read (methods k)) s = a_Uint64 (methods k) s.
Proof.
  intros Hk H. destruct (inv_u64 k s H) as (x & s' & E & H' & Wx). rewrite E. destruct k; try discriminate Hk.
  - exact (rng_uint64_gt8 LFG_Uint64 lfg_ok (inv_total gLFG) s x s' H E Wx).
  - exact (rng_uint64_gt8 MT64_Uint64 mt_ok (inv_total gMT64) s x s' H E Wx).
  - exact (rng_uint64_gt8 Rexoroshiro_Uint64 xoro_typed (inv_total gRexoroshiro) s x s' H E Wx).
  - exact (rng_uint64_gt8 Xoshiro_Uint64 xoshi_typed (inv_total gXoshiro) s x s' H E Wx).
Qed.
Theorem C04_rng_follows_generator k s xs s' : is_gXoroshiro k = false -> reachable k s ->
  (runs (RNG_Uint64 (a_Read (methods k))) s xs s' <-> runs (a_Uint64 (methods k)) s xs s').
Proof.
  intros Hk H. apply reachable_inv in H. split; intros R; revert H;
    induction R as [|s x s1 xs s' Hx _ IH]; intros H; try constructor.
  - rewrite rng_gt8_step_all in Hx by assumption. apply runs_cons with s1; [exact Hx|]. apply IH.
    destruct (inv_total k s H) as (y & s2 & E & H2). rewrite Hx in E. inversion E; subst. exact H2.
  - apply runs_cons with s1; [now rewrite rng_gt8_step_all|]. apply IH.
    destruct (inv_total k s H) as (y & s2 & E & H2). rewrite Hx in E. inversion E; subst. exact H2.
Qed.
Theorem C04_xoroshiro_skips s ys s' : xoro_typed s ->
  runs (RNG_Uint64 Xoroshiro_Read) s ys s' ->
  exists xs, runs Xoroshiro_Uint64 s xs s' /\ length xs = 2 * length ys /\
    forall i, i < length ys -> nth i ys 0%N = nth (2 * i) xs 0%N.
Proof.
  intros H R. induction R as [s|s y s1 ys s' Hy _ IH].
  - exists []. split; [constructor|]. split; [reflexivity|]. intros i Hi. cbn in Hi. lia.
  - assert (E : RNG_Uint64 Xoroshiro_Read s = Ret (xout s, xstep (xstep s))).
    { apply (rng_uint64_ge8 Xoroshiro_Uint64 xoro_typed (inv_total gXoroshiro) s _ (xstep s) (xout (xstep s))).
      all: rewrite ?xoro_pure; auto using xout_w. }
    rewrite Hy in E. injection E as -> ->.
    destruct IH as (xs & R & L & N); [now apply xstep_typed, xstep_typed|].
    exists (xout s :: xout (xstep s) :: xs). split.
    + apply runs_cons with (xstep s); [apply xoro_pure|]. apply runs_cons with (xstep (xstep s)); [apply xoro_pure|exact R].
    + split; [cbn [length]; lia|]. intros [|i] Hi; [reflexivity|]. cbn [length] in Hi.
      replace (2 * S i) with (S (S (2 * i))) by lia. cbn [nth]. apply N. lia.
Qed.
Example C04_nonvacuous : exists y z s', runs (RNG_Uint64 Xoroshiro_Read) (mkXoro 1 2) [y; z] s' /\ y = 3%N /\ y <> z.
Proof.
  do 3 eexists. split.
  - eapply runs_cons; [vm_compute; reflexivity|]. eapply runs_cons; [vm_compute; reflexivity|]. apply runs_nil.
  - split; [reflexivity|discriminate].
Qed.

(** ** C05: seeding erases history; [s1] and [s2] are any two values of the struct, also zero values
    that no constructor made *)
Theorem C05_seeding_erases_history k s1 s2 : any_value k s1 -> any_value k s2 ->
  (forall iv, Forall isbyte iv -> exists t, a_SeedIV (methods k) s1 iv = Ret t /\ a_SeedIV (methods k) s2 iv = Ret t) /\
  (forall x, w64 x -> exists t, a_Seed (methods k) s1 x = Ret t /\ a_Seed (methods k) s2 x = Ret t).
Proof.
  intros H1 H2.
  assert (A : forall iv, Forall isbyte iv -> exists t, a_SeedIV (methods k) s1 iv = Ret t /\ a_SeedIV (methods k) s2 iv = Ret t).
  { intros iv B. destruct k; cbn [any_value methods a_SeedIV apiLFG apiMT64 apiXoroshiro apiRexoroshiro apiXoshiro] in *.
    - destruct H1 as [L1 _], H2 as [L2 _]. destruct (LFG_SeedIV_ok s1 iv L1) as (t & E & _). exists t.
      now rewrite <- (LFG_SeedIV_history s1 s2 iv L1 L2).
    - destruct H1 as [L1 _], H2 as [L2 _]. destruct (MT64_SeedIV_ok s1 iv L1) as (t & E & _). eexists.
      rewrite <- (MT64_SeedIV_history s1 s2 iv L1 L2). eauto.
    - destruct (Xoroshiro_SeedIV_ok s1 iv B) as (t & E & _). exists t. now rewrite (Xoroshiro_SeedIV_history s2 s1).
    - destruct (Xoroshiro_SeedIV_ok s1 iv B) as (t & E & _). exists t. unfold Rexoroshiro_SeedIV. now rewrite (Xoroshiro_SeedIV_history s2 s1).
    - rewrite !Xoshiro_SeedIV_closed. eauto. }
  split; [exact A|]. intros x Hx. destruct k; try (apply (A (seed_bytes x)), le_bytes_isbyte).
  cbn [any_value methods a_Seed apiMT64] in *. destruct H1 as [L1 _], H2 as [L2 _]. rewrite !MT64_Seed_closed by assumption. eauto.
Qed.
Example C05_nonvacuous : any_value gLFG LFG_zero /\ any_value gXoshiro (mkXoshi 1 2 3 4).
Proof.
  split; [split; [reflexivity|apply Forall_forall; intros x Hx; apply repeat_spec in Hx; subst; reflexivity]|].
  repeat split; reflexivity.
Qed.

(** ** C06: Save then Restore *)
Theorem C06_save_restore k s : reachable k s -> exists bytes,
  length bytes = saved_size k /\
  (* Save writes exactly these bytes, in one Write, whatever the writer *)
  (forall W (write : writer W) w, a_Save (methods k) write s w = write w bytes) /\
  (* any reader that delivers them makes any object of the type behave like s from then on *)
  (forall W (read : reader W) w w' h, reachable k h ->
     read w (zeros (saved_size k)) = Ret ((bytes, saved_size k, None), w') ->
     exists s', a_Restore (methods k) read h w = Ret ((saved_size k, None), s', w') /\
       forall os, Forall op_ok os -> exists bs t t',
         exec_all (methods k) s os = Ret (bs, t) /\ exec_all (methods k) s' os = Ret (bs, t')).
Proof.
  intros H. apply reachable_inv in H. exists (saved k s). split; [now apply saved_length|]. split.
  - intros W write w. now apply save_spec.
  - intros W read w w' h Hh E. apply reachable_inv in Hh.
    destruct (restore_saved k read s h w w' H Hh E) as (s' & E' & S'). exists s'. split; [exact E'|].
    intros os Ho. destruct (same_exec_all k os s s' S' Ho) as (bs & t & t' & A & B & _). eauto.
Qed.
Example C06_sizes : map saved_size [gXoroshiro; gRexoroshiro; gXoshiro] = [16; 16; 32] /\
  N.of_nat (saved_size gLFG) = 4856%N /\ N.of_nat (saved_size gMT64) = 2498%N.
Proof. split; [reflexivity|]. split; reflexivity. Qed.
Example C06_nonvacuous : reachable gXoshiro (mkXoshi 1 2 3 4) /\
  Forall op_ok [OpUint64; OpRead (zeros 5); OpSave; OpSeedIV [1; 2]%N].
Proof. split; [apply C00_xoshiro_all_states_reachable; repeat split; reflexivity|]. repeat constructor. Qed.

(** ** C07: short reads during Restore *)
Theorem C07_short_read_untouched k {W} (read : reader W) s w p n e w' : is_gMT64 k = false ->
  read w (zeros (saved_size k)) = Ret ((p, n, e), w') -> n < saved_size k ->
  a_Restore (methods k) read s w = Ret ((n, e), s, w').
Proof.
  intros Hk E Hn. destruct k; try discriminate Hk;
    cbn [saved_size methods a_Restore apiLFG apiXoroshiro apiRexoroshiro apiXoshiro] in *.
  - rewrite (LFG_Restore_spec _ _ _ _ _ _ _ E). replace (n <? lfgK * 8) with true by (symmetry; apply Nat.ltb_lt, Hn). reflexivity.
  - rewrite (Xoroshiro_Restore_spec _ _ _ _ _ _ _ E). replace (n <? 16) with true by (symmetry; apply Nat.ltb_lt, Hn). reflexivity.
  - unfold Rexoroshiro_Restore. rewrite (Xoroshiro_Restore_spec _ _ _ _ _ _ _ E). replace (n <? 16) with true by (symmetry; apply Nat.ltb_lt, Hn). reflexivity.
  - rewrite (Xoshiro_Restore_spec _ _ _ _ _ _ _ E). replace (n <? 32) with true by (symmetry; apply Nat.ltb_lt, Hn). reflexivity.
Qed.
(** MT64.Restore installs whatever is in the buffer, however few bytes were delivered *)
Theorem C07_mt64_ignores_count {W} (read : reader W) g w p n w' : reachable gMT64 g ->
  read w (zeros (saved_size gMT64)) = Ret ((p, n, None), w') -> length p = saved_size gMT64 -> Forall isbyte p ->
  exists g', MT64_Restore read g w = Ret ((n, None), g', w') /\
    forall i, i < 312 -> nth i (ms g') 0%N = iv_word p i.
Proof.
  intros Hg E L B. unfold MT64_Restore. change (2 + mt64N * 8) with (saved_size gMT64). rewrite E. cbn [bind].
  change (saved_size gMT64) with (312 * 8 + 2) in L.
  assert (G : forall m i, 8 * (i + m) <= length p -> exists vs, get_words p i m = Ret vs /\ length vs = m /\
    forall j, j < m -> nth j vs 0%N = iv_word p (i + j)).
  { induction m as [|m IH]; intros i Hm; cbn [get_words]; [exists []; repeat split; intros; lia|].
    unfold get64. replace (8 * i + 8 <=? length p) with true by (symmetry; apply Nat.leb_le; lia). cbn [bind].
    destruct (IH (S i)) as (vs & -> & L1 & H1); [lia|]. cbn [bind]. eexists. split; [reflexivity|]. split; [cbn; lia|].
    intros [|j] Hj; cbn [nth]; [unfold iv_word; now rewrite Nat.add_0_r|]. rewrite H1 by lia. f_equal. lia. }
  destruct (G 312 0) as (vs & Ev & Lv & Hv); [lia|]. change mt64N with 312. rewrite Ev. cbn [bind].
  rewrite (aget_nth p (length p - 2) 0%N), (aget_nth p (length p - 1) 0%N) by lia. cbn [bind].
  eexists. split; [reflexivity|]. intros i Hi. cbn [ms]. now rewrite Hv.
Qed.
(** a reader that delivers nothing and reports no error kills any MT64: from then on every value is 0 *)
Theorem C07_mt64_short_read_corrupts : exists r : list N -> list N * nat * option goerr,
  (forall p, r p = (p, 0, None)) /\
  forall g, reachable gMT64 g -> exists g', MT64_Restore (fun_reader r) g tt = Ret ((0, None), g', tt) /\
    forall xs g'', runs MT64_Uint64 g' xs g'' -> Forall (eq 0%N) xs.
Proof.
  exists (fun p => (p, 0, None)). split; [reflexivity|]. intros g Hg.
  assert (E : MT64_Restore (fun_reader (fun p => (p, 0, None))) g tt = Ret ((0, None), mkMT 0 (zeros 312), tt)) by (vm_compute; reflexivity).
  exists (mkMT 0 (zeros 312)). split; [exact E|]. intros xs g'' R.
  assert (T : mt_typed (mkMT 0 (zeros 312))).
  { split; [reflexivity|]. apply Forall_forall. intros x Hx. apply repeat_spec in Hx. now subst. }
  destruct (mt_typed_seq _ T) as (u & Ru & Wu & Eu).
  destruct (mt_at_runs u Ru Wu _ _ _ _ (mt_typed_at u _ T Eu) R) as [_ H].
  assert (Z : zwin u 0). { intros j Hj. cbn [Nat.add]. rewrite Eu by exact Hj. cbn [ms]. apply nth_repeat. }
  apply Forall_forall. intros x Hx. apply In_nth with (d := 0%N) in Hx. destruct Hx as (k & Hk & <-).
  rewrite H by exact Hk. cbn [mi]. change (Nat.min (N.to_nat 0) 312 + k) with k. rewrite (zwin_zero u Ru Wu 0 k Z) by lia. reflexivity.
Qed.

(** ** C08: all bytes delivered together with an error *)
Theorem C08_full_read_with_error k {W} (read : reader W) s w p n e w' : is_gMT64 k = false -> reachable k s ->
  read w (zeros (saved_size k)) = Ret ((p, n, e), w') -> saved_size k <= n -> length p = saved_size k -> Forall isbyte p ->
  exists s', a_Restore (methods k) read s w = Ret ((n, None), s', w') /\
    (* the same state as when the error is nil *)
    a_Restore (methods k) (fun w (_ : list N) => Ret ((p, n, None), w)) s w = Ret ((n, None), s', w).
Proof.
  intros Hk Hs E Hn L B. apply reachable_inv in Hs.
  set (read2 := fun w (_ : list N) => Ret ((p, n, None), w) : outcome ((list N * nat * option goerr) * W)).
  assert (E2 : read2 w (zeros (saved_size k)) = Ret ((p, n, None), w)) by reflexivity.
  destruct k; try discriminate Hk;
    cbn [saved_size methods a_Restore apiLFG apiXoroshiro apiRexoroshiro apiXoshiro inv] in *.
  - change (607 * 8) with (lfgK * 8) in *.
    rewrite (LFG_Restore_spec _ _ _ _ _ _ _ E), (LFG_Restore_spec _ _ _ _ _ _ _ E2).
    replace (n <? lfgK * 8) with false by (symmetry; apply Nat.ltb_ge, Hn).
    destruct (get_words_ok 607 0 p) as (vs & -> & _); [unfold lfgK in L; lia|exact B|]. cbn [bind]. eauto.
  - rewrite (Xoroshiro_Restore_spec _ _ _ _ _ _ _ E), (Xoroshiro_Restore_spec _ _ _ _ _ _ _ E2).
    replace (n <? 16) with false by (symmetry; apply Nat.ltb_ge, Hn).
    destruct (get64_ok p 0) as (a & -> & _); [lia|exact B|].
    destruct (get64_ok p 8) as (b & -> & _); [lia|exact B|]. cbn [bind]. eauto.
  - unfold Rexoroshiro_Restore.
    rewrite (Xoroshiro_Restore_spec _ _ _ _ _ _ _ E), (Xoroshiro_Restore_spec _ _ _ _ _ _ _ E2).
    replace (n <? 16) with false by (symmetry; apply Nat.ltb_ge, Hn).
    destruct (get64_ok p 0) as (a & -> & _); [lia|exact B|].
    destruct (get64_ok p 8) as (b & -> & _); [lia|exact B|]. cbn [bind]. eauto.
  - rewrite (Xoshiro_Restore_spec _ _ _ _ _ _ _ E), (Xoshiro_Restore_spec _ _ _ _ _ _ _ E2).
    replace (n <? 32) with false by (symmetry; apply Nat.ltb_ge, Hn).
    destruct (get64_ok p 0) as (a & -> & _); [lia|exact B|].
    destruct (get64_ok p 8) as (b & -> & _); [lia|exact B|].
    destruct (get64_ok p 16) as (c & -> & _); [lia|exact B|].
    destruct (get64_ok p 24) as (d & -> & _); [lia|exact B|]. cbn [bind]. eauto.
Qed.
Theorem C08_mt64_fails_on_full_read_with_error {W} (read : reader W) g w p n e w' :
  read w (zeros (saved_size gMT64)) = Ret ((p, n, Some e), w') ->
  MT64_Restore read g w = Ret ((n, Some e), g, w').
Proof. intros E. unfold MT64_Restore. change (2 + mt64N * 8) with (saved_size gMT64). now rewrite E. Qed.
Example C08_nonvacuous : exists s', a_Restore (methods gXoroshiro)
   (fun_reader (fun _ => (stream_bytes [7; 9]%N, 16, Some EOF))) (mkXoro 1 2) tt = Ret ((16, None), s', tt) /\ s' = mkXoro 7 9.
Proof. eexists. split; vm_compute; reflexivity. Qed.

(** ** C09: copies are independent *)
Lemma hexec_project {G} (a : api G) os : forall h bs h', hexec_all a h os = Ret (bs, h') ->
  forall n g, nth_error h n = Some g -> exists g',
    exec_all a g (calls_on n os) = Ret (results_on n os bs, g') /\ nth_error h' n = Some g'.
Proof.
  induction os as [|o os IH]; intros h bs h' E n g Hn.
  - cbn [hexec_all] in E. inversion E; subst. cbn. eauto.
  - cbn [hexec_all] in E. destruct (hexec a h o) as [[b h1]| |] eqn:E1; cbn [bind] in E; try discriminate.
    destruct (hexec_all a h1 os) as [[bs1 h2]| |] eqn:E2; cbn [bind] in E; try discriminate.
    inversion E; subst; clear E. specialize (IH _ _ _ E2).
    destruct o as [m o|m]; cbn [hexec] in E1; cbn [calls_on results_on].
    + unfold aget in E1. destruct (nth_error h m) as [gm|] eqn:Em; cbn [bind] in E1; [|discriminate].
      destruct (exec a gm o) as [[b1 g1]| |] eqn:Eo; cbn [bind] in E1; try discriminate.
      assert (Hm : m < length h) by (apply nth_error_Some; congruence).
      rewrite aset_ok in E1 by exact Hm. cbn [bind] in E1. inversion E1; subst; clear E1.
      assert (Hn' : n < length h) by (apply nth_error_Some; congruence).
      destruct (Nat.eqb_spec m n) as [->|Hne].
      * assert (g = gm) by congruence. subst gm. destruct (IH n g1) as (g' & A & B).
        { rewrite (nth_error_nth' _ g1) by (rewrite lupd_length; lia). rewrite nth_lupd by lia. now rewrite Nat.eqb_refl. }
        exists g'. split; [|exact B]. cbn [exec_all]. rewrite Eo. cbn [bind]. rewrite A. reflexivity.
      * apply IH. rewrite (nth_error_nth' _ g) by (rewrite lupd_length; lia). rewrite nth_lupd by lia.
        replace (n =? m) with false by (symmetry; apply Nat.eqb_neq; congruence).
        now rewrite (nth_error_nth h n g Hn).
    + unfold aget in E1. destruct (nth_error h m) as [gm|] eqn:Em; cbn [bind] in E1; [|discriminate].
      inversion E1; subst; clear E1. apply IH. rewrite nth_error_app1 by (apply nth_error_Some; congruence). exact Hn.
Qed.
Theorem C09_objects_are_independent k h os : Forall (reachable k) h -> addresses_ok (length h) os ->
  exists bs h', hexec_all (methods k) h os = Ret (bs, h') /\
    forall n g, nth_error h n = Some g -> exists g',
      exec_all (methods k) g (calls_on n os) = Ret (results_on n os bs, g') /\ nth_error h' n = Some g'.
Proof.
  intros Hh Ha.
  assert (X : exists bs h', hexec_all (methods k) h os = Ret (bs, h')).
  { assert (Hi : Forall (inv k) h) by (eapply Forall_impl; [apply reachable_inv|exact Hh]). clear Hh.
    revert h Hi Ha. induction os as [|o os IH]; intros h Hi Ha; cbn [hexec_all]; [eauto|].
    destruct o as [m o|m]; cbn [addresses_ok hexec] in *.
    - destruct Ha as (Hm & Ho & Ha). rewrite (aget_nth h m (a_new (methods k))) by exact Hm. cbn [bind].
      assert (Im : inv k (nth m h (a_new (methods k)))) by (rewrite Forall_forall in Hi; apply Hi, nth_In, Hm).
      destruct (inv_exec k _ o Im Ho) as (b & g' & -> & I'). cbn [bind]. rewrite aset_ok by exact Hm. cbn [bind].
      destruct (IH (lupd h m g')) as (bs & h' & ->); [now apply Forall_lupd|now rewrite lupd_length|]. cbn [bind]. eauto.
    - destruct Ha as (Hm & Ha). rewrite (aget_nth h m (a_new (methods k))) by exact Hm. cbn [bind].
      destruct (IH (h ++ [nth m h (a_new (methods k))])) as (bs & h' & ->).
      + apply Forall_app. split; [exact Hi|]. constructor; [|constructor]. rewrite Forall_forall in Hi. apply Hi, nth_In, Hm.
      + rewrite app_length. cbn [length]. now rewrite Nat.add_1_r.
      + cbn [bind]. eauto. }
  destruct X as (bs & h' & E). exists bs, h'. split; [exact E|]. now apply hexec_project.
Qed.
(** the copy: a new object in the same state; then, whatever is done to original and copy in whatever
    interleaving, each gives exactly the results it would give alone *)
Theorem C09_copy_then_interleave k h m g os : Forall (reachable k) h -> nth_error h m = Some g ->
  addresses_ok (S (length h)) os ->
  exists b bs h' g1 g2, hexec_all (methods k) h (HCopy m :: os) = Ret (b :: bs, h') /\
    exec_all (methods k) g (calls_on m os) = Ret (results_on m os bs, g1) /\
    exec_all (methods k) g (calls_on (length h) os) = Ret (results_on (length h) os bs, g2).
Proof.
  intros Hh Hm Ha. assert (Lm : m < length h) by (apply nth_error_Some; congruence).
  assert (Hg : reachable k g) by (rewrite Forall_forall in Hh; apply Hh; eapply nth_error_In; eauto).
  destruct (C09_objects_are_independent k (h ++ [g]) os) as (bs & h' & E & P).
  { apply Forall_app. auto. }
  { rewrite app_length. cbn [length]. now rewrite Nat.add_1_r. }
  destruct (P m g) as (g1 & A1 & _); [now rewrite nth_error_app1|].
  destruct (P (length h) g) as (g2 & A2 & _); [rewrite nth_error_app2 by lia; now rewrite Nat.sub_diag|].
  exists ObsNone, bs, h', g1, g2. split; [|split; assumption].
  cbn [hexec_all hexec]. unfold aget. rewrite Hm. cbn [bind]. rewrite E. reflexivity.
Qed.
Example C09_nonvacuous : addresses_ok 1 [HCopy 0; HCall 1 OpUint64; HCall 0 (OpRead (zeros 9)); HCall 1 OpSave].
Proof. cbn. repeat split; try lia; repeat constructor. Qed.

(** ** C48: Rexoroshiro *)
Theorem C48_rexoroshiro_bytes_reversed s x s' : xoro_typed s -> Xoroshiro_Uint64 s = Ret (x, s') ->
  exists y, Rexoroshiro_Uint64 s = Ret (y, s') /\ w64 y /\
    forall i, i < 8 -> byte_of y i = byte_of x (7 - i).
Proof.
  intros H E. exists (rev_bytes64 x). unfold Rexoroshiro_Uint64. rewrite E. cbn [bind].
  split; [reflexivity|]. split; [apply rev_bytes64_w|]. intros i Hi. unfold byte_of.
  rewrite <- (le_bytes_nth 8) by exact Hi. rewrite <- (le_bytes_nth 8 x (7 - i)) by lia.
  unfold rev_bytes64. change 8 with (length (rev (le_bytes 8 x))) at 1.
  rewrite le_bytes_val by (apply Forall_rev, le_bytes_isbyte). rewrite rev_nth by (rewrite le_bytes_length; lia).
  rewrite le_bytes_length. reflexivity.
Qed.
Theorem C48_rexoroshiro_same_state s : 
  (forall iv, Rexoroshiro_SeedIV s iv = Xoroshiro_SeedIV s iv) /\ (forall x, Rexoroshiro_Seed s x = Xoroshiro_Seed s x) /\
  (forall W (wr : writer W) w, Rexoroshiro_Save wr s w = Xoroshiro_Save wr s w) /\
  (forall W (rd : reader W) w, Rexoroshiro_Restore rd s w = Xoroshiro_Restore rd s w).
Proof. repeat split; reflexivity. Qed.
Example C48_nonvacuous : exists s', Xoroshiro_Uint64 (mkXoro 1 2) = Ret (3%N, s') /\
  Rexoroshiro_Uint64 (mkXoro 1 2) = Ret (0x0300000000000000%N, s').
Proof. eexists. split; vm_compute; reflexivity. Qed.

(** ** C49: Int63 *)
Theorem C49_int63 k f s x s' : a_Int63 (methods k) = Some f -> reachable k s -> f s = Ret (x, s') ->
  (x < 2 ^ 63)%N /\ exists u, a_Uint64 (methods k) s = Ret (u, s') /\ w64 u /\
    x = match k with gRexoroshiro => (u mod 2 ^ 63)%N | _ => (u / 2)%N end.
Proof.
  intros Hf H E. apply reachable_inv in H. destruct (inv_u64 k s H) as (u & s1 & Eu & _ & Wu). rewrite Eu.
  assert (D : (u / 2 < 2 ^ 63)%N) by (unfold w64 in Wu; lia).
  assert (M : (u mod 2 ^ 63 < 2 ^ 63)%N) by (apply N.mod_lt; discriminate).
  assert (Sh : shr64 u 1 = (u / 2)%N) by (unfold shr64; now rewrite N.shiftr_div_pow2).
  destruct k; cbn [methods a_Int63 a_Uint64 apiLFG apiMT64 apiXoroshiro apiRexoroshiro apiXoshiro] in *;
    try discriminate Hf; injection Hf as <-.
  - unfold LFG_Int63 in E. rewrite Eu in E. cbn [bind] in E. assert (x = (u / 2)%N /\ s' = s1) as [-> ->] by (rewrite Sh in E; split; congruence). eauto.
  - unfold MT64_Int63 in E. rewrite Eu in E. cbn [bind] in E. assert (x = (u / 2)%N /\ s' = s1) as [-> ->] by (rewrite Sh in E; split; congruence). eauto.
  - unfold Xoroshiro_Int63 in E. rewrite Eu in E. cbn [bind] in E. assert (x = (u / 2)%N /\ s' = s1) as [-> ->] by (rewrite Sh in E; split; congruence). eauto.
  - unfold Rexoroshiro_Int63 in E. rewrite Eu in E. cbn [bind] in E. injection E as E1 <-.
    assert (x = (u mod 2 ^ 63)%N) as ->. { rewrite <- E1. change 0x7fffffffffffffff%N with (N.ones 63). apply N.land_ones. }
    eauto.
Qed.
Theorem C49_int63_total k f s : a_Int63 (methods k) = Some f -> reachable k s -> exists x s', f s = Ret (x, s').
Proof.
  intros Hf H. apply reachable_inv in H. destruct (inv_u64 k s H) as (u & s1 & Eu & _ & Wu).
  destruct k; cbn [methods a_Int63 a_Uint64 apiLFG apiMT64 apiXoroshiro apiRexoroshiro apiXoshiro] in *;
    try discriminate Hf; injection Hf as <-.
  - unfold LFG_Int63. rewrite Eu. cbn [bind]. eauto.
  - unfold MT64_Int63. rewrite Eu. cbn [bind]. eauto.
  - unfold Xoroshiro_Int63. rewrite Eu. cbn [bind]. eauto.
  - unfold Rexoroshiro_Int63. rewrite Eu. cbn [bind]. eauto.
Qed.
Example C49_nonvacuous : exists s', Rexoroshiro_Int63 (mkXoro 128 0) = Ret (0%N, s') /\
  Xoroshiro_Int63 (mkXoro 128 0) = Ret (64%N, s') /\ a_Int63 (methods gXoshiro) = None.
Proof. eexists. split; [|split]; vm_compute; reflexivity. Qed.

Print Assumptions C01_read_bytes.
Print Assumptions C02_read_advance.
Print Assumptions C03_read_split.
Print Assumptions C03_xoroshiro_split_differs.
Print Assumptions C04_rng_follows_generator.
Print Assumptions C04_xoroshiro_skips.
Print Assumptions C05_seeding_erases_history.
Print Assumptions C06_save_restore.
Print Assumptions C07_short_read_untouched.
Print Assumptions C07_mt64_ignores_count.
Print Assumptions C07_mt64_short_read_corrupts.
Print Assumptions C08_full_read_with_error.
Print Assumptions C08_mt64_fails_on_full_read_with_error.
Print Assumptions C09_objects_are_independent.
Print Assumptions C09_copy_then_interleave.
Print Assumptions C48_rexoroshiro_bytes_reversed.
Print Assumptions C48_rexoroshiro_same_state.
Print Assumptions C49_int63.
Print Assumptions C49_int63_total.
