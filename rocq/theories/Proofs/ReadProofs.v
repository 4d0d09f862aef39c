(** The Read loops against the word stream. *)
From Coq Require Import Lia ZifyN ZifyNat ZifyBool.
From Verif Require Import Proofs.WordLemmas Model.GenRead Model.Rng.

Ltac Zify.zify_post_hook ::= Z.div_mod_to_equations.

Section Runs.
  Context {S A : Type}.
  Variable u64 : S -> outcome (A * S).
  Lemma runs_det s xs s1 : runs u64 s xs s1 -> forall ys s2, runs u64 s ys s2 ->
    length xs = length ys -> xs = ys /\ s1 = s2.
  Proof.
    induction 1 as [s|s x s1 xs s' Hx _ IH]; intros ys s2 Hy Hl.
    - destruct Hy; [auto|discriminate].
    - destruct Hy as [|s y s1' ys s2 Hy Hr]; [discriminate|].
      rewrite Hx in Hy. inversion Hy; subst.
      destruct (IH _ _ Hr) as [-> ->]; [cbn in Hl; lia|]. auto.
  Qed.
  Lemma runs_app s xs s1 ys s2 : runs u64 s xs s1 -> runs u64 s1 ys s2 -> runs u64 s (xs ++ ys) s2.
  Proof. induction 1; cbn; intros; [auto|]. econstructor; eauto. Qed.
  Lemma runs_split s xs ys s2 : runs u64 s (xs ++ ys) s2 ->
    exists s1, runs u64 s xs s1 /\ runs u64 s1 ys s2.
  Proof.
    revert s; induction xs as [|x xs IH]; cbn; intros s H.
    - exists s. split; [constructor|exact H].
    - inversion H as [|? ? sm ? ? Hx Hr]; subst. destruct (IH _ Hr) as (s1 & H1 & H2).
      exists s1. split; [econstructor; eauto|exact H2].
  Qed.
End Runs.

(** the bytes of a list of words *)
Definition stream_bytes (xs : list N) : list N := flat_map (le_bytes 8) xs.
Lemma stream_bytes_length xs : length (stream_bytes xs) = 8 * length xs.
Proof.
  induction xs as [|x xs IH]; cbn [stream_bytes flat_map]; [reflexivity|].
  unfold stream_bytes in IH. rewrite app_length, le_bytes_length, IH. cbn [length]. lia.
Qed.
Lemma stream_bytes_nth xs k : k < 8 * length xs ->
  nth k (stream_bytes xs) 0%N = byte_of (nth (k / 8) xs 0%N) (k mod 8).
Proof.
  revert k; induction xs as [|x xs IH]; intros k Hk; [cbn in Hk; lia|].
  cbn [stream_bytes flat_map]. fold (stream_bytes xs).
  destruct (Nat.lt_ge_cases k 8) as [Hl|Hge].
  - rewrite app_nth1 by (rewrite le_bytes_length; exact Hl).
    rewrite le_bytes_nth by exact Hl. unfold byte_of.
    rewrite Nat.div_small, Nat.mod_small by exact Hl. reflexivity.
  - rewrite app_nth2 by (rewrite le_bytes_length; exact Hge).
    rewrite le_bytes_length, IH by (cbn [length] in Hk; lia).
    assert (E : (k / 8 = Datatypes.S ((k - 8) / 8))%nat) by lia.
    assert (E' : ((k - 8) mod 8 = k mod 8)%nat) by lia.
    rewrite E, E'. reflexivity.
Qed.
Lemma stream_bytes_isbyte xs : Forall isbyte (stream_bytes xs).
Proof.
  induction xs as [|x xs IH]; [constructor|].
  change (stream_bytes (x :: xs)) with (le_bytes 8 x ++ stream_bytes xs).
  apply Forall_app. split; [apply le_bytes_isbyte|exact IH].
Qed.
Lemma stream_bytes_app xs ys : stream_bytes (xs ++ ys) = stream_bytes xs ++ stream_bytes ys.
Proof. apply flat_map_app. Qed.

Lemma go_copy_le {A} (p b : list A) : length p <= length b -> go_copy p b = firstn (length p) b.
Proof.
  intros H. unfold go_copy. rewrite (skipn_all2 p) by exact H. apply app_nil_r.
Qed.

Section Read.
  Context {St : Type}.
  Variable u64 : St -> outcome (N * St).
  Variable I : St -> Prop.
  Hypothesis total : forall s, I s -> exists x s', u64 s = Ret (x, s') /\ I s'.

  Lemma runs_total n s : I s -> exists xs s', runs u64 s xs s' /\ length xs = n /\ I s'.
  Proof.
    revert s; induction n as [|n IH]; intros s Hs.
    - exists [], s. repeat constructor. exact Hs.
    - destruct (total s Hs) as (x & s1 & Hx & H1).
      destruct (IH s1 H1) as (xs & s' & Hr & Hl & H').
      exists (x :: xs), s'. repeat split; [econstructor; eauto|cbn; lia|exact H'].
  Qed.
  Lemma runs_inv s xs s' : runs u64 s xs s' -> I s -> I s'.
  Proof.
    induction 1 as [|s x s1 xs s' Hx _ IH]; intros Hs; [exact Hs|].
    apply IH. destruct (total s Hs) as (x' & s1' & Hx' & H1). rewrite Hx in Hx'.
    inversion Hx'; subst. exact H1.
  Qed.

  Definition need_gt (len : nat) : nat := Nat.max 1 (ceil8 len).
  Definition need_ge (len : nat) : nat := len / 8 + 1.

  Lemma read_gt8_loop_spec fuel p s : length p < fuel -> I s ->
    exists xs s', runs u64 s xs s' /\ length xs = need_gt (length p) /\ I s' /\
      read_gt8_loop u64 fuel p s = Ret (firstn (length p) (stream_bytes xs), s').
  Proof.
    revert p s; induction fuel as [|fuel IH]; intros p s Hf Hs; [lia|].
    cbn [read_gt8_loop]. destruct (total s Hs) as (x & s1 & Hx & H1). rewrite Hx. cbn [bind].
    destruct (Nat.ltb_spec 8 (length p)) as [Hlen|Hlen].
    - destruct (IH (skipn 8 p) s1) as (xs & s' & Hr & Hl & HI & He);
        [rewrite skipn_length; lia|exact H1|].
      exists (x :: xs), s'. repeat split.
      + econstructor; eauto.
      + cbn [length]. rewrite Hl, skipn_length. unfold need_gt, ceil8. lia.
      + exact HI.
      + rewrite He. cbn [bind]. rewrite skipn_length. do 2 f_equal.
        change (stream_bytes (x :: xs)) with (le_bytes 8 x ++ stream_bytes xs).
        rewrite firstn_app, le_bytes_length.
        rewrite (firstn_all2 (le_bytes 8 x)) by (rewrite le_bytes_length; lia). reflexivity.
    - exists [x], s1. repeat split.
      + repeat econstructor. exact Hx.
      + cbn [length]. unfold need_gt, ceil8. lia.
      + exact H1.
      + change (stream_bytes [x]) with (le_bytes 8 x ++ []). rewrite app_nil_r.
        rewrite go_copy_le by (rewrite le_bytes_length; lia). reflexivity.
  Qed.

  Lemma read_gt8_spec p s : I s ->
    exists xs s', runs u64 s xs s' /\ length xs = need_gt (length p) /\ I s' /\
      read_gt8 u64 s p = Ret ((firstn (length p) (stream_bytes xs), length p, None), s').
  Proof.
    intros Hs. destruct (read_gt8_loop_spec (Datatypes.S (length p)) p s) as (xs & s' & Hr & Hl & HI & He);
      [lia|exact Hs|].
    exists xs, s'. repeat split; auto. unfold read_gt8. now rewrite He.
  Qed.

  Lemma read_ge8_loop_spec fuel p s : length p < fuel -> I s ->
    exists xs s', runs u64 s xs s' /\ length xs = need_ge (length p) /\ I s' /\
      read_ge8_loop u64 fuel p s = Ret (firstn (length p) (stream_bytes xs), s').
  Proof.
    revert p s; induction fuel as [|fuel IH]; intros p s Hf Hs; [lia|].
    cbn [read_ge8_loop]. destruct (total s Hs) as (x & s1 & Hx & H1). rewrite Hx. cbn [bind].
    destruct (Nat.leb_spec 8 (length p)) as [Hlen|Hlen].
    - destruct (IH (skipn 8 p) s1) as (xs & s' & Hr & Hl & HI & He);
        [rewrite skipn_length; lia|exact H1|].
      exists (x :: xs), s'. repeat split.
      + econstructor; eauto.
      + cbn [length]. rewrite Hl, skipn_length. unfold need_ge. lia.
      + exact HI.
      + rewrite He. cbn [bind]. rewrite skipn_length. do 2 f_equal.
        change (stream_bytes (x :: xs)) with (le_bytes 8 x ++ stream_bytes xs).
        rewrite firstn_app, le_bytes_length.
        rewrite (firstn_all2 (le_bytes 8 x)) by (rewrite le_bytes_length; lia). reflexivity.
    - exists [x], s1. repeat split.
      + repeat econstructor. exact Hx.
      + cbn [length]. unfold need_ge. lia.
      + exact H1.
      + change (stream_bytes [x]) with (le_bytes 8 x ++ []). rewrite app_nil_r.
        rewrite go_copy_le by (rewrite le_bytes_length; lia). reflexivity.
  Qed.

  Lemma read_ge8_spec p s : I s ->
    exists xs s', runs u64 s xs s' /\ length xs = need_ge (length p) /\ I s' /\
      read_ge8 u64 s p = Ret ((firstn (length p) (stream_bytes xs), length p, None), s').
  Proof.
    intros Hs. destruct (read_ge8_loop_spec (Datatypes.S (length p)) p s) as (xs & s' & Hr & Hl & HI & He);
      [lia|exact Hs|].
    exists xs, s'. repeat split; auto. unfold read_ge8. now rewrite He.
  Qed.

  (** bytes as in the statement of C01 *)
  Lemma firstn_stream_nth len xs k : len <= 8 * length xs -> k < len ->
    nth k (firstn len (stream_bytes xs)) 0%N = byte_of (nth (k / 8) xs 0%N) (k mod 8).
  Proof.
    intros Hl Hk. rewrite <- stream_bytes_nth by lia.
    rewrite <- (firstn_skipn len (stream_bytes xs)) at 2.
    rewrite app_nth1; [reflexivity|]. rewrite firstn_length, stream_bytes_length. lia.
  Qed.
  Lemma firstn_stream_length len xs : len <= 8 * length xs ->
    length (firstn len (stream_bytes xs)) = len.
  Proof. intros H. rewrite firstn_length, stream_bytes_length. lia. Qed.

  Lemma need_gt_enough len : len <= 8 * need_gt len.
  Proof. unfold need_gt, ceil8. lia. Qed.
  Lemma need_ge_enough len : len <= 8 * need_ge len.
  Proof. unfold need_ge. lia. Qed.

  (** C03: 8a bytes then b bytes is 8a+b bytes *)
  Lemma read_gt8_split p1 p2 s a : I s -> length p1 = 8 * a -> 1 <= a -> 1 <= length p2 ->
    exists q1 q2 s1 s2,
      read_gt8 u64 s p1 = Ret ((q1, length p1, None), s1) /\
      read_gt8 u64 s1 p2 = Ret ((q2, length p2, None), s2) /\
      read_gt8 u64 s (p1 ++ p2) = Ret ((q1 ++ q2, length (p1 ++ p2), None), s2).
  Proof.
    intros Hs Hp1 Ha Hb.
    destruct (read_gt8_spec p1 s Hs) as (xs & s1 & Hr1 & Hl1 & HI1 & He1).
    destruct (read_gt8_spec p2 s1 HI1) as (ys & s2 & Hr2 & Hl2 & HI2 & He2).
    destruct (read_gt8_spec (p1 ++ p2) s Hs) as (zs & s3 & Hr3 & Hl3 & HI3 & He3).
    exists (firstn (length p1) (stream_bytes xs)), (firstn (length p2) (stream_bytes ys)), s1, s2.
    split; [exact He1|]. split; [exact He2|].
    assert (Hz : zs = xs ++ ys /\ s3 = s2).
    { apply (runs_det u64 s zs s3 Hr3 (xs ++ ys) s2); [eapply runs_app; eauto|].
      rewrite app_length, Hl1, Hl2, Hl3, app_length, Hp1. unfold need_gt, ceil8. lia. }
    destruct Hz as [-> ->]. rewrite He3. do 4 f_equal.
    rewrite stream_bytes_app, app_length, firstn_app.
    assert (Hlx : length (stream_bytes xs) = length p1).
    { rewrite stream_bytes_length, Hl1, Hp1. unfold need_gt, ceil8. lia. }
    rewrite !firstn_all2 with (l := stream_bytes xs) by lia. do 2 f_equal. lia.
  Qed.

  (** C04: RNG.Uint64 reads 8 bytes *)
  Lemma rng_uint64_gt8 s x s1 : I s -> u64 s = Ret (x, s1) -> w64 x ->
    RNG_Uint64 (read_gt8 u64) s = Ret (x, s1).
  Proof.
    intros Hs Hx Hw. unfold RNG_Uint64, read_gt8. cbn [zeros repeat length read_gt8_loop Nat.ltb Nat.leb].
    rewrite Hx. cbn [bind]. unfold get64.
    rewrite go_copy_le by (rewrite le_bytes_length; cbn; lia).
    rewrite firstn_all2 by (rewrite le_bytes_length; cbn; lia).
    rewrite le_bytes_length. cbn [Nat.leb Nat.add skipn]. rewrite firstn_all2 by (rewrite le_bytes_length; lia).
    rewrite le_val_bytes8 by exact Hw. reflexivity.
  Qed.
  Lemma rng_uint64_ge8 s x s1 y s2 : I s -> u64 s = Ret (x, s1) -> u64 s1 = Ret (y, s2) -> w64 x ->
    RNG_Uint64 (read_ge8 u64) s = Ret (x, s2).
  Proof.
    intros Hs Hx Hy Hw. unfold RNG_Uint64, read_ge8. cbn [zeros repeat length read_ge8_loop Nat.ltb Nat.leb skipn].
    rewrite Hx. cbn [bind]. rewrite Hy. cbn [bind]. unfold get64.
    replace (go_copy [] (le_bytes 8 y)) with (@nil N) by reflexivity.
    rewrite app_nil_r, le_bytes_length. cbn [Nat.leb Nat.add skipn].
    rewrite firstn_all2 by (rewrite le_bytes_length; lia).
    rewrite le_val_bytes8 by exact Hw. reflexivity.
  Qed.
End Read.

(** a relation preserved by u64 with equal outputs is preserved by Read with equal bytes *)
Section Sim.
  Context {S T : Type}.
  Variable u : S -> outcome (N * S).
  Variable v : T -> outcome (N * T).
  Variable R : S -> T -> Prop.
  Hypothesis sim : forall s t, R s t -> exists x s' t', u s = Ret (x, s') /\ v t = Ret (x, t') /\ R s' t'.

  Lemma sim_runs n s t : R s t -> exists xs s' t',
    length xs = n /\ runs u s xs s' /\ runs v t xs t' /\ R s' t'.
  Proof.
    revert s t; induction n as [|n IH]; intros s t H.
    - exists [], s, t. repeat split; try constructor. exact H.
    - destruct (sim s t H) as (x & s1 & t1 & E1 & E2 & H1).
      destruct (IH s1 t1 H1) as (xs & s' & t' & Hl & R1 & R2 & H').
      exists (x :: xs), s', t'. repeat split; [cbn; lia|econstructor; eauto|econstructor; eauto|exact H'].
  Qed.
  Lemma sim_read_gt8 s t p : R s t -> exists q s' t',
    read_gt8 u s p = Ret ((q, length p, None), s') /\ read_gt8 v t p = Ret ((q, length p, None), t') /\ R s' t'.
  Proof.
    intros H.
    destruct (read_gt8_spec u (fun s => exists t, R s t)) with (p := p) (s := s) as (xs & s' & R1 & L1 & _ & E1).
    { intros s0 [t0 H0]. destruct (sim s0 t0 H0) as (x & s1 & t1 & A & B & C). eauto. }
    { eauto. }
    destruct (read_gt8_spec v (fun t => exists s, R s t)) with (p := p) (s := t) as (ys & t' & R2 & L2 & _ & E2).
    { intros t0 [s0 H0]. destruct (sim s0 t0 H0) as (x & s1 & t1 & A & B & C). eauto. }
    { eauto. }
    destruct (sim_runs (need_gt (length p)) s t H) as (zs & s2 & t2 & L & S1 & S2 & HR).
    destruct (runs_det _ _ _ _ R1 _ _ S1) as [-> ->]; [congruence|].
    destruct (runs_det _ _ _ _ R2 _ _ S2) as [-> ->]; [congruence|].
    eauto 10.
  Qed.
  Lemma sim_read_ge8 s t p : R s t -> exists q s' t',
    read_ge8 u s p = Ret ((q, length p, None), s') /\ read_ge8 v t p = Ret ((q, length p, None), t') /\ R s' t'.
  Proof.
    intros H.
    destruct (read_ge8_spec u (fun s => exists t, R s t)) with (p := p) (s := s) as (xs & s' & R1 & L1 & _ & E1).
    { intros s0 [t0 H0]. destruct (sim s0 t0 H0) as (x & s1 & t1 & A & B & C). eauto. }
    { eauto. }
    destruct (read_ge8_spec v (fun t => exists s, R s t)) with (p := p) (s := t) as (ys & t' & R2 & L2 & _ & E2).
    { intros t0 [s0 H0]. destruct (sim s0 t0 H0) as (x & s1 & t1 & A & B & C). eauto. }
    { eauto. }
    destruct (sim_runs (need_ge (length p)) s t H) as (zs & s2 & t2 & L & S1 & S2 & HR).
    destruct (runs_det _ _ _ _ R1 _ _ S1) as [-> ->]; [congruence|].
    destruct (runs_det _ _ _ _ R2 _ _ S2) as [-> ->]; [congruence|].
    eauto 10.
  Qed.
End Sim.
