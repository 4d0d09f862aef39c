(** C76: one generator used by several goroutines. *)
From Coq Require Import Lia ZifyN ZifyNat ZifyBool.
From Verif Require Import Model.Base Model.Lfg Model.Mt64 Model.Xoroshiro Model.Xoshiro Model.Api Model.Shared.
From Verif Require Import Spec.Common Spec.States Spec.Kinds Spec.Sharing.
From Verif Require Import Proofs.WordLemmas Proofs.PureGen Proofs.XoroProofs Proofs.XoshiProofs Proofs.KindProofs Proofs.LfgProofs Proofs.MtProofs Proofs.MtSeed
  Proofs.SharedProofs Props.Periods Props.Equidist.
Local Open Scope nat_scope.
Ltac Zify.zify_post_hook ::= Z.div_mod_to_equations.

(** ** Calls that do not overlap are safe *)
(** Any number of objects of any kinds, any number of goroutines, any schedule: if the calls of object o do
    not overlap (because a mutex is held during each, or because only one goroutine calls it), then together
    they return the values of the generator, each once, in order, and leave it where as many calls by one
    goroutine would; what happens to the other objects does not matter. *)
Theorem C76_serial objs n es s o k g : nth_error objs o = Some (obj k g) -> reachable k g ->
  grun (gstart objs n) es = Some s -> no_overlap (gstart objs n) es o ->
  exists g', runs (a_Uint64 (methods k)) g (returned s o) g' /\
    (~ in_use s o -> nth_error (g_objs s) o = Some (obj k g')).
Proof.
  intros Eo Rg E N. apply reachable_inv in Rg.
  destruct (serial_run k o g _ es s (serial_start k o g Rg objs n Eo) E N) as (g' & ob & _ & R & Eo' & Ec & _ & _ & Q & _).
  exists g'. split; [exact R|]. intros U. rewrite Eo'. destruct ob as [c m]. cbn [o_code o_words] in *. unfold obj. rewrite Ec, (Q U). reflexivity.
Qed.
(** and then nothing panics *)
Theorem C76_serial_no_panic objs n es s :
  (forall o ob, nth_error objs o = Some ob -> exists k g, ob = obj k g /\ reachable k g) ->
  (forall o, o < length objs -> no_overlap (gstart objs n) es o) ->
  grun (gstart objs n) es = Some s -> g_crashed s = false.
Proof.
  intros H. apply serial_no_crash. intros o ob E. destruct (H o ob E) as (k & g & -> & R).
  exists k, g. split; [reflexivity|]. now apply reachable_inv.
Qed.

(** A goroutine that has a generator to itself receives exactly that generator's values in every schedule,
    whatever the other goroutines do to other objects (so Copy and Jump are the way to share a seed). *)
Lemma owner_inv objs n es i o : owns es i o -> forall s, grun (gstart objs n) es = Some s ->
  (forall j o' c, nth_error (g_busy s) j = Some (Some (o', c)) -> (j = i <-> o' = o)) /\
  (forall j o' v, In (j, o', v) (g_log s) -> (j = i <-> o' = o)).
Proof.
  induction es as [|e es IH] using rev_ind; intros W s E.
  - injection E as <-. split; [|contradiction]. intros j o' c H. apply nth_error_In, repeat_spec in H. discriminate.
  - rewrite grun_app in E. destruct (grun (gstart objs n) es) as [s1|] eqn:E1; [|discriminate]. cbn [grun] in E.
    destruct (gstep s1 e) as [s2|] eqn:E2; [|discriminate]. injection E as <-.
    assert (W1 : owns es i o) by (intros j o' H; apply W, in_or_app; now left).
    specialize (IH W1 s1 eq_refl). destruct IH as [B L]. destruct s1 as [ob1 busy log cr]. cbn [g_busy g_log] in *.
    unfold gstep in E2. destruct cr; [discriminate|].
    assert (K : forall a x, nth_error busy a <> None -> (forall o' c, x = Some (o', c) -> (a = i <-> o' = o)) ->
      forall j o' c, nth_error (lupd busy a x) j = Some (Some (o', c)) -> (j = i <-> o' = o)).
    { intros a x Ha Hx j o' c H. destruct (Nat.eq_dec j a) as [->|Nj].
      - destruct (nth_error busy a) eqn:Ea; [|contradiction]. rewrite (nth_error_lupd_eq _ _ _ _ Ea) in H. injection H as ->. eauto.
      - rewrite nth_error_lupd_ne in H by exact Nj. eauto. }
    destruct e as [a o1|a|a].
    + destruct (nth_error busy a) as [[|]|] eqn:Ea; try discriminate. destruct (nth_error ob1 o1); [|discriminate]. injection E2 as <-.
      cbn [g_busy g_log]. split; [|exact L]. apply K; [congruence|]. intros o' c H. injection H as <- _. apply W, in_or_app. right. now left.
    + destruct (nth_error busy a) as [[[o1 c1]|]|] eqn:Ea; try discriminate. destruct (nth_error ob1 o1); [|discriminate].
      destruct c1; [discriminate| | |].
      * injection E2 as <-. auto.
      * destruct (nth_error (o_words o0) c); [|discriminate]. injection E2 as <-. cbn [g_busy g_log]. split; [|exact L].
        apply K; [congruence|]. intros o' c' H. injection H as <- _. eauto.
      * injection E2 as <-. cbn [g_busy g_log]. split; [|exact L]. apply K; [congruence|]. intros o' c' H. injection H as <- _. eauto.
    + destruct (nth_error busy a) as [[[o1 [v| | |]]|]|] eqn:Ea; try discriminate. injection E2 as <-. cbn [g_busy g_log]. split.
      * apply K; [congruence|]. discriminate.
      * intros j o' v' H. apply in_app_or in H as [H|[H|[]]]; [eauto|]. injection H as <- <- _. eauto.
Qed.
Theorem C76_own_generator objs n es s i o k g : nth_error objs o = Some (obj k g) -> reachable k g ->
  grun (gstart objs n) es = Some s -> owns es i o ->
  exists g', runs (a_Uint64 (methods k)) g (received s i) g'.
Proof.
  intros Eo Rg E W. destruct (C76_serial objs n es s o k g Eo Rg E) as (g' & R & _).
  - intros es1 j es2 s1 -> E1 (a & c & H).
    assert (W1 : owns es1 i o) by (intros x y I; apply W, in_or_app; now left).
    destruct (owner_inv objs n es1 i o W1 s1 E1) as [B _]. pose proof (proj2 (B a o c H) eq_refl) as ->.
    assert (j = i) as -> by (apply (W j o); [apply in_or_app; right; now left|reflexivity]).
    rewrite grun_app, E1 in E. cbn [grun] in E. destruct s1 as [ob1 busy log cr]. cbn [g_busy] in H. unfold gstep in E. rewrite H in E.
    destruct cr; discriminate.
  - exists g'. replace (received s i) with (returned s o); [exact R|].
    destruct (owner_inv objs n es i o W s E) as [_ L]. unfold returned, received. clear - L. induction (g_log s) as [|[[j o'] v] l IH]; [reflexivity|].
    cbn [flat_map]. rewrite IH by (intros a b c H; apply (L a b c); now right). f_equal. specialize (L j o' v (or_introl eq_refl)).
    destruct (Nat.eqb_spec o' o), (Nat.eqb_spec j i); tauto || reflexivity.
Qed.

(** ** Overlapping calls are not *)
Lemma csteps_load_at base len i k m h s c' m' v : base = length h -> m = h ++ s -> len = length s ->
  aget s (N.to_nat i) = Ret v -> csteps (k v) m c' m' -> csteps (load_at base len i k) m c' m'.
Proof.
  intros -> -> -> E C. unfold aget in E. destruct (nth_error s (N.to_nat i)) as [w|] eqn:Ei; [|discriminate]. injection E as ->.
  assert (N.to_nat i < length s) by (apply nth_error_Some; congruence). unfold load_at.
  destruct (N.ltb_spec i (N.of_nat (length s))); [|lia]. apply cs_load with v; [|exact C].
  rewrite nth_error_app2 by lia. replace (length h + N.to_nat i - length h) with (N.to_nat i) by lia. exact Ei.
Qed.
Lemma csteps_store_at base len i v k m h s c' m' s' : base = length h -> m = h ++ s -> len = length s ->
  aset s (N.to_nat i) v = Ret s' -> csteps k (h ++ s') c' m' -> csteps (store_at base len i v k) m c' m'.
Proof.
  intros -> -> -> E C. unfold aset in E. destruct (Nat.ltb_spec (N.to_nat i) (length s)); [|discriminate]. injection E as <-.
  unfold store_at. destruct (N.ltb_spec i (N.of_nat (length s))); [|lia]. apply cs_store. now rewrite lupd_app2.
Qed.
Ltac bind_ret E := match type of E with
  | bind ?m _ = Ret _ => let v := fresh "v" in let H := fresh "H" in destruct m as [v| |] eqn:H; cbn [bind] in E; [|discriminate|discriminate] end.
Lemma csteps_mt1 k rest h c' m' s' : length h = 1 -> forall i s, length s = 312 -> mt_loop1 k i s = Ret s' ->
  csteps rest (h ++ s') c' m' -> csteps (mt_acc1 k i rest) (h ++ s) c' m'.
Proof.
  intros Hh. induction k as [|k IH]; intros i s L E C; cbn [mt_loop1] in E; [injection E as ->; exact C|].
  bind_ret E. bind_ret E. bind_ret E. bind_ret E. cbn [mt_acc1].
  eapply csteps_load_at with (h := h); [now symmetry|reflexivity|now symmetry|rewrite Nat2N.id; eassumption|].
  eapply csteps_load_at with (h := h); [now symmetry|reflexivity|now symmetry|rewrite Nat2N.id; eassumption|].
  eapply csteps_load_at with (h := h); [now symmetry|reflexivity|now symmetry|rewrite Nat2N.id; eassumption|].
  eapply csteps_store_at with (h := h); [now symmetry|reflexivity|now symmetry|rewrite Nat2N.id; eassumption|].
  apply IH; [apply aset_length in H2; congruence|exact E|exact C].
Qed.
Lemma csteps_mt2 k rest h c' m' s' : length h = 1 -> forall i s, length s = 312 -> mt_loop2 k i s = Ret s' ->
  csteps rest (h ++ s') c' m' -> csteps (mt_acc2 k i rest) (h ++ s) c' m'.
Proof.
  intros Hh. induction k as [|k IH]; intros i s L E C; cbn [mt_loop2] in E; [injection E as ->; exact C|].
  bind_ret E. bind_ret E. bind_ret E. bind_ret E. cbn [mt_acc2].
  eapply csteps_load_at with (h := h); [now symmetry|reflexivity|now symmetry|rewrite Nat2N.id; eassumption|].
  eapply csteps_load_at with (h := h); [now symmetry|reflexivity|now symmetry|rewrite Nat2N.id; eassumption|].
  eapply csteps_load_at with (h := h); [now symmetry|reflexivity|now symmetry|rewrite Nat2N.id; eassumption|].
  eapply csteps_store_at with (h := h); [now symmetry|reflexivity|now symmetry|rewrite Nat2N.id; eassumption|].
  apply IH; [apply aset_length in H2; congruence|exact E|exact C].
Qed.
Lemma csteps_regen rest i s c' m' s' : length s = 312 -> mt_regen s = Ret s' ->
  csteps rest (0%N :: s') c' m' -> csteps (mt_acc_regen rest) (i :: s) c' m'.
Proof.
  intros L E C. unfold mt_regen in E. bind_ret E. bind_ret E. bind_ret E. bind_ret E. bind_ret E. rename v into s1, v0 into s2.
  pose proof (mt_loop1_length _ _ _ _ H). pose proof (mt_loop2_length _ _ _ _ H0).
  assert (L2 : mt64N = length s2) by (unfold mt64N; congruence).
  unfold mt_acc_regen. change (i :: s) with ([i] ++ s).
  apply csteps_mt1 with s1; [reflexivity|exact L|exact H|]. apply csteps_mt2 with s2; [reflexivity|congruence|exact H0|].
  eapply csteps_load_at with (h := [i]); [reflexivity|reflexivity|exact L2|rewrite Nat2N.id; eassumption|].
  eapply csteps_load_at with (h := [i]); [reflexivity|reflexivity|exact L2|eassumption|].
  eapply csteps_load_at with (h := [i]); [reflexivity|reflexivity|exact L2|rewrite Nat2N.id; eassumption|].
  eapply csteps_store_at with (h := [i]); [reflexivity|reflexivity|exact L2|rewrite Nat2N.id; exact E|].
  apply cs_store. exact C.
Qed.

(** *** Both get the same value *)
Definition mt_tail (x : N) : code N := Load 0 (fun i => Store 0 (i + 1)%N (Done (mt_temper x))).
Lemma mt_to_tail i s : length s = 312 -> (i < 312)%N -> csteps MT64_acc (i :: s) (mt_tail (nth (N.to_nat i) s 0%N)) (i :: s).
Proof.
  intros L Hi. unfold MT64_acc. eapply cs_load; [reflexivity|]. change (N.of_nat mt64N) with 312%N.
  destruct (N.leb_spec 312 i); [lia|]. unfold mt_acc_out. eapply cs_load; [reflexivity|].
  eapply csteps_load_at with (h := [i]); [reflexivity|reflexivity|now symmetry|rewrite (aget_nth s _ 0%N) by lia; reflexivity|]. constructor.
Qed.
Lemma mt_dup g : mt_typed g -> exists x g' m, MT64_Uint64 g = Ret (x, g') /\
  goes (two MT64_acc (MT64_words g) None None []) (two MT64_acc m None None [(0, 0, x); (1, 0, x)]).
Proof.
  intros T. destruct (mt_total g T) as (x & g' & E & _). destruct T as [L _]. destruct g as [i s]. cbn [ms] in L.
  assert (exists i1 s1, length s1 = 312 /\ (i1 < 312)%N /\
    csteps MT64_acc (i :: s) (mt_tail (nth (N.to_nat i1) s1 0%N)) (i1 :: s1) /\
    x = mt_temper (nth (N.to_nat i1) s1 0%N)) as (i1 & s1 & L1 & Hi & C & Ex).
  { unfold MT64_Uint64 in E. cbn [mi ms] in E. change (N.of_nat mt64N) with 312%N in E. destruct (N.leb_spec 312 i) as [Hi|Hi].
    - destruct (mt_regen s) as [s1| |] eqn:E1; cbn [bind mi ms] in E; [|discriminate|discriminate].
      pose proof (mt_regen_length _ _ E1) as L1. rewrite L in L1. rewrite (aget_nth s1 _ 0%N) in E by (rewrite L1; cbn; lia). cbn [bind] in E.
      injection E as <- _. exists 0%N, s1. split; [exact L1|]. split; [reflexivity|]. split; [|reflexivity].
      unfold MT64_acc. eapply cs_load; [reflexivity|]. change (N.of_nat mt64N) with 312%N. destruct (N.leb_spec 312 i); [|lia].
      eapply csteps_regen; [exact L|exact E1|]. unfold mt_acc_out. eapply cs_load; [reflexivity|].
      eapply csteps_load_at with (h := [0%N]); [reflexivity|reflexivity|now symmetry|rewrite (aget_nth s1 _ 0%N) by (rewrite L1; cbn; lia); reflexivity|]. constructor.
    - cbn [bind mi ms] in E. rewrite (aget_nth s _ 0%N) in E by lia. cbn [bind] in E. injection E as <- _.
      exists i, s. split; [exact L|]. split; [exact Hi|]. split; [now apply mt_to_tail|reflexivity]. }
  exists x, g'. eexists. split; [exact E|]. unfold MT64_words. cbn [mi ms].
  eapply goes_trans; [apply begin0|]. eapply goes_trans; [exact (run0 _ _ _ _ _ C None [])|].
  eapply goes_trans; [apply begin1|]. eapply goes_trans; [exact (run1 _ _ _ _ _ (mt_to_tail i1 s1 L1 Hi) _ [])|].
  eapply goes_trans; [apply to_done0; reflexivity|]. rewrite <- Ex. eapply goes_trans; [apply to_done1; reflexivity|].
  rewrite <- Ex. exists []. reflexivity.
Qed.
Definition lfg_tail (x : N) : code N :=
  Load 0 (fun f => Store 0 (f + 1)%N
  (Load 1 (fun t => Store 1 (t + 1)%N
  (let rest := Load 0 (fun f => store_at 2 lfgK f x (Done x)) in
   Load 0 (fun f =>
   if (N.of_nat lfgK <=? f)%N then Store 0 0%N rest
   else Load 1 (fun t => if (N.of_nat lfgK <=? t)%N then Store 1 0%N rest else rest)))))).
Lemma lfg_to_tail g : lfg_ok g -> csteps LFG_acc (LFG_words g)
  (lfg_tail (add64 (nth (lf g) (ls g) 0%N) (nth (lt g) (ls g) 0%N))) (LFG_words g).
Proof.
  intros (L & Ht & Hf & _). unfold LFG_acc, LFG_words. eapply cs_load; [reflexivity|].
  eapply csteps_load_at with (h := [N.of_nat (lf g); N.of_nat (lt g)]);
    [reflexivity|reflexivity|now symmetry|rewrite Nat2N.id, (aget_nth (ls g) _ 0%N) by lia; reflexivity|].
  eapply cs_load; [reflexivity|].
  eapply csteps_load_at with (h := [N.of_nat (lf g); N.of_nat (lt g)]);
    [reflexivity|reflexivity|now symmetry|rewrite Nat2N.id, (aget_nth (ls g) _ 0%N) by lia; reflexivity|].
  constructor.
Qed.
Lemma lfg_tail_ends x g : lfg_ok g -> exists m, alone (lfg_tail x) (LFG_words g) = Ret (x, m).
Proof.
  intros (L & Ht & Hf & _). destruct g as [f t s]. cbn [ls lf lt] in *. assert (f < 607) by lia. clear Hf.
  unfold lfg_tail, LFG_words. cbn [lf lt ls alone nth_error lupd]. change (N.of_nat lfgK) with 607%N.
  assert (K : forall a b, (a < 607)%N -> exists m, alone (store_at 2 lfgK a x (Done x)) (a :: b :: s) = Ret (x, m)).
  { intros a b Ha. rewrite (alone_store_at 2 lfgK _ _ _ _ [a; b] s) by (reflexivity || now symmetry).
    rewrite aset_ok by lia. cbn [bind alone]. eauto. }
  destruct (N.leb_spec 607 (N.of_nat f + 1)).
  - cbn [alone nth_error lupd]. apply K. reflexivity.
  - cbn [alone nth_error lupd]. destruct (N.leb_spec 607 (N.of_nat t + 1)); cbn [alone nth_error lupd]; apply K; lia.
Qed.
Lemma lfg_dup g : lfg_ok g -> exists x g' m, LFG_Uint64 g = Ret (x, g') /\
  goes (two LFG_acc (LFG_words g) None None []) (two LFG_acc m None None [(0, 0, x); (1, 0, x)]).
Proof.
  intros I. destruct (lfg_total g I) as (x & g' & E & I'). pose proof (lfg_to_tail g I) as C. set (y := add64 _ _) in C.
  assert (A : alone (lfg_tail y) (LFG_words g) = Ret (x, LFG_words g')).
  { pose proof (alone_lfg g (proj1 I)) as A. rewrite E in A. cbn [bind] in A. rewrite <- A.
    clear - C I. destruct I as (L & Ht & Hf & _). unfold LFG_acc, LFG_words. cbn [alone nth_error].
    rewrite (alone_load_at 2 lfgK _ _ _ [N.of_nat (lf g); N.of_nat (lt g)] (ls g)) by (reflexivity || now symmetry).
    rewrite Nat2N.id, (aget_nth (ls g) _ 0%N) by lia. cbn [bind alone nth_error].
    rewrite (alone_load_at 2 lfgK _ _ _ [N.of_nat (lf g); N.of_nat (lt g)] (ls g)) by (reflexivity || now symmetry).
    rewrite Nat2N.id, (aget_nth (ls g) _ 0%N) by lia. reflexivity. }
  assert (x = y) as <-.
  { destruct (lfg_tail_ends y g I) as (m & Em). congruence. }
  destruct (lfg_tail_ends x g' I') as (m & Em). exists x, g', m. split; [exact E|].
  eapply goes_trans; [apply begin0|]. eapply goes_trans; [exact (run0 _ _ _ _ _ C None [])|].
  eapply goes_trans; [apply begin1|]. eapply goes_trans; [exact (run1 _ _ _ _ _ C _ [])|].
  eapply goes_trans; [apply to_done0; exact A|]. eapply goes_trans; [apply to_done1; exact Em|]. exists []. reflexivity.
Qed.
Lemma xoshi_dup g : exists m,
  goes (two Xoshiro_acc (Xoshiro_words g) None None [])
       (two Xoshiro_acc m None None [(0, 0, fst (Xoshiro_next g)); (1, 0, fst (Xoshiro_next g))]).
Proof.
  destruct g as [w x y z]. eexists.
  eapply goes_trans; [apply begin0|]. eapply goes_trans; [apply run0; eapply cs_load; [reflexivity|constructor]|].
  eapply goes_trans; [apply begin1|]. eapply goes_trans; [apply run1; eapply cs_load; [reflexivity|constructor]|].
  eapply goes_trans; [apply to_done0; reflexivity|]. eapply goes_trans; [apply to_done1; reflexivity|]. exists []. reflexivity.
Qed.
Lemma xoro_dup r g :
  goes (two (Xoroshiro_acc_to r) (Xoroshiro_words g) None None [])
       (two (Xoroshiro_acc_to r) (Xoroshiro_words (snd (Xoroshiro_next g))) None None
         [(0, 0, r (fst (Xoroshiro_next g))); (1, 0, r (fst (Xoroshiro_next g)))]).
Proof.
  destruct g as [a b]. exists ([Begin 0 0; Begin 1 0; Access 0; Access 0; Access 1; Access 1; Access 0; Access 0; Access 1; Access 1; Finish 0; Finish 1]).
  reflexivity.
Qed.
Lemma start_two k g : gstart [obj k g] 2 = two (accesses k) (words k g) None None [].
Proof. reflexivity. Qed.
Lemma quiet_two cd m log : quiet (two cd m None None log).
Proof. intros [|[|i]] x H; cbn in H; [congruence|congruence|]. destruct i; discriminate. Qed.

(** For every generator and every state of it there is a schedule in which two goroutines each call Uint64
    once and both receive the value that one of them should have had. *)
Theorem C76_same_value_twice k g : reachable k g -> exists x g' es s,
  a_Uint64 (methods k) g = Ret (x, g') /\ grun (gstart [obj k g] 2) es = Some s /\ quiet s /\
  received s 0 = [x] /\ received s 1 = [x].
Proof.
  intros R. apply reachable_inv in R. rewrite start_two.
  assert (exists x g' m, a_Uint64 (methods k) g = Ret (x, g') /\
    goes (two (accesses k) (words k g) None None []) (two (accesses k) m None None [(0, 0, x); (1, 0, x)]))
    as (x & g' & m & E & es & Es).
  { destruct k; cbn [accesses words inv] in *.
    - apply lfg_dup, R.
    - apply mt_dup, R.
    - eexists _, _, _. split; [reflexivity|]. apply xoro_dup.
    - eexists _, _, _. split; [reflexivity|]. apply xoro_dup.
    - destruct (xoshi_dup g) as (m & G). exists (fst (Xoshiro_next g)), (snd (Xoshiro_next g)), m.
      split; [|exact G]. cbn. unfold Xoshiro_Uint64. now destruct (Xoshiro_next g). }
  exists x, g', es. eexists. split; [exact E|]. split; [exact Es|]. split; [apply quiet_two|]. split; reflexivity.
Qed.

(** *** LFG and MT64 can panic *)
Lemma lfg_walk n g : lfg_ok g -> exists xs g', runs LFG_Uint64 g xs g' /\ lfg_ok g' /\ lt g' = (lt g + n) mod 607.
Proof.
  intros I. induction n as [|n IH].
  - exists [], g. split; [constructor|]. split; [exact I|]. destruct I as (_ & Ht & _). lia.
  - destruct IH as (xs & g1 & R & I1 & E1). destruct (lfg_step g1 I1) as (g2 & E2 & I2 & T2 & _).
    eexists _, g2. split; [eapply runs_snoc; eassumption|]. split; [exact I2|]. lia.
Qed.
Lemma lfg_crash_at g : lfg_ok g -> lf g = 606 -> forall log, exists s,
  goes (two LFG_acc (LFG_words g) None None log) s /\ g_crashed s = true.
Proof.
  intros I F log. pose proof I as (L & Ht & _).
  assert (C : exists c, csteps LFG_acc (LFG_words g) c (607%N :: N.of_nat (lt g) :: ls g)).
  { unfold LFG_acc, LFG_words. rewrite F. eexists. eapply cs_load; [reflexivity|].
    eapply csteps_load_at with (h := [606%N; N.of_nat (lt g)]);
      [reflexivity|reflexivity|now symmetry|rewrite (aget_nth (ls g) _ 0%N) by (rewrite L; cbn; lia); reflexivity|].
    eapply cs_load; [reflexivity|].
    eapply csteps_load_at with (h := [606%N; N.of_nat (lt g)]);
      [reflexivity|reflexivity|now symmetry|rewrite Nat2N.id, (aget_nth (ls g) _ 0%N) by lia; reflexivity|].
    eapply cs_load; [reflexivity|]. apply cs_store. constructor. }
  destruct C as (c & C). eexists. split; [|shelve].
  eapply goes_trans; [apply begin0|]. eapply goes_trans; [exact (run0 _ _ _ _ _ C None log)|].
  eapply goes_trans; [apply begin1|]. exists [Access 1; Access 1]. reflexivity.
  Unshelve. reflexivity.
Qed.
Lemma mt_walk n g : mt_ok g -> (mi g + N.of_nat n < 312)%N -> exists xs g', runs MT64_Uint64 g xs g' /\ mt_ok g' /\ mi g' = (mi g + N.of_nat n)%N.
Proof.
  intros I. induction n as [|n IH]; intros H.
  - exists [], g. split; [constructor|]. split; [exact I|]. lia.
  - destruct IH as (xs & g1 & R & I1 & E1); [lia|]. destruct (mt_step_ok g1 I1) as (x & g2 & E2 & I2).
    exists (xs ++ [x]), g2. split; [eapply runs_snoc; eassumption|]. split; [exact I2|].
    unfold MT64_Uint64 in E2. change (N.of_nat mt64N) with 312%N in E2. destruct (N.leb_spec 312 (mi g1)); [lia|]. cbn [bind] in E2.
    destruct (aget (ms g1) _); try discriminate. cbn [bind] in E2. injection E2 as _ <-. cbn [mi]. lia.
Qed.
Lemma mt_to_311 g : mt_ok g -> exists xs g', runs MT64_Uint64 g xs g' /\ mt_ok g' /\ mi g' = 311%N.
Proof.
  intros I. destruct (N.ltb_spec (mi g) 312) as [H|H].
  - destruct (mt_walk (N.to_nat (311 - mi g)) g I) as (xs & g' & R & I' & E); [lia|]. exists xs, g'. split; [exact R|]. split; [exact I'|]. lia.
  - destruct (mt_step_ok g I) as (x & g1 & E1 & I1). assert (M : mi g1 = 1%N).
    { unfold MT64_Uint64 in E1. change (N.of_nat mt64N) with 312%N in E1. destruct (N.leb_spec 312 (mi g)); [|lia].
      destruct (mt_regen (ms g)); try discriminate. cbn [bind mi ms] in E1. destruct (aget a _); try discriminate.
      cbn [bind] in E1. injection E1 as _ <-. reflexivity. }
    destruct (mt_walk 310 g1 I1) as (xs & g' & R & I' & E); [lia|]. exists (x :: xs), g'. split; [econstructor; eassumption|]. split; [exact I'|]. lia.
Qed.
Lemma mt_crash_at g : mt_ok g -> mi g = 311%N -> forall log, exists s,
  goes (two MT64_acc (MT64_words g) None None log) s /\ g_crashed s = true.
Proof.
  intros I F log. destruct g as [i s]. cbn [mi] in F. subst i.
  assert (C : csteps MT64_acc (MT64_words (mkMT 311 s)) mt_acc_out (MT64_words (mkMT 311 s))).
  { unfold MT64_acc. eapply cs_load; [reflexivity|]. constructor. }
  destruct (mt_step_ok _ I) as (x & g1 & E1 & I1).
  assert (M : mi g1 = 312%N).
  { unfold MT64_Uint64 in E1. cbn [mi ms] in E1. change (N.of_nat mt64N <=? 311)%N with false in E1. cbn [bind mi ms] in E1.
    destruct (aget s _); try discriminate. cbn [bind] in E1. injection E1 as _ <-. reflexivity. }
  eexists. split; [|shelve].
  eapply goes_trans; [apply begin0|]. eapply goes_trans; [exact (run0 _ _ _ _ _ C None log)|].
  eapply goes_trans; [apply begin1|]. eapply goes_trans; [apply to_done1; rewrite (alone_mt _ (proj1 (proj1 I))), E1; reflexivity|].
  unfold MT64_words. rewrite M. exists [Access 0; Access 0]. reflexivity.
  Unshelve. reflexivity.
Qed.
(** From every state of LFG and of MT64, some schedule of two goroutines that call Uint64 ends in a panic:
    index out of range, which ends the program. *)
Theorem C76_lfg_and_mt64_can_panic k g : k = gLFG \/ k = gMT64 -> reachable k g -> exists es s,
  grun (gstart [obj k g] 2) es = Some s /\ g_crashed s = true.
Proof.
  intros K R. apply reachable_inv in R.
  assert (exists s, goes (gstart [obj k g] 2) s /\ g_crashed s = true) as (s & (es & E) & T); [|eauto].
  rewrite start_two. destruct K as [-> | ->]; cbn [inv accesses words] in *.
  - destruct (lfg_walk ((272 + 607 - lt g) mod 607) g R) as (xs & g1 & W & I1 & E1).
    assert (lf g1 = 606). { destruct I1 as (_ & _ & F & _). destruct R as (_ & Ht & _). lia. }
    destruct (lfg_crash_at g1 I1 H ([] ++ logged 1 xs)) as (s & G & T). exists s. split; [|exact T].
    eapply goes_trans; [exact (calls1 gLFG g xs g1 R W None [])|exact G].
  - destruct (mt_to_311 g R) as (xs & g1 & W & I1 & E1).
    destruct (mt_crash_at g1 I1 E1 ([] ++ logged 1 xs)) as (s & G & T). exists s. split; [|exact T].
    eapply goes_trans; [exact (calls1 gMT64 g xs g1 R W None [])|exact G].
Qed.

(** *** The others cannot panic, but can die *)
Definition shifty (k : gen) : Prop := k = gXoroshiro \/ k = gRexoroshiro \/ k = gXoshiro.
Fixpoint nofail (c : code N) : Prop :=
  match c with Done _ => True | Fail => False | Load _ k => forall v, nofail (k v) | Store _ _ k => nofail k end.
Lemma nofail_shifty k : shifty k -> nofail (accesses k).
Proof. intros [->|[->| ->]]; cbn; auto. Qed.
Lemma nofail_step s e s' : gstep s e = Some s' ->
  (forall o ob, nth_error (g_objs s) o = Some ob -> nofail (o_code ob)) ->
  (forall i o c, nth_error (g_busy s) i = Some (Some (o, c)) -> nofail c) ->
  (forall o ob, nth_error (g_objs s') o = Some ob -> nofail (o_code ob)) /\
  (forall i o c, nth_error (g_busy s') i = Some (Some (o, c)) -> nofail c) /\ (g_crashed s' = true -> g_crashed s = true).
Proof.
  destruct s as [objs busy log cr]. cbn [g_objs g_busy g_crashed]. intros E O B. unfold gstep in E. destruct cr; [discriminate|].
  assert (K : forall a x, nth_error busy a <> None -> (forall o' c, x = Some (o', c) -> nofail c) ->
    forall j o' c, nth_error (lupd busy a x) j = Some (Some (o', c)) -> nofail c).
  { intros a x Ha Hx j o' c H. destruct (Nat.eq_dec j a) as [->|Nj].
    - destruct (nth_error busy a) eqn:Ea; [|contradiction]. rewrite (nth_error_lupd_eq _ _ _ _ Ea) in H. injection H as ->. eauto.
    - rewrite nth_error_lupd_ne in H by exact Nj. eauto. }
  destruct e as [a o1|a|a].
  - destruct (nth_error busy a) as [[|]|] eqn:Ea; try discriminate. destruct (nth_error objs o1) as [ob|] eqn:Eo; [|discriminate]. injection E as <-.
    cbn [g_objs g_busy g_crashed]. split; [exact O|]. split; [|discriminate]. apply K; [congruence|]. intros o' c H. injection H as _ <-. eauto.
  - destruct (nth_error busy a) as [[[o1 c1]|]|] eqn:Ea; try discriminate. destruct (nth_error objs o1) as [ob|] eqn:Eo; [|discriminate].
    pose proof (B _ _ _ Ea) as F. destruct c1 as [x| |w kk|w v kk]; [discriminate|contradiction| |].
    + destruct (nth_error (o_words ob) w) as [v|]; [|discriminate]. injection E as <-. cbn [g_objs g_busy g_crashed].
      split; [exact O|]. split; [|discriminate]. apply K; [congruence|]. intros o' c' H. injection H as _ <-. apply F.
    + injection E as <-. cbn [g_objs g_busy g_crashed]. split; [|split; [|discriminate]].
      * intros o ob' H. destruct (Nat.eq_dec o o1) as [->|No].
        -- rewrite (nth_error_lupd_eq _ _ _ _ Eo) in H. injection H as <-. cbn [o_code]. eauto.
        -- rewrite nth_error_lupd_ne in H by exact No. eauto.
      * apply K; [congruence|]. intros o' c' H. injection H as _ <-. apply F.
  - destruct (nth_error busy a) as [[[o1 [v| | |]]|]|] eqn:Ea; try discriminate. injection E as <-. cbn [g_objs g_busy g_crashed].
    split; [exact O|]. split; [|discriminate]. apply K; [congruence|]. discriminate.
Qed.
(** Whatever the schedule and however many goroutines share them, Xoroshiro, Rexoroshiro and Xoshiro do not
    panic. *)
Theorem C76_xoroshiro_and_xoshiro_never_panic objs n es s :
  (forall o ob, nth_error objs o = Some ob -> exists k g, ob = obj k g /\ (k = gXoroshiro \/ k = gRexoroshiro \/ k = gXoshiro)) ->
  grun (gstart objs n) es = Some s -> g_crashed s = false.
Proof.
  intros H E.
  assert (J : (forall o ob, nth_error (g_objs s) o = Some ob -> nofail (o_code ob)) /\
    (forall i o c, nth_error (g_busy s) i = Some (Some (o, c)) -> nofail c) /\ g_crashed s = false).
  { revert s E. induction es as [|e es IH] using rev_ind; intros s E.
    - injection E as <-. cbn [gstart g_objs g_busy g_crashed]. split; [|split; [|reflexivity]].
      + intros o ob Ho. destruct (H o ob Ho) as (k & g & -> & K). now apply nofail_shifty.
      + intros i o c Hi. apply nth_error_In, repeat_spec in Hi. discriminate.
    - rewrite grun_app in E. destruct (grun (gstart objs n) es) as [s1|] eqn:E1; [|discriminate]. cbn [grun] in E.
      destruct (gstep s1 e) as [s2|] eqn:E2; [|discriminate]. injection E as <-. destruct (IH s1 eq_refl) as (O & B & F).
      destruct (nofail_step s1 e s2 E2 O B) as (O' & B' & F'). split; [exact O'|]. split; [exact B'|].
      destruct (g_crashed s2); [|reflexivity]. rewrite F in F'. now specialize (F' eq_refl). }
  apply J.
Qed.

Lemma xoro_die r log : exists log', goes
  (two (Xoroshiro_acc_to r) [0x77c9c9f345ae6b9f; 0xb08dea0c59c1fcaa]%N None None log)
  (two (Xoroshiro_acc_to r) [0; 0]%N None None log').
Proof.
  pose (call1 := [Begin 1 0; Access 1; Access 1; Access 1; Access 1; Finish 1]).
  pose (es := [Begin 0 0; Access 0; Access 0] ++ call1 ++ call1 ++ call1 ++ call1 ++ [Access 0] ++
    [Begin 1 0; Access 1; Access 1] ++ [Access 0; Finish 0] ++ [Access 1; Access 1; Finish 1]).
  eexists. exists es. vm_compute. reflexivity.
Qed.
Lemma xoshi_die log : exists log', goes
  (two Xoshiro_acc [0; 0; 0; 0xffffffffffffffff]%N None None log)
  (two Xoshiro_acc [0; 0; 0; 0]%N None None log').
Proof.
  pose (call1 := [Begin 1 0] ++ repeat (Access 1) 18 ++ [Finish 1]).
  pose (es := [Begin 0 0] ++ repeat (Access 0) 4 ++ call1 ++ call1 ++ call1 ++ repeat (Access 0) 14 ++ [Finish 0]).
  eexists. exists es. vm_compute. reflexivity.
Qed.
(** From every state but the all-zero one, some schedule of two goroutines that call Uint64 leaves Xoroshiro,
    Rexoroshiro and Xoshiro in the all-zero state ... *)
Theorem C76_racing_calls_can_zero_the_state k g : k = gXoroshiro \/ k = gRexoroshiro \/ k = gXoshiro ->
  reachable k g -> g <> zero_state k -> exists es s,
  grun (gstart [obj k g] 2) es = Some s /\ quiet s /\ g_objs s = [obj k (zero_state k)] /\ g_crashed s = false.
Proof.
  intros K R Z. apply reachable_inv in R.
  assert (exists log, goes (gstart [obj k g] 2) (two (accesses k) (words k (zero_state k)) None None log)) as (log & es & E).
  { rewrite start_two. destruct K as [->|[->| ->]]; cbn [inv accesses words zero_state state] in *.
    - set (t := mkXoro 0x77c9c9f345ae6b9f 0xb08dea0c59c1fcaa).
      destruct (C10_xoroshiro_visits_every_state g t R Z) as (xs & W & _); [split; reflexivity|discriminate|].
      destruct (xoro_die (fun x => x) ([] ++ logged 1 xs)) as (log & G). exists log.
      eapply goes_trans; [exact (calls1 gXoroshiro g xs t R W None [])|exact G].
    - set (t := mkXoro 0x77c9c9f345ae6b9f 0xb08dea0c59c1fcaa).
      assert (T : xoro_nz t) by (split; [split; reflexivity|discriminate]).
      destruct (xoro_orbit g t (conj R Z) T) as (m & _ & Em).
      destruct (runs_any _ _ xstep XoroSeed.rex_pure m g) as (xs & _ & W). rewrite Em in W.
      destruct (xoro_die rev_bytes64 ([] ++ logged 1 xs)) as (log & G). exists log.
      eapply goes_trans; [exact (calls1 gRexoroshiro g xs t R W None [])|exact G].
    - set (t := mkXoshi 0 0 0 0xffffffffffffffff).
      assert (T : hnz t) by (split; [repeat split; reflexivity|discriminate]).
      destruct (xoshi_orbit g t (conj R Z) T) as (m & _ & Em).
      destruct (runs_any _ _ xoshi_step xoshi_pure m g) as (xs & _ & W). rewrite Em in W.
      destruct (xoshi_die ([] ++ logged 1 xs)) as (log & G). exists log.
      eapply goes_trans; [exact (calls1 gXoshiro g xs t R W None [])|exact G]. }
  exists es. eexists. split; [exact E|]. split; [apply quiet_two|]. split; reflexivity.
Qed.
(** ... and from then on every call by every goroutine returns 0, in every schedule. *)
Fixpoint zsafe (c : code N) : Prop :=
  match c with Done a => a = 0%N | Fail => False | Load _ k => zsafe (k 0%N) | Store _ v k => v = 0%N /\ zsafe k end.
Lemma zsafe_shifty k : shifty k -> zsafe (accesses k).
Proof. intros [->|[->| ->]]; vm_compute; repeat split. Qed.
Lemma lupd_zero n w : lupd (repeat 0%N n) w 0%N = repeat 0%N n.
Proof. revert w. induction n as [|n IH]; intros [|w]; cbn; [reflexivity|reflexivity|reflexivity|]. now rewrite IH. Qed.
Theorem C76_zero_state_stays k s0 es s : k = gXoroshiro \/ k = gRexoroshiro \/ k = gXoshiro ->
  quiet s0 -> g_objs s0 = [obj k (zero_state k)] -> grun s0 es = Some s ->
  g_objs s = [obj k (zero_state k)] /\ exists log, g_log s = g_log s0 ++ log /\ Forall (fun '(_, _, x) => x = 0%N) log.
Proof.
  intros K Q O E.
  assert (exists m, words k (zero_state k) = repeat 0%N m) as (m & Em).
  { destruct K as [->|[->| ->]]; [exists 2|exists 2|exists 4]; reflexivity. }
  assert (J : g_objs s = [obj k (zero_state k)] /\ (exists log, g_log s = g_log s0 ++ log /\ Forall (fun '(_, _, x) => x = 0%N) log) /\
    (forall i o c, nth_error (g_busy s) i = Some (Some (o, c)) -> zsafe c)).
  { revert s E. induction es as [|e es IH] using rev_ind; intros s E.
    - injection E as <-. split; [exact O|]. split; [exists []; rewrite app_nil_r; auto|].
      intros i o c Hi. apply Q in Hi. discriminate.
    - rewrite grun_app in E. destruct (grun s0 es) as [s1|] eqn:E1; [|discriminate]. cbn [grun] in E.
      destruct (gstep s1 e) as [s2|] eqn:E2; [|discriminate]. injection E as <-. destruct (IH s1 eq_refl) as (O1 & (log & Lg & Fg) & B). clear IH.
      destruct s1 as [objs busy lg cr]. cbn [g_objs g_busy g_log] in *. subst objs. unfold gstep in E2. destruct cr; [discriminate|].
      assert (P : forall a x, nth_error busy a <> None -> (forall o' c, x = Some (o', c) -> zsafe c) ->
        forall j o' c, nth_error (lupd busy a x) j = Some (Some (o', c)) -> zsafe c).
      { intros a x Ha Hx j o' c H. destruct (Nat.eq_dec j a) as [->|Nj].
        - destruct (nth_error busy a) eqn:Ea; [|contradiction]. rewrite (nth_error_lupd_eq _ _ _ _ Ea) in H. injection H as ->. eauto.
        - rewrite nth_error_lupd_ne in H by exact Nj. eauto. }
      destruct e as [a o1|a|a].
      + destruct (nth_error busy a) as [[|]|] eqn:Ea; try discriminate. destruct o1 as [|o1]; [|destruct o1; discriminate]. cbn [nth_error] in E2. injection E2 as <-.
        cbn [g_objs g_busy g_log]. split; [reflexivity|]. split; [eauto|]. apply P; [congruence|]. intros o' c H. injection H as _ <-. now apply zsafe_shifty.
      + destruct (nth_error busy a) as [[[o1 c1]|]|] eqn:Ea; try discriminate. destruct o1 as [|o1]; [|destruct o1; discriminate]. cbn [nth_error] in E2.
        pose proof (B _ _ _ Ea) as F. unfold obj in E2. cbn [o_words o_code] in E2. rewrite Em in E2.
        destruct c1 as [x| |w kk|w v kk]; [discriminate|contradiction| |].
        * destruct (nth_error (repeat 0%N m) w) as [v|] eqn:Ev; [|discriminate]. injection E2 as <-. cbn [g_objs g_busy g_log].
          split; [unfold obj; now rewrite Em|]. split; [eauto|].
          apply nth_error_In, repeat_spec in Ev. subst v. apply P; [congruence|]. intros o' c' H. injection H as _ <-. exact F.
        * destruct F as [-> F]. injection E2 as <-. cbn [g_objs g_busy g_log lupd]. rewrite lupd_zero, <- Em.
          split; [reflexivity|]. split; [eauto|]. apply P; [congruence|]. intros o' c' H. injection H as _ <-. exact F.
      + destruct (nth_error busy a) as [[[o1 [v| | |]]|]|] eqn:Ea; try discriminate. injection E2 as <-. cbn [g_objs g_busy g_log].
        split; [reflexivity|]. split; [|apply P; [congruence|discriminate]].
        exists (log ++ [(a, o1, v)]). rewrite Lg, app_assoc. split; [reflexivity|]. apply Forall_app. split; [exact Fg|].
        constructor; [|constructor]. exact (B _ _ _ Ea). }
  destruct J as (J1 & J2 & _). auto.
Qed.

(** ** The hypotheses are met *)
Fixpoint serialb (s : gstate) (es : list event) (o : nat) : bool :=
  match es with
  | [] => true
  | e :: es =>
      match e with
      | Begin _ o' => if o' =? o then forallb (fun b => match b with Some (o1, _) => negb (o1 =? o) | None => true end) (g_busy s) else true
      | _ => true
      end && match gstep s e with Some s' => serialb s' es o | None => true end
  end.
Lemma serialb_spec es o : forall s, serialb s es o = true -> no_overlap s es o.
Proof.
  induction es as [|e es IH]; intros s H es1 i es2 t E R.
  - destruct es1; discriminate.
  - cbn [serialb] in H. apply Bool.andb_true_iff in H as [H1 H2]. destruct es1 as [|e1 es1]; cbn [app] in E; injection E as -> ->.
    + injection R as <-. intros (j & c & Hj). rewrite Nat.eqb_refl in H1. rewrite forallb_forall in H1.
      apply nth_error_In, H1 in Hj. rewrite Nat.eqb_refl in Hj. discriminate.
    + cbn [grun] in R. destruct (gstep s e1) as [s'|]; [|discriminate]. eapply IH; [exact H2|reflexivity|exact R].
Qed.
(** goroutines 0 and 1 take turns with one Xoroshiro while goroutine 2, in between, uses its own Xoshiro *)
Example C76_nonvacuous : exists es s,
  let objs := [obj gXoroshiro (mkXoro 1 2); obj gXoshiro (mkXoshi 1 2 3 4)] in
  grun (gstart objs 3) es = Some s /\ no_overlap (gstart objs 3) es 0 /\ no_overlap (gstart objs 3) es 1 /\
  owns es 2 1 /\ quiet s /\ returned s 0 = [3; 36029003177443331]%N /\ received s 2 = [11520]%N /\
  reachable gXoroshiro (mkXoro 1 2) /\ reachable gXoshiro (mkXoshi 1 2 3 4).
Proof.
  exists ([Begin 2 1; Access 2; Begin 0 0; Access 0; Access 2; Access 0; Access 0] ++ repeat (Access 2) 10 ++
    [Access 0; Finish 0; Begin 1 0; Access 1; Access 1] ++ repeat (Access 2) 6 ++ [Access 1; Access 1; Finish 2; Finish 1]).
  eexists. cbv zeta. split; [vm_compute; reflexivity|].
  split; [apply serialb_spec; vm_compute; reflexivity|]. split; [apply serialb_spec; vm_compute; reflexivity|].
  split. { intros j o H. cbn in H. repeat (destruct H as [H|H]; [try discriminate H; injection H as <- <-; lia|]). contradiction. }
  split. { intros [|[|[|i]]] x H; cbn in H; try congruence. destruct i; discriminate. }
  split; [vm_compute; reflexivity|]. split; [vm_compute; reflexivity|].
  split; [apply xoro_reachable; split; reflexivity|]. apply xoshi_reachable; repeat split; reflexivity.
Qed.
