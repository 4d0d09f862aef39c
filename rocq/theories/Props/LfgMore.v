(** More about LFG: C54 (what SeedIV computes), C55 (what Save writes, what Restore uses). *)
From Coq Require Import Lia ZifyN ZifyNat ZifyBool.
From Verif Require Import Model.Base Model.Xoroshiro Model.LfgTable Model.Lfg Model.Api Spec.Common Spec.States Spec.Kinds
  Spec.RefGens Spec.LfgRef.
From Verif Require Import Proofs.WordLemmas Proofs.ReadProofs Proofs.SaveProofs Proofs.LfgProofs Proofs.LfgSave Proofs.LfgStream
  Proofs.KindProofs Props.Lfg Props.Reference.
Local Open Scope nat_scope.
Opaque lfgS0.

(** ** every window can be restored *)
Lemma lfg_restored_reachable s : length s = 607 -> Forall w64 s -> reachable gLFG (mkLFG 334 0 s).
Proof.
  intros L Hw.
  assert (Lb : length (stream_bytes s) = lfgK * 8) by (rewrite stream_bytes_length, L; reflexivity).
  eapply (reach_step (methods gLFG) _
    (OpRestore (fun p => if (length p =? length (stream_bytes s))%nat then (stream_bytes s, length (stream_bytes s), None) else (p, 0, None)))).
  - apply reach_new.
  - cbn [op_ok]. intros p Hp. destruct (Nat.eqb_spec (length p) (length (stream_bytes s))) as [E|E]; cbn [fst]; [|auto].
    split; [congruence|apply stream_bytes_isbyte].
  - cbn [methods exec a_Restore apiLFG a_new].
    erewrite LFG_Restore_spec; [|unfold fun_reader; rewrite zeros_length, Lb, Nat.eqb_refl; reflexivity].
    rewrite Nat.ltb_irrefl.
    pose proof (get_words_spec0 s [] Hw) as G. rewrite app_nil_r, L in G. rewrite G. reflexivity.
Qed.

(** ** C54 *)
Lemma lfg_mix_spec iv : forall i s s', length s = 607 -> Forall w64 s -> lfg_mix_iv i iv s = Ret s' ->
  forall k, k < 607 -> nth k s' 0%N =
    ((nth k s 0 + fold_right N.add 0 (map (fun j => if ((i + j + 334) mod 607 =? k)%nat
        then table (N.to_nat ((nth j iv 0 + 256 * N.of_nat (i + j)) mod 607)) else 0) (seq 0 (length iv)))) mod 2 ^ 64)%N.
Proof.
  induction iv as [|v iv IH]; intros i s s' L Hw E k Hk.
  - cbn in E. inversion E; subst s'. cbn [length seq map fold_right]. rewrite N.add_0_r, N.mod_small; [reflexivity|].
    rewrite Forall_forall in Hw. apply Hw, nth_In. lia.
  - cbn [lfg_mix_iv] in E. change lfgK with 607 in E. change lfgJ with 273 in E.
    set (k0 := (i + 607 - 273) mod 607) in *. assert (Hk0 : k0 < 607) by (subst k0; lia).
    rewrite (aget_nth s k0 0%N) in E by lia. cbn [bind] in E.
    set (j := N.to_nat _) in E. assert (Hj : j < 607) by (subst j; lia).
    rewrite (aget_nth lfgS0 j 0%N) in E by (rewrite lfgS0_length; lia). cbn [bind] in E.
    rewrite aset_ok in E by lia. cbn [bind] in E.
    set (s1 := lupd s k0 _) in E. assert (L1 : length s1 = 607) by (unfold s1; now rewrite lupd_length).
    assert (W1 : Forall w64 s1) by (apply Forall_lupd; [exact Hw|apply add64_w]).
    rewrite (IH _ _ _ L1 W1 E k Hk). unfold s1.
    cbn [length seq map fold_right nth]. rewrite <- seq_shift, map_map.
    rewrite nth_lupd by lia.
    match goal with |- ((_ + fold_right _ _ ?a) mod _ = (_ + (_ + fold_right _ _ ?b)) mod _)%N =>
      assert (Eab : a = b) end.
    { apply map_ext. intros m. replace (S i + m) with (i + S m) by lia. reflexivity. }
    rewrite Eab. set (r := fold_right _ _ _). clearbody r. clear Eab.
    replace ((i + 0 + 334) mod 607) with k0 by (subst k0; lia).
    replace (table (N.to_nat ((v + 256 * N.of_nat (i + 0)) mod 607))) with (nth j lfgS0 0%N)
      by (unfold table; subst j; now rewrite Nat.add_0_r).
    rewrite (Nat.eqb_sym k0 k). destruct (k =? k0) eqn:Ek.
    + apply Nat.eqb_eq in Ek. subst k. rewrite add64_mod. rewrite N.add_mod_idemp_l by discriminate. f_equal. lia.
    + f_equal. 
Qed.
Lemma lfg_skip_iter n : forall g, lfg_ok g -> lfg_skip n g = Ret (N.iter (N.of_nat n) lstep g).
Proof.
  induction n as [|n IH]; intros g H; cbn [lfg_skip]; [reflexivity|].
  destruct (lstep_last g H) as [-> _]. cbn [bind]. rewrite IH by (now apply lstep_ok).
  rewrite Nat2N.inj_succ, N.iter_succ_r. reflexivity.
Qed.
Lemma useq_unique g u : lfg_ok g -> lfg_recurrence u -> (forall k, k < 335 -> u k = rv g k) ->
  forall k, u k = useq g (N.of_nat k).
Proof.
  intros H R U k. induction k as [k IH] using lt_wf_ind.
  destruct (Nat.lt_ge_cases k 335) as [Hk|Hk].
  - rewrite U by exact Hk. pose proof (useq_rv g 0 k H ltac:(lia)) as E. cbn in E. exact E.
  - pose proof (R (k - 335)) as E. replace (k - 335 + 335) with k in E by lia. rewrite E.
    rewrite !IH by lia. replace (N.of_nat k) with (N.of_nat (k - 335) + 335)%N by lia.
    rewrite useq_recN by exact H. f_equal. f_equal. f_equal. lia.
Qed.
Lemma useq_runs g m : lfg_ok g -> forall n, exists t,
  runs LFG_Uint64 (N.iter n lstep g) (map (fun k => useq g (n + N.of_nat k + 335)) (seq 0 m)) t.
Proof.
  intros H. induction m as [|m IH]; intros n; cbn [seq map]; [eexists; constructor|].
  destruct (IH (n + 1)%N) as (t & R). exists t. econstructor.
  - rewrite N.add_0_r. apply useq_out, H.
  - rewrite <- seq_shift, map_map. erewrite map_ext; [exact R|]. intros k. cbv beta. f_equal. lia.
Qed.

(** whatever the object held before, SeedIV(iv) gives the generator started from the window and run 8*607 steps *)
Theorem C54_lfg_seediv old iv : any_value gLFG old -> exists g u, LFG_SeedIV old iv = Ret g /\
  lfg_recurrence u /\ (forall k, k < 335 -> u k = lfg_window iv k) /\
  forall m, exists t, runs LFG_Uint64 g (map (fun k => u (335 + 8 * 607 + k)) (seq 0 m)) t.
Proof.
  intros [L _]. unfold LFG_SeedIV. rewrite go_copy_lfg by exact L.
  destruct (lfg_mix_iv_ok iv 0 lfgS0 lfgS0_length lfgS0_w64) as (s & Es & Ls & Ws). rewrite Es. cbn [bind].
  change (lfgK - lfgJ) with 334. change (lfgK * 8) with (8 * 607).
  pose proof (lfg_fresh_ok s Ls Ws) as Hok. rewrite lfg_skip_iter by exact Hok.
  eexists. exists (fun k => useq (mkLFG 334 0 s) (N.of_nat k)). split; [reflexivity|]. split; [|split].
  - intros n. rewrite !Nat2N.inj_add. apply useq_recN, Hok.
  - intros k Hk. transitivity (rv (mkLFG 334 0 s) k).
    + symmetry. exact (useq_rv _ 0 k Hok ltac:(lia)).
    + unfold rv; cbn [lt ls]. rewrite Nat.add_0_l, Nat.mod_small by lia.
      rewrite (lfg_mix_spec iv 0 lfgS0 s lfgS0_length lfgS0_w64 Es k) by lia. reflexivity.
  - intros m. destruct (useq_runs _ m Hok (N.of_nat (8 * 607))) as (t & Rt). exists t.
    erewrite map_ext; [exact Rt|]. intros k. cbv beta. f_equal. lia.
Qed.
(** there is only one such sequence *)
Theorem C54_recurrence_determines_sequence u v : lfg_recurrence u -> lfg_recurrence v ->
  (forall k, k < 335 -> u k = v k) -> forall k, u k = v k.
Proof.
  intros Ru Rv H k. induction k as [k IH] using lt_wf_ind.
  destruct (Nat.lt_ge_cases k 335) as [Hk|Hk]; [apply H, Hk|].
  pose proof (Ru (k - 335)) as E. pose proof (Rv (k - 335)) as E'. replace (k - 335 + 335) with k in * by lia.
  rewrite E, E', !IH by lia. reflexivity.
Qed.
(** the table itself is a run of the generator: 607 consecutive outputs, the oldest at index 114 *)
Definition table_run : list N := skipn 114 lfgS0 ++ firstn 114 lfgS0.
Definition sub_w (a b : N) : N := ((a + 2 ^ 64 - b) mod 2 ^ 64)%N.
Definition window_for (ys : list N) : list N :=
  let d k := sub_w (nth k ys 0%N) (nth (k - 1) ys 0%N) in
  sub_w (nth 0 ys 0%N) (d 334) :: map d (seq 1 334) ++ zeros 272.
Fixpoint list_eqb (a b : list N) : bool :=
  match a, b with [], [] => true | x :: a, y :: b => (x =? y)%N && list_eqb a b | _, _ => false end.
Lemma list_eqb_eq a : forall b, list_eqb a b = true -> a = b.
Proof.
  induction a as [|x a IH]; intros [|y b] H; try discriminate; [reflexivity|].
  cbn in H. apply andb_prop in H. destruct H as [H1 H2]. apply N.eqb_eq in H1. rewrite H1, (IH b H2). reflexivity.
Qed.
Lemma table_run_check : list_eqb (fst (first_values 607 (mkLFG 334 0 (window_for table_run)))) table_run = true.
Proof. vm_cast_no_check (eq_refl true). Qed.
Lemma sub_w_w a b : w64 (sub_w a b). Proof. apply N.mod_lt. discriminate. Qed.
Lemma window_for_ok ys : length (window_for ys) = 607 /\ Forall w64 (window_for ys).
Proof.
  unfold window_for. split.
  - cbn [length]. rewrite app_length, map_length, seq_length, zeros_length. reflexivity.
  - constructor; [apply sub_w_w|]. apply Forall_app. split.
    + apply Forall_forall. intros x Hx. apply in_map_iff in Hx. destruct Hx as (k & <- & _). apply sub_w_w.
    + apply Forall_forall. intros x Hx. apply repeat_spec in Hx. subst. reflexivity.
Qed.
Theorem C54_table_is_a_run_of_the_generator : exists g t, reachable gLFG g /\
  runs LFG_Uint64 g (skipn 114 lfgS0 ++ firstn 114 lfgS0) t.
Proof.
  destruct (window_for_ok table_run) as [L Hw].
  exists (mkLFG 334 0 (window_for table_run)). eexists. split; [apply lfg_restored_reachable; assumption|].
  pose proof (first_values_runs 607 (mkLFG 334 0 (window_for table_run))) as R.
  rewrite (list_eqb_eq _ _ table_run_check) in R. exact R.
Qed.
Example C54_nonvacuous : any_value gLFG LFG_zero /\ lfg_window [] 5 = nth 5 lfgS0 0%N /\
  lfg_window [7%N] 334 = ((nth 334 lfgS0 0 + nth 7 lfgS0 0) mod 2 ^ 64)%N /\ lfg_window [7%N] 334 <> lfg_window [] 334.
Proof.
  split; [split; [reflexivity|apply Forall_forall; intros x Hx; apply repeat_spec in Hx; subst; reflexivity]|].
  split; [apply N.eqb_eq; vm_compute; reflexivity|]. split; [apply N.eqb_eq; vm_compute; reflexivity|].
  apply N.eqb_neq; vm_compute; reflexivity.
Qed.

(** ** C55 *)
Lemma rv_new g n i : lfg_ok g -> i < 335 -> rv (N.iter n lstep g) i = useq g (n + N.of_nat i).
Proof. intros H Hi. apply useq_rv; [exact H|lia]. Qed.
Lemma lstep_rv_old g i : lfg_ok g -> 335 <= i < 606 -> rv (lstep g) i = rv g (i + 1).
Proof.
  intros H Hi. destruct (lfg_step g H) as (g' & E & _ & _ & R). unfold lstep. rewrite E, R by lia.
  destruct (Nat.eqb_spec i 334); [lia|]. f_equal. apply Nat.mod_small. lia.
Qed.
Lemma lstep_rv_606 g : lfg_ok g -> rv (lstep g) 606 = rv g 0.
Proof.
  intros H. destruct (lfg_step g H) as (g' & E & _ & _ & R). unfold lstep. rewrite E, R by lia. reflexivity.
Qed.
Lemma rv_old g j : lfg_ok g -> j < 272 -> forall n, rv (N.iter (n + N.of_nat j + 1) lstep g) (606 - j) = useq g n.
Proof.
  intros H. induction j as [|j IH]; intros Hj n.
  - cbn [N.of_nat]. rewrite N.add_0_r, N.add_1_r, N.iter_succ. rewrite Nat.sub_0_r, lstep_rv_606 by (now apply literate_ok).
    reflexivity.
  - rewrite N.add_1_r, N.iter_succ, lstep_rv_old by (try apply literate_ok; try exact H; lia).
    replace (n + N.of_nat (S j))%N with (n + N.of_nat j + 1)%N by lia.
    replace (606 - S j + 1) with (606 - j) by lia. apply IH. lia.
Qed.
Lemma nth_last_n {A} (d : A) n l i : n <= length l -> nth i (last_n n l) d = nth (length l - n + i) l d.
Proof. intros H. unfold last_n. apply nth_skipn. Qed.
Lemma last_n_length {A} n (l : list A) : n <= length l -> length (last_n n l) = n.
Proof. intros H. unfold last_n. rewrite skipn_length. lia. Qed.

(** the saved words: the last 335 values returned, oldest first, then 272 further words *)
Theorem C55_save_begins_with_last_335_values g xs t : reachable gLFG g -> runs LFG_Uint64 g xs t -> 335 <= length xs ->
  exists rest, length rest = 272 /\
  forall W (write : writer W) w, LFG_Save write t w = write w (words_le (last_n 335 xs ++ rest)).
Proof.
  intros Hg R Hl. apply lfg_reach_ok in Hg. destruct (runs_useq g xs t Hg R) as [Et Hn].
  assert (Ht : lfg_ok t) by (rewrite Et; now apply literate_ok).
  exists (skipn 335 (rot t)). split; [rewrite skipn_length, rot_length by exact Ht; reflexivity|].
  intros W write w. rewrite LFG_Save_spec by exact Ht. rewrite words_le_stream. do 2 f_equal.
  rewrite <- (firstn_skipn 335 (rot t)) at 1. f_equal.
  apply (list_eq_nth 0%N); [rewrite firstn_length, rot_length, last_n_length by assumption; reflexivity|].
  intros i Hi. rewrite firstn_length, rot_length in Hi by exact Ht. 
  rewrite nth_firstn, rot_nth, nth_last_n by (assumption || lia).
  rewrite Hn by lia. rewrite Et, rv_new by (assumption || lia). f_equal. lia.
Qed.
(** after at least 607 calls these are the 272 values returned before those *)
Theorem C55_save_layout g xs t : reachable gLFG g -> runs LFG_Uint64 g xs t -> 607 <= length xs ->
  forall W (write : writer W) w, LFG_Save write t w = write w (words_le (last_n 335 xs ++ firstn 272 (last_n 607 xs))).
Proof.
  intros Hg R Hl W write w. apply lfg_reach_ok in Hg. destruct (runs_useq g xs t Hg R) as [Et Hn].
  assert (Ht : lfg_ok t) by (rewrite Et; now apply literate_ok).
  rewrite LFG_Save_spec by exact Ht. rewrite words_le_stream. do 2 f_equal.
  apply (list_eq_nth 0%N).
  - rewrite app_length, firstn_length, rot_length, !last_n_length by (assumption || lia). reflexivity.
  - intros i Hi. rewrite rot_length in Hi by exact Ht. rewrite rot_nth by assumption.
    destruct (Nat.lt_ge_cases i 335) as [Hi'|Hi'].
    + rewrite app_nth1 by (rewrite last_n_length; lia). rewrite nth_last_n, Hn by lia.
      rewrite Et, rv_new by (assumption || lia). f_equal. lia.
    + rewrite app_nth2 by (rewrite last_n_length; lia). rewrite last_n_length by lia.
      rewrite nth_firstn, nth_last_n, Hn by lia.
      set (n := (N.of_nat (length xs) + N.of_nat i - 607)%N).
      pose proof (rv_old g (606 - i) Hg ltac:(lia) n) as E.
      replace (606 - (606 - i)) with i in E by lia.
      replace (n + N.of_nat (606 - i) + 1)%N with (N.of_nat (length xs)) in E by (subst n; lia).
      rewrite Et, E. f_equal. subst n. lia.
Qed.

(** Restore uses only the first 2680 = 8*335 bytes as far as values are concerned *)
Lemma agree_runs k g h xs g' : lfg_ok g -> lfg_ok h -> agree k g h -> runs LFG_Uint64 g xs g' ->
  exists h', runs LFG_Uint64 h xs h' /\ agree (length xs + k) g' h'.
Proof.
  intros Hg Hh Ha R. revert k h Hg Hh Ha. induction R as [s|s x s1 xs s' E R IH]; intros k h Hg Hh Ha.
  - exists h. split; [constructor|exact Ha].
  - destruct (lfg_total s Hg) as (x1 & s1' & E1 & Hs1). rewrite E in E1. inversion E1; subst x1 s1'.
    destruct (lfg_total h Hh) as (y & h1 & E2 & Hh1).
    destruct (agree_step k s h s1 h1 x y Hg Hh Ha E E2) as [<- Ha'].
    destruct (IH (S k) h1 Hs1 Hh1 Ha') as (h' & R' & A). exists h'. split; [econstructor; eauto|].
    cbn [length]. replace (S (length xs) + k) with (length xs + S k) by lia. exact A.
Qed.
Lemma runs_lt g xs g' : lfg_ok g -> runs LFG_Uint64 g xs g' -> lfg_ok g' /\ lt g' = (lt g + length xs) mod 607.
Proof.
  intros Hg R. induction R as [s|s x s1 xs s' E R IH].
  - split; [exact Hg|]. destruct Hg as (_ & Ht & _). cbn [length]. rewrite Nat.add_0_r, Nat.mod_small by exact Ht. reflexivity.
  - destruct (lfg_step s Hg) as (g1 & E1 & H1 & T1 & _). rewrite E in E1. inversion E1; subst g1.
    destruct (IH H1) as [H2 T2]. split; [exact H2|]. rewrite T2, T1. cbn [length]. lia.
Qed.
Lemma get_words_nth n : forall p i ws, get_words p i n = Ret ws -> length ws = n /\
  forall k, k < n -> nth k ws 0%N = le_val (firstn 8 (skipn (8 * (i + k)) p)).
Proof.
  induction n as [|n IH]; intros p i ws E; cbn [get_words] in E.
  - inversion E. split; [reflexivity|]. intros k Hk. lia.
  - unfold get64 at 1 in E. destruct (8 * i + 8 <=? length p); cbn [bind] in E; [|discriminate].
    destruct (get_words p (S i) n) as [r| |] eqn:Er; cbn [bind] in E; try discriminate.
    set (a := le_val _) in E. assert (E' : ws = a :: r) by congruence. clear E. subst ws.
    destruct (IH _ _ _ Er) as [L N0]. split; [cbn [length]; now rewrite L|].
    intros [|k] Hk; cbn [nth]; [subst a; rewrite Nat.add_0_r; reflexivity|]. rewrite N0 by lia. do 3 f_equal. lia.
Qed.
Lemma skipn_firstn_sub {A} a b c (p : list A) : b + a <= c -> firstn a (skipn b (firstn c p)) = firstn a (skipn b p).
Proof.
  intros H. rewrite skipn_firstn_comm, firstn_firstn. f_equal. lia.
Qed.
Theorem C55_restore_ignores_the_other_words W (read : reader W) W' (read' : reader W') h h' w w' v v' p q :
  length p = 4856 -> length q = 4856 -> Forall isbyte p -> Forall isbyte q -> firstn 2680 p = firstn 2680 q ->
  read w (zeros 4856) = Ret ((p, 4856, None), w') -> read' v (zeros 4856) = Ret ((q, 4856, None), v') ->
  exists g g', LFG_Restore read h w = Ret ((4856, None), g, w') /\ LFG_Restore read' h' v = Ret ((4856, None), g', v') /\
    forall xs t, runs LFG_Uint64 g xs t -> exists t', runs LFG_Uint64 g' xs t' /\ (272 <= length xs -> t' = t).
Proof.
  intros Lp Lq Bp Bq E Ep Eq.
  change 4856 with (lfgK * 8) in Ep, Eq |- *.
  rewrite (LFG_Restore_spec _ h _ _ _ _ _ Ep), (LFG_Restore_spec _ h' _ _ _ _ _ Eq), !Nat.ltb_irrefl.
  destruct (get_words_ok 607 0 p) as (vs & Ev & Lv & Wv); [rewrite Lp; apply Nat.leb_le; vm_compute; reflexivity|exact Bp|].
  destruct (get_words_ok 607 0 q) as (us & Eu & Lu & Wu); [rewrite Lq; apply Nat.leb_le; vm_compute; reflexivity|exact Bq|].
  rewrite Ev, Eu. cbn [bind]. exists (mkLFG 334 0 vs), (mkLFG 334 0 us). split; [reflexivity|]. split; [reflexivity|].
  pose proof (lfg_fresh_ok vs Lv Wv) as Hg. pose proof (lfg_fresh_ok us Lu Wu) as Hh.
  assert (A : agree 0 (mkLFG 334 0 vs) (mkLFG 334 0 us)).
  { intros i Hi [Hc|Hc]; [|lia]. unfold rv; cbn [lt ls]. rewrite Nat.add_0_l, Nat.mod_small by exact Hi.
    destruct (get_words_nth _ _ _ _ Ev) as [_ ->]; [|exact Hi]. destruct (get_words_nth _ _ _ _ Eu) as [_ ->]; [|exact Hi].
    rewrite <- (skipn_firstn_sub 8 _ (8 * 335) p), <- (skipn_firstn_sub 8 _ (8 * 335) q) by lia.
    change (8 * 335) with 2680. rewrite E. reflexivity. }
  intros xs t R. destruct (agree_runs 0 _ _ xs t Hg Hh A R) as (t' & R' & A').
  exists t'. split; [exact R'|]. intros Hx.
  destruct (runs_lt _ _ _ Hg R) as [Ht Tt]. destruct (runs_lt _ _ _ Hh R') as [Ht' Tt'].
  apply rv_ext; auto.
  - rewrite Tt, Tt'. reflexivity.
  - intros i Hi. symmetry. apply A'; lia.
Qed.

(** every sequence of 335 values is the beginning of some restored generator's stream *)
Lemma add64_sub_w a b : w64 a -> w64 b -> add64 a (sub_w b a) = b.
Proof.
  intros Ha Hb. rewrite add64_mod. unfold sub_w. rewrite N.add_mod_idemp_r by discriminate.
  unfold w64 in *. replace (a + (b + 2 ^ 64 - a))%N with (b + 1 * 2 ^ 64)%N by lia.
  rewrite N.mod_add by discriminate. apply N.mod_small, Hb.
Qed.
Lemma nth_w64 l i : Forall w64 l -> w64 (nth i l 0%N).
Proof.
  intros H. destruct (Nat.lt_ge_cases i (length l)) as [Hi|Hi].
  - rewrite Forall_forall in H. apply H, nth_In, Hi.
  - rewrite nth_overflow by exact Hi. reflexivity.
Qed.
Lemma window_for_nth ys k : 1 <= k <= 334 -> nth k (window_for ys) 0%N = sub_w (nth k ys 0%N) (nth (k - 1) ys 0%N).
Proof.
  intros Hk. unfold window_for. destruct k as [|k]; [lia|]. cbn [nth].
  rewrite app_nth1 by (rewrite map_length, seq_length; lia).
  set (d := fun k => sub_w (nth k ys 0%N) (nth (k - 1) ys 0%N)).
  rewrite (nth_indep _ 0%N (d 0)) by (rewrite map_length, seq_length; lia).
  rewrite map_nth, seq_nth by lia. reflexivity.
Qed.
Lemma useq_window_for ys k : Forall w64 ys -> k < 335 ->
  useq (mkLFG 334 0 (window_for ys)) (N.of_nat k + 335) = nth k ys 0%N.
Proof.
  intros Hy. destruct (window_for_ok ys) as [L Hw]. pose proof (lfg_fresh_ok _ L Hw) as Hok.
  set (g := mkLFG 334 0 (window_for ys)) in *.
  assert (W : forall j, j < 335 -> useq g (N.of_nat j) = nth j (window_for ys) 0%N).
  { intros j Hj. transitivity (rv g j); [symmetry; exact (useq_rv g 0 j Hok ltac:(lia))|].
    unfold rv, g; cbn [lt ls]. now rewrite Nat.add_0_l, Nat.mod_small by lia. }
  induction k as [|k IH]; intros Hk.
  - rewrite useq_rec by exact Hok. change (N.of_nat 0 + 334)%N with (N.of_nat 334). rewrite !W by lia.
    rewrite (window_for_nth ys 334) by lia. change (nth 0 (window_for ys) 0%N) with
      (sub_w (nth 0 ys 0%N) (sub_w (nth 334 ys 0%N) (nth (334 - 1) ys 0%N))).
    apply add64_sub_w; [apply sub_w_w|apply nth_w64, Hy].
  - rewrite useq_rec by exact Hok. replace (N.of_nat (S k) + 334)%N with (N.of_nat k + 335)%N by lia.
    rewrite IH, W, window_for_nth by lia. replace (S k - 1) with k by lia.
    apply add64_sub_w; apply nth_w64, Hy.
Qed.
Theorem C55_every_335_values_occur ys : length ys = 335 -> Forall w64 ys -> exists ws, length ws = 607 /\ Forall w64 ws /\
  forall W (read : reader W) h w w', read w (zeros 4856) = Ret ((words_le ws, 4856, None), w') ->
  exists g t, LFG_Restore read h w = Ret ((4856, None), g, w') /\ runs LFG_Uint64 g ys t.
Proof.
  intros L Hy. destruct (window_for_ok ys) as [Lw Hw]. exists (window_for ys). split; [exact Lw|]. split; [exact Hw|].
  intros W read h w w' E. rewrite words_le_stream in E.
  change 4856 with (lfgK * 8) in E |- *. rewrite (LFG_Restore_spec _ h _ _ _ _ _ E), Nat.ltb_irrefl.
  pose proof (get_words_spec0 (window_for ys) [] Hw) as G. rewrite app_nil_r, Lw in G. rewrite G. cbn [bind].
  pose proof (lfg_fresh_ok _ Lw Hw) as Hok.
  destruct (useq_runs _ 335 Hok 0) as (t & R). cbn [N.iter] in R.
  exists (mkLFG 334 0 (window_for ys)), t. split; [reflexivity|].
  replace ys with (map (fun k => useq (mkLFG 334 0 (window_for ys)) (0 + N.of_nat k + 335)) (seq 0 335)) at 2; [exact R|].
  apply (list_eq_nth 0%N); [rewrite map_length, seq_length; now rewrite L|].
  intros k Hk. rewrite map_length, seq_length in Hk.
  set (d := fun k => useq (mkLFG 334 0 (window_for ys)) (0 + N.of_nat k + 335)).
  rewrite (nth_indep _ 0%N (d 0)) by (rewrite map_length, seq_length; exact Hk).
  rewrite map_nth, seq_nth by exact Hk. unfold d. rewrite N.add_0_l. apply useq_window_for; assumption.
Qed.
Example C55_nonvacuous : exists g xs t, reachable gLFG g /\ runs LFG_Uint64 g xs t /\ length xs = 700.
Proof.
  exists NewLFG. destruct (runs_exist_lfg 700 NewLFG (lfg_new_ok)) as (xs & t & R & L).
  exists xs, t. split; [apply reach_new|]. split; [exact R|exact L].
Qed.
