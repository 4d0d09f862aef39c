(** MT64: seeding, save and restore, no panics, dead states. *)
From Coq Require Import Lia ZifyN ZifyNat ZifyBool.
From Verif Require Import Proofs.WordLemmas Proofs.ReadProofs Proofs.SaveProofs Proofs.PureGen
  Proofs.SplitMix Proofs.IvWords Proofs.MtProofs Proofs.XoroSeed
  Model.GenRead Model.Lfg Model.Mt64 Model.Api Spec.States Spec.MtRef.
Ltac Zify.zify_post_hook ::= Z.div_mod_to_equations.
Local Open Scope nat_scope.

(** ** Seed *)
Fixpoint seed_word (x : N) (i : nat) : N :=
  match i with
  | O => x
  | S i' => add64 (mul64 6364136223846793005 (N.lxor (seed_word x i') (shr64 (seed_word x i') 62))) (N.of_nat i)
  end.
Lemma seed_word_w x i : w64 x -> w64 (seed_word x i).
Proof. intros H. destruct i; cbn [seed_word]; [exact H|apply add64_w]. Qed.
Lemma mt_seed_loop_spec x k : forall i s, i + k = 312 -> 1 <= i -> length s = 312 ->
  (forall j, j < i -> nth j s 0%N = seed_word x j) ->
  exists s', mt_seed_loop k i s = Ret s' /\ length s' = 312 /\ forall j, j < 312 -> nth j s' 0%N = seed_word x j.
Proof.
  induction k as [|k IH]; intros i s Hk Hi L H; cbn [mt_seed_loop].
  - exists s. repeat split; [exact L|]. intros j Hj. apply H. lia.
  - rewrite (aget_nth s (i - 1) 0%N) by lia. cbn [bind]. rewrite aset_ok by lia. cbn [bind].
    apply IH; [lia|lia|now rewrite lupd_length|]. intros j Hj. rewrite nth_lupd by lia.
    destruct (Nat.eqb_spec j i) as [->|Hne]; [|apply H; lia].
    rewrite H by lia. destruct i as [|i]; [lia|]. cbn [seed_word]. now replace (S i - 1) with i by lia.
Qed.
Definition seed_state (x : N) : list N := map (seed_word x) (seq 0 312).
Lemma seed_state_length x : length (seed_state x) = 312.
Proof. unfold seed_state. now rewrite map_length, seq_length. Qed.
Lemma seed_state_nth x j : j < 312 -> nth j (seed_state x) 0%N = seed_word x j.
Proof.
  intros H. unfold seed_state. rewrite nth_indep with (d' := seed_word x 0) by (rewrite map_length, seq_length; lia).
  rewrite map_nth, seq_nth by lia. reflexivity.
Qed.
Lemma MT64_Seed_closed old x : length (ms old) = 312 -> MT64_Seed old x = Ret (mkMT 312 (seed_state x)).
Proof.
  intros L. unfold MT64_Seed. rewrite aset_ok by lia. cbn [bind]. change (mt64N - 1) with 311.
  destruct (mt_seed_loop_spec x 311 1 (lupd (ms old) 0 x)) as (s' & -> & L' & H').
  - reflexivity.
  - lia.
  - now rewrite lupd_length.
  - intros j Hj. rewrite nth_lupd by lia. replace j with 0 by lia. reflexivity.
  - cbn [bind]. do 2 f_equal. apply (list_eq_nth 0%N).
    + now rewrite seed_state_length.
    + intros j Hj. rewrite H', seed_state_nth by lia. reflexivity.
Qed.
Lemma seed_state_w x : w64 x -> Forall w64 (seed_state x).
Proof.
  intros H. apply Forall_forall. intros y Hy. unfold seed_state in Hy. rewrite in_map_iff in Hy.
  destruct Hy as (i & <- & _). now apply seed_word_w.
Qed.
Lemma seed_state_ref x : is_init_genrand64 x (seed_state x).
Proof.
  split; [apply seed_state_length|]. split; [now rewrite seed_state_nth by lia|].
  intros i Hi. rewrite !seed_state_nth by lia. destruct i as [|i]; [lia|]. replace (S i - 1) with i by lia.
  cbn [seed_word]. rewrite add64_mod, mul64_mod. rewrite N.add_mod_idemp_l by discriminate.
  unfold shr64. now rewrite N.shiftr_div_pow2.
Qed.
Lemma init_genrand64_unique x s s' : is_init_genrand64 x s -> is_init_genrand64 x s' -> s = s'.
Proof.
  intros (L & H0 & H) (L' & H0' & H'). apply (list_eq_nth 0%N); [lia|]. intros j Hj.
  induction j as [|j IH]; [congruence|]. rewrite H, H' by lia. replace (S j - 1) with j by lia.
  rewrite IH by lia. reflexivity.
Qed.

(** ** SeedIV never panics and depends only on iv *)
Lemma mt_bump_ok i s : length s = 312 -> Forall w64 s -> 1 <= i < 312 ->
  exists i' s', mt_bump i s = Ret (i', s') /\ length s' = 312 /\ Forall w64 s' /\ 1 <= i' < 312.
Proof.
  intros L W Hi. unfold mt_bump. change (mt64N - 1) with 311. change mt64N with 312. destruct (Nat.leb_spec 312 (S i)) as [H|H].
  - rewrite (aget_nth s 311 0%N) by lia. cbn [bind]. rewrite aset_ok by lia. cbn [bind].
    eexists _, _. split; [reflexivity|]. rewrite lupd_length. repeat split; try lia.
    apply Forall_lupd; [exact W|]. rewrite Forall_forall in W. apply W, nth_In. lia.
  - eexists _, _. split; [reflexivity|]. repeat split; try assumption; lia.
Qed.
Lemma mt_iv_loop_ok iv : length iv mod 8 = 0 -> 0 < length iv -> forall k i j s, length s = 312 -> Forall w64 s ->
  1 <= i < 312 -> 8 * j < length iv ->
  exists i' s', mt_iv_loop k i j iv s = Ret (i', s') /\ length s' = 312 /\ Forall w64 s' /\ 1 <= i' < 312.
Proof.
  intros H8 H0. induction k as [|k IH]; intros i j s L W Hi Hj; cbn [mt_iv_loop].
  - eauto 6.
  - rewrite (aget_nth s i 0%N), (aget_nth s (i - 1) 0%N) by lia. cbn [bind].
    unfold get64. replace (j * 8 + 8 <=? length iv) with true by (symmetry; apply Nat.leb_le; lia). cbn [bind].
    rewrite aset_ok by lia. cbn [bind].
    match goal with |- context [mt_bump i ?t] => set (s1 := t) end.
    destruct (mt_bump_ok i s1) as (i2 & s2 & -> & L2 & W2 & Hi2).
    + unfold s1. now rewrite lupd_length.
    + apply Forall_lupd; [exact W|apply add64_w].
    + exact Hi.
    + cbn [bind]. destruct (Nat.leb_spec (length iv) (S j * 8)); apply IH; try assumption; lia.
Qed.
Lemma mt_fin_loop_ok : forall k i s, length s = 312 -> Forall w64 s ->
  1 <= i < 312 -> exists s', mt_fin_loop k i s = Ret s' /\ length s' = 312 /\ Forall w64 s'.
Proof.
  induction k as [|k IH]; intros i s L W Hi; cbn [mt_fin_loop].
  - eauto 6.
  - rewrite (aget_nth s i 0%N), (aget_nth s (i - 1) 0%N) by lia. cbn [bind].
    rewrite aset_ok by lia. cbn [bind].
    match goal with |- context [mt_bump i ?t] => set (s1 := t) end.
    destruct (mt_bump_ok i s1) as (i2 & s2 & -> & L2 & W2 & Hi2).
    + unfold s1. now rewrite lupd_length.
    + apply Forall_lupd; [exact W|apply sub64_w].
    + exact Hi.
    + cbn [bind]. apply IH; assumption.
Qed.
Lemma land7 n : Nat.land n 7 = n mod 8.
Proof. change 7 with (Nat.ones 3). now rewrite Nat.land_ones. Qed.
Definition mt_pad (iv : list N) : list N :=
  if negb (Nat.land (length iv) 7 =? 0) then go_copy (zeros (length iv + 8 - Nat.land (length iv) 7)) iv else iv.
Lemma mt_pad_length iv : length (mt_pad iv) = 8 * ceil8 (length iv).
Proof.
  unfold mt_pad, ceil8. rewrite land7. destruct (Nat.eqb_spec (length iv mod 8) 0); cbn [negb].
  - lia.
  - rewrite go_copy_length, zeros_length. lia.
Qed.
Lemma MT64_SeedIV_ok old iv : length (ms old) = 312 -> exists s,
  MT64_SeedIV old iv = Ret (mkMT 312 s) /\ length s = 312 /\ Forall w64 s.
Proof.
  intros L. unfold MT64_SeedIV. rewrite MT64_Seed_closed by exact L. cbn [bind].
  assert (W : Forall w64 (seed_state 19650218)) by (apply seed_state_w; reflexivity).
  destruct (Nat.eqb_spec (length iv) 0) as [E|E].
  - eexists; split; [reflexivity|]. split; [apply seed_state_length|exact W].
  - fold (mt_pad iv). cbv zeta. cbn [ms mi]. pose proof (mt_pad_length iv) as Lp.
    assert (0 < ceil8 (length iv)) by (unfold ceil8; lia).
    destruct (mt_iv_loop_ok (mt_pad iv)) with (k := if mt64N <? length (mt_pad iv) then length (mt_pad iv) else mt64N)
      (i := 1) (j := 0) (s := seed_state 19650218) as (i & s & -> & Ls & Ws & Hi);
      [lia|lia|apply seed_state_length|exact W|lia|lia|].
    cbn [bind]. destruct (mt_fin_loop_ok (mt64N - 1) i s Ls Ws Hi) as (s' & -> & L' & W'). cbn [bind]. eauto.
Qed.
Lemma MT64_SeedIV_history o1 o2 iv : length (ms o1) = 312 -> length (ms o2) = 312 ->
  MT64_SeedIV o1 iv = MT64_SeedIV o2 iv.
Proof. intros H1 H2. unfold MT64_SeedIV. now rewrite !MT64_Seed_closed by assumption. Qed.
Lemma MT64_SeedIV_nil old : length (ms old) = 312 -> MT64_SeedIV old [] = MT64_Seed old 19650218.
Proof. intros H. unfold MT64_SeedIV. now rewrite MT64_Seed_closed by assumption. Qed.
Lemma MT64_Seed_inj old old' x y g : length (ms old) = 312 -> length (ms old') = 312 ->
  MT64_Seed old x = Ret g -> MT64_Seed old' y = Ret g -> x = y.
Proof.
  intros L L' E E'. rewrite MT64_Seed_closed in E, E' by assumption. rewrite <- E in E'.
  pose proof (f_equal (fun o => match o with Ret g => nth 0 (ms g) 0%N | _ => 0%N end) E') as H.
  cbn [ms] in H. rewrite !seed_state_nth in H by lia. symmetry. exact H.
Qed.

(** ** Save and Restore *)
Definition mt_bytes (g : mt64) : list N := stream_bytes (ms g) ++ [N.land (N.shiftr (mi g) 8) 255; N.land (mi g) 255].
Lemma lupd_app {A} (a b : list A) i v : lupd (a ++ b) (length a + i) v = a ++ lupd b i v.
Proof. induction a as [|x a IH]; cbn; [reflexivity|]. now rewrite IH. Qed.
Lemma stream_312 (s : list N) : length s = 312 -> length (stream_bytes s) = 312 * 8.
Proof. intros H. rewrite stream_bytes_length. lia. Qed.
Lemma MT64_Save_spec {W} (write : writer W) g w : mt_typed g -> MT64_Save write g w = write w (mt_bytes g).
Proof.
  intros [L Wd]. unfold MT64_Save. change mt64N with 312. rewrite Nat.add_comm, zeros_app.
  pose proof (put_words_spec (ms g) [] 0 (zeros (312 * 8)) (zeros 2)) as E. cbn [app] in E. rewrite E.
  2: reflexivity. 2: rewrite zeros_length; lia. clear E. cbn [bind].
  set (p := stream_bytes (ms g)). assert (Lp : length p = 312 * 8) by (apply stream_312, L).
  assert (L1 : length (p ++ zeros 2) = length p + 2) by (rewrite app_length; reflexivity).
  rewrite aset_ok by lia. cbn [bind]. rewrite lupd_length, L1.
  replace (length p + 2 - 2) with (length p + 0) by lia. rewrite lupd_app.
  replace (length p + 2 - 1) with (length p + 1) by lia.
  rewrite aset_ok by (rewrite app_length, lupd_length; cbn; lia). cbn [bind]. rewrite lupd_app. reflexivity.
Qed.
Lemma aget_app {A} (a b : list A) i : aget (a ++ b) (length a + i) = aget b i.
Proof. unfold aget. rewrite nth_error_app2 by lia. now replace (length a + i - length a) with i by lia. Qed.
Lemma land_lor_bytes i : (i < 65536)%N ->
  N.lor (N.shiftl (N.land (N.shiftr i 8) 255) 8) (N.land i 255) = i.
Proof.
  intros H. rewrite N.shiftl_mul_pow2, !land255, shiftr8. rewrite lor_add_disjoint by (apply N.mod_lt; discriminate).
  change (2 ^ 8)%N with 256%N. lia.
Qed.
Definition mt_ok (g : mt64) : Prop := mt_typed g /\ (mi g < 65536)%N.
Lemma MT64_Restore_saved {W} (read : reader W) g w s n w' : mt_ok s ->
  read w (zeros (2 + mt64N * 8)) = Ret ((mt_bytes s, n, None), w') ->
  MT64_Restore read g w = Ret ((n, None), s, w').
Proof.
  intros [[L Wd] Hi] E. unfold MT64_Restore. rewrite E. cbn [bind]. unfold mt_bytes.
  pose proof (get_words_spec0 (ms s) [N.land (N.shiftr (mi s) 8) 255; N.land (mi s) 255] Wd) as G.
  rewrite L in G. change mt64N with 312. rewrite G. cbn [bind].
  rewrite app_length. cbn [length].
  replace (length (stream_bytes (ms s)) + 2 - 2) with (length (stream_bytes (ms s)) + 0) by lia.
  replace (length (stream_bytes (ms s)) + 2 - 1) with (length (stream_bytes (ms s)) + 1) by lia.
  rewrite !aget_app. cbn [aget nth_error bind]. rewrite land_lor_bytes by exact Hi. now destruct s.
Qed.
Lemma MT64_Restore_ok {W} (read : reader W) g w p n e w' : mt_ok g ->
  read w (zeros (2 + mt64N * 8)) = Ret ((p, n, e), w') -> length p = 2 + mt64N * 8 -> Forall isbyte p ->
  exists g', MT64_Restore read g w = Ret ((n, e), g', w') /\ mt_ok g'.
Proof.
  intros Hg E Hl Hb. unfold MT64_Restore. rewrite E. cbn [bind]. destruct e as [e|]; [eauto|].
  change mt64N with 312 in *.
  destruct (get_words_ok 312 0 p) as (vs & -> & L & Wd); [lia|exact Hb|]. cbn [bind].
  rewrite (aget_nth p (length p - 2) 0%N), (aget_nth p (length p - 1) 0%N) by lia. cbn [bind].
  eexists; split; [reflexivity|]. split; [split; assumption|]. cbn [mi].
  assert (B : forall k, k < length p -> (nth k p 0 < 256)%N).
  { intros k Hk. rewrite Forall_forall in Hb. apply Hb, nth_In, Hk. }
  change 65536%N with (2 ^ 16)%N. apply lor_bound.
  - rewrite N.shiftl_mul_pow2. specialize (B (length p - 2)). change (2 ^ 16)%N with (2 ^ 8 * 2 ^ 8)%N.
    apply N.mul_lt_mono_pos_r; [reflexivity|]. apply B. lia.
  - apply N.lt_trans with 256%N; [apply B; lia|reflexivity].
Qed.
Lemma mt_step_ok g : mt_ok g -> exists x g', MT64_Uint64 g = Ret (x, g') /\ mt_ok g'.
Proof.
  intros [Hg Hi]. destruct (mt_total g Hg) as (x & g' & E & H'). exists x, g'. split; [exact E|]. split; [exact H'|].
  revert E. unfold MT64_Uint64. change (N.of_nat mt64N) with 312%N. destruct (N.leb_spec 312 (mi g)) as [H|H].
  - destruct (mt_regen (ms g)) as [s| |]; cbn [bind]; try discriminate. cbn [mi ms].
    destruct (aget s (N.to_nat 0)); cbn [bind]; try discriminate. intros E. injection E as _ <-. cbn [mi]. lia.
  - cbn [bind]. destruct (aget (ms g) (N.to_nat (mi g))); cbn [bind]; try discriminate.
    intros E. injection E as _ <-. cbn [mi]. lia.
Qed.
Lemma mt_exec_ok g o : mt_ok g -> op_ok o -> exists b g', exec apiMT64 g o = Ret (b, g') /\ mt_ok g'.
Proof.
  intros Hg Ho. pose proof Hg as [[L Wd] _]. destruct o as [iv|x| | |p| |r| |];
    cbn [exec a_SeedIV a_Seed a_Uint64 a_Int63 a_Read a_Save a_Restore a_Jump a_Reverse apiMT64].
  - destruct (MT64_SeedIV_ok g iv L) as (s & -> & Ls & Ws). cbn [bind]. eexists _, _. split; [reflexivity|].
    split; [split; assumption|reflexivity].
  - rewrite MT64_Seed_closed by exact L. cbn [bind]. eexists _, _. split; [reflexivity|].
    split; [|reflexivity]. split; [apply seed_state_length|]. apply seed_state_w, Ho.
  - destruct (mt_step_ok g Hg) as (x & g' & -> & H'). cbn [bind]. eauto.
  - unfold MT64_Int63. destruct (mt_step_ok g Hg) as (x & g' & -> & H'). cbn [bind]. eauto.
  - unfold MT64_Read. destruct (read_gt8_spec _ _ mt_step_ok p g Hg) as (xs & s' & _ & _ & H' & ->). cbn [bind]. eauto.
  - rewrite MT64_Save_spec by apply Hg. cbn [bind buffer_writer]. eauto.
  - cbn [op_ok] in Ho. pose proof (Ho _ (zeros_isbyte (2 + mt64N * 8))) as Hr.
    destruct (r (zeros (2 + mt64N * 8))) as [[p n] e] eqn:Er. cbn [fst] in Hr. rewrite zeros_length in Hr. destruct Hr as [Hl Hb].
    assert (Erd : fun_reader r tt (zeros (2 + mt64N * 8)) = Ret ((p, n, e), tt)) by (unfold fun_reader; now rewrite Er).
    destruct (MT64_Restore_ok _ g _ _ _ _ _ Hg Erd Hl Hb) as (g' & -> & H'). cbn [bind]. eauto.
  - eauto.
  - eauto.
Qed.
Lemma mt_new_ok : mt_ok NewMT64.
Proof.
  split; [split|reflexivity]; [reflexivity|]. apply Forall_forall. intros x Hx.
  apply repeat_spec in Hx. subst. reflexivity.
Qed.
Lemma mt_reach_ok g : reach apiMT64 g -> mt_ok g.
Proof. apply (reach_inv apiMT64 mt_ok mt_new_ok mt_exec_ok). Qed.

(** ** zero windows *)
Lemma ref_twist_0 a b : w64 a -> (ref_twist a b = 0 -> a / 2 ^ 31 = 0 /\ b mod 2 ^ 31 = 0)%N.
Proof.
  intros Ha. unfold w64 in Ha. unfold ref_twist. set (x := ((a / 2 ^ 31) * 2 ^ 31 + b mod 2 ^ 31)%N). intros H.
  cbv zeta in H. apply N.lxor_eq in H.
  assert (Hx : (x < 2 ^ 64)%N) by (unfold x; lia).
  assert (x = 0%N).
  { destruct (N.odd x) eqn:O; [unfold mtA in H; lia|]. rewrite <- N.negb_even, negb_false_iff, N.even_spec in O.
    destruct O as [y Hy]. lia. }
  unfold x in *. lia.
Qed.
Section Zero.
  Variable u : nat -> N.
  Hypothesis R : mt_recurrence u.
  Hypothesis W : forall n, w64 (u n).
  Definition zwin (m : nat) : Prop := forall j, j < 312 -> u (m + j) = 0%N.
  Lemma zwin_forward m : zwin m -> zwin (S m).
  Proof.
    intros H j Hj. destruct (Nat.eq_dec j 311) as [->|Hne].
    - replace (S m + 311) with (m + 312) by lia. rewrite R.
      rewrite (H 156), (H 1) by lia. pose proof (H 0) as H0. rewrite Nat.add_0_r in H0. rewrite H0 by lia. reflexivity.
    - replace (S m + j) with (m + S j) by lia. apply H. lia.
  Qed.
  Lemma zwin_zero m n : zwin m -> m <= n -> u n = 0%N.
  Proof.
    intros H Hn. assert (Z : zwin n).
    { induction Hn as [|n Hn IH]; [exact H|]. now apply zwin_forward. }
    specialize (Z 0). rewrite Nat.add_0_r in Z. apply Z. lia.
  Qed.
  Lemma zwin_back m : zwin (S (S m)) -> zwin (S m).
  Proof.
    intros H j Hj. destruct j as [|j].
    - pose proof (R (S m)) as E1. pose proof (R m) as E0.
      pose proof (H 310) as A. pose proof (H 155) as B. pose proof (H 154) as C. pose proof (H 311) as D. 
      replace (S (S m) + 310) with (m + 312) in A by lia. replace (S (S m) + 155) with (S m + 156) in B by lia.
      replace (S (S m) + 154) with (m + 156) in C by lia.
      rewrite A, C in E0 by lia. rewrite N.lxor_0_l in E0.
      replace (S (S m) + 311) with (S m + 312) in D by lia. rewrite D, B in E1 by lia. rewrite N.lxor_0_l in E1.
      symmetry in E0, E1. apply ref_twist_0 in E0; [|apply W]. apply ref_twist_0 in E1; [|apply W].
      rewrite Nat.add_0_r. destruct E0 as [_ E0], E1 as [E1 _]. replace (m + 1) with (S m) in E0 by lia.
      pose proof (N.div_mod' (u (S m)) (2 ^ 31)). lia.
    - replace (S m + S j) with (S (S m) + j) by lia. apply H. lia.
  Qed.
  Lemma zwin_all m n : zwin m -> 1 <= n -> u n = 0%N.
  Proof.
    intros H Hn. assert (Z : forall k, zwin (S k) -> zwin 1).
    { induction k as [|k IH]; [auto|]. intros Hk. apply IH, zwin_back, Hk. }
    assert (Z1 : zwin 1). { apply zwin_forward in H. apply (Z m H). }
    apply (zwin_zero 1); assumption.
  Qed.
End Zero.
Lemma seed_not_zero x : seed_word x 1 <> 0%N \/ seed_word x 2 <> 0%N.
Proof.
  destruct (N.eq_dec (seed_word x 1) 0) as [E|E]; [right|now left].
  cbn [seed_word] in *. rewrite E. vm_compute. discriminate.
Qed.
(** two sequences that agree on 312 consecutive words agree from there on *)
Lemma rec_unique u v m : mt_recurrence u -> mt_recurrence v -> (forall j, j < 312 -> u (m + j) = v (m + j)) ->
  forall n, m <= n -> u n = v n.
Proof.
  intros Ru Rv H n. induction n as [n IH] using lt_wf_ind. intros Hn.
  destruct (Nat.lt_ge_cases n (m + 312)) as [Hl|Hl].
  - replace n with (m + (n - m)) by lia. apply H. lia.
  - replace n with (n - 312 + 312) by lia. rewrite Ru, Rv. rewrite !IH by lia. reflexivity.
Qed.
