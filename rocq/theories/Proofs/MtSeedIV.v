(** MT64.SeedIV: its loops as one sequence; recovering the IV from the state; recovering the state from outputs. *)
From Coq Require Import Lia ZifyN ZifyNat ZifyBool.
From Verif Require Import Proofs.WordLemmas Proofs.ReadProofs Proofs.SaveProofs Proofs.PureGen
  Proofs.SplitMix Proofs.IvWords Proofs.MtProofs Proofs.XoroSeed Proofs.MtSeed
  Model.GenRead Model.Lfg Model.Mt64 Model.Api Spec.States Spec.MtRef Spec.MtSeedRef.
Ltac Zify.zify_post_hook ::= Z.div_mod_to_equations.
Local Open Scope nat_scope.

(** ** the sequence exists *)
Section Sequence.
  Variables (I : list N) (F : nat -> N -> N -> N).
  Hypothesis LI : length I = 312.
  Definition pidx (t : nat) : nat := if t =? 0 then 0 else 311 + t.
  Fixpoint xlist (n : nat) : list N :=
    match n with O => I | S n => let l := xlist n in l ++ [F n (nth (pidx n) l 0%N) (nth (n + 1) l 0%N)] end.
  Lemma xlist_length n : length (xlist n) = 312 + n.
  Proof. induction n as [|n IH]; cbn [xlist]; [lia|]. rewrite app_length, IH. cbn [length]. lia. Qed.
  Lemma xlist_prefix n m j : j < 312 + n -> n <= m -> nth j (xlist m) 0%N = nth j (xlist n) 0%N.
  Proof.
    intros Hj H. induction H as [|m H IH]; [reflexivity|]. cbn [xlist].
    rewrite app_nth1 by (rewrite xlist_length; lia). exact IH.
  Qed.
  Definition xseq (j : nat) : N := nth j (xlist j) 0%N.
  Lemma xseq_list n j : j < 312 + n -> nth j (xlist n) 0%N = xseq j.
  Proof.
    intros H. unfold xseq. destruct (Nat.le_ge_cases n j) as [L|L].
    - symmetry. apply xlist_prefix; assumption.
    - apply xlist_prefix; lia.
  Qed.
  Lemma xseq_init j : j < 312 -> xseq j = nth j I 0%N.
  Proof. intros H. rewrite <- (xseq_list 0) by lia. reflexivity. Qed.
  Lemma xseq_step t : xseq (312 + t) = F t (xseq (pidx t)) (xseq (t + 1)).
  Proof.
    rewrite <- (xseq_list (S t)) by lia. cbn [xlist]. rewrite app_nth2 by (rewrite xlist_length; lia).
    rewrite xlist_length, Nat.sub_diag. cbn [nth].
    rewrite !xseq_list by (unfold pidx; destruct (t =? 0); lia). reflexivity.
  Qed.
End Sequence.

(** ** the array during the loops *)
Definition sarr (X : nat -> N) (t : nat) (s : list N) : Prop :=
  length s = 312 /\ (forall j, t + 1 <= j <= t + 311 -> nth (1 + (j - 1) mod 311) s 0%N = X j) /\
  (t < 311 -> nth 0 s 0%N = X 0) /\ (311 <= t -> nth 0 s 0%N = nth 311 s 0%N).
Lemma sarr_prev X t s : sarr X t s -> nth (t mod 311) s 0%N = X (if t =? 0 then 0 else 311 + t).
Proof.
  intros (L & H & H0 & H1). destruct (Nat.eqb_spec t 0) as [->|Ht]; [apply H0; lia|].
  destruct (Nat.eq_dec (t mod 311) 0) as [E|E].
  - rewrite E, H1 by lia. rewrite <- H by lia. f_equal. lia.
  - rewrite <- H by lia. f_equal. lia.
Qed.
Lemma sarr_old X t s : sarr X t s -> nth (1 + t mod 311) s 0%N = X (t + 1).
Proof. intros (L & H & _). rewrite <- H by lia. f_equal. f_equal. f_equal. lia. Qed.
Lemma sarr_step X t s v : sarr X t s -> v = X (312 + t) ->
  exists s', mt_bump (1 + t mod 311) (lupd s (1 + t mod 311) v) = Ret (1 + (t + 1) mod 311, s') /\ sarr X (t + 1) s'.
Proof.
  intros (L & H & H0 & H1) Hv. unfold mt_bump. change (mt64N - 1) with 311. change mt64N with 312.
  destruct (Nat.leb_spec 312 (S (1 + t mod 311))) as [E|E].
  - rewrite (aget_nth _ 311 0%N) by (rewrite lupd_length; lia). cbn [bind].
    rewrite aset_ok by (rewrite lupd_length; lia). cbn [bind].
    replace (1 + (t + 1) mod 311) with 1 by lia. eexists. split; [reflexivity|].
    assert (E1 : 1 + t mod 311 = 311) by lia.
    split; [now rewrite !lupd_length|]. split; [|split].
    + intros j Hj. rewrite nth_lupd by (rewrite lupd_length; lia).
      destruct (Nat.eqb_spec (1 + (j - 1) mod 311) 0); [lia|]. rewrite nth_lupd by lia.
      destruct (Nat.eqb_spec (1 + (j - 1) mod 311) (1 + t mod 311)) as [E2|E2].
      * rewrite Hv. f_equal. lia.
      * apply H. lia.
    + intros Ht. lia.
    + intros Ht. rewrite !nth_lupd by (rewrite ?lupd_length; lia). cbn [Nat.eqb]. reflexivity.
  - replace (1 + (t + 1) mod 311) with (S (1 + t mod 311)) by lia. eexists. split; [reflexivity|].
    split; [now rewrite !lupd_length|]. split; [|split].
    + intros j Hj. rewrite nth_lupd by lia.
      destruct (Nat.eqb_spec (1 + (j - 1) mod 311) (1 + t mod 311)) as [E2|E2].
      * rewrite Hv. f_equal. lia.
      * apply H. lia.
    + intros Ht. rewrite nth_lupd by lia. destruct (Nat.eqb_spec 0 (1 + t mod 311)); [lia|]. apply H0. lia.
    + intros Ht. rewrite !nth_lupd by lia. destruct (Nat.eqb_spec 0 (1 + t mod 311)); [lia|].
      destruct (Nat.eqb_spec 311 (1 + t mod 311)); [lia|]. apply H1. lia.
Qed.

Lemma mt_pad_word iv j : j < ceil8 (length iv) -> get64 (mt_pad iv) (j * 8) = Ret (iv_word iv j).
Proof.
  intros Hj. unfold get64. rewrite mt_pad_length.
  replace (j * 8 + 8 <=? 8 * ceil8 (length iv)) with true by (symmetry; apply Nat.leb_le; lia).
  f_equal. unfold iv_word. rewrite (Nat.mul_comm 8 j). unfold mt_pad, go_copy. rewrite land7, zeros_length.
  unfold ceil8 in Hj. destruct (Nat.eqb_spec (length iv mod 8) 0) as [E|E]; cbn [negb]; [reflexivity|].
  rewrite (firstn_all2 iv) by lia. rewrite skipn_app.
  assert (EZ : forall m, skipn (length iv) (zeros m) = zeros (m - length iv)).
  { intros m. unfold zeros. clear. revert m. induction (length iv) as [|n IH]; intros [|m]; cbn; auto. }
  rewrite EZ.
  assert (EL : forall m l, le_val (l ++ zeros m) = le_val l).
  { clear. intros m l. induction l as [|b l IH]; cbn [app le_val]; [|now rewrite IH].
    induction m as [|m IH]; cbn [zeros repeat le_val]; [reflexivity|]. fold (zeros m). rewrite IH. reflexivity. }
  assert (Z2 : forall a m, firstn a (zeros m) = zeros (Nat.min a m)).
  { clear. intros a. induction a as [|a IH]; intros [|m]; cbn; auto. f_equal. apply IH. }
  assert (Z3 : forall a m, skipn a (zeros m) = zeros (m - a)).
  { clear. intros a. induction a as [|a IH]; intros [|m]; cbn; auto. }
  rewrite firstn_app, Z3, Z2, EL. reflexivity.
Qed.

Section Loops.
  Variables (iv : list N) (X : nat -> N).
  Hypothesis HX : is_seediv_sequence iv X.
  Hypothesis NE : length iv <> 0.
  Let m := siv_words iv.
  Let k := siv_steps iv.
  Lemma m_pos : 0 < m. Proof. unfold m, siv_words, ceil8. lia. Qed.

  Lemma mt_iv_loop_seq r : forall t s, t + r = k -> sarr X t s ->
    exists s', mt_iv_loop r (1 + t mod 311) (t mod m) (mt_pad iv) s = Ret (1 + k mod 311, s') /\ sarr X k s'.
  Proof.
    pose proof m_pos as Hm.
    induction r as [|r IH]; intros t s Hr A.
    - cbn [mt_iv_loop]. assert (Et : t = k) by lia. subst t. exists s. split; [reflexivity|exact A].
    - cbn [mt_iv_loop]. pose proof A as (L & _).
      rewrite (aget_nth s (1 + t mod 311) 0%N), (aget_nth s (1 + t mod 311 - 1) 0%N) by lia. cbn [bind].
      assert (Hj : t mod m < m) by (apply Nat.mod_upper_bound; lia).
      rewrite mt_pad_word by exact Hj. cbn [bind]. rewrite aset_ok by lia. cbn [bind].
      replace (1 + t mod 311 - 1) with (t mod 311) by lia.
      rewrite (sarr_prev X t s A), (sarr_old X t s A).
      destruct HX as [_ HS]. specialize (HS t). cbv zeta in HS. fold k m in HS.
      replace (t <? k) with true in HS by (symmetry; apply Nat.ltb_lt; lia).
      match goal with |- context [mt_bump _ (lupd s _ ?v)] => destruct (sarr_step X t s v A) as (s' & E & A') end.
      { rewrite HS. unfold siv_mix. rewrite !add64_mod, mul64_mod, N.add_mod_idemp_l by discriminate.
        rewrite <- !N.add_assoc, N.add_mod_idemp_l by discriminate.
        unfold shr64. rewrite N.shiftr_div_pow2. reflexivity. }
      rewrite E. cbn [bind].
      assert (Ej : (if length (mt_pad iv) <=? S (t mod m) * 8 then 0 else S (t mod m)) = (t + 1) mod m).
      { rewrite mt_pad_length. change (ceil8 (length iv)) with m.
        pose proof (Nat.div_mod t m ltac:(lia)) as D.
        destruct (Nat.leb_spec (8 * m) (S (t mod m) * 8)) as [C|C].
        - apply Nat.mod_unique with (q := S (t / m)); [lia|]. rewrite Nat.mul_succ_r. lia.
        - apply Nat.mod_unique with (q := t / m); [lia|]. lia. }
      rewrite Ej. apply IH; [lia|exact A'].
  Qed.
  Lemma mt_fin_loop_seq r : forall t s, k <= t -> sarr X t s ->
    exists s', mt_fin_loop r (1 + t mod 311) s = Ret s' /\ sarr X (t + r) s'.
  Proof.
    induction r as [|r IH]; intros t s Ht A; cbn [mt_fin_loop].
    - exists s. rewrite Nat.add_0_r. auto.
    - pose proof A as (L & _).
      rewrite (aget_nth s (1 + t mod 311) 0%N), (aget_nth s (1 + t mod 311 - 1) 0%N) by lia. cbn [bind].
      rewrite aset_ok by lia. cbn [bind].
      replace (1 + t mod 311 - 1) with (t mod 311) by lia.
      rewrite (sarr_prev X t s A), (sarr_old X t s A).
      destruct HX as [_ HS]. specialize (HS t). cbv zeta in HS. fold k m in HS.
      replace (t <? k) with false in HS by (symmetry; apply Nat.ltb_ge; lia).
      match goal with |- context [mt_bump _ (lupd s _ ?v)] => destruct (sarr_step X t s v A) as (s' & E & A') end.
      { rewrite HS. unfold siv_mix, sub64. rewrite mul64_mod, trunc64_mod.
        set (p := (N.lxor _ (shr64 _ 62) * _)%N).
        replace (N.lxor (N.lxor _ _) (_ / 2 ^ 62) * _)%N with p
          by (unfold p, shr64; now rewrite N.shiftr_div_pow2).
        change 0x10000000000000000%N with (2 ^ 64)%N.
        rewrite <- N.add_sub_assoc by lia. rewrite N.add_mod_idemp_l by discriminate. reflexivity. }
      rewrite E. cbn [bind].
      destruct (IH (t + 1) s' ltac:(lia) A') as (s2 & E2 & A2). exists s2. split; [exact E2|].
      replace (t + S r) with (t + 1 + r) by lia. exact A2.
  Qed.
  Lemma MT64_SeedIV_seq old : length (ms old) = 312 -> exists s, MT64_SeedIV old iv = Ret (mkMT 312 s) /\ sarr X (k + 311) s.
  Proof.
    intros L. unfold MT64_SeedIV. rewrite MT64_Seed_closed by exact L. cbn [bind].
    replace (length iv =? 0) with false by (symmetry; apply Nat.eqb_neq; exact NE).
    fold (mt_pad iv). cbv zeta. cbn [ms mi].
    assert (Ek : (if mt64N <? length (mt_pad iv) then length (mt_pad iv) else mt64N) = k).
    { rewrite mt_pad_length. change (ceil8 (length iv)) with (siv_words iv). unfold k, siv_steps. change mt64N with 312.
      destruct (Nat.ltb_spec 312 (8 * siv_words iv)); lia. }
    rewrite Ek.
    assert (A0 : sarr X 0 (seed_state 19650218)).
    { destruct HX as [HI _]. pose proof (init_genrand64_unique _ _ _ HI (seed_state_ref 19650218)) as E.
      assert (En : forall j, j < 312 -> nth j (seed_state 19650218) 0%N = X j).
      { intros j Hj. rewrite <- E. rewrite (nth_indep _ 0%N (X 0)) by (rewrite map_length, seq_length; exact Hj).
        rewrite map_nth, seq_nth by exact Hj. reflexivity. }
      split; [apply seed_state_length|]. split; [|split].
      - intros j Hj. rewrite <- En by lia. f_equal. lia.
      - intros _. apply En. lia.
      - lia. }
    destruct (mt_iv_loop_seq k 0 _ ltac:(lia) A0) as (s1 & E1 & A1).
    change (1 + 0 mod 311) with 1 in E1. replace (0 mod m) with 0 in E1 by (symmetry; apply Nat.mod_0_l; pose proof m_pos; lia).
    rewrite E1. cbn [bind]. change (mt64N - 1) with 311.
    destruct (mt_fin_loop_seq 311 k s1 (le_n _) A1) as (s2 & E2 & A2). rewrite E2. cbn [bind]. eauto.
  Qed.
End Loops.

Lemma seediv_sequence_exists iv : exists X, is_seediv_sequence iv X.
Proof.
  set (F := fun t prev old => if t <? siv_steps iv
              then ((siv_mix 3935559000370003845 prev old + iv_word iv (t mod siv_words iv) + N.of_nat (t mod siv_words iv)) mod 2 ^ 64)%N
              else ((siv_mix 2862933555777941757 prev old + (2 ^ 64 - N.of_nat (1 + t mod 311))) mod 2 ^ 64)%N).
  exists (xseq (seed_state 19650218) F). split.
  - replace (map _ _) with (seed_state 19650218); [apply seed_state_ref|].
    apply (list_eq_nth 0%N); [now rewrite seed_state_length, map_length, seq_length|].
    intros j Hj. rewrite seed_state_length in Hj.
    rewrite (nth_indep (map _ _) 0%N (xseq (seed_state 19650218) F 0)) by (rewrite map_length, seq_length; exact Hj).
    rewrite map_nth, seq_nth by exact Hj. symmetry. apply xseq_init; [apply seed_state_length|exact Hj].
  - intros t. cbv zeta. rewrite xseq_step by apply seed_state_length. reflexivity.
Qed.

(** ** recovering the IV from the state *)
Lemma lxor_cancel_r a b c : N.lxor a c = N.lxor b c -> a = b.
Proof. intros H. apply (f_equal (fun x => N.lxor x c)) in H. now rewrite !N.lxor_assoc, N.lxor_nilpotent, !N.lxor_0_r in H. Qed.
Lemma add_mod_cancel_l a b d : ((a + d) mod 2 ^ 64 = (b + d) mod 2 ^ 64 -> a mod 2 ^ 64 = b mod 2 ^ 64)%N.
Proof.
  intros H. set (e := (2 ^ 64 - d mod 2 ^ 64)%N).
  assert (D : (d mod 2 ^ 64 < 2 ^ 64)%N) by (apply N.mod_lt; discriminate).
  assert (E : forall x, (((x + d) mod 2 ^ 64 + e) mod 2 ^ 64 = x mod 2 ^ 64)%N).
  { intros x. rewrite N.add_mod_idemp_l by discriminate. rewrite <- N.add_assoc, <- N.add_mod_idemp_r by discriminate.
    replace ((d + e) mod 2 ^ 64)%N with 0%N; [now rewrite N.add_0_r|].
    rewrite <- N.add_mod_idemp_l by discriminate. unfold e.
    replace (d mod 2 ^ 64 + (2 ^ 64 - d mod 2 ^ 64))%N with (2 ^ 64)%N by lia. reflexivity. }
  rewrite <- (E a), <- (E b), H. reflexivity.
Qed.
Lemma siv_mix_inj c c' p o o' d : mul64 c c' = 1%N -> w64 p -> w64 o -> w64 o' ->
  ((siv_mix c p o + d) mod 2 ^ 64 = (siv_mix c p o' + d) mod 2 ^ 64)%N -> o = o'.
Proof.
  intros Hc Hp Ho Ho' H. apply add_mod_cancel_l in H. unfold siv_mix in H. rewrite <- !mul64_mod in H.
  assert (Hd : w64 (p / 2 ^ 62)%N) by (rewrite <- N.shiftr_div_pow2; now apply shiftr_bound).
  apply (f_equal (fun x => mul64 x c')) in H. rewrite !(mul64_inv c c') in H by auto using lxor_w.
  apply lxor_cancel_r in H. now apply lxor_cancel_r in H.
Qed.
Lemma seediv_sequence_w iv X : is_seediv_sequence iv X -> forall j, w64 (X j).
Proof.
  intros [HI HS] j. destruct (Nat.lt_ge_cases j 312) as [Hj|Hj].
  - pose proof (init_genrand64_unique _ _ _ HI (seed_state_ref 19650218)) as E.
    pose proof (seed_state_w 19650218 ltac:(reflexivity)) as W. rewrite Forall_forall in W.
    assert (Ej : nth j (map X (seq 0 312)) 0%N = X j).
    { rewrite (nth_indep _ 0%N (X 0)) by (rewrite map_length, seq_length; exact Hj). rewrite map_nth, seq_nth by exact Hj. reflexivity. }
    rewrite <- Ej. apply W. rewrite <- E. apply nth_In. rewrite map_length, seq_length. exact Hj.
  - replace j with (312 + (j - 312)) by lia. rewrite HS. destruct (_ <? _); apply N.mod_lt; discriminate.
Qed.
Lemma seediv_init_eq iv iv' X X' : is_seediv_sequence iv X -> is_seediv_sequence iv' X' -> forall j, j < 312 -> X j = X' j.
Proof.
  intros [HI _] [HI' _] j Hj. pose proof (init_genrand64_unique _ _ _ HI HI') as E.
  assert (Ej : forall Y, nth j (map Y (seq 0 312)) 0%N = Y j).
  { intros Y. rewrite (nth_indep _ 0%N (Y 0)) by (rewrite map_length, seq_length; exact Hj). rewrite map_nth, seq_nth by exact Hj. reflexivity. }
  rewrite <- (Ej X), <- (Ej X'), E. reflexivity.
Qed.

Section Recover.
  Variables (iv iv' : list N) (X X' : nat -> N).
  Hypothesis HX : is_seediv_sequence iv X.
  Hypothesis HX' : is_seediv_sequence iv' X'.
  Hypothesis B : Forall isbyte iv.
  Hypothesis B' : Forall isbyte iv'.
  Hypothesis M : siv_words iv = siv_words iv'.
  Hypothesis M1 : 1 <= siv_words iv <= 39.
  Hypothesis F : forall j, 624 <= j <= 934 -> X j = X' j.
  Lemma steps_312 : siv_steps iv = 312 /\ siv_steps iv' = 312.
  Proof. unfold siv_steps. rewrite <- M. lia. Qed.
  Lemma back_ge313 : forall j, 313 <= j <= 934 -> X j = X' j.
  Proof.
    destruct steps_312 as [K K'].
    (* step t determines X (t+1) when X (312+t) and X (311+t) agree *)
    assert (S1 : forall t, 312 <= t <= 622 -> X (312 + t) = X' (312 + t) -> X (311 + t) = X' (311 + t) -> X (t + 1) = X' (t + 1)).
    { intros t Ht E1 E2. destruct HX as [_ HS]. destruct HX' as [_ HS']. specialize (HS t). specialize (HS' t).
      cbv zeta in HS, HS'. rewrite K in HS. rewrite K' in HS'.
      replace (t <? 312) with false in * by (symmetry; apply Nat.ltb_ge; lia).
      replace (t =? 0) with false in * by (symmetry; apply Nat.eqb_neq; lia).
      rewrite HS, HS', <- E2 in E1.
      apply (siv_mix_inj 2862933555777941757 0xdfe66807999cec55 (X (311 + t)) _ _ (2 ^ 64 - N.of_nat (1 + t mod 311))%N);
        [reflexivity| | | |exact E1]; first [apply (seediv_sequence_w _ _ HX)|apply (seediv_sequence_w _ _ HX')]. }
    assert (S2 : forall r t, t + r = 622 -> 313 <= t -> X (t + 1) = X' (t + 1)).
    { induction r as [|r IH]; intros t Ht Ht'; (apply S1; [lia|apply F; lia|apply F; lia]). }
    assert (S3 : forall j, 314 <= j <= 934 -> X j = X' j).
    { intros j Hj. destruct (Nat.lt_ge_cases j 624) as [H|H]; [|apply F; lia].
      replace j with (j - 1 + 1) by lia. apply (S2 (623 - j)); lia. }
    intros j Hj. destruct (Nat.eq_dec j 313) as [->|Hne]; [|apply S3; lia].
    apply (S1 312); [lia|apply S3; lia|apply S3; lia].
  Qed.
  Lemma words_recovered r : r < siv_words iv -> iv_word iv r = iv_word iv' r.
  Proof.
    intros Hr. destruct steps_312 as [K K']. set (m := siv_words iv) in *. set (t := r + 2 * m).
    assert (Ht : 2 <= t <= 310) by (unfold t; lia).
    assert (Em : t mod m = r) by (unfold t; rewrite Nat.mod_add by lia; apply Nat.mod_small; lia).
    destruct HX as [_ HS]. destruct HX' as [_ HS']. specialize (HS t). specialize (HS' t). cbv zeta in HS, HS'.
    rewrite <- M in HS'. fold m in HS, HS'. rewrite K in HS. rewrite K' in HS'.
    replace (t <? 312) with true in * by (symmetry; apply Nat.ltb_lt; lia).
    replace (t =? 0) with false in * by (symmetry; apply Nat.eqb_neq; lia).
    rewrite (back_ge313 (312 + t)), (back_ge313 (311 + t)), (seediv_init_eq _ _ _ _ HX HX' (t + 1)) in HS by lia.
    rewrite HS in HS'. clear HS. rewrite Em in HS'.
    apply add_mod_cancel_l in HS'. rewrite (N.add_comm _ (iv_word iv r)), (N.add_comm _ (iv_word iv' r)) in HS'.
    apply add_mod_cancel_l in HS'. rewrite !N.mod_small in HS' by (apply iv_word_w; assumption). exact HS'.
  Qed.
End Recover.

(** ** recovering the state words from 312 outputs *)
Lemma ref_twist_inj a b a' b' : w64 a -> w64 a' -> ref_twist a b = ref_twist a' b' ->
  (a / 2 ^ 31 = a' / 2 ^ 31 /\ b mod 2 ^ 31 = b' mod 2 ^ 31)%N.
Proof.
  intros Ha Ha' H. unfold w64 in *. unfold ref_twist in H. cbv zeta in H.
  set (x := ((a / 2 ^ 31) * 2 ^ 31 + b mod 2 ^ 31)%N) in *. set (y := ((a' / 2 ^ 31) * 2 ^ 31 + b' mod 2 ^ 31)%N) in *.
  assert (Hx : (x < 2 ^ 64)%N) by (unfold x; lia). assert (Hy : (y < 2 ^ 64)%N) by (unfold y; lia).
  assert (E : x = y).
  { assert (X2 : (x / 2 < 2 ^ 63)%N) by lia. assert (Y2 : (y / 2 < 2 ^ 63)%N) by lia.
    assert (O : N.odd x = N.odd y).
    { apply (f_equal (fun z => N.testbit z 63)) in H. rewrite !N.lxor_spec in H.
      rewrite (testbit_above (x / 2) 63 63), (testbit_above (y / 2) 63 63) in H by (assumption || lia).
      destruct (N.odd x), (N.odd y); try reflexivity; discriminate H. }
    rewrite O in H. apply lxor_cancel_r in H.
    rewrite (N.div_mod x 2), (N.div_mod y 2) by discriminate. rewrite H. f_equal.
    rewrite <- !N.bit0_mod, !N.bit0_odd, O. reflexivity. }
  unfold x, y in E. lia.
Qed.
Section Back.
  Variables u v : nat -> N.
  Hypothesis Ru : mt_recurrence u.
  Hypothesis Rv : mt_recurrence v.
  Hypothesis Wu : forall n, w64 (u n).
  Hypothesis Wv : forall n, w64 (v n).
  Definition pwin (m : nat) : Prop := forall j, j < 312 -> u (m + j) = v (m + j).
  Lemma pwin_twist n : u (n + 312) = v (n + 312) -> u (n + 156) = v (n + 156) ->
    (u n / 2 ^ 31 = v n / 2 ^ 31 /\ u (n + 1)%nat mod 2 ^ 31 = v (n + 1)%nat mod 2 ^ 31)%N.
  Proof.
    intros E1 E2. rewrite Ru, Rv, E2 in E1. apply ref_twist_inj; [apply Wu|apply Wv|].
    rewrite (N.lxor_comm (v (n + 156))), (N.lxor_comm (v (n + 156))) in E1. now apply lxor_cancel_r in E1.
  Qed.
  Lemma pwin_back m : pwin (S (S m)) -> pwin (S m).
  Proof.
    intros H. assert (G : forall n, m + 2 <= n < m + 314 -> u n = v n).
    { intros n Hn. replace n with (S (S m) + (n - m - 2)) by lia. apply H. lia. }
    intros j Hj. destruct (Nat.eq_dec j 0) as [->|Hne]; [|apply G; lia].
    rewrite Nat.add_0_r. destruct (pwin_twist m) as [_ L]; [apply G; lia|apply G; lia|].
    destruct (pwin_twist (S m)) as [U _]; [apply G; lia|apply G; lia|].
    replace (m + 1) with (S m) in L by lia.
    rewrite (N.div_mod (u (S m)) (2 ^ 31)), (N.div_mod (v (S m)) (2 ^ 31)), U, L by discriminate. reflexivity.
  Qed.
  Lemma pwin_1 m : pwin (S m) -> pwin 1.
  Proof. induction m as [|m IH]; [auto|]. intros H. apply IH, pwin_back, H. Qed.
End Back.
