(** MT64.SeedIV as a sequence, and how much of the seed the stream reveals: C56; MT64's part of C57. *)
From Coq Require Import Lia ZifyN ZifyNat ZifyBool.
From Verif Require Import Model.Base Model.Lfg Model.Mt64 Model.Api Spec.Common Spec.States Spec.Kinds Spec.MtRef Spec.MtSeedRef.
From Verif Require Import Proofs.WordLemmas Proofs.ReadProofs Proofs.IvWords Proofs.MtProofs Proofs.MtSeed Proofs.KindProofs
  Proofs.SplitMix Proofs.XoroSeed Proofs.MtSeedIV.
Ltac Zify.zify_post_hook ::= Z.div_mod_to_equations.
Local Open Scope nat_scope.

Lemma sarr_window iv X s u : sarr X (siv_steps iv + 311) s -> (forall n, n < 312 -> u n = nth n s 0%N) -> seediv_window iv X u.
Proof.
  intros (L & H & _ & H0) E. split.
  - rewrite !E by lia. apply H0. lia.
  - intros j Hj. rewrite E by lia. apply H. lia.
Qed.
Lemma sarr_typed iv X s : is_seediv_sequence iv X -> sarr X (siv_steps iv + 311) s -> mt_typed (mkMT 312 s).
Proof.
  intros HX (L & H & _ & H0). split; [exact L|]. cbn [ms]. apply Forall_forall. intros x Hx.
  apply In_nth with (d := 0%N) in Hx. destruct Hx as (k & Hk & <-). rewrite L in Hk.
  set (K := siv_steps iv + 311) in *.
  assert (G : forall r, 1 <= r < 312 -> w64 (nth r s 0%N)).
  { intros r Hr. set (j := K + 1 + (r + 311 * K + 310 - K) mod 311).
    replace r with (1 + (j - 1) mod 311) by (unfold j; lia). rewrite H by (unfold j; lia). apply (seediv_sequence_w _ _ HX). }
  destruct (Nat.eq_dec k 0) as [->|Hne]; [rewrite H0 by (unfold K; lia); apply G; lia|apply G; lia].
Qed.

(** ** C56 *)
Theorem C56_mt64_seediv old iv : length (ms old) = 312 -> iv <> [] -> exists g X u,
  MT64_SeedIV old iv = Ret g /\ is_seediv_sequence iv X /\ mt_recurrence u /\ seediv_window iv X u /\
  forall xs g', runs MT64_Uint64 g xs g' -> forall k, k < length xs -> nth k xs 0%N = ref_temper (u (312 + k)).
Proof.
  intros L NE. destruct (seediv_sequence_exists iv) as (X & HX).
  destruct (MT64_SeedIV_seq iv X HX) with (old := old) as (s & E & A); [destruct iv; [congruence|discriminate]|exact L|].
  pose proof (sarr_typed iv X s HX A) as T. destruct (mt_typed_seq _ T) as (u & Ru & Wu & Eu).
  exists (mkMT 312 s), X, u. split; [exact E|]. split; [exact HX|]. split; [exact Ru|].
  split; [apply (sarr_window iv X s u A Eu)|]. intros xs g' R k Hk.
  destruct (mt_at_runs u Ru Wu _ _ _ _ (mt_typed_at u _ T Eu) R) as [_ Hu]. rewrite Hu by exact Hk. apply temper_ref.
Qed.
Theorem C56_sequence_unique iv X Y : is_seediv_sequence iv X -> is_seediv_sequence iv Y -> forall j, X j = Y j.
Proof.
  intros HX HY j. induction j as [j IH] using lt_wf_ind.
  destruct (Nat.lt_ge_cases j 312) as [H|H]; [now apply (seediv_init_eq iv iv)|].
  replace j with (312 + (j - 312)) by lia. destruct HX as [_ HS]. destruct HY as [_ HS'].
  rewrite HS, HS'. cbv zeta. rewrite (IH (j - 312 + 1)) by lia.
  rewrite (IH (if j - 312 =? 0 then 0 else 311 + (j - 312))) by (destruct (j - 312 =? 0); lia). reflexivity.
Qed.
Theorem C56_window_determines_stream iv X u v : seediv_window iv X u -> seediv_window iv X v ->
  mt_recurrence u -> mt_recurrence v -> forall n, u n = v n.
Proof.
  intros [U0 U] [V0 V] Ru Rv n. apply (rec_unique u v 0 Ru Rv); [|lia].
  set (K := siv_steps iv) in *.
  assert (G : forall r, 1 <= r < 312 -> u r = v r).
  { intros r Hr. set (j := K + 312 + (r + 311 * K + 310 - K) mod 311).
    replace r with (1 + (j - 1) mod 311) by (unfold j; lia). rewrite U, V by (unfold j; lia). reflexivity. }
  intros r Hr. cbn [Nat.add]. destruct (Nat.eq_dec r 0) as [->|Hne]; [rewrite U0, V0|]; apply G; lia.
Qed.

Lemma iv_words_inj_len n : forall iv iv', length iv <= n -> length iv = length iv' -> Forall isbyte iv -> Forall isbyte iv' ->
  iv_words iv = iv_words iv' -> iv = iv'.
Proof.
  induction n as [|n IH]; intros iv iv' Hn L B B' E.
  - destruct iv, iv'; cbn in *; auto; lia.
  - destruct (Nat.eq_dec (length iv) 0) as [Z|Z].
    { destruct iv, iv'; cbn in *; auto; lia. }
    rewrite (iv_words_cons iv), (iv_words_cons iv') in E by lia.
    pose proof (f_equal (hd 0%N) E) as E1. pose proof (f_equal (@tl N) E) as E2. cbn [hd tl] in E1, E2.
    assert (F : firstn 8 iv = firstn 8 iv').
    { rewrite <- (le_bytes_val (firstn 8 iv)), <- (le_bytes_val (firstn 8 iv')), E1 by (apply firstn_isbyte; assumption).
      rewrite !firstn_length. f_equal. lia. }
    rewrite <- (firstn_skipn 8 iv), <- (firstn_skipn 8 iv'), F. f_equal.
    apply IH; rewrite ?skipn_length; try lia; try (apply skipn_isbyte; assumption). exact E2.
Qed.

(** the first 312 values reveal the whole IV when it has at most 312 bytes and its length is known *)
Theorem C56_first_312_values_determine_short_iv old old' iv iv' g g' xs h h' :
  length (ms old) = 312 -> length (ms old') = 312 -> Forall isbyte iv -> Forall isbyte iv' ->
  length iv = length iv' -> length iv <= 312 ->
  MT64_SeedIV old iv = Ret g -> MT64_SeedIV old' iv' = Ret g' ->
  length xs = 312 -> runs MT64_Uint64 g xs h -> runs MT64_Uint64 g' xs h' -> iv = iv'.
Proof.
  intros Lo Lo' B B' Li L E E' Lx R R'.
  destruct (Nat.eq_dec (length iv) 0) as [Z|Z]; [destruct iv, iv'; cbn in *; auto; lia|].
  assert (N1 : iv <> []) by (destruct iv; [cbn in Z; lia|discriminate]).
  assert (N2 : iv' <> []) by (destruct iv'; [cbn in Li; lia|discriminate]).
  destruct (seediv_sequence_exists iv) as (X & HX). destruct (seediv_sequence_exists iv') as (X' & HX').
  destruct (MT64_SeedIV_seq iv X HX) with (old := old) as (s & Es & A); [exact Z|exact Lo|].
  destruct (MT64_SeedIV_seq iv' X' HX') with (old := old') as (s' & Es' & A'); [lia|exact Lo'|].
  assert (Eg : g = mkMT 312 s) by congruence. assert (Eg' : g' = mkMT 312 s') by congruence. subst g g'.
  pose proof (sarr_typed iv X s HX A) as T. pose proof (sarr_typed iv' X' s' HX' A') as T'.
  destruct (mt_typed_seq _ T) as (u & Ru & Wu & Eu). destruct (mt_typed_seq _ T') as (v & Rv & Wv & Ev).
  destruct (mt_at_runs u Ru Wu _ _ _ _ (mt_typed_at u _ T Eu) R) as [_ Hu].
  destruct (mt_at_runs v Rv Wv _ _ _ _ (mt_typed_at v _ T' Ev) R') as [_ Hv]. cbn [mi] in Hu, Hv.
  change (Nat.min (N.to_nat 312) 312) with 312 in Hu, Hv.
  assert (P : pwin u v 312).
  { intros j Hj. apply mt_temper_inj; auto. rewrite <- Hu, <- Hv by lia. reflexivity. }
  apply (pwin_1 u v Ru Rv Wu Wv 311) in P.
  destruct (sarr_window iv X s u A Eu) as [_ Xu]. destruct (sarr_window iv' X' s' v A' Ev) as [_ Xv].
  assert (M : siv_words iv = siv_words iv') by (unfold siv_words; now rewrite Li).
  assert (M1 : 1 <= siv_words iv <= 39) by (unfold siv_words, ceil8; lia).
  assert (K : siv_steps iv = 312) by (unfold siv_steps; lia).
  assert (K' : siv_steps iv' = 312) by (unfold siv_steps; rewrite <- M; lia).
  rewrite K in Xu. rewrite K' in Xv.
  assert (F : forall j, 624 <= j <= 934 -> X j = X' j).
  { intros j Hj. rewrite <- Xu, <- Xv by lia. apply (P ((j - 1) mod 311)). lia. }
  apply (iv_words_inj_len (length iv)); [lia|exact Li|exact B|exact B'|].
  unfold iv_words. rewrite <- Li. apply map_ext_in. intros r Hr. apply in_seq in Hr.
  apply (words_recovered iv iv' X X' HX HX' B B' M M1 F). unfold siv_words. lia.
Qed.
(** hence at most 312 bytes of IV of one length give distinct states *)
Theorem C56_short_iv_injective old old' iv iv' g : length (ms old) = 312 -> length (ms old') = 312 ->
  Forall isbyte iv -> Forall isbyte iv' -> length iv = length iv' -> length iv <= 312 ->
  MT64_SeedIV old iv = Ret g -> MT64_SeedIV old' iv' = Ret g -> iv = iv'.
Proof.
  intros Lo Lo' B B' Li L E E'.
  assert (T : mt_typed g).
  { destruct (MT64_SeedIV_ok old iv Lo) as (s & E2 & Ls & Ws). assert (Eg : g = mkMT 312 s) by congruence.
    subst g. split; assumption. }
  destruct (runs_total MT64_Uint64 mt_typed mt_total 312 g T) as (xs & g' & R & Lx & _).
  apply (C56_first_312_values_determine_short_iv old old' iv iv' g g xs g' g'); assumption.
Qed.
(** zero bytes that complete the last word change nothing *)
Theorem C56_zero_padding_ignored old iv : iv <> [] -> length iv mod 8 <> 0 -> MT64_SeedIV old (iv ++ [0%N]) = MT64_SeedIV old iv.
Proof.
  intros NE H. unfold MT64_SeedIV. destruct (MT64_Seed old 19650218) as [g| |]; [|reflexivity|reflexivity]. cbn [bind].
  replace (length iv =? 0) with false by (symmetry; apply Nat.eqb_neq; destruct iv; [congruence|discriminate]).
  replace (length (iv ++ [0%N]) =? 0) with false by (symmetry; apply Nat.eqb_neq; rewrite app_length; cbn; lia).
  fold (mt_pad iv). fold (mt_pad (iv ++ [0%N])).
  replace (mt_pad (iv ++ [0%N])) with (mt_pad iv); [reflexivity|].
  unfold mt_pad. rewrite !land7, app_length. cbn [length].
  assert (G : forall l n, length l <= n -> go_copy (zeros n) l = l ++ zeros (n - length l)).
  { intros l n Hl. unfold go_copy. rewrite zeros_length, firstn_all2 by exact Hl. now rewrite skipn_zeros. }
  destruct (Nat.eqb_spec (length iv mod 8) 0) as [E|E]; [lia|]. cbn [negb]. rewrite G by lia.
  destruct (Nat.eqb_spec ((length iv + 1) mod 8) 0) as [E1|E1]; cbn [negb].
  - replace (length iv + 8 - length iv mod 8 - length iv) with 1 by lia. reflexivity.
  - rewrite G by (rewrite app_length; cbn [length]; lia). rewrite <- app_assoc. f_equal. rewrite app_length. cbn [length].
    replace (length iv + 8 - length iv mod 8 - length iv) with (S (length iv + 1 + 8 - (length iv + 1) mod 8 - (length iv + 1))) by lia. reflexivity.
Qed.
Lemma mt_siv_check : match MT64_SeedIV NewMT64 [1; 2; 3]%N, MT64_SeedIV NewMT64 [1; 2; 4]%N with
  | Ret g, Ret h => match MT64_Uint64 g, MT64_Uint64 h with Ret (x, _), Ret (y, _) => negb (x =? y)%N | _, _ => false end
  | _, _ => false end = true.
Proof. vm_cast_no_check (eq_refl true). Qed.
Example C56_nonvacuous : exists g h xs g', MT64_SeedIV NewMT64 [1; 2; 3]%N = Ret g /\ MT64_SeedIV NewMT64 [1; 2; 4]%N = Ret h /\
  length xs = 312 /\ runs MT64_Uint64 g xs g' /\ g <> h.
Proof.
  destruct (MT64_SeedIV_ok NewMT64 [1; 2; 3]%N eq_refl) as (s & E & L & W).
  destruct (MT64_SeedIV_ok NewMT64 [1; 2; 4]%N eq_refl) as (s' & E' & L' & W').
  destruct (runs_total MT64_Uint64 mt_typed mt_total 312 (mkMT 312 s) (conj L W)) as (xs & g' & R & Lx & _).
  exists (mkMT 312 s), (mkMT 312 s'), xs, g'. split; [exact E|]. split; [exact E'|]. split; [exact Lx|]. split; [exact R|].
  intros Q. assert (F : [1; 2; 3]%N = [1; 2; 4]%N); [|discriminate F].
  apply (C56_short_iv_injective NewMT64 NewMT64 _ _ (mkMT 312 s)); try reflexivity.
  - repeat constructor.
  - repeat constructor.
  - cbn [length]. lia.
  - exact E.
  - rewrite Q. exact E'.
Qed.

(** ** MT64's part of C57: the first 312 values determine the seed *)
Lemma seed_mix_inj x y : w64 x -> w64 y -> seed_word x 1 = seed_word y 1 -> x = y.
Proof.
  intros Hx Hy H. cbn [seed_word] in H. rewrite !add64_mod in H. apply add_mod_cancel_l in H.
  assert (Hm : forall a b, mul64 a b = mul64 b a) by (intros a b; unfold mul64; now rewrite N.mul_comm).
  rewrite !(Hm 6364136223846793005%N) in H.
  rewrite !N.mod_small in H by apply mul64_w.
  assert (Wx : forall z, w64 z -> w64 (N.lxor z (shr64 z 62))) by (intros z Hz; apply lxor_w; [exact Hz|now apply shiftr_bound]).
  apply (f_equal (fun z => mul64 z 0xc097ef87329e28a5)) in H. rewrite !(mul64_inv 6364136223846793005 0xc097ef87329e28a5) in H by auto.
  assert (U : forall z, w64 z -> N.lxor (N.lxor z (shr64 z 62)) (shr64 (N.lxor z (shr64 z 62)) 62) = z).
  { intros z Hz. unfold shr64. rewrite N.shiftr_lxor, N.shiftr_shiftr.
    replace (N.shiftr z (62 + 62))%N with 0%N by (symmetry; rewrite N.shiftr_div_pow2; apply N.div_small; unfold w64 in Hz; eapply N.lt_trans; [exact Hz|reflexivity]).
    rewrite N.lxor_0_r, N.lxor_assoc, N.lxor_nilpotent, N.lxor_0_r. reflexivity. }
  rewrite <- (U x Hx), <- (U y Hy), H. reflexivity.
Qed.
Theorem C57_mt64_seed_stream_injective old old' x y g g' xs h h' : length (ms old) = 312 -> length (ms old') = 312 ->
  w64 x -> w64 y -> MT64_Seed old x = Ret g -> MT64_Seed old' y = Ret g' ->
  length xs = 312 -> runs MT64_Uint64 g xs h -> runs MT64_Uint64 g' xs h' -> x = y.
Proof.
  intros Lo Lo' Wx Wy E E' Lx R R'. rewrite MT64_Seed_closed in E, E' by assumption.
  assert (Eg : g = mkMT 312 (seed_state x)) by congruence. assert (Eg' : g' = mkMT 312 (seed_state y)) by congruence. subst g g'.
  assert (T : mt_typed (mkMT 312 (seed_state x))) by (split; [apply seed_state_length|now apply seed_state_w]).
  assert (T' : mt_typed (mkMT 312 (seed_state y))) by (split; [apply seed_state_length|now apply seed_state_w]).
  destruct (mt_typed_seq _ T) as (u & Ru & Wu & Eu). destruct (mt_typed_seq _ T') as (v & Rv & Wv & Ev).
  destruct (mt_at_runs u Ru Wu _ _ _ _ (mt_typed_at u _ T Eu) R) as [_ Hu].
  destruct (mt_at_runs v Rv Wv _ _ _ _ (mt_typed_at v _ T' Ev) R') as [_ Hv]. cbn [mi] in Hu, Hv.
  change (Nat.min (N.to_nat 312) 312) with 312 in Hu, Hv.
  assert (P : pwin u v 312).
  { intros j Hj. apply mt_temper_inj; auto. rewrite <- Hu, <- Hv by lia. reflexivity. }
  apply (pwin_1 u v Ru Rv Wu Wv 311) in P. specialize (P 0 ltac:(lia)). change (1 + 0) with 1 in P.
  rewrite Eu, Ev in P by lia. cbn [ms] in P. rewrite !seed_state_nth in P by lia. now apply seed_mix_inj.
Qed.

Print Assumptions C56_mt64_seediv.
Print Assumptions C56_sequence_unique.
Print Assumptions C56_window_determines_stream.
Print Assumptions C56_first_312_values_determine_short_iv.
Print Assumptions C56_short_iv_injective.
Print Assumptions C56_zero_padding_ignored.
Print Assumptions C57_mt64_seed_stream_injective.
