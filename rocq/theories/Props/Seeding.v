(** Seeding of Xoroshiro, Rexoroshiro and Xoshiro: C22, C23, C24, C52 (MT64's parts are in Props/Mt.v). *)
From Coq Require Import Lia ZifyN ZifyNat ZifyBool Permutation.
From Verif Require Import Model.Base Model.Xoroshiro Model.Xoshiro Model.Api Spec.Common Spec.States Spec.Kinds Spec.Seeding.
From Verif Require Import Proofs.WordLemmas Proofs.ReadProofs Proofs.SplitMix Proofs.IvWords Proofs.XoroProofs Proofs.XoroSeed
  Proofs.XoshiProofs Proofs.XoshiSeed Props.Periods.
Local Open Scope N_scope.

(** ** C24, C52: what SeedIV computes *)
Lemma gamma_eq : sm_gamma = splitmix_gamma. Proof. reflexivity. Qed.
Theorem C24_xoroshiro_seediv old iv : Xoroshiro_SeedIV old iv = Ret (xoroshiro_seeded iv) /\ Rexoroshiro_SeedIV old iv = Ret (xoroshiro_seeded iv).
Proof.
  assert (E : Xoroshiro_SeedIV old iv = Ret (xoroshiro_seeded iv)); [|split; exact E].
  destruct iv as [|b iv].
  - rewrite Xoroshiro_SeedIV_nil. unfold xoroshiro_seeded. rewrite !splitmix64_smk. reflexivity.
  - rewrite Xoroshiro_SeedIV_closed by discriminate. unfold xoroshiro_seeded, xoro_seed_a. cbv zeta.
    rewrite !splitmix_out_mix, !add64_mod, gamma_eq. reflexivity.
Qed.
Theorem C52_xoshiro_seediv old iv : Xoshiro_SeedIV old iv = Ret (xoshiro_seeded iv).
Proof. apply Xoshiro_SeedIV_closed. Qed.

Lemma sum64_perm l l' : Permutation l l' -> sum64 l = sum64 l'.
Proof.
  intros H. unfold sum64. f_equal. induction H; cbn [fold_right]; lia.
Qed.
Theorem C24_earlier_words_in_any_order iv iv' : iv <> [] -> iv' <> [] -> last (iv_words iv) 0 = last (iv_words iv') 0 ->
  Permutation (removelast (iv_words iv)) (removelast (iv_words iv')) -> forall old, Xoroshiro_SeedIV old iv = Xoroshiro_SeedIV old iv'.
Proof.
  intros N N' L P old. rewrite !(proj1 (C24_xoroshiro_seediv _ _)). f_equal.
  destruct iv as [|b iv]; [contradiction|]. destruct iv' as [|b' iv']; [contradiction|].
  unfold xoroshiro_seeded. rewrite L. rewrite (sum64_perm _ _ (Permutation_map (N.lxor splitmix_gamma) P)). reflexivity.
Qed.
Lemma firstn_zeros n m : firstn n (zeros m) = zeros (Nat.min n m).
Proof. revert m; induction n as [|n IH]; intros [|m]; cbn [zeros repeat firstn Nat.min]; [reflexivity..|]. f_equal. apply IH. Qed.
Lemma iv_words_pad iv k : ceil8 (length iv + k) = ceil8 (length iv) -> iv_words (iv ++ zeros k) = iv_words iv.
Proof.
  intros E. unfold iv_words. rewrite app_length, zeros_length, E. apply map_ext. intros j. unfold iv_word.
  rewrite skipn_app, skipn_zeros, firstn_app, firstn_zeros. apply le_val_zeros.
Qed.
(** zero bytes that only fill up the last group of eight make no difference *)
Theorem C24_trailing_zero_bytes iv k : iv <> [] -> ceil8 (length iv + k) = ceil8 (length iv) ->
  forall old, Xoroshiro_SeedIV old (iv ++ zeros k) = Xoroshiro_SeedIV old iv.
Proof.
  intros N E old. rewrite !(proj1 (C24_xoroshiro_seediv _ _)). f_equal. destruct iv as [|b iv]; [contradiction|].
  cbn [app]. unfold xoroshiro_seeded. change (b :: iv ++ zeros k) with ((b :: iv) ++ zeros k). now rewrite iv_words_pad.
Qed.
Theorem C52_trailing_zero_bytes iv k : ceil8 (length iv + k) = ceil8 (length iv) ->
  forall old, Xoshiro_SeedIV old (iv ++ zeros k) = Xoshiro_SeedIV old iv.
Proof. intros E old. rewrite !C52_xoshiro_seediv. unfold xoshiro_seeded. now rewrite iv_words_pad. Qed.
Example C24_nonvacuous : exists iv iv', iv <> iv' /\ iv <> [] /\ iv' <> [] /\ last (iv_words iv) 0 = last (iv_words iv') 0 /\
  Permutation (removelast (iv_words iv)) (removelast (iv_words iv')) /\ length iv = 20%nat.
Proof.
  exists [1;2;3;4;5;6;7;8;9;10;11;12;13;14;15;16;17;18;19;20], [9;10;11;12;13;14;15;16;1;2;3;4;5;6;7;8;17;18;19;20].
  split; [discriminate|]. split; [discriminate|]. split; [discriminate|]. split; [reflexivity|]. split; [apply perm_swap|reflexivity].
Qed.
Example C52_nonvacuous : xoshiro_seeded [1; 2; 3] <> xoshiro_seeded [1; 2; 4] /\ ceil8 (length [1; 2; 3] + 5) = ceil8 (length [1; 2; 3]).
Proof. split; [intros E; vm_compute in E; discriminate E|reflexivity]. Qed.

(** ** C22 *)
Lemma xoro_seeded_nonzero x : w64 x -> xoroshiro_seeded (seed_bytes x) <> mkXoro 0 0.
Proof.
  intros Hx E. pose proof (Xoroshiro_Seed_closed NewXoroshiro x Hx) as C. unfold Xoroshiro_Seed in C.
  rewrite (proj1 (C24_xoroshiro_seediv _ _)) in C. rewrite E in C. injection C as C0 C1. vm_compute in C1. discriminate C1.
Qed.
Lemma xoro_seeded_typed iv : Forall isbyte iv -> xoro_typed (xoroshiro_seeded iv).
Proof.
  intros B. destruct (Xoroshiro_SeedIV_ok NewXoroshiro iv B) as (s & E & T). rewrite (proj1 (C24_xoroshiro_seediv _ _)) in E. congruence.
Qed.
(** Seed never kills a generator: whatever the seed, the stream has the full period *)
Theorem C22_seed_gives_full_period_xoroshiro old x s : w64 x -> Xoroshiro_Seed old x = Ret s ->
  forall p, (stream_period Xoroshiro_Uint64 s p <-> (2 ^ 128 - 1 | p)) /\ (stream_period Rexoroshiro_Uint64 s p <-> (2 ^ 128 - 1 | p)).
Proof.
  intros Hx E p. unfold Xoroshiro_Seed in E. rewrite (proj1 (C24_xoroshiro_seediv _ _)) in E. injection E as <-.
  assert (T : xoro_typed (xoroshiro_seeded (seed_bytes x))) by (apply xoro_seeded_typed, le_bytes_isbyte).
  split; [apply C10_xoroshiro_stream_period|apply C10_rexoroshiro_stream_period]; (exact T || now apply xoro_seeded_nonzero).
Qed.
Theorem C22_seed_gives_full_period_xoshiro old x s : w64 x -> Xoshiro_Seed old x = Ret s ->
  forall p, stream_period Xoshiro_Uint64 s p <-> (2 ^ 256 - 1 | p).
Proof.
  intros Hx E p. unfold Xoshiro_Seed in E. rewrite C52_xoshiro_seediv in E. injection E as <-.
  apply C11_xoshiro_stream_period; [|now apply xoshiro_seed_nonzero].
  apply xoshiro_seeded_typed, le_bytes_isbyte.
Qed.
(** SeedIV can: some 16-byte iv silences Xoroshiro and Rexoroshiro, some 32-byte iv silences Xoshiro *)
Theorem C22_iv_that_kills_xoroshiro : exists iv, length iv = 16%nat /\ Forall isbyte iv /\ forall old s,
  Xoroshiro_SeedIV old iv = Ret s \/ Rexoroshiro_SeedIV old iv = Ret s ->
  forall xs s', runs Xoroshiro_Uint64 s xs s' \/ runs Rexoroshiro_Uint64 s xs s' -> Forall (eq 0) xs.
Proof.
  destruct (Xoroshiro_SeedIV_16_onto NewXoroshiro (mkXoro 0 0)) as (iv & L & B & E); [split; reflexivity|].
  exists iv. split; [exact L|]. split; [exact B|]. intros old s H xs s' R.
  assert (Es : s = mkXoro 0 0).
  { rewrite (proj1 (C24_xoroshiro_seediv _ _)) in E. destruct (C24_xoroshiro_seediv old iv) as [E1 E2]. destruct H; congruence. }
  subst s. apply (C10_zero_state_is_stuck xs s' R).
Qed.
Theorem C22_iv_that_kills_xoshiro : exists iv, length iv = 32%nat /\ Forall isbyte iv /\ forall old s,
  Xoshiro_SeedIV old iv = Ret s -> forall xs s', runs Xoshiro_Uint64 s xs s' -> Forall (eq 0) xs.
Proof.
  destruct (xoshiro_seeded_32_onto (mkXoshi 0 0 0 0)) as (iv & L & B & E); [repeat split; reflexivity|].
  exists iv. split; [exact L|]. split; [exact B|]. intros old s H xs s' R. rewrite C52_xoshiro_seediv in H.
  assert (s = mkXoshi 0 0 0 0) by congruence. subst s. apply (C11_zero_state_is_stuck xs s' R).
Qed.
Example C22_nonvacuous : exists s t, Xoroshiro_Seed NewXoroshiro 42 = Ret s /\ Xoshiro_Seed NewXoshiro 42 = Ret t.
Proof.
  eexists _, _. split; [apply (proj1 (C24_xoroshiro_seediv _ _))|apply C52_xoshiro_seediv].
Qed.

(** ** C23 *)
Theorem C23_xoroshiro_16_byte_ivs_injective old old' iv iv' s : length iv = 16%nat -> length iv' = 16%nat ->
  Forall isbyte iv -> Forall isbyte iv' -> Xoroshiro_SeedIV old iv = Ret s -> Xoroshiro_SeedIV old' iv' = Ret s -> iv = iv'.
Proof. apply Xoroshiro_SeedIV_16_inj. Qed.
Theorem C23_xoroshiro_16_byte_ivs_onto old s : any_value gXoroshiro s ->
  exists iv, length iv = 16%nat /\ Forall isbyte iv /\ Xoroshiro_SeedIV old iv = Ret s.
Proof. apply Xoroshiro_SeedIV_16_onto. Qed.
Theorem C23_xoshiro_32_byte_ivs_injective old old' iv iv' s : length iv = 32%nat -> length iv' = 32%nat ->
  Forall isbyte iv -> Forall isbyte iv' -> Xoshiro_SeedIV old iv = Ret s -> Xoshiro_SeedIV old' iv' = Ret s -> iv = iv'.
Proof.
  intros L L' B B' E E'. rewrite C52_xoshiro_seediv in E, E'. apply xoshiro_seeded_32_inj; congruence.
Qed.
Theorem C23_xoshiro_32_byte_ivs_onto old s : any_value gXoshiro s ->
  exists iv, length iv = 32%nat /\ Forall isbyte iv /\ Xoshiro_SeedIV old iv = Ret s.
Proof.
  intros T. destruct (xoshiro_seeded_32_onto s T) as (iv & L & B & E). exists iv. rewrite C52_xoshiro_seediv, E. auto.
Qed.
Theorem C23_xoroshiro_seed_injective old old' x y s : w64 x -> w64 y ->
  Xoroshiro_Seed old x = Ret s -> Xoroshiro_Seed old' y = Ret s -> x = y.
Proof. apply Xoroshiro_Seed_inj. Qed.
Theorem C23_rexoroshiro_seed_injective old old' x y s : w64 x -> w64 y ->
  Rexoroshiro_Seed old x = Ret s -> Rexoroshiro_Seed old' y = Ret s -> x = y.
Proof. apply Xoroshiro_Seed_inj. Qed.
Theorem C23_xoshiro_seed_injective old old' x y s : w64 x -> w64 y ->
  Xoshiro_Seed old x = Ret s -> Xoshiro_Seed old' y = Ret s -> x = y.
Proof.
  intros Hx Hy E E'. unfold Xoshiro_Seed in *. rewrite C52_xoshiro_seediv in E, E'.
  assert (E2 : xoshiro_seeded (seed_bytes x) = xoshiro_seeded (seed_bytes y)) by congruence.
  rewrite !xoshiro_seeded_8 in E2 by assumption. apply absorb_chunk_inj in E2. apply E2.
Qed.
Example C23_nonvacuous : exists iv s, length iv = 16%nat /\ Forall isbyte iv /\ Xoroshiro_SeedIV NewXoroshiro iv = Ret s.
Proof.
  destruct (C23_xoroshiro_16_byte_ivs_onto NewXoroshiro (mkXoro 3 5)) as (iv & L & B & E); [split; reflexivity|]. eauto.
Qed.

Print Assumptions C24_xoroshiro_seediv.
Print Assumptions C52_xoshiro_seediv.
Print Assumptions C24_earlier_words_in_any_order.
Print Assumptions C24_trailing_zero_bytes.
Print Assumptions C52_trailing_zero_bytes.
Print Assumptions C22_seed_gives_full_period_xoroshiro.
Print Assumptions C22_seed_gives_full_period_xoshiro.
Print Assumptions C22_iv_that_kills_xoroshiro.
Print Assumptions C22_iv_that_kills_xoshiro.
Print Assumptions C23_xoroshiro_16_byte_ivs_injective.
Print Assumptions C23_xoroshiro_16_byte_ivs_onto.
Print Assumptions C23_xoshiro_32_byte_ivs_injective.
Print Assumptions C23_xoshiro_32_byte_ivs_onto.
Print Assumptions C23_xoroshiro_seed_injective.
Print Assumptions C23_rexoroshiro_seed_injective.
Print Assumptions C23_xoshiro_seed_injective.
