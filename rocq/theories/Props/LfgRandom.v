(** C84: distributions for an LFG with a random state. *)
From Coq Require Import Reals Lia Lra Psatz ZifyN ZifyNat ZifyBool Bool.
From Coquelicot Require Import Coquelicot.
From Flocq Require Import Core BinarySingleNaN.
From Verif Require Import Model.Base Model.GenRead Model.Rng Model.Util Model.Utf8 Model.Float Model.Distr Model.Ziggurat Model.ExpoNormal Model.Lfg Model.Api Spec.Common Spec.States Spec.Kinds Spec.Counting Spec.Floats Spec.Zig Spec.Tails Spec.Shuffling Spec.Prob Spec.Words Spec.LfgRef Spec.RandomState Spec.LfgRandom.
From Verif Require Import Proofs.WordLemmas Proofs.RelError Proofs.ReadProofs Proofs.SaveProofs Proofs.SumN Proofs.KindProofs Proofs.LfgProofs Proofs.LfgStream Proofs.ZigTape Proofs.UintnLaw Proofs.GenTape Proofs.GenLaw Proofs.GenReturns.
From Verif Require Import Props.Rng Props.Strings Props.Shuffle Props.Gens Props.Lfg Props.LfgMore Props.Draws Props.ExpoLaw Props.NormalLaw Props.Tails Props.RandomState.
Local Open Scope R_scope.

(** *** 335 words of the state against the first 335 values *)
Definition lfg_words (out : list N) : list N := firstn 335 (window_for out).
Lemma lfg_words_ok out : words 335 (lfg_words out).
Proof.
  destruct (window_for_ok out) as [L F]. unfold lfg_words. split; [rewrite firstn_length, L; reflexivity|].
  rewrite <- (firstn_skipn 335 (window_for out)) in F. now apply Forall_app in F.
Qed.
Lemma lfg_state_ok rest ws : words 272 rest -> words 335 ws -> length (ws ++ rest) = 607%nat /\ Forall w64 (ws ++ rest) /\ lfg_ok (lfg_state rest ws).
Proof.
  intros [L1 F1] [L2 F2]. assert (L : length (ws ++ rest) = 607%nat) by (rewrite app_length, L1, L2; reflexivity).
  assert (F : Forall w64 (ws ++ rest)) by now apply Forall_app. split; [exact L|]. split; [exact F|]. now apply lfg_fresh_ok.
Qed.
Lemma lfg_state_head rest ws k : words 272 rest -> words 335 ws -> (k < 335)%nat -> useq (lfg_state rest ws) (N.of_nat k) = nth k ws 0%N.
Proof.
  intros Hr Hw Hk. destruct (lfg_state_ok rest ws Hr Hw) as (_ & _ & Ho). transitivity (rv (lfg_state rest ws) k); [symmetry; exact (useq_rv _ 0 k Ho ltac:(lia))|].
  unfold rv, lfg_state; cbn [lt ls]. rewrite Nat.add_0_l, Nat.mod_small by lia. apply app_nth1. rewrite (proj1 Hw). exact Hk.
Qed.
Lemma lfg_nth_runs rest ws out t : words 272 rest -> words 335 ws -> runs LFG_Uint64 (lfg_state rest ws) out t ->
  forall k, (k < length out)%nat -> nth k out 0%N = useq (lfg_state rest ws) (N.of_nat k + 335).
Proof. intros Hr Hw R. destruct (lfg_state_ok rest ws Hr Hw) as (_ & _ & Ho). exact (proj2 (runs_useq _ _ _ Ho R)). Qed.
Lemma lfg_words_nth out k : (k < 335)%nat -> nth k (lfg_words out) 0%N = nth k (window_for out) 0%N.
Proof.
  intros Hk. unfold lfg_words. rewrite <- (firstn_skipn 335 (window_for out)) at 2. symmetry. apply app_nth1.
  rewrite firstn_length, (proj1 (window_for_ok out)). exact Hk.
Qed.
Lemma lfg_reach rest ws : words 272 rest -> words 335 ws -> reachable gLFG (lfg_state rest ws).
Proof. intros Hr Hw. destruct (lfg_state_ok rest ws Hr Hw) as (L & F & _). now apply lfg_restored_reachable. Qed.
Lemma lfg_first335 rest out : words 272 rest -> words 335 out -> exists t, runs LFG_Uint64 (lfg_state rest (lfg_words out)) out t.
Proof.
  intros Hr [L F]. pose proof (lfg_words_ok out) as Hw. destruct (lfg_state_ok rest _ Hr Hw) as (_ & _ & Ho).
  destruct (useq_runs _ 335 Ho 0) as (t & R). cbn [N.iter] in R. exists t.
  destruct (window_for_ok out) as [Lw Fw]. pose proof (lfg_fresh_ok _ Lw Fw) as Hf.
  assert (S : forall k, useq (lfg_state rest (lfg_words out)) (N.of_nat k) = useq (mkLFG 334 0 (window_for out)) (N.of_nat k)).
  { intros k. apply (useq_unique _ (fun k => useq (lfg_state rest (lfg_words out)) (N.of_nat k)) Hf).
    - intros n. rewrite !Nat2N.inj_add. apply useq_recN, Ho.
    - intros j Hj. rewrite lfg_state_head by assumption. rewrite lfg_words_nth by exact Hj. unfold rv; cbn [lt ls]. rewrite Nat.add_0_l, Nat.mod_small by lia. reflexivity. }
  set (d := fun k => useq (lfg_state rest (lfg_words out)) (0 + N.of_nat k + 335)) in R.
  replace out with (map d (seq 0 335)) at 2; [exact R|].
  apply (list_eq_nth 0%N); [rewrite map_length, seq_length; now rewrite L|].
  intros k Hk. rewrite map_length, seq_length in Hk. rewrite (nth_indep _ 0%N (d 0%nat)) by (rewrite map_length, seq_length; exact Hk).
  rewrite map_nth, seq_nth by exact Hk. unfold d. rewrite N.add_0_l. cbn [Nat.add].
  specialize (S (k + 335)%nat). rewrite Nat2N.inj_add in S. change (N.of_nat 335) with 335%N in S. rewrite S. now apply useq_window_for.
Qed.
Lemma sub_w_add64 a b : w64 a -> w64 b -> sub_w (add64 a b) a = b.
Proof.
  intros Ha Hb. unfold sub_w. rewrite add64_mod. unfold w64 in *.
  rewrite <- N.add_sub_assoc by lia. rewrite N.add_mod_idemp_l by discriminate.
  replace (a + b + (2 ^ 64 - a))%N with (b + 1 * 2 ^ 64)%N by lia. rewrite N.mod_add by discriminate. now apply N.mod_small.
Qed.
(** the first 335 values determine the 335 words *)
Lemma lfg_back rest ws out t : words 272 rest -> words 335 ws -> length out = 335%nat -> runs LFG_Uint64 (lfg_state rest ws) out t -> lfg_words out = ws.
Proof.
  intros Hr Hw L R. pose proof (lfg_nth_runs rest ws out t Hr Hw R) as N. rewrite L in N. destruct (lfg_state_ok rest ws Hr Hw) as (_ & _ & Ho).
  apply (list_eq_nth 0%N); [rewrite (proj1 (lfg_words_ok out)); now rewrite (proj1 Hw)|]. intros k Hk. rewrite (proj1 (lfg_words_ok out)) in Hk.
  rewrite lfg_words_nth by exact Hk. pose proof (lfg_state_head rest ws) as H0.
  assert (D : forall j, (1 <= j <= 334)%nat -> nth j (window_for out) 0%N = nth j ws 0%N).
  { intros j Hj. rewrite window_for_nth by exact Hj. rewrite !N by lia. replace (N.of_nat j + 335)%N with (N.of_nat (j - 1) + 1 + 335)%N by lia.
    rewrite (useq_rec _ (N.of_nat (j - 1) + 1) Ho). replace (N.of_nat (j - 1) + 1 + 334)%N with (N.of_nat (j - 1) + 335)%N by lia.
    rewrite sub_w_add64 by now apply useq_w. replace (N.of_nat (j - 1) + 1)%N with (N.of_nat j) by lia. apply H0; auto; lia. }
  destruct k as [|k]; [|apply D; lia]. change (nth 0 (window_for out) 0%N) with (sub_w (nth 0 out 0%N) (sub_w (nth 334 out 0%N) (nth (334 - 1) out 0%N))).
  rewrite <- window_for_nth, D by lia. rewrite N by lia. rewrite (useq_rec _ (N.of_nat 0) Ho). change (N.of_nat 0 + 334)%N with (N.of_nat 334).
  rewrite !H0 by (auto; lia). apply sub_w_add64; apply nth_w64, (proj2 Hw).
Qed.
Lemma lfg_inv1 rest (Hr : words 272 rest) out : words 335 out -> words 335 (lfg_words out) /\ exists t, runs (RNG_Uint64 LFG_Read) (lfg_state rest (lfg_words out)) out t.
Proof.
  intros Ho. pose proof (lfg_words_ok out) as Hw. split; [exact Hw|]. destruct (lfg_first335 rest out Hr Ho) as [t R]. exists t.
  exact (proj2 (C04_rng_follows_generator gLFG _ _ _ eq_refl (lfg_reach rest _ Hr Hw)) R).
Qed.
Lemma lfg_inv2 rest (Hr : words 272 rest) ws : words 335 ws -> exists out, words 335 out /\ lfg_words out = ws.
Proof.
  intros Hw. destruct (C01_streams_exist gLFG (lfg_state rest ws) 335 (lfg_reach rest ws Hr Hw)) as (out & t & R & L & F). exists out. split; [now split|].
  exact (lfg_back rest ws out t Hr Hw L R).
Qed.

(** ** C84 *)
(** Whatever the other 272 words are, the 335 words that matter and the first 335 values determine each other: every
    sequence of 335 values comes from exactly one filling. *)
Theorem C84_every_335_values_once rest out : length rest = 272%nat -> Forall w64 rest -> length out = 335%nat -> Forall w64 out ->
  exists! ws, (length ws = 335%nat /\ Forall w64 ws) /\ exists g, runs LFG_Uint64 (lfg_state rest ws) out g.
Proof.
  intros L1 F1 L2 F2. exists (lfg_words out). split.
  - split; [apply lfg_words_ok|]. now apply lfg_first335.
  - intros ws [Hw [g R]]. exact (lfg_back rest ws out g (conj L1 F1) Hw L2 R).
Qed.
(** these are states a program gets from Restore *)
Theorem C84_restored rest ws : length rest = 272%nat -> Forall w64 rest -> length ws = 335%nat -> Forall w64 ws -> reachable gLFG (lfg_state rest ws).
Proof. intros L1 F1 L2 F2. now apply lfg_reach. Qed.

(** for every choice of the compiler which x*y + z to fuse (Model/Fused.v) *)
Section Compiler.
Context {fpc : compiler}.
Section Rest.
Variable rest : list N.
Hypothesis (Lr : length rest = 272%nat) (Fr : Forall w64 rest).
Let HRest : words 272 rest := conj Lr Fr.

Lemma lfg_law {A} (pt : nat -> list N -> outcome (A * list N)) (p : nat -> lfg -> outcome (A * lfg)) P q d :
  fuel_mono pt -> fuel_mono p -> (forall f, same_draws tape (pt f) (pt f)) -> (forall f, same_draws LFG_Read (pt f) (p f)) ->
  draw_prob pt P q -> 1 - d <= pr 335 (fun ws => ev (ends pt (fun _ => True) ws)) ->
  exists p', state_prob 335 (lfg_state rest) p P p' /\ Rabs (p' - q) <= d.
Proof.
  intros M1 M2 S1 S2 D B. exact (generator_law pt M1 S1 LFG_Read p M2 S2 335 (lfg_state rest) lfg_words (lfg_inv1 rest HRest) (lfg_inv2 rest HRest) P q d D B).
Qed.
Lemma more_words {A} (pt : nat -> list N -> outcome (A * list N)) r d : fuel_mono pt -> (forall f, same_draws tape (pt f) (pt f)) ->
  prob (2 * 156) (fun ws => exists fuel f ws', pt fuel ws = Ret (f, ws') /\ True) r -> 1 - d <= r -> 1 - d <= pr 335 (fun ws => ev (ends pt (fun _ => True) ws)).
Proof.
  intros M S P H. apply Rle_trans with (1 := H). rewrite (prob_unique _ _ _ _ P (q_prob pt 312 (fun _ => True))).
  apply (proj1 (q_bounds pt M S 312 23 (fun _ => True))).
Qed.

(** Uintn, Intn *)
Theorem C84_lfg_uintn b max r : b = 32%N \/ b = 64%N -> (0 < max < 2 ^ b)%N -> (r < max)%N ->
  exists p, state_prob 335 (lfg_state rest) (fun fuel => RNG_Uintn LFG_Read fuel b max) (fun x => x = r) p /\ Rabs (p - uintn_share b max r) <= / 2 ^ 335.
Proof.
  intros Hb Hm Hr. apply (lfg_law (fun fuel => RNG_Uintn tape fuel b max) (fun fuel => RNG_Uintn LFG_Read fuel b max)); try (apply mono_uintn); try (intros; apply same_uintn).
  - now apply C65_uintn_distribution.
  - apply Rle_trans with (2 := enough_bound (fun fuel => RNG_Uintn tape fuel b max) b max 1 335 (width b Hb) Hm (one_draw b max)). rewrite enough1 by (try apply width; assumption).
    pose proof (rho_range b max (width b Hb) Hm) as [[R0 R1] _]. assert (rho b max ^ 335 <= (/ 2) ^ 335) by (apply pow_incr; lra). rewrite pow_inv in H. lra.
Qed.
(** RandString and the shuffles make several draws: they go as on ideal words, but for the chance that one of them is rejected. *)
Theorem C84_lfg_randstring b alphabet target : b = 32%N \/ b = 64%N ->
  let a := string_runes alphabet in
  (0 < length a)%nat -> (N.of_nat (length a) < 2 ^ b)%N -> (length target <= 335)%nat ->
  exists p, state_prob 335 (lfg_state rest) (fun fuel => RandString LFG_Read b fuel alphabet (Z.of_nat (length target))) (fun s => string_runes s = target) p /\
    Rabs (p - fold_right Rmult 1 (map (letter_share b a) target)) <= INR (length target) * (INR (length a) / 2 ^ N.to_nat b).
Proof.
  intros Hb a Ha Hl Ht. assert (Hm : (0 < N.of_nat (length a) < 2 ^ b)%N) by lia.
  apply (lfg_law (fun fuel => RandString tape b fuel alphabet (Z.of_nat (length target))) (fun fuel => RandString LFG_Read b fuel alphabet (Z.of_nat (length target))));
    try (apply mono_randstring); try (intros; apply same_randstring).
  - now apply C66_randstring_distribution.
  - apply Rle_trans with (2 := enough_bound (fun fuel => RandString tape b fuel alphabet (Z.of_nat (length target))) b (N.of_nat (length a)) (length target) 335 (width b Hb) Hm
      ltac:(intros fuel ws js ws' R L; destruct (C44_randstring_returns tape b fuel alphabet (Z.of_nat (length target)) ws js ws') as (s & E); [lia|exact R|lia|eauto])).
    apply Rle_trans with (2 := enough b (N.of_nat (length a)) (width b Hb) Hm (length target) 335 Ht). pose proof (rho_range b _ (width b Hb) Hm) as [_ R2].
    replace (IZR (Z.of_N (2 ^ b))) with (2 ^ N.to_nat b) in R2. 2:{ rewrite N2Z.inj_pow. rewrite <- (N2Nat.id b) at 2. rewrite nat_N_Z, <- pow_IZR. reflexivity. }
    rewrite nat_N_Z, <- INR_IZR_INZ in R2. pose proof (pos_INR (length target)). assert (INR (length target) * rho b (N.of_nat (length a)) <= INR (length target) * (INR (length a) / 2 ^ N.to_nat b)) by (apply Rmult_le_compat_l; lra). lra.
Qed.
Theorem C84_lfg_shuffle {A} b (d d' : list A) q : b = 32%N \/ b = 64%N -> (0 < length d <= 335)%nat ->
  draw_prob (fun fuel ws => ShuffleSlice tape b fuel d ws) (fun r => r = d') q ->
  exists p, state_prob 335 (lfg_state rest) (fun fuel => ShuffleSlice LFG_Read b fuel d) (fun r => r = d') p /\
    Rabs (p - q) <= INR (length d) * (INR (length d) / 2 ^ N.to_nat b).
Proof.
  intros Hb Ha D. assert (Hm : (0 < N.of_nat (length d) < 2 ^ b)%N). { split; [lia|]. apply N.lt_le_trans with (2 ^ 32)%N; [change (2 ^ 32)%N with 4294967296%N; lia|]. apply N.pow_le_mono_r; lia. }
  apply (lfg_law (fun fuel => ShuffleSlice tape b fuel d) (fun fuel => ShuffleSlice LFG_Read b fuel d)); try (apply mono_shuffle_slice); try (intros; apply same_shuffle_slice).
  - exact D.
  - apply Rle_trans with (pr 335 (fun ws => seqE b (N.of_nat (length d)) ws (length d) (fun _ => true))).
    + apply Rle_trans with (2 := enough b (N.of_nat (length d)) (width b Hb) Hm (length d) 335 (proj2 Ha)). pose proof (rho_range b _ (width b Hb) Hm) as [_ R2].
      replace (IZR (Z.of_N (2 ^ b))) with (2 ^ N.to_nat b) in R2. 2:{ rewrite N2Z.inj_pow. rewrite <- (N2Nat.id b) at 2. rewrite nat_N_Z, <- pow_IZR. reflexivity. }
      rewrite nat_N_Z, <- INR_IZR_INZ in R2. pose proof (pos_INR (length d)). assert (INR (length d) * rho b (N.of_nat (length d)) <= INR (length d) * (INR (length d) / 2 ^ N.to_nat b)) by (apply Rmult_le_compat_l; lra). lra.
    + apply (enough_bound (fun fuel => ShuffleSlice tape b fuel d) b _ (length d) 335 (width b Hb) Hm). intros fuel ws js ws' R L.
      assert (I : index_draws (length d) js) by (split; [exact L|]; clear - R; induction R as [|w x w1 xs w' Ex _ IH]; constructor; auto; exact (C26_uintn_in_range tape _ _ _ _ _ _ Ex)).
      destruct (swap_calls_perm d js 0) as (r & Er & _); [destruct I; lia|apply I|]. exists r, ws'. rewrite C45_slices_as_shuffle. apply C45_shuffle_calls. exists js. auto.
Qed.

(** the variates *)
Section Variates.
  Variables math_exp math_log : float64 -> float64.
  Hypothesis (AE : accurate_exp math_exp) (AL : accurate_log math_log).
  Lemma pow_small c : 0 <= c <= 51 / 100 -> c ^ 156 <= 1 / 10 ^ 13.
  Proof.
    intros Hc. apply Rle_trans with ((51 / 100) ^ 156); [apply pow_incr; lra|]. change 156%nat with (52 * 3)%nat. rewrite pow_mult.
    assert (A1 : 0 <= (51 / 100) ^ 52 <= 1 / 10 ^ 13) by lra. set (a := (51 / 100) ^ 52) in *. clearbody a. replace (a ^ 3) with (a * (a * a)) by ring. assert (a * a <= a * 1) by (apply Rmult_le_compat_l; lra).
    assert (a * (a * a) <= a * 1) by (apply Rmult_le_compat_l; lra). lra.
  Qed.
  (** all 2^21440 fillings of the state taken together, an Exponential variate is at most x in the share of them that the
      exponential distribution gives, to 10 digits *)
  Theorem C84_lfg_exponential rate r x : fvalue rate r -> 0 < r -> x <= 2 ^ 1023 ->
    exists p, state_prob 335 (lfg_state rest) (Exponential_Next LFG_Read math_exp math_log rate) (at_most x) p /\ Rabs (p - exponential_cdf r x) <= 3 / 10 ^ 11.
  Proof.
    intros V R0 X. destruct (C61_exponential_distribution math_exp math_log rate r x AE AL V R0 X) as (q & D & B). destruct (expo_returns math_exp math_log AE rate 156) as (e & RE & HE).
    pose proof (pow_small (3 / 100) ltac:(lra)) as PS.
    destruct (lfg_law (Exponential_Next tape math_exp math_log rate) (Exponential_Next LFG_Read math_exp math_log rate) (at_most x) q ((3 / 100) ^ 156)
      (mono_exponential tape math_exp math_log rate) (mono_exponential LFG_Read math_exp math_log rate) (fun f => same_exponential tape math_exp math_log rate f)
      (fun f => same_exponential LFG_Read math_exp math_log rate f) D) as (g & G & BG).
    { apply (more_words (Exponential_Next tape math_exp math_log rate) e); [apply mono_exponential|intros f; apply same_exponential|exact RE|exact HE]. }
    exists g. split; [exact G|]. apply Rabs_le_inv in B, BG. set (w := (3 / 100) ^ 156) in *. clearbody w. apply Rabs_le. lra.
  Qed.
  (** likewise a Normal variate *)
  Theorem C84_lfg_normal mean m sd s x : fvalue mean m -> fvalue sd s -> 0 < s -> Rabs m <= bpow radix2 1022 -> Rabs x <= bpow radix2 1022 -> rounding_margin x <= s / 10 ^ 12 ->
    exists p A, state_prob 335 (lfg_state rest) (fun fuel => Normal_Next LFG_Read math_exp math_log mean sd fuel fuel) (not_above x) p /\ area_up_to (normal_curve m s) x A /\ Rabs (p - A) <= 5 / 10 ^ 11.
  Proof.
    intros Vm Vs S M X RM. destruct (C62_normal_distribution_tight math_exp math_log AE AL mean m sd s x Vm Vs S M X RM) as (q & A & D & AR & B). destruct (normal_returns math_exp math_log AE AL mean sd 156) as (e & RE & HE).
    pose proof (pow_small (51 / 100) ltac:(lra)) as PS.
    destruct (lfg_law (normal_draws math_exp math_log mean sd) (fun f => Normal_Next LFG_Read math_exp math_log mean sd f f) (not_above x) q ((51 / 100) ^ 156)
      (mono_normal tape math_exp math_log mean sd) (mono_normal LFG_Read math_exp math_log mean sd) (fun f => same_normal tape math_exp math_log mean sd f f)
      (fun f => same_normal LFG_Read math_exp math_log mean sd f f) D) as (g & G & BG).
    { apply (more_words (normal_draws math_exp math_log mean sd) e); [exact (mono_normal tape math_exp math_log mean sd)|intros f; exact (same_normal tape math_exp math_log mean sd f f)|exact RE|exact HE]. }
    exists g, A. split; [exact G|]. split; [exact AR|]. apply Rabs_le_inv in B, BG. set (w := (51 / 100) ^ 156) in *. clearbody w. apply Rabs_le. lra.
  Qed.
End Variates.
End Rest.
(** 335 words 0, 0, ..., 0 and 272 words 7; the rate 3 and the median ln 2 / 3; six of a die *)
Example C84_nonvacuous : (length (repeat 7%N 272) = 272%nat /\ Forall w64 (repeat 7%N 272)) /\ reachable gLFG (lfg_state (repeat 7%N 272) (repeat 0%N 335)) /\
  (exists p, state_prob 335 (lfg_state (repeat 7%N 272)) (Exponential_Next LFG_Read exact_exp exact_log (of_int 3)) (at_most (ln 2 / 3)) p /\ Rabs (p - 1 / 2) <= 3 / 10 ^ 11) /\
  (exists p, state_prob 335 (lfg_state (repeat 7%N 272)) (fun fuel => RNG_Uintn LFG_Read fuel 64 6) (fun x => x = 5%N) p /\ Rabs (p - 1 / 6) <= 1 / 10 ^ 18).
Proof.
  assert (F : forall x n, w64 x -> Forall w64 (repeat x n)) by (intros x n Hx; apply Forall_forall; intros y Hy; apply repeat_spec in Hy; now subst).
  assert (F7 : Forall w64 (repeat 7%N 272)) by (apply F; reflexivity). assert (L7 : length (repeat 7%N 272) = 272%nat) by apply repeat_length.
  assert (V : fvalue (of_int 3) 3) by (split; [reflexivity|]; vm_compute; lra).
  assert (L0 : 0 < ln 2) by (rewrite <- ln_1; apply ln_increasing; lra). assert (L1 : ln 2 <= 1) by (pose proof (ln_le_minus1 2 ltac:(lra)); lra).
  split; [now split|]. split; [apply C84_restored; [exact L7|exact F7|apply repeat_length|apply F; reflexivity]|]. split.
  - destruct (C84_lfg_exponential _ L7 F7 exact_exp exact_log exact_exp_accurate exact_log_accurate (of_int 3) 3 (ln 2 / 3) V ltac:(lra)) as (p & D & B).
    + apply Rle_trans with 1; [lra|]. apply pow_R1_Rle. lra.
    + exists p. split; [exact D|]. revert B. unfold exponential_cdf. destruct Rle_dec as [_|N]; [|exfalso; apply N; lra]. replace (3 * (ln 2 / 3)) with (ln 2) by field. rewrite exp_Ropp, exp_ln by lra. intros B. apply Rabs_le_inv in B. apply Rabs_le. lra.
  - destruct (C84_lfg_uintn _ L7 F7 64 6 5 ltac:(auto) ltac:(split; reflexivity) ltac:(reflexivity)) as (p & D & B). exists p. split; [exact D|].
    assert (E : uintn_share 64 6 5 = 3074457345618258602 / 18446744073709551613) by reflexivity. rewrite E in B.
    assert (H : / 2 ^ 335 <= / 2 ^ 64) by (apply Rinv_le_contravar; [apply pow_lt; lra|apply Rle_pow; [lra|lia]]). set (w := / 2 ^ 335) in *. clearbody w.
    apply Rabs_le_inv in B. apply Rabs_le. lra.
Qed.
End Compiler.
