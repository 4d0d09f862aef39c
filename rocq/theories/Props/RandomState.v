(** C69: clients of a Source depend on it only through its words. C70: distributions for a generator with a random state. *)
From Coq Require Import Reals Lia Lra Psatz ZifyN ZifyNat ZifyBool Bool.
From Coquelicot Require Import Coquelicot.
From Flocq Require Import Core BinarySingleNaN.
From Verif Require Import Model.Base Model.GenRead Model.Rng Model.Util Model.Utf8 Model.Float Model.Distr Model.Ziggurat Model.ExpoNormal Model.Mt64 Model.Xoshiro Model.Api Spec.Common Spec.States Spec.Kinds Spec.Counting Spec.Floats Spec.Zig Spec.Tails Spec.Shuffling Spec.Prob Spec.Words Spec.RandomState.
From Verif Require Import Proofs.WordLemmas Proofs.RelError Proofs.ReadProofs Proofs.SaveProofs Proofs.SumN Proofs.KindProofs Proofs.MtProofs Proofs.XoshiProofs Proofs.ZigTape Proofs.UintnLaw Proofs.GenTape Proofs.GenLaw Proofs.GenReturns.
From Verif Require Import Props.Rng Props.Strings Props.Shuffle Props.Gens Props.Mt Props.Periods Props.Draws Props.ExpoLaw Props.NormalLaw Props.Tails.
Local Open Scope R_scope.

(** for every choice of the compiler which x*y + z to fuse (Model/Fused.v) *)
Section Compiler.
Context {fpc : compiler}.

(** ** C69 *)
Theorem C69_rng {W} (read : reader W) fuel ub max imax : same_draws read (RNG_Uint64 tape) (RNG_Uint64 read) /\
  same_draws read (RNG_Uintn tape fuel ub max) (RNG_Uintn read fuel ub max) /\ same_draws read (RNG_Intn tape fuel ub imax) (RNG_Intn read fuel ub imax).
Proof. split; [apply same_uint64|]. split; [apply same_uintn|apply same_intn]. Qed.
Theorem C69_randstring {W} (read : reader W) ub fuel alphabet n : same_draws read (RandString tape ub fuel alphabet n) (RandString read ub fuel alphabet n).
Proof. apply same_randstring. Qed.
Theorem C69_shuffles {W A D} (read : reader W) ub fuel (d : list A) len (swap : D -> nat -> nat -> outcome D) data :
  same_draws read (ShuffleSlice tape ub fuel d) (ShuffleSlice read ub fuel d) /\
  same_draws read (Shuffle tape ub len swap fuel data) (Shuffle read ub len swap fuel data).
Proof. split; [apply same_shuffle_slice|apply same_shuffle]. Qed.
(** a ziggurat of the user's, whose Tail depends on the source in the same way *)
Theorem C69_ziggurat {W} (read : reader W) (zt : Ziggurat (list N)) (z : Ziggurat W) fuel :
  zPDF zt = zPDF z -> zMirrored zt = zMirrored z -> zK zt = zK z -> zW zt = zW z -> zF zt = zF z -> same_draws read (zTail zt) (zTail z) ->
  same_draws read (GenNext tape zt fuel) (GenNext read z fuel).
Proof. apply same_ziggurat. Qed.
Theorem C69_distributions {W} (read : reader W) math_exp math_log rate mean sd tf fuel :
  same_draws read (Uniform0_1_Next tape) (Uniform0_1_Next read) /\
  same_draws read (Exponential_Next tape math_exp math_log rate fuel) (Exponential_Next read math_exp math_log rate fuel) /\
  same_draws read (Normal_Next tape math_exp math_log mean sd tf fuel) (Normal_Next read math_exp math_log mean sd tf fuel).
Proof. split; [apply same_uniform|]. split; [apply same_exponential|apply same_normal]. Qed.
(** ... and they look at nothing else: any run on any source is a run on the tape of the words it drew *)
Theorem C69_nothing_else {W A D} (read : reader W) fuel ub max imax alphabet n (d : list A) len (swap : D -> nat -> nat -> outcome D) data math_exp math_log rate mean sd tf : go_reader read ->
  draws_only read (RNG_Uint64 tape) (RNG_Uint64 read) /\ draws_only read (RNG_Uintn tape fuel ub max) (RNG_Uintn read fuel ub max) /\
  draws_only read (RNG_Intn tape fuel ub imax) (RNG_Intn read fuel ub imax) /\ draws_only read (RandString tape ub fuel alphabet n) (RandString read ub fuel alphabet n) /\
  draws_only read (ShuffleSlice tape ub fuel d) (ShuffleSlice read ub fuel d) /\ draws_only read (Shuffle tape ub len swap fuel data) (Shuffle read ub len swap fuel data) /\
  draws_only read (Uniform0_1_Next tape) (Uniform0_1_Next read) /\
  draws_only read (Exponential_Next tape math_exp math_log rate fuel) (Exponential_Next read math_exp math_log rate fuel) /\
  draws_only read (Normal_Next tape math_exp math_log mean sd tf fuel) (Normal_Next read math_exp math_log mean sd tf fuel).
Proof.
  intros G. split; [now apply only_uint64|]. split; [now apply only_uintn|]. split; [now apply only_intn|]. split; [now apply only_randstring|]. split; [now apply only_shuffle_slice|].
  split; [now apply only_shuffle|]. split; [now apply only_uniform|]. split; [now apply only_exponential|now apply only_normal].
Qed.
Theorem C69_ziggurat_nothing_else {W} (read : reader W) (zt : Ziggurat (list N)) (z : Ziggurat W) fuel : go_reader read ->
  zPDF zt = zPDF z -> zMirrored zt = zMirrored z -> zK zt = zK z -> zW zt = zW z -> zF zt = zF z -> draws_only read (zTail zt) (zTail z) ->
  draws_only read (GenNext tape zt fuel) (GenNext read z fuel).
Proof. intros G. now apply only_ziggurat. Qed.
(** For the built-in generators other than Xoroshiro the words are those its Uint64 method returns: the value is a function of
    the next Uint64 values, and the generator is left where as many Uint64 calls would leave it. *)
Theorem C69_generators {A} k s ws t pt (p : state k -> outcome (A * state k)) v ws' : is_gXoroshiro k = false -> reachable k s ->
  runs (a_Uint64 (methods k)) s ws t -> same_draws (a_Read (methods k)) pt p -> pt ws = Ret (v, ws') ->
  exists used s', ws = used ++ ws' /\ p s = Ret (v, s') /\ runs (a_Uint64 (methods k)) s used s'.
Proof.
  intros Hk H R S E. pose proof (inv_runs_w k s ws t (reachable_inv k s H) R) as F. apply (C04_rng_follows_generator k s ws t Hk H) in R.
  destruct (S _ _ _ _ _ F R E) as (used & s' & E1 & E2 & R1 & _). exists used, s'. split; [exact E1|]. split; [exact E2|]. now apply (C04_rng_follows_generator k s used s' Hk H).
Qed.
(** Xoshiro in state (1,2,3,4), whose first Uint64 value is 11520: Uintn(100) returns 20 and uses that one value *)
Example C69_nonvacuous : reachable gXoshiro (mkXoshi 1 2 3 4) /\ exists t, runs (a_Uint64 (methods gXoshiro)) (mkXoshi 1 2 3 4) [11520]%N t /\
  RNG_Uintn tape 1 64 100 [11520]%N = Ret (20%N, []) /\ RNG_Uintn (a_Read (methods gXoshiro)) 1 64 100 (mkXoshi 1 2 3 4) = Ret (20%N, t).
Proof.
  split; [apply C00_xoshiro_all_states_reachable; repeat split; reflexivity|]. eexists. split; [|split; vm_compute; reflexivity].
  eapply runs_cons; [vm_compute; reflexivity|]. apply runs_nil.
Qed.

(** ** C70 *)
(** *** a twister with 312 random words *)
Lemma mt_words_reach ws : length ws = 312%nat -> Forall w64 ws -> reachable gMT64 (mkMT 0 ws).
Proof. intros L F. apply C00_mt64_reachable_iff. split; [split; [exact L|exact F]|reflexivity]. Qed.
Lemma mt_inv1 out : words 312 out -> words 312 (map mt_untemper out) /\ exists t, runs (RNG_Uint64 MT64_Read) (mt64_state (map mt_untemper out)) out t.
Proof.
  intros [L F]. assert (WI : words 312 (map mt_untemper out)).
  { split; [now rewrite map_length|]. apply Forall_forall. intros x Hx. apply in_map_iff in Hx. destruct Hx as (y & <- & Hy). rewrite Forall_forall in F. apply mt_untemper_w, F, Hy. }
  split; [exact WI|]. destruct (C17_every_312_tuple_occurs out L F) as (s & [[Ts (t & R)] U]).
  assert (E : s = map mt_untemper out).
  { destruct (runs_total MT64_Uint64 mt_typed mt_total 312 (mkMT 0 (map mt_untemper out)) ltac:(split; apply WI)) as (xs & g' & R' & Lx & _).
    assert (Ex : xs = out); [|subst xs; symmetry; symmetry; apply U; split; [split; apply WI|exists g'; exact R']].
    destruct (mt_typed_seq (mkMT 0 (map mt_untemper out)) ltac:(split; apply WI)) as (u & Ru & Wu & Eu).
    destruct (mt_at_runs u Ru Wu _ _ _ _ (mt_typed_at u (mkMT 0 (map mt_untemper out)) ltac:(split; apply WI) Eu) R') as [_ Hu].
    apply (list_eq_nth 0%N); [lia|]. intros j Hj. rewrite Hu by exact Hj. cbn [mi].
    change (Nat.min (N.to_nat 0) 312 + j)%nat with j. rewrite Eu by lia. cbn [ms].
    rewrite nth_indep with (d' := mt_untemper 0) by (rewrite map_length; lia). rewrite map_nth.
    apply temper_untemper. rewrite Forall_forall in F. apply F, nth_In. lia. }
  subst s. exists t. apply (C04_rng_follows_generator gMT64 _ _ _ eq_refl (mt_words_reach _ (proj1 WI) (proj2 WI))). exact R.
Qed.
Lemma mt_inv2 ws : words 312 ws -> exists out, words 312 out /\ map mt_untemper out = ws.
Proof.
  intros [L F]. exists (map mt_temper ws). split; [split; [now rewrite map_length|]|].
  - apply Forall_forall. intros x Hx. apply in_map_iff in Hx. destruct Hx as (y & <- & Hy). rewrite Forall_forall in F. apply mt_temper_w, F, Hy.
  - rewrite map_map. rewrite <- (map_id ws) at 2. apply map_ext_in. intros x Hx. rewrite Forall_forall in F. apply untemper_temper, F, Hx.
Qed.
(** *** a Xoshiro with 4 random words *)
Definition xoshi_words (out : list N) : list N :=
  match out with [a; b; c; d] => let s := from4 (unscr a) (unscr b) (unscr c) (unscr d) in [xw s; xx s; xy s; xz s] | _ => [] end.
Lemma four (l : list N) : length l = 4%nat -> exists a b c d, l = [a; b; c; d].
Proof. destruct l as [|a [|b [|c [|d [|]]]]]; try discriminate. eauto. Qed.
Lemma xoshi_inv1 out : words 4 out -> words 4 (xoshi_words out) /\ exists t, runs (RNG_Uint64 Xoshiro_Read) (xoshi_state (xoshi_words out)) out t.
Proof.
  intros [L F]. destruct (four out L) as (a & b & c & d & ->). inversion F as [|? ? Ha F1]; subst. inversion F1 as [|? ? Hb F2]; subst. inversion F2 as [|? ? Hc F3]; subst. inversion F3 as [|? ? Hd F4]; subst.
  cbn [xoshi_words]. set (s := from4 (unscr a) (unscr b) (unscr c) (unscr d)). assert (Ts : xoshi_typed s) by (apply xs4_from4; apply unscr_w).
  split; [split; [reflexivity|]; destruct Ts as (T1 & T2 & T3 & T4); repeat (apply Forall_cons; [assumption|]); apply Forall_nil|].
  assert (E : xoshi_state [xw s; xx s; xy s; xz s] = s) by (unfold xoshi_state; cbn [nth]; now destruct s). rewrite E.
  destruct (proj2 (runs4_iff s a b c d Ts Ha Hb Hc Hd) eq_refl) as [t R]. exists t.
  apply (C04_rng_follows_generator gXoshiro s _ _ eq_refl (C00_xoshiro_all_states_reachable s Ts)). exact R.
Qed.
Lemma xoshi_inv2 ws : words 4 ws -> exists out, words 4 out /\ xoshi_words out = ws.
Proof.
  intros [L F]. destruct (four ws L) as (a & b & c & d & ->). set (s := mkXoshi a b c d).
  assert (Ts : xoshi_typed s) by (inversion F as [|? ? Ha F1]; subst; inversion F1 as [|? ? Hb F2]; subst; inversion F2 as [|? ? Hc F3]; subst; inversion F3; subst; repeat (split; [assumption|]); assumption).
  destruct (C01_streams_exist gXoshiro s 4 (C00_xoshiro_all_states_reachable s Ts)) as (xs & t & R & Lx & W). exists xs. split; [now split|].
  destruct (four xs Lx) as (a' & b' & c' & d' & ->). cbn [xoshi_words].
  inversion W as [|? ? Ha F1]; subst. inversion F1 as [|? ? Hb F2]; subst. inversion F2 as [|? ? Hc F3]; subst. inversion F3 as [|? ? Hd F4]; subst.
  rewrite <- (proj1 (runs4_iff s _ _ _ _ Ts Ha Hb Hc Hd) (ex_intro _ t R)). reflexivity.
Qed.

(** *** transfer *)
Lemma mt_law {A} (pt : nat -> list N -> outcome (A * list N)) (p : nat -> mt64 -> outcome (A * mt64)) P q d :
  fuel_mono pt -> fuel_mono p -> (forall f, same_draws tape (pt f) (pt f)) -> (forall f, same_draws MT64_Read (pt f) (p f)) ->
  draw_prob pt P q -> 1 - d <= pr 312 (fun ws => ev (ends pt (fun _ => True) ws)) ->
  exists p', state_prob 312 mt64_state p P p' /\ Rabs (p' - q) <= d.
Proof.
  intros M1 M2 S1 S2 D B. exact (generator_law pt M1 S1 MT64_Read p M2 S2 312 mt64_state (map mt_untemper) mt_inv1 mt_inv2 P q d D B).
Qed.
Lemma enough_bound {A} (pt : nat -> list N -> outcome (A * list N)) b max k n : (b <= 64)%N -> (0 < max < 2 ^ b)%N ->
  (forall fuel ws js ws', runs (RNG_Uintn tape fuel b max) ws js ws' -> length js = k -> exists v x, pt fuel ws = Ret (v, x)) ->
  pr n (fun ws => seqE b max ws k (fun _ => true)) <= pr n (fun ws => ev (ends pt (fun _ => True) ws)).
Proof.
  intros Hb Hm H. apply pr_le. intros ws _ F E. apply (seqE_iff b max Hb Hm ws F) in E. destruct E as (fuel & js & ws' & R & L & _). apply ev_iff.
  destruct (H fuel ws js ws' R L) as (v & x & E). exists fuel, v, x. auto.
Qed.
Lemma one_draw b max fuel ws js ws' : runs (RNG_Uintn tape fuel b max) ws js ws' -> length js = 1%nat -> exists v x, RNG_Uintn tape fuel b max ws = Ret (v, x).
Proof. intros R L. inversion R as [|? x s1 ? ? E R']; subst; [discriminate L|]. eauto. Qed.
Lemma half_pow n : 0 < / 2 ^ n. Proof. apply Rinv_0_lt_compat, pow_lt. lra. Qed.

(** Uintn, Intn *)
Theorem C70_mt64_uintn b max r : b = 32%N \/ b = 64%N -> (0 < max < 2 ^ b)%N -> (r < max)%N ->
  exists p, state_prob 312 mt64_state (fun fuel => RNG_Uintn MT64_Read fuel b max) (fun x => x = r) p /\ Rabs (p - uintn_share b max r) <= / 2 ^ 312.
Proof.
  intros Hb Hm Hr. apply (mt_law (fun fuel => RNG_Uintn tape fuel b max) (fun fuel => RNG_Uintn MT64_Read fuel b max)); try (apply mono_uintn); try (intros; apply same_uintn).
  - now apply C65_uintn_distribution.
  - apply Rle_trans with (2 := enough_bound (fun fuel => RNG_Uintn tape fuel b max) b max 1 312 (width b Hb) Hm (one_draw b max)). rewrite enough1 by (try apply width; assumption).
    pose proof (rho_range b max (width b Hb) Hm) as [[R0 R1] _]. assert (rho b max ^ 312 <= (/ 2) ^ 312) by (apply pow_incr; lra). rewrite pow_inv in H. lra.
Qed.
Theorem C70_xoshiro_uintn b max r : b = 32%N \/ b = 64%N -> (0 < max < 2 ^ b)%N -> (r < max)%N ->
  exists p, state_prob 4 xoshi_state (fun fuel => RNG_Uintn Xoshiro_Read fuel b max) (fun x => x = r) p /\ Rabs (p - uintn_share b max r) <= (IZR (Z.of_N max) / 2 ^ N.to_nat b) ^ 4.
Proof.
  intros Hb Hm Hr.
  apply (generator_law (fun fuel => RNG_Uintn tape fuel b max) (mono_uintn tape b max) (fun f => same_uintn tape f b max) Xoshiro_Read (fun fuel => RNG_Uintn Xoshiro_Read fuel b max)
    (mono_uintn Xoshiro_Read b max) (fun f => same_uintn Xoshiro_Read f b max) 4 xoshi_state xoshi_words xoshi_inv1 xoshi_inv2).
  - now apply C65_uintn_distribution.
  - apply Rle_trans with (2 := enough_bound (fun fuel => RNG_Uintn tape fuel b max) b max 1 4 (width b Hb) Hm (one_draw b max)). rewrite enough1 by (try apply width; assumption).
    pose proof (rho_range b max (width b Hb) Hm) as [[R0 R1] R2]. replace (2 ^ N.to_nat b) with (IZR (Z.of_N (2 ^ b))). 2:{ rewrite N2Z.inj_pow. rewrite <- (N2Nat.id b) at 1. rewrite nat_N_Z, <- pow_IZR. reflexivity. }
    assert (rho b max ^ 4 <= (IZR (Z.of_N max) / IZR (Z.of_N (2 ^ b))) ^ 4) by (apply pow_incr; lra). lra.
Qed.
(** RandString and the shuffles make several draws: they go as on ideal words, but for the chance that one of them is rejected. *)
Theorem C70_mt64_randstring b alphabet target : b = 32%N \/ b = 64%N ->
  let a := string_runes alphabet in
  (0 < length a)%nat -> (N.of_nat (length a) < 2 ^ b)%N -> (length target <= 312)%nat ->
  exists p, state_prob 312 mt64_state (fun fuel => RandString MT64_Read b fuel alphabet (Z.of_nat (length target))) (fun s => string_runes s = target) p /\
    Rabs (p - fold_right Rmult 1 (map (letter_share b a) target)) <= INR (length target) * (INR (length a) / 2 ^ N.to_nat b).
Proof.
  intros Hb a Ha Hl Ht. assert (Hm : (0 < N.of_nat (length a) < 2 ^ b)%N) by lia.
  apply (mt_law (fun fuel => RandString tape b fuel alphabet (Z.of_nat (length target))) (fun fuel => RandString MT64_Read b fuel alphabet (Z.of_nat (length target))));
    try (apply mono_randstring); try (intros; apply same_randstring).
  - now apply C66_randstring_distribution.
  - apply Rle_trans with (2 := enough_bound (fun fuel => RandString tape b fuel alphabet (Z.of_nat (length target))) b (N.of_nat (length a)) (length target) 312 (width b Hb) Hm
      ltac:(intros fuel ws js ws' R L; destruct (C44_randstring_returns tape b fuel alphabet (Z.of_nat (length target)) ws js ws') as (s & E); [lia|exact R|lia|eauto])).
    apply Rle_trans with (2 := enough b (N.of_nat (length a)) (width b Hb) Hm (length target) 312 Ht). pose proof (rho_range b _ (width b Hb) Hm) as [_ R2].
    replace (IZR (Z.of_N (2 ^ b))) with (2 ^ N.to_nat b) in R2. 2:{ rewrite N2Z.inj_pow. rewrite <- (N2Nat.id b) at 2. rewrite nat_N_Z, <- pow_IZR. reflexivity. }
    rewrite nat_N_Z, <- INR_IZR_INZ in R2. pose proof (pos_INR (length target)). assert (INR (length target) * rho b (N.of_nat (length a)) <= INR (length target) * (INR (length a) / 2 ^ N.to_nat b)) by (apply Rmult_le_compat_l; lra). lra.
Qed.
Theorem C70_mt64_shuffle {A} b (d d' : list A) q : b = 32%N \/ b = 64%N -> (0 < length d <= 312)%nat ->
  draw_prob (fun fuel ws => ShuffleSlice tape b fuel d ws) (fun r => r = d') q ->
  exists p, state_prob 312 mt64_state (fun fuel => ShuffleSlice MT64_Read b fuel d) (fun r => r = d') p /\
    Rabs (p - q) <= INR (length d) * (INR (length d) / 2 ^ N.to_nat b).
Proof.
  intros Hb Ha D. assert (Hm : (0 < N.of_nat (length d) < 2 ^ b)%N). { split; [lia|]. apply N.lt_le_trans with (2 ^ 32)%N; [change (2 ^ 32)%N with 4294967296%N; lia|]. apply N.pow_le_mono_r; lia. }
  apply (mt_law (fun fuel => ShuffleSlice tape b fuel d) (fun fuel => ShuffleSlice MT64_Read b fuel d)); try (apply mono_shuffle_slice); try (intros; apply same_shuffle_slice).
  - exact D.
  - apply Rle_trans with (pr 312 (fun ws => seqE b (N.of_nat (length d)) ws (length d) (fun _ => true))).
    + apply Rle_trans with (2 := enough b (N.of_nat (length d)) (width b Hb) Hm (length d) 312 (proj2 Ha)). pose proof (rho_range b _ (width b Hb) Hm) as [_ R2].
      replace (IZR (Z.of_N (2 ^ b))) with (2 ^ N.to_nat b) in R2. 2:{ rewrite N2Z.inj_pow. rewrite <- (N2Nat.id b) at 2. rewrite nat_N_Z, <- pow_IZR. reflexivity. }
      rewrite nat_N_Z, <- INR_IZR_INZ in R2. pose proof (pos_INR (length d)). assert (INR (length d) * rho b (N.of_nat (length d)) <= INR (length d) * (INR (length d) / 2 ^ N.to_nat b)) by (apply Rmult_le_compat_l; lra). lra.
    + apply (enough_bound (fun fuel => ShuffleSlice tape b fuel d) b _ (length d) 312 (width b Hb) Hm). intros fuel ws js ws' R L.
      assert (I : index_draws (length d) js) by (split; [exact L|]; clear - R; induction R as [|w x w1 xs w' Ex _ IH]; constructor; auto; exact (C26_uintn_in_range tape _ _ _ _ _ _ Ex)).
      destruct (swap_calls_perm d js 0) as (r & Er & _); [destruct I; lia|apply I|]. exists r, ws'. rewrite C45_slices_as_shuffle. apply C45_shuffle_calls. exists js. auto.
Qed.

(** the variates *)
Section Variates.
  Variables math_exp math_log : float64 -> float64.
  Hypothesis (AE : accurate_exp math_exp) (AL : accurate_log math_log).
  Lemma pow_small c : 0 <= c <= 51 / 100 -> c ^ 156 <= 1 / 10 ^ 13.
  Proof.
    intros Hc. apply Rle_trans with ((51 / 100) ^ 156); [apply pow_incr; lra|]. change 156%nat with (52 * 3)%nat. rewrite pow_mult.
    assert (A1 : 0 <= (51 / 100) ^ 52 <= 1 / 10 ^ 13) by lra. set (a := (51 / 100) ^ 52) in *. clearbody a. replace (a ^ 3) with (a * (a * a)) by ring. assert (a * a <= a * 1) by (apply Rmult_le_compat_l; lra).
    assert (a * (a * a) <= a * 1) by (apply Rmult_le_compat_l; lra). lra.
  Qed.
  (** all 2^19968 fillings of the state taken together, an Exponential variate is at most x in the share of them that the
      exponential distribution gives, to 10 digits *)
  Theorem C70_mt64_exponential rate r x : fvalue rate r -> 0 < r -> x <= 2 ^ 1023 ->
    exists p, state_prob 312 mt64_state (Exponential_Next MT64_Read math_exp math_log rate) (at_most x) p /\ Rabs (p - exponential_cdf r x) <= 3 / 10 ^ 11.
  Proof.
    intros V R0 X. destruct (C61_exponential_distribution math_exp math_log rate r x AE AL V R0 X) as (q & D & B). destruct (expo_returns math_exp math_log AE rate 156) as (e & RE & HE).
    pose proof (pow_small (3 / 100) ltac:(lra)) as PS.
    destruct (generator_law' (Exponential_Next tape math_exp math_log rate) (mono_exponential tape math_exp math_log rate) (fun f => same_exponential tape math_exp math_log rate f) MT64_Read
      (Exponential_Next MT64_Read math_exp math_log rate) (mono_exponential MT64_Read math_exp math_log rate) (fun f => same_exponential MT64_Read math_exp math_log rate f) 312 mt64_state (map mt_untemper) mt_inv1 mt_inv2 (at_most x) q e D RE) as (g & G & BG).
    exists g. split; [exact G|]. apply Rabs_le_inv in B, BG. set (w := (3 / 100) ^ 156) in *. clearbody w. apply Rabs_le. lra.
  Qed.
  (** likewise a Normal variate *)
  Theorem C70_mt64_normal mean m sd s x : fvalue mean m -> fvalue sd s -> 0 < s -> Rabs m <= bpow radix2 1022 -> Rabs x <= bpow radix2 1022 -> rounding_margin x <= s / 10 ^ 12 ->
    exists p A, state_prob 312 mt64_state (fun fuel => Normal_Next MT64_Read math_exp math_log mean sd fuel fuel) (not_above x) p /\ area_up_to (normal_curve m s) x A /\ Rabs (p - A) <= 5 / 10 ^ 11.
  Proof.
    intros Vm Vs S M X RM. destruct (C62_normal_distribution_tight math_exp math_log AE AL mean m sd s x Vm Vs S M X RM) as (q & A & D & AR & B). destruct (normal_returns math_exp math_log AE AL mean sd 156) as (e & RE & HE).
    pose proof (pow_small (51 / 100) ltac:(lra)) as PS.
    destruct (generator_law' (normal_draws math_exp math_log mean sd) (mono_normal tape math_exp math_log mean sd) (fun f => same_normal tape math_exp math_log mean sd f f) MT64_Read
      (fun f => Normal_Next MT64_Read math_exp math_log mean sd f f) (mono_normal MT64_Read math_exp math_log mean sd) (fun f => same_normal MT64_Read math_exp math_log mean sd f f) 312 mt64_state (map mt_untemper) mt_inv1 mt_inv2 (not_above x) q e D RE) as (g & G & BG).
    exists g, A. split; [exact G|]. split; [exact AR|]. apply Rabs_le_inv in B, BG. set (w := (51 / 100) ^ 156) in *. clearbody w. apply Rabs_le. lra.
  Qed.
End Variates.
(** 312 words of state; the rate 3 and the median ln 2 / 3; six of a die *)
Example C70_nonvacuous : accurate_exp exact_exp /\ accurate_log exact_log /\
  (exists p, state_prob 312 mt64_state (Exponential_Next MT64_Read exact_exp exact_log (of_int 3)) (at_most (ln 2 / 3)) p /\ Rabs (p - 1 / 2) <= 3 / 10 ^ 11) /\
  (exists p, state_prob 312 mt64_state (fun fuel => RNG_Uintn MT64_Read fuel 64 6) (fun x => x = 5%N) p /\ Rabs (p - 1 / 6) <= 1 / 10 ^ 18).
Proof.
  assert (V : fvalue (of_int 3) 3) by (split; [reflexivity|]; vm_compute; lra).
  assert (L0 : 0 < ln 2) by (rewrite <- ln_1; apply ln_increasing; lra). assert (L1 : ln 2 <= 1) by (pose proof (ln_le_minus1 2 ltac:(lra)); lra).
  split; [exact exact_exp_accurate|]. split; [exact exact_log_accurate|]. split.
  - destruct (C70_mt64_exponential exact_exp exact_log exact_exp_accurate exact_log_accurate (of_int 3) 3 (ln 2 / 3) V ltac:(lra)) as (p & D & B).
    + apply Rle_trans with 1; [lra|]. apply pow_R1_Rle. lra.
    + exists p. split; [exact D|]. revert B. unfold exponential_cdf. destruct Rle_dec as [_|N]; [|exfalso; apply N; lra]. replace (3 * (ln 2 / 3)) with (ln 2) by field. rewrite exp_Ropp, exp_ln by lra. replace (1 - / 2) with (1 / 2) by field. trivial.
  - destruct (C70_mt64_uintn 64 6 5 ltac:(auto) ltac:(split; reflexivity) ltac:(reflexivity)) as (p & D & B). exists p. split; [exact D|].
    assert (E : uintn_share 64 6 5 = 3074457345618258602 / 18446744073709551613) by reflexivity. rewrite E in B.
    assert (H : / 2 ^ 312 <= / 2 ^ 64) by (apply Rinv_le_contravar; [apply pow_lt; lra|apply Rle_pow; [lra|lia]]). set (w := / 2 ^ 312) in *. clearbody w.
    apply Rabs_le_inv in B. apply Rabs_le. lra.
Qed.
End Compiler.
