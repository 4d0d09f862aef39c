(** C87: how many words of the source one draw uses. *)
From Coq Require Import Reals Lia Lra Bool.
From Coquelicot Require Import Coquelicot.
From Flocq Require Import Core BinarySingleNaN.
From Verif Require Import Model.Base Model.Rng Model.Util Model.Utf8 Model.Float Model.Distr Model.Ziggurat Model.ExpoNormal Spec.Common Spec.Counting Spec.Floats Spec.Zig Spec.Tails Spec.Prob Spec.Words Spec.Cost.
From Verif Require Import Proofs.WordLemmas Proofs.SumN Proofs.ZigTape Proofs.GenLaw Proofs.GenLaw Proofs.Independent Proofs.UintnLaw Proofs.CostProofs.
From Verif Require Import Props.Rng Props.Strings Props.Shuffle Props.Draws Props.ExpoLaw Props.NormalLaw Props.Tails Props.Independence.
Local Open Scope R_scope.

(** for every choice of the compiler which x*y + z to fuse (Model/Fused.v) *)
Section Compiler.
Context {fpc : compiler}.

(** What [needs_more] measures: if a call returns on the tape ws, it has used the first k of its words, for one k, and the first n words of ws
    suffice for it just when n is at least k. *)
Definition uses_words {A} (next : nat -> list N -> outcome (A * list N)) : Prop :=
  forall fuel ws v ws', Forall w64 ws -> next fuel ws = Ret (v, ws') ->
    exists k, (k <= length ws)%nat /\ ws' = skipn k ws /\ forall n, (exists f x r, next f (firstn n ws) = Ret (x, r)) <-> (k <= n)%nat.
Lemma uses_words_of {A} (next : nat -> list N -> outcome (A * list N)) : steady next -> (forall n, draws_only tape (next n) (next n)) -> uses_words next.
Proof.
  intros S O fuel ws v ws' F E. destruct (O fuel ws v ws' E) as (used & F1 & R1 & P1). pose proof (runs_tape_inv ws used ws' F R1) as ->.
  exists (length used). split; [rewrite app_length; lia|]. split; [now rewrite skipn_app, skipn_all, Nat.sub_diag|]. apply Forall_app in F as F'. destruct F' as [_ F2]. intros n. split.
  - intros (f & x & r & E2). destruct (O f _ _ _ E2) as (used2 & F3 & R3 & P3).
    assert (FN : Forall w64 (firstn n (used ++ ws'))) by (rewrite <- (firstn_skipn n (used ++ ws')) in F; now apply Forall_app in F).
    assert (FS : Forall w64 (skipn n (used ++ ws'))) by (rewrite <- (firstn_skipn n (used ++ ws')) in F; now apply Forall_app in F).
    pose proof (runs_tape_inv _ used2 r FN R3) as E3. assert (FR : Forall w64 r) by (rewrite E3 in FN; now apply Forall_app in FN).
    pose proof (P3 (r ++ skipn n (used ++ ws')) ltac:(apply Forall_app; auto)) as Q. rewrite app_assoc, <- E3, firstn_skipn in Q.
    pose proof (S _ (Nat.max fuel f) _ _ (Nat.le_max_l _ _) E) as Q1. pose proof (S _ (Nat.max fuel f) _ _ (Nat.le_max_r _ _) Q) as Q2. rewrite Q1 in Q2. injection Q2 as _ Q2.
    apply (f_equal (@length N)) in Q2. rewrite app_length, skipn_length, app_length in Q2. lia.
  - intros L. exists fuel, v, (firstn (n - length used) ws'). rewrite firstn_app, firstn_all2 by exact L. apply P1. rewrite <- (firstn_skipn (n - length used) ws') in F2. now apply Forall_app in F2.
Qed.
Theorem C87_words_used : (forall b max, uses_words (fun fuel => RNG_Uintn tape fuel b max)) /\ (forall math_exp math_log rate, uses_words (Exponential_Next tape math_exp math_log rate)) /\
  forall math_exp math_log mean sd, uses_words (fun fuel => Normal_Next tape math_exp math_log mean sd fuel fuel).
Proof.
  split; [|split].
  - intros b max. destruct (uintn_ok b max). now apply uses_words_of.
  - intros me ml rate. destruct (expo_ok me ml rate). now apply uses_words_of.
  - intros me ml m s. destruct (normal_ok me ml m s). now apply (uses_words_of (normal_draws me ml m s)).
Qed.

(** Uintn(max) on b bits uses more than n words with probability (((2^b - 1) mod max) / 2^b)^n, and on average 2^b / (q max + 1) words, where
    q = floor((2^b - 1) / max): at most two. *)
Theorem C87_uintn b max : (b <= 64)%N -> (0 < max < 2 ^ b)%N ->
  (forall n, needs_more (fun fuel => RNG_Uintn tape fuel b max) n ((IZR (Z.of_N ((2 ^ b - 1) mod max)) / IZR (Z.of_N (2 ^ b))) ^ n)) /\
  let c := IZR (Z.of_N (2 ^ b)) / IZR (Z.of_N ((2 ^ b - 1) / max * max + 1)) in mean_words (fun fuel => RNG_Uintn tape fuel b max) c /\ c <= 2.
Proof. intros Hb Hm. split; [intros n; exact (uintn_more b max Hb Hm n)|]. exact (uintn_mean b max Hb Hm). Qed.

(** A call of Exponential.Next needs a second word with probability exactly 118488500128666672 / 2^64 (0.64 per cent), more than n words with
    probability at most that to the power ceil(n / 2), and between 1.0064 and 1.013 words on average - whatever math.Exp and math.Log return. *)
Theorem C87_exponential math_exp math_log rate : let r := 118488500128666672 / 2 ^ 64 in let next := Exponential_Next tape math_exp math_log rate in
  needs_more next 0 1 /\ needs_more next 1 r /\ (forall n, exists p, needs_more next n p /\ 0 <= p <= r ^ ((n + 1) / 2)) /\ exists c, mean_words next c /\ 1.0064 <= c <= 1.013.
Proof.
  assert (R : 118488500128666672 / 2 ^ 64 = De math_exp math_log 1) by (rewrite expo_r; cbn [Z.pow Z.pow_pos Pos.iter Z.mul Pos.mul]; lra).
  cbv zeta. rewrite R. split; [|split; [|split]].
  - rewrite <- (expo_0 math_exp math_log). apply expo_needs.
  - apply expo_needs.
  - intros n. exists (De math_exp math_log n). split; [apply expo_needs|]. split; [apply De_range|].
    destruct (Nat.Even_or_Odd n) as [[k ->]|[k ->]]; destruct (expo_geom math_exp math_log k) as [G1 G2].
    + replace ((2 * k + 1) / 2)%nat with k; [exact G1|]. apply (Nat.div_unique _ 2 k 1); lia.
    + replace ((2 * k + 1 + 1) / 2)%nat with (k + 1)%nat; [exact G2|]. apply (Nat.div_unique _ 2 (k + 1) 0); lia.
  - apply expo_mean.
Qed.

(** A call of Normal.Next needs a second word with probability exactly 78888730561867289 / 2^64 (0.43 per cent), and between 1.0042 and 1.009 words
    on average. *)
Theorem C87_normal math_exp math_log mean sd : accurate_exp math_exp -> accurate_log math_log -> let next := fun fuel => Normal_Next tape math_exp math_log mean sd fuel fuel in
  needs_more next 0 1 /\ needs_more next 1 (78888730561867289 / 2 ^ 64) /\ exists c, mean_words next c /\ 1.0042 <= c <= 1.009.
Proof.
  intros AE AL next. assert (R : 78888730561867289 / 2 ^ 64 = Dn math_exp math_log 1) by (rewrite (normal_r math_exp math_log AE); cbn [Z.pow Z.pow_pos Pos.iter Z.mul Pos.mul]; lra).
  rewrite R. split; [|split].
  - rewrite <- (normal_0 math_exp math_log AE). now apply (normal_needs math_exp math_log AE mean sd).
  - now apply (normal_needs math_exp math_log AE mean sd).
  - now apply (normal_mean math_exp math_log AE AL mean sd).
Qed.

(** Costs add up: the mean number of words of one draw after another is the sum of their means, and of k draws k times the mean of one. *)
Lemma needs_ev {A} (next : nat -> list N -> outcome (A * list N)) n p : needs_more next n p -> p = 1 - pr n (fun ws => ev (ends next (fun _ => True) ws)).
Proof.
  intros H. refine (prob_unique n _ _ _ H _). apply needs_more_pr. intros ws _ _. rewrite ev_iff. unfold ends. split; intros (fu & a & w & E); exists fu, a, w; tauto.
Qed.
Theorem C87_costs_add {A B} (f : nat -> list N -> outcome (A * list N)) (g : nat -> list N -> outcome (B * list N)) cf cg :
  steady f -> steady g -> (forall n, draws_only tape (f n) (f n)) -> mean_words f cf -> mean_words g cg -> mean_words (first_then f g) (cf + cg).
Proof.
  intros MF MG OF (qf & Hf & Sf) (qg & Hg & Sg). exists (fun n => qf n + sum_f_R0 (fun m => am f (fun _ => True) m * qg (n - m)%nat) n). split.
  - intros n. replace (qf n + _) with (1 - pr n (fun ws => ev (ends (both f g) (fun ab => True /\ True) ws))).
    + apply needs_more_pr. intros ws _ _. rewrite ev_iff. unfold ends, first_then, both. split; intros (fu & a & w & E); exists fu, a, w; tauto.
    + pose proof (q12_sum f g MF MG OF (fun _ => True) (fun _ => True) n) as S. cbn beta in S. rewrite S. rewrite (needs_ev f n _ (Hf n)), (q1_sum f MF OF (fun _ => True) n).
      assert (X : sum_f_R0 (fun m => am f (fun _ => True) m * qg (n - m)%nat) n = sum_f_R0 (am f (fun _ => True)) n - sum_f_R0 (fun m => am f (fun _ => True) m * pr (n - m) (fun ws => ev (ends g (fun _ => True) ws))) n).
      { rewrite <- minus_sum. apply sum_eq. intros i Hi. rewrite (needs_ev g _ _ (Hg (n - i)%nat)). ring. }
      rewrite X. ring.
  - apply (is_series_plus qf); [exact Sf|]. replace cg with (1 * cg) by ring. apply is_series_mult_pos; [|exact Sg|intros n; apply pr_range|].
    + assert (L : is_lim_seq qf 0) by (apply ex_series_lim_0; now exists cf).
      change (is_lim_seq (sum_n (am f (fun _ => True))) 1). apply (is_lim_seq_ext (fun n => 1 - qf n)).
      * intros n. rewrite sum_n_Reals, <- (q1_sum f MF OF (fun _ => True) n). rewrite (needs_ev f n _ (Hf n)). ring.
      * replace (Finite 1) with (Rbar_minus 1 0) by (cbn; f_equal; ring). apply is_lim_seq_minus'; [apply is_lim_seq_const|exact L].
    + intros n. rewrite (needs_ev g n _ (Hg n)). pose proof (pr_range n (fun ws => ev (ends g (fun _ => True) ws))). lra.
Qed.
Theorem C87_many_draws {A} (next : nat -> list N -> outcome (A * list N)) c k : steady next -> (forall n, draws_only tape (next n) (next n)) -> mean_words next c -> mean_words (draw_many k next) (INR k * c).
Proof.
  intros S O M. induction k as [|k IH].
  - cbn [INR]. rewrite Rmult_0_l. exists (fun _ => 0). split.
    + intros n. replace 0 with (1 - pr n (fun _ => true)) by (rewrite pr_const; cbn; ring). apply needs_more_pr. intros ws _ _. split; [reflexivity|]. intros _. exists 0%nat, [], ws. reflexivity.
    + change (is_lim_seq (sum_n (fun _ : nat => 0)) 0). apply (is_lim_seq_ext (fun _ => 0)); [|apply is_lim_seq_const]. intros n. induction n as [|n IHn]; [now rewrite sum_O|]. rewrite sum_Sn, <- IHn. unfold plus. cbn. ring.
  - replace (INR (Datatypes.S k) * c) with (c + INR k * c) by (rewrite S_INR; ring).
    destruct (C87_costs_add next (draw_many k next) c (INR k * c) S (many_steady next k S) O M IH) as (q & Hq & Sq). exists q. split; [|exact Sq].
    intros n. destruct (Hq n) as (cn & C & E). exists cn. split; [|exact E]. revert C. apply Count.has_exactly_ext. intros ws. apply and_iff_compat_l. apply not_iff_compat.
    split; intros (fu & a & w & E1).
    + exists fu, (fst a :: snd a), w. rewrite pair_list, E1. reflexivity.
    + rewrite pair_list in E1. destruct (first_then next (draw_many k next) fu ws) as [[a' w']| |] eqn:E2; try discriminate E1. exists fu, a', w'. exact E2.
Qed.
(** A shuffle of n items (n > 0), and a random string of n characters, cost n calls of Uintn. *)
Definition uintn_cost (b max : N) : R := IZR (Z.of_N (2 ^ b)) / IZR (Z.of_N ((2 ^ b - 1) / max * max + 1)).
Lemma many_runs {A W} (next : nat -> W -> outcome (A * W)) fuel k : forall w xs w', draw_many k next fuel w = Ret (xs, w') <-> runs (next fuel) w xs w' /\ length xs = k.
Proof.
  induction k as [|k IH]; intros w xs w'; cbn [draw_many].
  - split; [intros E; injection E as <- <-; split; [constructor|reflexivity]|]. intros [R L]. destruct xs; [|discriminate]. inversion R; subst. reflexivity.
  - split.
    + intros E. destruct (next fuel w) as [[a w1]| |] eqn:E1; try discriminate E. cbn [bind] in E. destruct (draw_many k next fuel w1) as [[l w2]| |] eqn:E2; try discriminate E. injection E as <- <-.
      apply IH in E2. destruct E2 as [R <-]. split; [|reflexivity]. econstructor; eauto.
    + intros [R L]. inversion R as [|? x w1 xs' ? E1 R']; subst; [discriminate L|]. rewrite E1. cbn [bind]. injection L as L. rewrite (proj2 (IH w1 xs' w') (conj R' L)). reflexivity.
Qed.
Lemma same_cost {A B} (f : nat -> list N -> outcome (A * list N)) (g : nat -> list N -> outcome (B * list N)) c : (forall ws, Forall w64 ws -> ((exists fu a w, f fu ws = Ret (a, w)) <-> exists fu a w, g fu ws = Ret (a, w))) -> mean_words f c -> mean_words g c.
Proof.
  intros H (q & Hq & S). exists q. split; [|exact S]. intros n. destruct (Hq n) as (cn & C & E). exists cn. split; [|exact E]. revert C. apply Count.has_exactly_ext. intros ws.
  split; intros [[L F] X]; (split; [split; assumption|]); intros Y; apply X; now apply (H ws F).
Qed.
Theorem C87_shuffle {A} b (d : list A) : b = 32%N \/ b = 64%N -> (0 < length d)%nat -> (N.of_nat (length d) < 2 ^ b)%N ->
  mean_words (fun fuel ws => ShuffleSlice tape b fuel d ws) (INR (length d) * uintn_cost b (N.of_nat (length d))).
Proof.
  intros Hb H0 Hl. assert (B64 : (b <= 64)%N) by lia. destruct (C87_uintn b (N.of_nat (length d)) B64 ltac:(lia)) as [_ [M _]]. destruct (uintn_ok b (N.of_nat (length d))) as [S O].
  apply (same_cost (draw_many (length d) (fun fuel => RNG_Uintn tape fuel b (N.of_nat (length d))))); [|now apply C87_many_draws].
  intros ws _. split; intros (fu & a & w & E); exists fu.
  - apply many_runs in E. destruct E as [R L]. assert (F : Forall (fun j => (j < N.of_nat (length d))%N) a).
    { clear - R. induction R as [|w0 x w1 xs w' Ex _ IH]; constructor; auto. exact (C26_uintn_in_range tape _ _ _ _ _ _ Ex). }
    destruct (swap_calls_perm d a 0 ltac:(lia) F) as (d' & Ed & _). exists d', w. rewrite C45_slices_as_shuffle. apply C45_shuffle_calls. exists a. repeat split; assumption.
  - rewrite C45_slices_as_shuffle in E. apply C45_shuffle_calls in E. destruct E as (js & R & [L _] & E). exists js, w. apply many_runs. auto.
Qed.
Theorem C87_randstring b alphabet n : b = 32%N \/ b = 64%N -> let a := string_runes alphabet in (0 < length a)%nat -> (N.of_nat (length a) < 2 ^ b)%N ->
  mean_words (fun fuel ws => RandString tape b fuel alphabet (Z.of_nat n) ws) (INR n * uintn_cost b (N.of_nat (length a))).
Proof.
  intros Hb a Ha Hl. assert (B64 : (b <= 64)%N) by lia. destruct (C87_uintn b (N.of_nat (length a)) B64 ltac:(lia)) as [_ [M _]]. destruct (uintn_ok b (N.of_nat (length a))) as [S O].
  apply (same_cost (draw_many n (fun fuel => RNG_Uintn tape fuel b (N.of_nat (length a))))); [|now apply C87_many_draws].
  intros ws _. split; intros (fu & x & w & E); exists fu.
  - apply many_runs in E. destruct E as [R L]. destruct (C44_randstring_returns tape b fu alphabet (Z.of_nat n) ws x w) as (s & E); [lia|exact R|lia|]. eauto.
  - destruct (C44_randstring tape b fu alphabet _ ws x w E) as (_ & js & R & L & _). exists js, w. apply many_runs. split; [exact R|]. now rewrite Nat2Z.id in L.
Qed.
(** 1000 exponential variates and a million dice take, on average, ... *)
Example C87_nonvacuous math_exp math_log rate :
  (exists c, mean_words (draw_many 1000 (Exponential_Next tape math_exp math_log rate)) c /\ 1006 <= c <= 1013) /\
  (exists c, mean_words (fun fuel => RNG_Uintn tape fuel 3 6) c /\ c = 8 / 7) /\ needs_more (fun fuel => RNG_Uintn tape fuel 3 6) 1 (1 / 8).
Proof.
  split; [|split].
  - destruct (C87_exponential math_exp math_log rate) as (_ & _ & _ & c & M & B). destruct (expo_ok math_exp math_log rate) as [S O]. exists (INR 1000 * c). split; [now apply C87_many_draws|]. rewrite INR_IZR_INZ. cbn [Z.of_nat Pos.of_succ_nat Pos.succ]. lra.
  - destruct (C87_uintn 3 6 ltac:(lia) ltac:(lia)) as [_ [M _]]. exists (8 / 7). split; [exact M|reflexivity].
  - destruct (C87_uintn 3 6 ltac:(lia) ltac:(lia)) as [M _]. specialize (M 1%nat). rewrite pow_1 in M. exact M.
Qed.
End Compiler.
