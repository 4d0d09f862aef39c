(** C89: the frequencies of results in a sample. *)
From Coq Require Import Reals Lia Lra Psatz Bool Binomial.
From Coquelicot Require Import Coquelicot.
From Flocq Require Import Core BinarySingleNaN.
From Verif Require Import Model.Base Model.Rng Model.Float Model.Distr Model.Ziggurat Model.ExpoNormal Spec.Common Spec.Counting Spec.Floats Spec.Zig Spec.Tails Spec.Prob Spec.Words Spec.Cost Spec.Mean Spec.Frequency.
From Verif Require Import Proofs.WordLemmas Proofs.FloatProofs Proofs.SumN Proofs.ZigTape Proofs.GenLaw Proofs.MeanProofs Proofs.FrequencyProofs.
From Verif Require Import Props.Rng Props.Draws Props.ExpoLaw Props.NormalLaw Props.Tails Props.Independence Props.Cost Props.Mean.
Local Open Scope R_scope.

(** for every choice of the compiler which x*y + z to fuse (Model/Fused.v) *)
Section Compiler.
Context {fpc : compiler}.

Lemma draw_prob_cons {A} (next : nat -> list N -> outcome (A * list N)) k (Q : list A -> Prop) q : draw_prob (first_then next (draw_many k next)) (fun al => Q (fst al :: snd al)) q -> draw_prob (draw_many (S k) next) Q q.
Proof.
  intros (r & Hr & L). exists r. split; [|exact L]. intros n. destruct (Hr n) as (c & C & E). exists c. split; [|exact E]. revert C. apply Count.has_exactly_ext. intros ws. apply and_iff_compat_l. split.
  - intros (fuel & [a l] & ws' & E1 & H). exists fuel, (a :: l), ws'. split; [|exact H]. rewrite pair_list, E1. reflexivity.
  - intros (fuel & al & ws' & E1 & H). rewrite pair_list in E1. destruct (first_then _ _ fuel ws) as [[[a l] w1]| |] eqn:E2; try discriminate E1. cbn [bind fst snd] in E1. injection E1 as <- <-. exists fuel, (a, l), w1. auto.
Qed.
Lemma pair_steady {A B W} (f : nat -> W -> outcome (A * W)) (g : nat -> W -> outcome (B * W)) : steady f -> steady g -> steady (first_then f g).
Proof.
  intros MF MG n n' w r L E. unfold first_then in *. destruct (f n w) as [[a w1]| |] eqn:E1; try discriminate E. rewrite (MF _ _ _ _ L E1). cbn [bind] in *. destruct (g n w1) as [[b w2]| |] eqn:E2; try discriminate E. rewrite (MG _ _ _ _ L E2). exact E.
Qed.
Section Sample.
  Context {A : Type} (next : nat -> list N -> outcome (A * list N)) (M : steady next) (O : forall n, draws_only tape (next n) (next n)) (R1 : draw_prob next (fun _ => True) 1).
  Context (P : A -> Prop) (p : R) (D : draw_prob next P p).
  Definition number (l : list A) (G : nat -> Prop) : Prop := exists j, hits P l j /\ G j.
  Lemma number_law k : forall G : nat -> Prop, draw_prob (draw_many k next) (fun l => number l G) (E p k (fun j => ind (ev (G j)))).
  Proof.
    induction k as [|k IH]; intros G; cbn [E].
    - exists (fun _ => ind (ev (G 0%nat))). split; [|apply is_lim_seq_const]. intros n. rewrite <- (pr_const n). apply prob_pr. intros ws _ _. rewrite ev_iff. cbn [draw_many]. split.
      + intros (fu & l & w & R & j & H & g). injection R as <- _. inversion H. now subst.
      + intros g. exists 0%nat, [], ws. split; [reflexivity|]. exists 0%nat. split; [constructor|exact g].
    - apply draw_prob_cons. pose proof (many_steady next k M) as MK.
      pose proof (C72_pair next (draw_many k next) P (fun l => number l (fun j => G (S j))) p _ M MK O D (IH (fun j => G (S j)))) as D1.
      pose proof (C72_pair next (draw_many k next) (fun a => ~ P a) (fun l => number l G) (1 - p) _ M MK O (draw_prob_not next M P p R1 D) (IH G)) as D2.
      pose proof (draw_prob_or _ (pair_steady _ _ M MK) _ _ _ _ (fun f (a : P (fst f) /\ _) (b : ~ P (fst f) /\ _) => proj1 b (proj1 a)) D1 D2) as D3. revert D3. apply draw_prob_same.
      intros fu ws [a l] w _ _. cbn [fst snd]. split.
      + intros [[Pa (j & H & g)]|[Na (j & H & g)]]; [exists (S j)|exists j]; (split; [now constructor|exact g]).
      + intros (j & H & g). inversion H; subst; [left|right]; (split; [assumption|]); eexists; eauto.
  Qed.
End Sample.

(** k successive draws of a program that returns with probability 1: if a result satisfies P with probability p, then exactly j of the k results do with
    the binomial probability, *)
Theorem C89_binomial {A} (next : nat -> list N -> outcome (A * list N)) (P : A -> Prop) p k j : steady next -> (forall n, draws_only tape (next n) (next n)) ->
  draw_prob next (fun _ => True) 1 -> draw_prob next P p -> (j <= k)%nat ->
  draw_prob (draw_many k next) (fun l => hits P l j) (Binomial.C k j * p ^ j * (1 - p) ^ (k - j)).
Proof.
  intros M O R1 D J. rewrite <- E_point by exact J. rewrite (E_ext p k _ (fun i => ind (ev (i = j)))).
  2:{ intros i _. destruct (Nat.eqb_spec i j) as [X|X]; [rewrite (ev_true _ X)|rewrite (ev_false _ X)]; reflexivity. }
  pose proof (number_law next M O R1 P p D k (fun i => i = j)) as N. revert N. apply draw_prob_same. intros fu ws l w _ _. split; [intros (i & H & ->); exact H|intros H; exists j; auto].
Qed.
(** ... and the fraction of the results that do differs from p by d or more with probability at most 2 e^(-k d^2 / 2). *)
Theorem C89_frequency {A} (next : nat -> list N -> outcome (A * list N)) (P : A -> Prop) p k d : steady next -> (forall n, draws_only tape (next n) (next n)) ->
  draw_prob next (fun _ => True) 1 -> draw_prob next P p -> (0 < k)%nat -> 0 < d <= 1 / 2 ->
  exists q, draw_prob (draw_many k next) (fun l => exists j, hits P l j /\ d <= Rabs (INR j / INR k - p)) q /\ q <= 2 * exp (- (INR k * d ^ 2 / 2)).
Proof.
  intros M O R1 D K d0. eexists. split; [exact (number_law next M O R1 P p D k (fun j => d <= Rabs (INR j / INR k - p)))|].
  replace (INR k * d ^ 2 / 2) with (INR k * (d * d / 2)) by field. apply E_tail; [exact (draw_prob_range next P p D)|lra|exact K|auto].
Qed.
(** The sample of a program whose P-probability is only known to be within e of c *)
Lemma frequency_near {A} (next : nat -> list N -> outcome (A * list N)) (P : A -> Prop) p c e k d : steady next -> (forall n, draws_only tape (next n) (next n)) ->
  draw_prob next (fun _ => True) 1 -> draw_prob next P p -> Rabs (p - c) <= e -> (0 < k)%nat -> 0 < d <= 1 / 2 ->
  exists q, draw_prob (draw_many k next) (fun l => exists j, hits P l j /\ d + e <= Rabs (INR j / INR k - c)) q /\ q <= 2 * exp (- (INR k * d ^ 2 / 2)).
Proof.
  intros M O R1 D B K d0. eexists. split; [exact (number_law next M O R1 P p D k (fun j => d + e <= Rabs (INR j / INR k - c)))|].
  replace (INR k * d ^ 2 / 2) with (INR k * (d * d / 2)) by field. apply E_tail; [exact (draw_prob_range next P p D)|lra|exact K|].
  intros j _ H. replace (INR j / INR k - c) with ((INR j / INR k - p) + (p - c)) in H by ring. pose proof (Rabs_triang (INR j / INR k - p) (p - c)). lra.
Qed.

Lemma sure_returns {A} (next : nat -> list N -> outcome (A * list N)) (P : A -> Prop) : draw_prob next P 1 -> draw_prob next (fun _ => True) 1.
Proof.
  intros D. apply draw_prob_got in D. apply draw_prob_got. apply (is_lim_seq_le_le (fun n => pr n (fun ws => ev (got next P ws))) _ (fun _ => 1)); [|exact D|apply is_lim_seq_const].
  intros n. split; [|apply pr_range]. apply pr_le. intros ws _ _ H. apply (proj1 (ev_iff _)) in H. destruct H as (fu & f & w & R & _). apply ev_true. exists fu, f, w. auto.
Qed.
(** ... k rolls of a die with max sides: the fraction of those that show r *)
Theorem C89_uintn b max r k d : b = 32%N \/ b = 64%N -> (0 < max < 2 ^ b)%N -> (r < max)%N -> (0 < k)%nat -> 0 < d <= 1 / 2 ->
  exists q, draw_prob (draw_many k (fun fuel => RNG_Uintn tape fuel b max)) (fun l => exists j, hits (fun x => x = r) l j /\ d <= Rabs (INR j / INR k - uintn_share b max r)) q /\ q <= 2 * exp (- (INR k * d ^ 2 / 2)).
Proof.
  intros Hb Hm Hr K d0. destruct (uintn_ok b max) as [S O]. apply C89_frequency; try assumption; [eapply sure_returns; now apply C65_uintn_returns|now apply C65_uintn_distribution].
Qed.
(** ... k exponential variates: the fraction of those up to x (the empirical distribution function) *)
Theorem C89_exponential math_exp math_log rate r x k d : accurate_exp math_exp -> accurate_log math_log -> fvalue rate r -> 0 < r -> x <= 2 ^ 1023 -> (0 < k)%nat -> 0 < d <= 1 / 2 ->
  exists q, draw_prob (draw_many k (Exponential_Next tape math_exp math_log rate)) (fun l => exists j, hits (at_most x) l j /\ d + 2 / 10 ^ 11 <= Rabs (INR j / INR k - exponential_cdf r x)) q /\
    q <= 2 * exp (- (INR k * d ^ 2 / 2)).
Proof.
  intros AE AL V R0 X K d0. destruct (expo_ok math_exp math_log rate) as [S O]. destruct (C61_exponential_distribution math_exp math_log rate r x AE AL V R0 X) as (p & D & B).
  destruct (C87_exponential math_exp math_log rate) as (_ & _ & _ & c & MW & _). exact (frequency_near _ _ p _ _ k d S O (cost_returns _ _ MW) D B K d0).
Qed.
(** ... k normal variates *)
Theorem C89_normal math_exp math_log mean m sd s x k d : accurate_exp math_exp -> accurate_log math_log -> fvalue mean m -> fvalue sd s -> 0 < s -> Rabs m <= bpow radix2 1022 -> Rabs x <= bpow radix2 1022 ->
  rounding_margin x <= s / 10 ^ 12 -> (0 < k)%nat -> 0 < d <= 1 / 2 ->
  exists A q, area_up_to (normal_curve m s) x A /\ draw_prob (draw_many k (fun fuel => Normal_Next tape math_exp math_log mean sd fuel fuel)) (fun l => exists j, hits (not_above x) l j /\ d + 4 / 10 ^ 11 <= Rabs (INR j / INR k - A)) q /\
    q <= 2 * exp (- (INR k * d ^ 2 / 2)).
Proof.
  intros AE AL Vm Vs S0 Bm Bx MG K d0. destruct (normal_ok math_exp math_log mean sd) as [S O]. destruct (C62_normal_distribution_tight math_exp math_log AE AL mean m sd s x Vm Vs S0 Bm Bx MG) as (p & A & D & AR & B).
  destruct (C87_normal math_exp math_log mean sd AE AL) as (_ & _ & c & MW & _). destruct (frequency_near _ _ p _ _ k d S O (cost_returns _ _ MW) D B K d0) as (q & Hq & L). exists A, q. auto.
Qed.
(** the number of sixes in two rolls of a die; in 60000 rolls the fraction of sixes is within 1/60 of its probability, but for a chance of at most 2 e^-8 *)
Example C89_nonvacuous : (exists q, draw_prob (draw_many 2 (fun fuel => RNG_Uintn tape fuel 64 6)) (fun l => hits (fun x => x = 5%N) l 1) q /\ 0 < q < 1) /\
  (exists q, draw_prob (draw_many (N.to_nat 60000) (fun fuel => RNG_Uintn tape fuel 64 6)) (fun l => exists j, hits (fun x => x = 5%N) l j /\ 1 / 60 <= Rabs (INR j / INR (N.to_nat 60000) - uintn_share 64 6 5)) q /\ q <= 2 * exp (- (8))).
Proof.
  split.
  - destruct (uintn_ok 64 6) as [S O]. eexists. split; [apply (C89_binomial _ _ (uintn_share 64 6 5) 2 1 S O); [eapply sure_returns; apply (C65_uintn_returns 64 6); [auto|split; reflexivity]|apply C65_uintn_distribution; [auto|split; reflexivity|reflexivity]|lia]|].
    assert (E : uintn_share 64 6 5 = 3074457345618258602 / 18446744073709551613) by (unfold uintn_share; change ((2 ^ 64 - 1) / 6)%N with 3074457345618258602%N; reflexivity). rewrite E. unfold Binomial.C. cbn [Nat.sub pow fact Nat.mul Nat.add INR]. lra.
  - destruct (C89_uintn 64 6 5 (N.to_nat 60000) (1 / 60) ltac:(auto) ltac:(split; reflexivity) eq_refl ltac:(lia) ltac:(lra)) as (q & D & B). exists q. split; [exact D|].
    apply Rle_trans with (1 := B). apply Rmult_le_compat_l; [lra|]. replace (INR (N.to_nat 60000) * (1 / 60) ^ 2 / 2) with (25 / 3) by (rewrite INR_IZR_INZ, N_nat_Z; change (Z.of_N 60000) with 60000%Z; field). left. apply exp_increasing. lra.
Qed.
End Compiler.
