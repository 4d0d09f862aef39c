(** C72: successive draws are independent. *)
From Coq Require Import Reals Lia Lra Bool.
From Coquelicot Require Import Coquelicot.
From Flocq Require Import Core BinarySingleNaN.
From Verif Require Import Model.Base Model.Rng Model.Util Model.Utf8 Model.Float Model.Distr Model.Ziggurat Model.ExpoNormal Spec.Common Spec.Counting Spec.Floats Spec.Zig Spec.Tails Spec.Prob Spec.Words.
From Verif Require Import Proofs.WordLemmas Proofs.SaveProofs Proofs.SumN Proofs.ZigTape Proofs.GenTape Proofs.GenLaw Proofs.Independent.
From Verif Require Import Props.Rng Props.Zig Props.Draws Props.ExpoLaw Props.NormalLaw Props.Tails.
Local Open Scope R_scope.

(** for every choice of the compiler which x*y + z to fuse (Model/Fused.v) *)
Section Compiler.
Context {fpc : compiler}.

(** Programs f and g (different ones, or the same twice) that look at nothing beyond the words they draw: the value of g drawn
    after f is independent of the value of f, and distributed as if f had not been called. *)
Theorem C72_pair {A B} (f : nat -> list N -> outcome (A * list N)) (g : nat -> list N -> outcome (B * list N)) P Q p q :
  steady f -> steady g -> (forall n, draws_only tape (f n) (f n)) -> draw_prob f P p -> draw_prob g Q q ->
  draw_prob (first_then f g) (fun ab => P (fst ab) /\ Q (snd ab)) (p * q).
Proof. intros MF MG OF. exact (pair_law f g MF MG OF P Q p q). Qed.
(** k successive draws: the event that the i-th value satisfies the i-th of the conditions Ps has the product of their
    probabilities *)
Lemma many_steady {A W} (next : nat -> W -> outcome (A * W)) k : steady next -> steady (draw_many k next).
Proof.
  intros M. induction k as [|k IH]; intros f f' w r L E; cbn [draw_many] in *; [exact E|].
  destruct (next f w) as [[a w1]| |] eqn:E1; try discriminate E. rewrite (M _ _ _ _ L E1). cbn [bind] in *.
  destruct (draw_many k next f w1) as [[l w2]| |] eqn:E2; try discriminate E. rewrite (IH _ _ _ _ L E2). exact E.
Qed.
Lemma pair_list {A} (next : nat -> list N -> outcome (A * list N)) k fuel ws : draw_many (S k) next fuel ws = let! (al, ws) := first_then next (draw_many k next) fuel ws in Ret (fst al :: snd al, ws).
Proof. unfold first_then. cbn [draw_many]. destruct (next fuel ws) as [[a w1]| |]; cbn [bind]; try reflexivity. now destruct (draw_many k next fuel w1) as [[l w2]| |]. Qed.
Theorem C72_successive {A} (next : nat -> list N -> outcome (A * list N)) (Ps : list (A -> Prop)) (ps : list R) :
  steady next -> (forall n, draws_only tape (next n) (next n)) -> Forall2 (draw_prob next) Ps ps ->
  draw_prob (draw_many (length Ps) next) (Forall2 (fun P a => P a) Ps) (fold_right Rmult 1 ps).
Proof.
  intros M O D. induction D as [|P p Ps ps D Ds IH].
  - cbn [length draw_many fold_right]. exists (fun _ => 1). split; [|apply is_lim_seq_const]. intros n.
    replace 1 with (pr n (fun _ => true)) by apply pr_const. apply prob_pr. intros ws _ _. split; [reflexivity|]. intros _. exists 0%nat, [], ws. split; [reflexivity|constructor].
  - cbn [length fold_right]. pose proof (C72_pair next (draw_many (length Ps) next) P (Forall2 (fun P a => P a) Ps) p _ M (many_steady next _ M) O D IH) as (q & Hq & L).
    exists q. split; [|exact L]. intros n. destruct (Hq n) as (c & C & E). exists c. split; [|exact E]. revert C. apply Count.has_exactly_ext. intros ws. apply and_iff_compat_l. split.
    + intros (fuel & [a l] & ws' & E1 & Pa & Pl). exists fuel, (a :: l), ws'. split; [|now constructor]. rewrite pair_list, E1. reflexivity.
    + intros (fuel & al & ws' & E1 & H). rewrite pair_list in E1. destruct (first_then _ _ fuel ws) as [[[a l] w1]| |] eqn:E2; try discriminate E1. cbn [bind fst snd] in E1. injection E1 as <- <-.
      inversion H; subst. exists fuel, (a, l), w1. auto.
Qed.

(** What is known of one draw is known of a sample: *)
(** ... rolls of a die *)
Lemma uintn_ok b max : steady (fun fuel => RNG_Uintn tape fuel b max) /\ forall n, draws_only tape (RNG_Uintn tape n b max) (RNG_Uintn tape n b max).
Proof. split; [apply mono_uintn|]. intros n. apply only_uintn. exact tape_go. Qed.
Theorem C72_uintn_sample b max rs : b = 32%N \/ b = 64%N -> (0 < max < 2 ^ b)%N -> Forall (fun r => (r < max)%N) rs ->
  draw_prob (draw_many (length rs) (fun fuel => RNG_Uintn tape fuel b max)) (fun xs => xs = rs) (fold_right Rmult 1 (map (uintn_share b max) rs)).
Proof.
  intros Hb Hm F. destruct (uintn_ok b max) as [S O].
  pose proof (C72_successive (fun fuel => RNG_Uintn tape fuel b max) (map (fun r x => x = r) rs) (map (uintn_share b max) rs) S O) as D. rewrite map_length in D.
  destruct D as (q & Hq & L).
  - induction F as [|r rs Hr F IH]; cbn [map]; constructor; [now apply C65_uintn_distribution|exact IH].
  - exists q. split; [|exact L]. intros n. destruct (Hq n) as (c & C & E). exists c. split; [|exact E]. revert C. apply Count.has_exactly_ext. intros ws. apply and_iff_compat_l.
    assert (X : forall xs, Forall2 (fun (P : N -> Prop) a => P a) (map (fun r x => x = r) rs) xs <-> xs = rs).
    { clear. induction rs as [|r rs IH]; intros [|x xs]; cbn [map]; split; intros H; try (inversion H; subst); try constructor; auto; try (f_equal; now apply IH); now apply IH. }
    split; intros (fuel & xs & ws' & E1 & H); exists fuel, xs, ws'; (split; [exact E1|]); now apply X.
Qed.
(** ... exponential variates *)
Lemma expo_ok math_exp math_log rate : steady (Exponential_Next tape math_exp math_log rate) /\ forall n, draws_only tape (Exponential_Next tape math_exp math_log rate n) (Exponential_Next tape math_exp math_log rate n).
Proof. split; [apply mono_exponential|]. intros n. apply only_exponential. exact tape_go. Qed.
Theorem C72_exponential_sample math_exp math_log rate r xs : accurate_exp math_exp -> accurate_log math_log -> fvalue rate r -> 0 < r -> Forall (fun x => x <= 2 ^ 1023) xs ->
  exists ps, Forall2 (fun x p => Rabs (p - exponential_cdf r x) <= 2 / 10 ^ 11) xs ps /\
    draw_prob (draw_many (length xs) (Exponential_Next tape math_exp math_log rate)) (Forall2 at_most xs) (fold_right Rmult 1 ps).
Proof.
  intros AE AL V R0 F. assert (H : exists ps, Forall2 (fun x p => draw_prob (Exponential_Next tape math_exp math_log rate) (at_most x) p /\ Rabs (p - exponential_cdf r x) <= 2 / 10 ^ 11) xs ps).
  { induction F as [|x xs Hx F (ps & IH)]; [exists []; constructor|]. destruct (C61_exponential_distribution math_exp math_log rate r x AE AL V R0 Hx) as (p & D & B). exists (p :: ps). constructor; auto. }
  destruct H as (ps & H). exists ps. split; [clear - H; induction H as [|x p xs ps [_ B] _ IH]; constructor; auto|].
  destruct (expo_ok math_exp math_log rate) as [S O]. pose proof (C72_successive (Exponential_Next tape math_exp math_log rate) (map at_most xs) ps S O) as D. rewrite map_length in D.
  destruct D as (q & Hq & L); [clear - H; induction H as [|x p xs ps [D _] _ IH]; cbn [map]; constructor; auto|].
  exists q. split; [|exact L]. intros n. destruct (Hq n) as (c & C & E). exists c. split; [|exact E]. revert C. apply Count.has_exactly_ext. intros ws. apply and_iff_compat_l.
  assert (X : forall vs, Forall2 (fun (P : float64 -> Prop) a => P a) (map at_most xs) vs <-> Forall2 at_most xs vs).
  { clear. induction xs as [|x xs IH]; intros vs; cbn [map]; split; intros H; inversion H; subst; constructor; auto; now apply IH. }
  split; intros (fuel & vs & ws' & E1 & H1); exists fuel, vs, ws'; (split; [exact E1|]); now apply X.
Qed.
(** ... normal variates *)
Lemma normal_ok math_exp math_log mean sd : steady (normal_draws math_exp math_log mean sd) /\ forall n, draws_only tape (normal_draws math_exp math_log mean sd n) (normal_draws math_exp math_log mean sd n).
Proof. split; [apply mono_normal|]. intros n. apply only_normal. exact tape_go. Qed.
Theorem C72_normal_sample math_exp math_log mean m sd s xs : accurate_exp math_exp -> accurate_log math_log -> fvalue mean m -> fvalue sd s -> 0 < s -> Rabs m <= bpow radix2 1022 ->
  Forall (fun x => Rabs x <= bpow radix2 1022 /\ rounding_margin x <= s / 10 ^ 12) xs ->
  exists ps, Forall2 (fun x p => exists A, area_up_to (normal_curve m s) x A /\ Rabs (p - A) <= 4 / 10 ^ 11) xs ps /\
    draw_prob (draw_many (length xs) (fun fuel => Normal_Next tape math_exp math_log mean sd fuel fuel)) (Forall2 not_above xs) (fold_right Rmult 1 ps).
Proof.
  intros AE AL Vm Vs S0 M F. assert (H : exists ps, Forall2 (fun x p => draw_prob (normal_draws math_exp math_log mean sd) (not_above x) p /\ exists A, area_up_to (normal_curve m s) x A /\ Rabs (p - A) <= 4 / 10 ^ 11) xs ps).
  { induction F as [|x xs [Hx Hr] F (ps & IH)]; [exists []; constructor|]. destruct (C62_normal_distribution_tight math_exp math_log AE AL mean m sd s x Vm Vs S0 M Hx Hr) as (p & A & D & B & C). exists (p :: ps). constructor; eauto. }
  destruct H as (ps & H). exists ps. split; [clear - H; induction H as [|x p xs ps [_ B] _ IH]; constructor; auto|].
  destruct (normal_ok math_exp math_log mean sd) as [S O]. pose proof (C72_successive (normal_draws math_exp math_log mean sd) (map not_above xs) ps S O) as D. rewrite map_length in D.
  destruct D as (q & Hq & L); [clear - H; induction H as [|x p xs ps [D _] _ IH]; cbn [map]; constructor; auto|].
  exists q. split; [|exact L]. intros n. destruct (Hq n) as (c & C & E). exists c. split; [|exact E]. revert C. apply Count.has_exactly_ext. intros ws. apply and_iff_compat_l.
  assert (X : forall vs, Forall2 (fun (P : float64 -> Prop) a => P a) (map not_above xs) vs <-> Forall2 not_above xs vs).
  { clear. induction xs as [|x xs IH]; intros vs; cbn [map]; split; intros H; inversion H; subst; constructor; auto; now apply IH. }
  split; intros (fuel & vs & ws' & E1 & H1); exists fuel, vs, ws'; (split; [exact E1|]); now apply X.
Qed.
(** two rolls of a die, both 6 (value 5); an exponential variate after them *)
Example C72_nonvacuous : exists p, draw_prob (first_then (draw_many 2 (fun fuel => RNG_Uintn tape fuel 64 6)) (Exponential_Next tape exact_exp exact_log (of_int 3)))
  (fun ab => fst ab = [5; 5]%N /\ at_most 1 (snd ab)) (uintn_share 64 6 5 * uintn_share 64 6 5 * p) /\ Rabs (p - (1 - exp (- 3))) <= 2 / 10 ^ 11.
Proof.
  assert (V : fvalue (of_int 3) 3) by (split; [reflexivity|]; vm_compute; lra).
  destruct (C61_exponential_distribution exact_exp exact_log (of_int 3) 3 1 exact_exp_accurate exact_log_accurate V ltac:(lra)) as (p & D & B); [apply pow_R1_Rle; lra|].
  exists p. unfold exponential_cdf in B. destruct Rle_dec as [_|N] in B; [|exfalso; apply N; lra]. rewrite Rmult_1_r in B. split; [|exact B].
  destruct (uintn_ok 64 6) as [S O]. destruct (expo_ok exact_exp exact_log (of_int 3)) as [S' _].
  refine (C72_pair _ _ (fun a => a = [5; 5]%N) (at_most 1) _ p (many_steady _ 2 S) S' _ _ D).
  - intros n. cbn [draw_many]. apply only_bind; [apply O|]. intros a. apply only_bind; [|intros l; apply only_ret]. apply only_bind; [apply O|]. intros a'. apply only_bind; [apply only_ret|]. intros l. apply only_ret.
  - pose proof (C72_uintn_sample 64 6 [5; 5]%N (or_intror eq_refl) ltac:(split; reflexivity) ltac:(repeat constructor)) as U. cbn [length map fold_right] in U. now rewrite Rmult_1_r in U.
Qed.
End Compiler.
