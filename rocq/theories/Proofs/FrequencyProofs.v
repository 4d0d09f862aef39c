(** The number of successes in k independent draws (C89). *)
From Coq Require Import Reals Lia Lra Psatz Bool Binomial.
From Coquelicot Require Import Coquelicot.
From Flocq Require Import Core BinarySingleNaN.
From Verif Require Import Model.Base Model.Rng Spec.Common Spec.Counting Spec.Zig Spec.Prob Spec.Words Spec.Mean Spec.Frequency.
From Verif Require Import Proofs.SumN Proofs.ZigTape Proofs.GenLaw Proofs.Independent Proofs.MeanProofs.
Local Open Scope R_scope.

(** *** Binomial expectations *)
Fixpoint E (p : R) (k : nat) (g : nat -> R) : R :=
  match k with
  | O => g O
  | S k => p * E p k (fun j => g (S j)) + (1 - p) * E p k g
  end.
Lemma E_ext p k : forall g h, (forall j, (j <= k)%nat -> g j = h j) -> E p k g = E p k h.
Proof. induction k as [|k IH]; intros g h H; cbn [E]; [apply H; lia|]. rewrite (IH (fun j => g (S j)) (fun j => h (S j))), (IH g h); [reflexivity| |]; intros; apply H; lia. Qed.
Lemma E_scal p k c : forall g, E p k (fun j => c * g j) = c * E p k g.
Proof. induction k as [|k IH]; intros g; cbn [E]; [reflexivity|]. rewrite (IH (fun j => g (S j))), (IH g). ring. Qed.
Lemma E_plus p k : forall g h, E p k (fun j => g j + h j) = E p k g + E p k h.
Proof. induction k as [|k IH]; intros g h; cbn [E]; [reflexivity|]. rewrite (IH (fun j => g (S j)) (fun j => h (S j))), (IH g h). ring. Qed.
Lemma E_le p k : 0 <= p <= 1 -> forall g h, (forall j, (j <= k)%nat -> g j <= h j) -> E p k g <= E p k h.
Proof.
  intros P. induction k as [|k IH]; intros g h H; cbn [E]; [apply H; lia|]. apply Rplus_le_compat; (apply Rmult_le_compat_l; [lra|]); apply IH; intros; apply H; lia.
Qed.
(** the expectation of a function that is not 0 at j only *)
Lemma E_above p k : forall j, (k < j)%nat -> E p k (fun i => if (i =? j)%nat then 1 else 0) = 0.
Proof.
  induction k as [|k IH]; intros j Hj; cbn [E].
  - destruct j; [lia|reflexivity].
  - destruct j as [|j]; [lia|]. cbn [Nat.eqb]. rewrite (IH j) by lia. rewrite (IH (S j)) by lia. ring.
Qed.
Lemma C_n_n k : Binomial.C k k = 1.
Proof. unfold Binomial.C. rewrite Nat.sub_diag. change (fact 0) with 1%nat. cbn [INR]. field. apply INR_fact_neq_0. Qed.
Lemma E_point p k : forall j, (j <= k)%nat -> E p k (fun i => if (i =? j)%nat then 1 else 0) = Binomial.C k j * p ^ j * (1 - p) ^ (k - j).
Proof.
  induction k as [|k IH]; intros j Hj; cbn [E].
  - assert (j = O) as -> by lia. cbn [Nat.eqb Nat.sub pow]. unfold Binomial.C. cbn. field.
  - destruct j as [|j].
    + rewrite (E_ext p k _ (fun _ => 0 * 0)) by (intros; cbn [Nat.eqb]; ring). rewrite (E_scal p k 0 (fun _ => 0)). rewrite (IH O) by lia. rewrite !Nat.sub_0_r. cbn [pow]. unfold Binomial.C. rewrite !Nat.sub_0_r. assert (F1 := INR_fact_neq_0 k). assert (F2 := INR_fact_neq_0 (S k)). change (fact 0) with 1%nat. cbn [INR]. field. auto.
    + cbn [Nat.eqb]. rewrite (IH j) by lia. destruct (Nat.eq_dec j k) as [->|Nk].
      * rewrite E_above by lia. rewrite !Nat.sub_diag. rewrite !C_n_n. cbn [pow]. ring.
      * rewrite (IH (S j)) by lia. rewrite <- (pascal k j) by lia. replace (S k - S j)%nat with (k - j)%nat by lia. replace (k - j)%nat with (S (k - S j)) by lia. cbn [pow]. ring.
Qed.

(** *** Deviations *)
Lemma exp_upper x : x <= / 2 -> exp x <= 1 + x + 2 * x * x.
Proof.
  intros H. assert (A : exp x * (1 - x) <= 1). { pose proof (exp_ineq1_le (- x)) as I. apply (Rmult_le_compat_l (exp x)) in I; [|left; apply exp_pos]. rewrite <- exp_plus, Rplus_opp_r, exp_0 in I. lra. }
  apply Rmult_le_reg_r with (1 - x); [lra|]. apply Rle_trans with (1 := A). assert (0 <= x * x * (1 - 2 * x)) by (apply Rmult_le_pos; [nra|lra]). lra.
Qed.
Lemma factor p t : 0 <= p <= 1 -> Rabs t <= / 2 -> p * exp (t * (1 - p)) + (1 - p) * exp (- (t * p)) <= exp (t * t / 2).
Proof.
  intros P T. apply Rabs_le_inv in T. assert (A : exp (t * (1 - p)) <= 1 + t * (1 - p) + 2 * (t * (1 - p)) * (t * (1 - p))) by (apply exp_upper; nra).
  assert (B : exp (- (t * p)) <= 1 + - (t * p) + 2 * - (t * p) * - (t * p)) by (apply exp_upper; nra).
  apply Rle_trans with (1 + t * t / 2); [|pose proof (exp_ineq1_le (t * t / 2)); lra].
  apply (Rmult_le_compat_l p) in A; [|lra]. apply (Rmult_le_compat_l (1 - p)) in B; [|lra]. assert (V : p * (1 - p) <= / 4) by (pose proof (Rle_0_sqr (p - / 2)) as SQ; unfold Rsqr in SQ; lra). assert (Q : 0 <= t * t) by apply Rle_0_sqr. apply (Rmult_le_compat_l (t * t)) in V; [|exact Q].
  assert (X : p * (1 + t * (1 - p) + 2 * (t * (1 - p)) * (t * (1 - p))) + (1 - p) * (1 + - (t * p) + 2 * - (t * p) * - (t * p)) = 1 + 2 * (t * t * (p * (1 - p)))) by ring. lra.
Qed.
Lemma E_exp p t k : 0 <= p <= 1 -> Rabs t <= / 2 -> E p k (fun j => exp (t * (INR j - INR k * p))) <= exp (INR k * (t * t / 2)).
Proof.
  intros P T. induction k as [|k IH]; cbn [E].
  - cbn [INR]. rewrite !Rmult_0_l, Rminus_0_r, Rmult_0_r. lra.
  - rewrite (E_ext p k (fun j => exp (t * (INR (S j) - INR (S k) * p))) (fun j => exp (t * (1 - p)) * exp (t * (INR j - INR k * p)))) by (intros j _; rewrite <- exp_plus; f_equal; rewrite !S_INR; ring).
    rewrite (E_ext p k (fun j => exp (t * (INR j - INR (S k) * p))) (fun j => exp (- (t * p)) * exp (t * (INR j - INR k * p)))) by (intros j _; rewrite <- exp_plus; f_equal; rewrite !S_INR; ring).
    rewrite !E_scal. set (e := E p k _) in *. assert (E0 : 0 <= e). { unfold e. replace 0 with (E p k (fun _ => 0 * 0)) by (rewrite (E_scal p k 0 (fun _ => 0)); ring). apply E_le; [exact P|]. intros j _. rewrite Rmult_0_l. left. apply exp_pos. }
    rewrite S_INR. replace ((INR k + 1) * (t * t / 2)) with (t * t / 2 + INR k * (t * t / 2)) by ring. rewrite exp_plus. pose proof (factor p t P T) as F. pose proof (exp_pos (t * (1 - p))). pose proof (exp_pos (- (t * p))).
    replace (p * (exp (t * (1 - p)) * e) + (1 - p) * (exp (- (t * p)) * e)) with ((p * exp (t * (1 - p)) + (1 - p) * exp (- (t * p))) * e) by ring. apply Rmult_le_compat; try assumption. apply Rplus_le_le_0_compat; apply Rmult_le_pos; lra.
Qed.
Lemma E_tail p d k : 0 <= p <= 1 -> 0 < d <= / 2 -> (0 < k)%nat -> forall G : nat -> Prop, (forall j, (j <= k)%nat -> G j -> d <= Rabs (INR j / INR k - p)) -> E p k (fun j => ind (ev (G j))) <= 2 * exp (- (INR k * (d * d / 2))).
Proof.
  intros P D K G HG. apply lt_INR in K. cbn [INR] in K. set (n := INR k) in *.
  apply Rle_trans with (E p k (fun j => exp (- (n * (d * d))) * (exp (d * (INR j - n * p)) + exp (- d * (INR j - n * p))))).
  - apply E_le; [exact P|]. intros j Hj. pose proof (exp_pos (- (n * (d * d)))). pose proof (exp_pos (d * (INR j - n * p))) as E1. pose proof (exp_pos (- d * (INR j - n * p))) as E2.
    destruct (ev (G j)) eqn:X; cbn [ind]; [|apply Rmult_le_pos; lra]. apply (proj1 (ev_iff _)) in X. apply HG in X; [|exact Hj].
    assert (Y : n * d <= Rabs (INR j - n * p)). { replace (INR j - n * p) with (n * (INR j / n - p)) by (field; lra). rewrite Rabs_mult, (Rabs_pos_eq n) by lra. apply Rmult_le_compat_l; lra. }
    assert (Z : exp (n * (d * d)) <= exp (d * (INR j - n * p)) + exp (- d * (INR j - n * p))).
    { assert (M : forall y, n * (d * d) <= y -> exp (n * (d * d)) <= exp y) by (intros y [L|L]; [left; now apply exp_increasing|rewrite L; lra]). unfold Rabs in Y. destruct (Rcase_abs (INR j - n * p)) as [L|L].
      - apply Rle_trans with (exp (- d * (INR j - n * p))); [|lra]. apply M. apply (Rmult_le_compat_l d) in Y; lra.
      - apply Rle_trans with (exp (d * (INR j - n * p))); [|lra]. apply M. apply (Rmult_le_compat_l d) in Y; lra. }
    rewrite <- (Rinv_l (exp (n * (d * d)))) by (apply Rgt_not_eq, exp_pos). rewrite <- exp_Ropp. apply Rmult_le_compat_l; [lra|exact Z].
  - rewrite E_scal, E_plus. assert (A1 : E p k (fun j => exp (d * (INR j - n * p))) <= exp (n * (d * d / 2))) by (apply E_exp; [exact P|apply Rabs_le; lra]).
    assert (A2 : E p k (fun j => exp (- d * (INR j - n * p))) <= exp (n * (d * d / 2))) by (replace (d * d / 2) with (- d * - d / 2) by field; apply E_exp; [exact P|apply Rabs_le; lra]).
    replace (- (n * (d * d / 2))) with (- (n * (d * d)) + n * (d * d / 2)) by field. rewrite exp_plus. pose proof (exp_pos (- (n * (d * d)))). set (a := exp (- (n * (d * d)))) in *. set (b := exp (n * (d * d / 2))) in *. replace (2 * (a * b)) with (a * (b + b)) by ring. apply Rmult_le_compat_l; lra.
Qed.

(** *** The law of the number of successes *)
Section Law.
  Context {A : Type} (next : nat -> list N -> outcome (A * list N)) (M : steady next).
  Lemma one_result fu fu' ws r r' : next fu ws = Ret r -> next fu' ws = Ret r' -> r = r'.
  Proof. intros E1 E2. apply (M _ (fu + fu')%nat) in E1; [|lia]. apply (M _ (fu + fu')%nat) in E2; [|lia]. congruence. Qed.
  Definition got (Q : A -> Prop) (ws : list N) : Prop := exists fuel f ws', next fuel ws = Ret (f, ws') /\ Q f.
  Lemma ev_true (P : Prop) : P -> ev P = true. Proof. intros H. now apply (proj2 (ev_iff P)). Qed.
  Lemma ev_false (P : Prop) : ~ P -> ev P = false. Proof. intros H. destruct (ev P) eqn:X; [|reflexivity]. apply (proj1 (ev_iff P)) in X. contradiction. Qed.
  Lemma got_split (P Q : A -> Prop) ws : (forall f, P f -> Q f -> False) -> ind (ev (got (fun f => P f \/ Q f) ws)) = ind (ev (got P ws)) + ind (ev (got Q ws)).
  Proof.
    intros X. destruct (ev (got P ws)) eqn:EP.
    - apply (proj1 (ev_iff _)) in EP. destruct EP as (fu & f & w & R & H). rewrite ev_true by (exists fu, f, w; auto). rewrite ev_false; [cbn [ind]; ring|]. intros (fu' & f' & w' & R' & H'). pose proof (one_result _ _ _ _ _ R R') as Eq. injection Eq as <- _. eauto.
    - destruct (ev (got Q ws)) eqn:EQ.
      + apply (proj1 (ev_iff _)) in EQ. destruct EQ as (fu & f & w & R & H). rewrite ev_true by (exists fu, f, w; auto). cbn [ind]. ring.
      + rewrite ev_false; [cbn [ind]; ring|]. intros (fu & f & w & R & [H|H]); [assert (ev (got P ws) = true) by (apply ev_true; exists fu, f, w; auto)|assert (ev (got Q ws) = true) by (apply ev_true; exists fu, f, w; auto)]; congruence.
  Qed.
  Lemma draw_prob_got P p : draw_prob next P p <-> is_lim_seq (fun n => pr n (fun ws => ev (got P ws))) p.
  Proof.
    assert (X : forall n, prob n (got P) (pr n (fun ws => ev (got P ws)))) by (intros n; apply prob_pr; intros ws _ _; symmetry; apply ev_iff). split.
    - intros (q & Hq & L). apply (is_lim_seq_ext q); [|exact L]. intros n. exact (prob_unique n _ _ _ (Hq n) (X n)).
    - intros L. exists (fun n => pr n (fun ws => ev (got P ws))). split; [exact X|exact L].
  Qed.
  Lemma pr_split n (P Q : A -> Prop) : (forall f, P f -> Q f -> False) -> pr n (fun ws => ev (got (fun f => P f \/ Q f) ws)) = pr n (fun ws => ev (got P ws)) + pr n (fun ws => ev (got Q ws)).
  Proof. intros X. rewrite <- !average_pr, <- average_plus. apply average_ext. intros ws _ _. now apply got_split. Qed.
  Lemma draw_prob_or (P Q : A -> Prop) p q : (forall f, P f -> Q f -> False) -> draw_prob next P p -> draw_prob next Q q -> draw_prob next (fun f => P f \/ Q f) (p + q).
  Proof.
    intros X DP DQ. apply draw_prob_got in DP, DQ. apply draw_prob_got. apply (is_lim_seq_ext (fun n => pr n (fun ws => ev (got P ws)) + pr n (fun ws => ev (got Q ws)))); [intros n; symmetry; now apply pr_split|]. now apply is_lim_seq_plus'.
  Qed.
  Lemma draw_prob_not (P : A -> Prop) p : draw_prob next (fun _ => True) 1 -> draw_prob next P p -> draw_prob next (fun f => ~ P f) (1 - p).
  Proof.
    intros D1 DP. apply draw_prob_got in DP, D1. apply draw_prob_got. apply (is_lim_seq_ext (fun n => pr n (fun ws => ev (got (fun _ => True) ws)) - pr n (fun ws => ev (got P ws)))); [|now apply is_lim_seq_minus'].
    intros n. pose proof (pr_split n P (fun f => ~ P f) (fun f a b => b a)) as S. rewrite (pr_ext n (fun ws => ev (got (fun _ => True) ws)) (fun ws => ev (got (fun f => P f \/ ~ P f) ws))); [lra|].
    intros ws _ _. destruct (ev (got (fun _ => True) ws)) eqn:X.
    - symmetry. apply ev_true. apply (proj1 (ev_iff _)) in X. destruct X as (fu & f & w & R & _). exists fu, f, w. split; [exact R|]. destruct (ev (P f)) eqn:Y; [left; now apply (proj1 (ev_iff _))|right]. intros H. rewrite (ev_true _ H) in Y. discriminate Y.
    - symmetry. apply ev_false. intros (fu & f & w & R & _). rewrite ev_true in X by (exists fu, f, w; auto). discriminate X.
  Qed.
  Lemma draw_prob_range P p : draw_prob next P p -> 0 <= p <= 1.
  Proof.
    intros D. apply draw_prob_got in D. split; [apply (is_lim_seq_le (fun _ => 0) _ 0 p (fun n => proj1 (pr_range n _)) (is_lim_seq_const 0) D)|apply (is_lim_seq_le _ (fun _ => 1) p 1 (fun n => proj2 (pr_range n _)) D (is_lim_seq_const 1))].
  Qed.
End Law.
