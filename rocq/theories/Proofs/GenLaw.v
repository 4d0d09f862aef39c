(** Distributions on a tape carry over to a generator whose state is n uniform words, n consecutive outputs of which are
    in bijection with the state. *)
From Coq Require Import Reals Lia Lra Bool Classical ClassicalDedekindReals.
From Coquelicot Require Import Coquelicot.
From Verif Require Import Model.Base Model.Rng Spec.Common Spec.Counting Spec.Zig Spec.Prob.
From Verif Require Import Proofs.WordLemmas Proofs.SaveProofs Proofs.Count Proofs.SumN Proofs.ZigTape.
Local Open Scope R_scope.

(** *** probabilities of n words *)
Definition ev (P : Prop) : bool := if sig_not_dec P then true else false.
Lemma ev_iff P : ev P = true <-> P.
Proof. unfold ev. destruct (sig_not_dec P) as [H|H]; split; intros K; [now apply NNPP|reflexivity|discriminate|contradiction]. Qed.
Lemma ind_ev P : ind (ev P) = 0 \/ ind (ev P) = 1. Proof. destruct (ev P); auto. Qed.
Lemma pr_le n : forall P Q, (forall ws, length ws = n -> Forall w64 ws -> P ws = true -> Q ws = true) -> pr n P <= pr n Q.
Proof.
  induction n as [|n IH]; intros P Q H; cbn [pr].
  - specialize (H [] eq_refl (Forall_nil _)). destruct (P []), (Q []); cbn [ind]; try lra; exfalso; discriminate (H eq_refl).
  - apply Rmult_le_compat_l; [left; apply Rinv_0_lt_compat, P64|]. apply sumN_le. intros u Hu. apply IH. intros ws L F. apply H; [cbn; now rewrite L|].
    constructor; [unfold w64; rewrite <- W64_eq; exact Hu|exact F].
Qed.
Lemma pr_plus n : forall P Q S, (forall ws, length ws = n -> Forall w64 ws -> ind (S ws) <= ind (P ws) + ind (Q ws)) -> pr n S <= pr n P + pr n Q.
Proof.
  induction n as [|n IH]; intros P Q S H; cbn [pr]; [apply H; constructor|].
  rewrite <- Rmult_plus_distr_l. apply Rmult_le_compat_l; [left; apply Rinv_0_lt_compat, P64|]. rewrite <- sumN_plus. apply sumN_le. intros u Hu. apply IH.
  intros ws L F. apply H; [cbn; now rewrite L|]. constructor; [unfold w64; rewrite <- W64_eq; exact Hu|exact F].
Qed.
Lemma pr_negb n : forall P, pr n (fun ws => negb (P ws)) = 1 - pr n P.
Proof.
  induction n as [|n IH]; intros P; cbn [pr]; [destruct (P []); cbn; ring|].
  rewrite (sumN_ext _ (fun u => 1 - pr n (fun ws => P (u :: ws)))) by (intros; apply IH). rewrite sumN_minus, sumN_const, NR_W64. pose proof P64. field. lra.
Qed.
Lemma pr_prefix n k : forall P, pr (n + k) (fun ws => P (firstn n ws)) = pr n P.
Proof.
  induction n as [|n IH]; intros P.
  - cbn [Nat.add firstn]. rewrite pr_const. reflexivity.
  - cbn [Nat.add pr firstn]. f_equal. apply sumN_ext. intros u _. apply (IH (fun ws => P (u :: ws))).
Qed.
Lemma prob_unique n P p q : prob n P p -> prob n P q -> p = q.
Proof. intros (c & C & ->) (d & D & ->). now rewrite (has_exactly_unique _ _ _ C D). Qed.

Section Transfer.
  Context {A W : Type}.
  Variable next_t : nat -> list N -> outcome (A * list N).
  Definition ends (P : A -> Prop) (ws : list N) : Prop := exists fuel f ws', next_t fuel ws = Ret (f, ws') /\ P f.
  Hypothesis MONO : forall f f' ws r, (f <= f')%nat -> next_t f ws = Ret r -> next_t f' ws = Ret r.
  Hypothesis SAMET : forall fuel, same_draws tape (next_t fuel) (next_t fuel).
  Lemma tape_runs ws x : Forall w64 ws -> runs (RNG_Uint64 tape) (ws ++ x) ws x.
  Proof. induction 1 as [|u ws Hu F IH]; [constructor|]. cbn [app]. econstructor; [now apply tape_draw|exact IH]. Qed.
  Lemma next_more fuel ws x v ws' : Forall w64 ws -> next_t fuel ws = Ret (v, ws') -> exists y, next_t fuel (ws ++ x) = Ret (v, y).
  Proof. intros F E. destruct (SAMET fuel (ws ++ x) ws x v ws' F (tape_runs ws x F) E) as (used & s' & _ & E' & _). eauto. Qed.
  Lemma ends_once P ws f fuel x : next_t fuel ws = Ret (f, x) -> ends P ws -> P f.
  Proof.
    intros E (g & f' & y & E' & Hf). apply (MONO _ (Nat.max fuel g)) in E; [|lia]. apply (MONO _ (Nat.max fuel g)) in E'; [|lia]. congruence.
  Qed.
  Lemma ends_prefix P ws x : Forall w64 ws -> ends P ws -> ends P (ws ++ x).
  Proof. intros F (g & f & y & E & Hf). destruct (next_more g ws x f y F E) as [y' E']. exists g, f, y'. auto. Qed.
  Lemma ends_back P ws x : Forall w64 ws -> ends (fun _ => True) ws -> ends P (ws ++ x) -> ends P ws.
  Proof.
    intros F (g & f & y & E & _) H. exists g, f, y. split; [exact E|]. destruct (next_more g ws x f y F E) as [y' E']. exact (ends_once P _ _ _ _ E' H).
  Qed.
  Notation q n P := (pr n (fun ws => ev (ends P ws))).
  Lemma q_prob n P : prob n (ends P) (q n P).
  Proof. apply prob_pr. intros ws _ _. symmetry. apply ev_iff. Qed.
  Lemma q_bounds n k P : q n P <= q (n + k) P <= q n P + (1 - q n (fun _ => True)).
  Proof.
    assert (SP : forall ws : list N, length ws = (n + k)%nat -> Forall w64 ws -> ws = firstn n ws ++ skipn n ws /\ Forall w64 (firstn n ws)).
    { intros ws L F. split; [symmetry; apply firstn_skipn|]. rewrite <- (firstn_skipn n ws) in F. now apply Forall_app in F. }
    split.
    - rewrite <- (pr_prefix n k (fun ws => ev (ends P ws))). apply pr_le. intros ws L F. rewrite !ev_iff. destruct (SP ws L F) as [E F']. intros H. rewrite E. now apply ends_prefix.
    - rewrite <- pr_negb. rewrite <- (pr_prefix n k (fun ws => ev (ends P ws))). rewrite <- (pr_prefix n k (fun ws => negb (ev (ends (fun _ => True) ws)))).
      apply pr_plus. intros ws L F. destruct (SP ws L F) as [E F']. destruct (ev (ends (fun _ => True) (firstn n ws))) eqn:E1; cbn [negb ind].
      + apply (proj1 (ev_iff _)) in E1. destruct (ev (ends P ws)) eqn:E2; cbn [ind]; [|pose proof (ind_range (ev (ends P (firstn n ws)))); lra]. apply (proj1 (ev_iff _)) in E2. rewrite E in E2.
        apply (ends_back P _ _ F' E1) in E2. rewrite (proj2 (ev_iff _) E2). cbn [ind]. lra.
      + destruct (ev (ends P ws)), (ev (ends P (firstn n ws))); cbn [ind]; lra.
  Qed.
  (** the limit is not far from the value at n *)
  Lemma limit_bounds n P p : draw_prob next_t P p -> q n P <= p <= q n P + (1 - q n (fun _ => True)).
  Proof.
    intros (q' & Hq & L). assert (E : forall m, q' m = q m P) by (intros m; exact (prob_unique m _ _ _ (Hq m) (q_prob m P))).
    assert (L' : is_lim_seq (fun k => q (n + k) P) p).
    { apply (is_lim_seq_ext (fun k => q' (k + n)%nat)); [intros k; rewrite E; now rewrite Nat.add_comm|]. now apply -> is_lim_seq_incr_n. }
    split.
    - exact (is_lim_seq_le (fun _ => q n P) (fun k => q (n + k) P) (q n P) p (fun k => proj1 (q_bounds n k P)) (is_lim_seq_const _) L').
    - exact (is_lim_seq_le (fun k => q (n + k) P) (fun _ => q n P + (1 - q n (fun _ => True))) p _ (fun k => proj2 (q_bounds n k P)) L' (is_lim_seq_const _)).
  Qed.

  (** *** a generator with n uniform state words *)
  Variable read : reader W.
  Variable next : nat -> W -> outcome (A * W).
  Hypothesis MONOG : forall f f' w r, (f <= f')%nat -> next f w = Ret r -> next f' w = Ret r.
  Hypothesis SAME : forall fuel, same_draws read (next_t fuel) (next fuel).
  Variable n : nat.
  Variable st : list N -> W.
  Variable inv : list N -> list N.
  Definition words (ws : list N) : Prop := length ws = n /\ Forall w64 ws.
  Hypothesis INV1 : forall out, words out -> words (inv out) /\ exists t, runs (RNG_Uint64 read) (st (inv out)) out t.
  Hypothesis INV2 : forall ws, words ws -> exists out, words out /\ inv out = ws.
  Definition gends (P : A -> Prop) (ws : list N) : Prop := exists fuel f t, next fuel (st ws) = Ret (f, t) /\ P f.
  Lemma runs_same s xs t : runs (RNG_Uint64 read) s xs t -> forall ys t', runs (RNG_Uint64 read) s ys t' -> length xs = length ys -> xs = ys.
  Proof.
    induction 1 as [s|s x s1 xs s' E R IH]; intros ys t' R' L; [now destruct ys|]. inversion R' as [|? y s2 ys' ? E' R'']; subst; [discriminate L|].
    rewrite E in E'. inversion E'; subst. f_equal. apply (IH ys' t' R''). now injection L.
  Qed.
  Lemma inv_inj a b : words a -> words b -> inv a = inv b -> a = b.
  Proof.
    intros Ha Hb E. destruct (INV1 a Ha) as [_ [t Ra]]. destruct (INV1 b Hb) as [_ [t' Rb]]. rewrite E in Ra. apply (runs_same _ _ _ Ra _ _ Rb). destruct Ha, Hb. congruence.
  Qed.
  Lemma prob_inv (Q : list N -> Prop) p : prob n (fun out => Q (inv out)) p -> prob n Q p.
  Proof.
    intros (c & (l & ND & IN & L) & ->). exists c. split; [|reflexivity]. exists (map inv l). split; [|split].
    - apply NoDup_map_on; [exact ND|]. intros a b Ha Hb. apply IN in Ha, Hb. apply inv_inj; [apply Ha|apply Hb].
    - intros ws. rewrite in_map_iff. split.
      + intros (out & <- & H). apply IN in H. destruct H as [H HQ]. split; [apply (INV1 out H)|exact HQ].
      + intros [Hw HQ]. destruct (INV2 ws Hw) as (out & Ho & <-). exists out. split; [reflexivity|]. apply IN. now split.
    - now rewrite map_length.
  Qed.
  Lemma generator_law P p d : draw_prob next_t P p -> 1 - d <= q n (fun _ => True) ->
    exists g, prob n (gends P) g /\ Rabs (g - p) <= d.
  Proof.
    intros D HD. pose proof (limit_bounds n P p D) as B. exists (pr n (fun out => ev (gends P (inv out)))). split.
    - apply prob_inv. apply prob_pr. intros ws _ _. symmetry. apply ev_iff.
    - assert (L : q n P <= pr n (fun out => ev (gends P (inv out)))).
      { apply pr_le. intros out L F. rewrite !ev_iff. intros (fuel & f & y & E & Hf). destruct (INV1 out (conj L F)) as [_ [t R]].
        destruct (SAME fuel _ _ _ _ _ F R E) as (used & s' & _ & E' & _). exists fuel, f, s'. auto. }
      assert (U : pr n (fun out => ev (gends P (inv out))) <= q n P + (1 - q n (fun _ => True))).
      { rewrite <- pr_negb. apply pr_plus. intros out L' F. destruct (ev (ends (fun _ => True) out)) eqn:E1; cbn [negb ind].
        - apply (proj1 (ev_iff _)) in E1. destruct (ev (gends P (inv out))) eqn:E2; cbn [ind]; [|pose proof (ind_range (ev (ends P out))); lra]. apply (proj1 (ev_iff _)) in E2.
          assert (E3 : ends P out); [|rewrite (proj2 (ev_iff _) E3); cbn [ind]; lra]. destruct E1 as (fuel & f & y & E & _). exists fuel, f, y. split; [exact E|].
          destruct (INV1 out (conj L' F)) as [_ [t R]]. destruct (SAME fuel _ _ _ _ _ F R E) as (used & s' & _ & E' & _).
          destruct E2 as (g & f' & t' & Eg & Hf). apply (MONOG _ (Nat.max fuel g)) in E'; [|lia]. apply (MONOG _ (Nat.max fuel g)) in Eg; [|lia]. congruence.
        - destruct (ev (gends P (inv out))), (ev (ends P out)); cbn [ind]; lra. }
      apply Rabs_le. lra.
  Qed.
  (** the same in terms of any value r of the probability that n words suffice *)
  Lemma generator_law' P p r : draw_prob next_t P p -> prob n (ends (fun _ => True)) r -> exists g, prob n (gends P) g /\ Rabs (g - p) <= 1 - r.
  Proof. intros D R. apply generator_law; [exact D|]. rewrite (prob_unique _ _ _ _ (q_prob n _) R). lra. Qed.
End Transfer.
