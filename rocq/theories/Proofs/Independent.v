(** Successive draws of programs on a tape of uniform words are independent. *)
From Coq Require Import Reals Lia Lra Bool.
From Coquelicot Require Import Coquelicot.
From Verif Require Import Model.Base Model.Rng Spec.Common Spec.Counting Spec.Zig Spec.Prob Spec.Words.
From Verif Require Import Proofs.WordLemmas Proofs.SaveProofs Proofs.Count Proofs.SumN Proofs.ZigTape Proofs.GenTape Proofs.GenLaw.
Local Open Scope R_scope.

(** *** sums over 0 ... n *)
Lemma sum_ext' f g n : (forall m, (m <= n)%nat -> f m = g m) -> sum_f_R0 f n = sum_f_R0 g n.
Proof. intros H. induction n as [|n IH]; cbn [sum_f_R0]; [apply H; lia|]. rewrite IH by (intros; apply H; lia). rewrite H by lia. reflexivity. Qed.
Lemma mean_sum (f : nat -> N -> R) n : / IZR (2 ^ 64) * sumN (fun u => sum_f_R0 (fun m => f m u) n) W64 = sum_f_R0 (fun m => / IZR (2 ^ 64) * sumN (f m) W64) n.
Proof. induction n as [|n IH]; cbn [sum_f_R0]; [reflexivity|]. rewrite <- IH, sumN_plus. ring. Qed.
(** additivity *)
Lemma pr_sum k n : forall (S : list N -> bool) (T : nat -> list N -> bool),
  (forall ws, length ws = n -> Forall w64 ws -> ind (S ws) = sum_f_R0 (fun m => ind (T m ws)) k) -> pr n S = sum_f_R0 (fun m => pr n (T m)) k.
Proof.
  induction n as [|n IH]; intros S T H; cbn [pr]; [apply H; constructor|].
  rewrite <- (mean_sum (fun m u => pr n (fun ws => T m (u :: ws)))). f_equal. apply sumN_ext. intros u Hu. apply IH. intros ws L F. apply H; [cbn; now rewrite L|].
  constructor; [unfold w64; rewrite <- W64_eq; exact Hu|exact F].
Qed.
Lemma sumN_scal_r f c m : sumN (fun u => f u * c) m = sumN f m * c.
Proof. induction m as [|m IH] using N.peano_ind; [rewrite !sumN_0; ring|]. rewrite !sumN_S, IH. ring. Qed.
(** disjoint parts of the tape are independent *)
Lemma pr_prod m k : forall P Q, pr (m + k) (fun ws => P (firstn m ws) && Q (skipn m ws)) = pr m P * pr k Q.
Proof.
  induction m as [|m IH]; intros P Q.
  - cbn [Nat.add firstn skipn pr]. destruct (P []); cbn [andb ind]; [rewrite Rmult_1_l; reflexivity|]. rewrite Rmult_0_l, pr_const. reflexivity.
  - cbn [Nat.add pr firstn skipn]. rewrite Rmult_assoc. f_equal. rewrite <- sumN_scal_r. apply sumN_ext. intros u _. apply (IH (fun ws => P (u :: ws)) Q).
Qed.
(** a sum of indicators with at most one term *)
Lemma sum_none T n : (forall m, (m <= n)%nat -> T m = false) -> sum_f_R0 (fun m => ind (T m)) n = 0.
Proof. intros H. induction n as [|n IH]; cbn [sum_f_R0]; [now rewrite H by lia|]. rewrite IH by (intros; apply H; lia). rewrite H by lia. cbn. ring. Qed.
Lemma sum_one T n m0 : (m0 <= n)%nat -> T m0 = true -> (forall m, (m <= n)%nat -> T m = true -> m = m0) -> sum_f_R0 (fun m => ind (T m)) n = 1.
Proof.
  induction n as [|n IH]; intros H0 H1 H; cbn [sum_f_R0].
  - replace m0 with 0%nat in H1 by lia. now rewrite H1.
  - destruct (Nat.eq_dec m0 (S n)) as [->|Hn].
    + rewrite sum_none, H1; [cbn; ring|]. intros m Hm. destruct (T m) eqn:E; [|reflexivity]. specialize (H m ltac:(lia) E). lia.
    + rewrite IH; [|lia|exact H1|intros m Hm; apply H; lia]. destruct (T (S n)) eqn:E; [specialize (H (S n) ltac:(lia) E); lia|cbn; ring].
Qed.
(** convolution of a summable sequence with a convergent one *)
Lemma conv_lim (a b : nat -> R) (p q : R) : (forall n, 0 <= a n) -> (forall n, 0 <= b n <= 1) -> is_lim_seq (sum_f_R0 a) p -> is_lim_seq b q ->
  is_lim_seq (fun n => sum_f_R0 (fun m => a m * b (n - m)%nat) n) (p * q).
Proof.
  intros A B LA LB.
  assert (Q : 0 <= q <= 1).
  { split; [exact (is_lim_seq_le (fun _ => 0) b 0 q (fun n => proj1 (B n)) (is_lim_seq_const _) LB)|exact (is_lim_seq_le b (fun _ => 1) q 1 (fun n => proj2 (B n)) LB (is_lim_seq_const _))]. }
  assert (MONO : forall m n, (m <= n)%nat -> sum_f_R0 a m <= sum_f_R0 a n).
  { intros m n Hmn. induction Hmn as [|n Hmn IH]; [lra|]. cbn [sum_f_R0]. specialize (A (S n)). lra. }
  assert (PU : forall m, 0 <= sum_f_R0 a m <= p).
  { intros m. split; [specialize (A 0%nat); pose proof (MONO 0%nat m ltac:(lia)) as M; cbn [sum_f_R0] in M; lra|].
    apply (is_lim_seq_le (fun _ => sum_f_R0 a m) (fun n => sum_f_R0 a (n + m)) (sum_f_R0 a m) p); [intros n; apply MONO; lia|apply is_lim_seq_const|now apply -> is_lim_seq_incr_n]. }
  assert (P0 : 0 <= p) by (specialize (PU 0%nat); lra).
  apply is_lim_seq_spec. intros eps. apply is_lim_seq_spec in LA, LB. pose proof (cond_pos eps) as EP. set (c := pos eps / (4 * (p + 1))).
  assert (CP : 0 < c) by (unfold c; apply Rdiv_lt_0_compat; lra). assert (E4 : 0 < pos eps / 4) by lra.
  assert (CE : c * p <= pos eps / 4). { unfold c. replace (pos eps / (4 * (p + 1)) * p) with (pos eps / 4 * (p / (p + 1))) by (field; lra). rewrite <- (Rmult_1_r (pos eps / 4)) at 2. apply Rmult_le_compat_l; [lra|]. apply Rmult_le_reg_r with (p + 1); [lra|]. unfold Rdiv. rewrite Rmult_assoc, Rinv_l by lra. lra. }
  destruct (LB (mkposreal c CP)) as [J HJ]. destruct (LA (mkposreal _ E4)) as [M HM]. cbn [pos] in HJ, HM. exists (M + J)%nat. intros n Hn.
  assert (D : sum_f_R0 (fun m => a m * b (n - m)%nat) n - p * q = sum_f_R0 (fun m => a m * (b (n - m)%nat - q)) n + q * (sum_f_R0 a n - p)).
  { assert (G : forall k, sum_f_R0 (fun m => a m * b (n - m)%nat) k = sum_f_R0 (fun m => a m * (b (n - m)%nat - q)) k + q * sum_f_R0 a k) by (induction k as [|k IH]; cbn [sum_f_R0]; [ring|rewrite IH; ring]). rewrite G. ring. }
  rewrite D. assert (T1 : Rabs (q * (sum_f_R0 a n - p)) <= pos eps / 4).
  { rewrite Rabs_mult, (Rabs_pos_eq q) by lra. specialize (HM n ltac:(lia)). pose proof (Rabs_pos (sum_f_R0 a n - p)). assert (q * Rabs (sum_f_R0 a n - p) <= 1 * Rabs (sum_f_R0 a n - p)) by (apply Rmult_le_compat_r; lra). lra. }
  assert (T2 : forall k, (k <= n)%nat -> Rabs (sum_f_R0 (fun m => a m * (b (n - m)%nat - q)) k) <= c * sum_f_R0 a (Nat.min k M) + (sum_f_R0 a k - sum_f_R0 a (Nat.min k M))).
  { induction k as [|k IH]; intros Hk.
    - cbn [sum_f_R0 Nat.min]. specialize (HJ (n - 0)%nat ltac:(lia)). rewrite Rabs_mult, (Rabs_pos_eq (a 0%nat)) by apply A. specialize (A 0%nat). assert (a 0%nat * Rabs (b (n - 0)%nat - q) <= a 0%nat * c) by (apply Rmult_le_compat_l; lra). lra.
    - cbn [sum_f_R0]. eapply Rle_trans; [apply Rabs_triang|]. specialize (IH ltac:(lia)). rewrite Rabs_mult, (Rabs_pos_eq (a (S k))) by apply A. pose proof (A (S k)) as AK. destruct (le_lt_dec (S k) M) as [HkM|HkM].
      + rewrite !Nat.min_l in * by lia. specialize (HJ (n - S k)%nat ltac:(lia)). assert (a (S k) * Rabs (b (n - S k)%nat - q) <= a (S k) * c) by (apply Rmult_le_compat_l; lra). cbn [sum_f_R0]. lra.
      + rewrite (Nat.min_r (S k)) by lia. rewrite Nat.min_r in IH by lia. specialize (B (n - S k)%nat). assert (Rabs (b (n - S k)%nat - q) <= 1) by (apply Rabs_le; lra).
        assert (a (S k) * Rabs (b (n - S k)%nat - q) <= a (S k) * 1) by (apply Rmult_le_compat_l; lra). lra. }
  specialize (T2 n (Nat.le_refl n)). rewrite Nat.min_r in T2 by lia. pose proof (PU M) as [U0 UM]. pose proof (PU n) as [_ UN]. specialize (HM M ltac:(lia)). apply Rabs_lt_between in HM.
  assert (c * sum_f_R0 a M <= c * p) by (apply Rmult_le_compat_l; lra). eapply Rle_lt_trans; [apply Rabs_triang|]. lra.
Qed.

Lemma runs_tape_inv ws used ws' : Forall w64 ws -> runs (RNG_Uint64 tape) ws used ws' -> ws = used ++ ws'.
Proof.
  intros F R. remember (RNG_Uint64 tape) as st. induction R as [s|s x s1 xs s' E R IH]; [reflexivity|]. subst st. destruct (tape_draw_inv _ _ _ E) as [u ->]. inversion F; subst. rewrite tape_draw in E by assumption.
  injection E as ->. cbn [app]. f_equal. now apply IH.
Qed.

Section Pair.
  Context {A B : Type}.
  Variables (f : nat -> list N -> outcome (A * list N)) (g : nat -> list N -> outcome (B * list N)).
  Hypothesis (MF : fuel_mono f) (MG : fuel_mono g).
  Hypothesis (OF : forall n, draws_only tape (f n) (f n)).
  Variables (P : A -> Prop) (Q : B -> Prop).
  Definition both (fuel : nat) (ws : list N) : outcome ((A * B) * list N) := let! (a, ws) := f fuel ws in let! (b, ws) := g fuel ws in Ret ((a, b), ws).
  (** uses exactly these words *)
  Definition exact (ws : list N) : Prop := exists fuel a, f fuel ws = Ret (a, []) /\ P a.
  Lemma f_split fuel ws a ws' : Forall w64 ws -> f fuel ws = Ret (a, ws') -> exists used, ws = used ++ ws' /\ forall rest, Forall w64 rest -> f fuel (used ++ rest) = Ret (a, rest).
  Proof. intros F E. destruct (OF fuel ws a ws' E) as (used & _ & R & H). exists used. split; [now apply runs_tape_inv|exact H]. Qed.
  Lemma exact_once ws m m' : Forall w64 ws -> (m <= length ws)%nat -> (m' <= length ws)%nat -> exact (firstn m ws) -> exact (firstn m' ws) -> m = m'.
  Proof.
    assert (G : forall m, Forall w64 ws -> (m <= length ws)%nat -> exact (firstn m ws) -> exists fuel a, f fuel ws = Ret (a, skipn m ws)).
    { intros k F Hk (fuel & a & E & _). assert (Fk : Forall w64 (firstn k ws) /\ Forall w64 (skipn k ws)) by (apply Forall_app; now rewrite firstn_skipn).
      destruct (f_split fuel _ _ _ (proj1 Fk) E) as (used & Eu & H). rewrite app_nil_r in Eu. exists fuel, a. rewrite <- (firstn_skipn k ws) at 1. rewrite Eu. apply H, Fk. }
    intros F Hm Hm' E1 E2. destruct (G m F Hm E1) as (n1 & a1 & G1). destruct (G m' F Hm' E2) as (n2 & a2 & G2).
    apply (MF _ (Nat.max n1 n2)) in G1; [|lia]. apply (MF _ (Nat.max n1 n2)) in G2; [|lia]. rewrite G1 in G2. injection G2 as _ E. apply (f_equal (@length N)) in E. rewrite !skipn_length in E. lia.
  Qed.
  Lemma ends_exact ws : Forall w64 ws -> (ends f P ws <-> exists m, (m <= length ws)%nat /\ exact (firstn m ws)).
  Proof.
    intros F. split.
    - intros (fuel & a & ws' & E & Pa). destruct (f_split fuel ws a ws' F E) as (used & -> & H). exists (length used). split; [rewrite app_length; lia|].
      exists fuel, a. split; [|exact Pa]. rewrite firstn_app, Nat.sub_diag, firstn_all. cbn [firstn]. apply (H []). constructor.
    - intros (m & Hm & fuel & a & E & Pa). assert (Fm : Forall w64 (firstn m ws) /\ Forall w64 (skipn m ws)) by (apply Forall_app; now rewrite firstn_skipn).
      destruct (f_split fuel _ _ _ (proj1 Fm) E) as (used & Eu & H). rewrite app_nil_r in Eu. exists fuel, a, (skipn m ws). split; [|exact Pa]. rewrite <- (firstn_skipn m ws) at 1. rewrite Eu. apply H, Fm.
  Qed.
  Lemma both_exact ws : Forall w64 ws -> (ends both (fun ab => P (fst ab) /\ Q (snd ab)) ws <-> exists m, (m <= length ws)%nat /\ exact (firstn m ws) /\ ends g Q (skipn m ws)).
  Proof.
    intros F. split.
    - intros (fuel & [a b] & ws' & E & Pa & Qb). cbn [fst snd] in *. unfold both in E. destruct (f fuel ws) as [[a' w1]| |] eqn:E1; try discriminate E. cbn [bind] in E. destruct (g fuel w1) as [[b' w2]| |] eqn:E2; try discriminate E. cbn [bind] in E. injection E as -> -> ->.
      destruct (f_split fuel ws a w1 F E1) as (used & -> & H). exists (length used). split; [rewrite app_length; lia|]. split.
      + exists fuel, a. split; [|exact Pa]. rewrite firstn_app, Nat.sub_diag, firstn_all. cbn [firstn]. apply (H []). constructor.
      + rewrite skipn_app, skipn_all, Nat.sub_diag. cbn [skipn app]. exists fuel, b, ws'. auto.
    - intros (m & Hm & (fuel & a & E & Pa) & (fuel' & b & ws' & E' & Qb)). assert (Fm : Forall w64 (firstn m ws) /\ Forall w64 (skipn m ws)) by (apply Forall_app; now rewrite firstn_skipn).
      destruct (f_split fuel _ _ _ (proj1 Fm) E) as (used & Eu & H). rewrite app_nil_r in Eu.
      assert (E1 : f fuel ws = Ret (a, skipn m ws)) by (rewrite <- (firstn_skipn m ws) at 1; rewrite Eu; apply H, Fm).
      exists (Nat.max fuel fuel'), (a, b), ws'. split; [|split; assumption]. unfold both. rewrite (MF _ (Nat.max fuel fuel') _ _ (Nat.le_max_l _ _) E1). cbn [bind]. rewrite (MG _ (Nat.max fuel fuel') _ _ (Nat.le_max_r _ _) E'). reflexivity.
  Qed.
  Lemma firstn_w m ws : Forall w64 ws -> Forall w64 (firstn m ws). Proof. intros F. rewrite <- (firstn_skipn m ws) in F. now apply Forall_app in F. Qed.
  Definition am (m : nat) : R := pr m (fun ws => ev (exact ws)).
  Lemma q1_sum n : pr n (fun ws => ev (ends f P ws)) = sum_f_R0 am n.
  Proof.
    rewrite (pr_sum n n _ (fun m ws => ev (exact (firstn m ws)))).
    - apply sum_ext'. intros m Hm. unfold am. replace n with (m + (n - m))%nat by lia. apply (pr_prefix m (n - m) (fun ws => ev (exact ws))).
    - intros ws L F. destruct (ev (ends f P ws)) eqn:E.
      + apply (proj1 (ev_iff _)) in E. apply (ends_exact ws F) in E. destruct E as (m & Hm & E). symmetry. rewrite L in Hm. apply sum_one with (m0 := m); [exact Hm|now apply ev_iff|].
        intros m' Hm' E'. apply (proj1 (ev_iff _)) in E'. apply (exact_once ws); auto; lia.
      + symmetry. apply sum_none. intros m Hm. destruct (ev (exact (firstn m ws))) eqn:E'; [|reflexivity]. apply (proj1 (ev_iff _)) in E'. rewrite <- E. symmetry. apply ev_iff. apply (ends_exact ws F). exists m. split; [lia|exact E'].
  Qed.
  Lemma q12_sum n : pr n (fun ws => ev (ends both (fun ab => P (fst ab) /\ Q (snd ab)) ws)) = sum_f_R0 (fun m => am m * pr (n - m) (fun ws => ev (ends g Q ws))) n.
  Proof.
    rewrite (pr_sum n n _ (fun m ws => ev (exact (firstn m ws)) && ev (ends g Q (skipn m ws)))).
    - apply sum_ext'. intros m Hm. unfold am. replace n with (m + (n - m))%nat at 1 by lia. apply (pr_prod m (n - m) (fun ws => ev (exact ws)) (fun ws => ev (ends g Q ws))).
    - intros ws L F. destruct (ev (ends both _ ws)) eqn:E.
      + apply (proj1 (ev_iff _)) in E. apply (both_exact ws F) in E. destruct E as (m & Hm & E & Eg). symmetry. rewrite L in Hm. apply sum_one with (m0 := m); [exact Hm|apply andb_true_iff; split; now apply ev_iff|].
        intros m' Hm' E'. apply andb_true_iff in E'. destruct E' as [E' _]. apply (proj1 (ev_iff _)) in E'. apply (exact_once ws); auto; lia.
      + symmetry. apply sum_none. intros m Hm. destruct (_ && _) eqn:E'; [|reflexivity]. apply andb_true_iff in E'. destruct E' as [E1 E2]. apply (proj1 (ev_iff _)) in E1, E2. rewrite <- E. symmetry. apply ev_iff. apply (both_exact ws F). exists m. split; [lia|auto].
  Qed.
  Lemma law_lim {C} (h : nat -> list N -> outcome (C * list N)) (S : C -> Prop) (r : R) : draw_prob h S r -> is_lim_seq (fun n => pr n (fun ws => ev (ends h S ws))) r.
  Proof.
    intros (q & Hq & L). apply (is_lim_seq_ext q); [|exact L]. intros n. apply (prob_unique n _ _ _ (Hq n)). apply prob_pr. intros ws _ _. symmetry. apply ev_iff.
  Qed.
  Lemma pair_law p q : draw_prob f P p -> draw_prob g Q q -> draw_prob both (fun ab => P (fst ab) /\ Q (snd ab)) (p * q).
  Proof.
    intros DF DG. exists (fun n => pr n (fun ws => ev (ends both (fun ab => P (fst ab) /\ Q (snd ab)) ws))). split.
    - intros n. apply prob_pr. intros ws _ _. symmetry. apply ev_iff.
    - apply (is_lim_seq_ext (fun n => sum_f_R0 (fun m => am m * pr (n - m) (fun ws => ev (ends g Q ws))) n)); [intros n; symmetry; apply q12_sum|].
      apply (conv_lim am (fun n => pr n (fun ws => ev (ends g Q ws)))); [intros n; apply pr_range|intros n; apply pr_range| |now apply law_lim].
      apply (is_lim_seq_ext (fun n => pr n (fun ws => ev (ends f P ws)))); [intros n; apply q1_sum|]. now apply law_lim.
  Qed.
End Pair.
