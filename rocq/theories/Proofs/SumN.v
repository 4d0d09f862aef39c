(** Sums over ranges of N, and probabilities over lists of words as iterated averages. *)
From Coq Require Import Reals Lia Lra ZifyN ZifyNat ZifyBool.
From Flocq Require Import Core.
From Verif Require Import Model.Base Spec.Common Spec.Counting Spec.Prob Proofs.Count Proofs.PermCount.
Local Open Scope R_scope.

Notation NR n := (IZR (Z.of_N n)).
Definition sumN (f : N -> R) (n : N) : R := N.peano_rect (fun _ => R) 0 (fun k acc => acc + f k) n.
Lemma sumN_0 f : sumN f 0 = 0. Proof. reflexivity. Qed.
Lemma sumN_S f n : sumN f (N.succ n) = sumN f n + f n.
Proof. unfold sumN. now rewrite N.peano_rect_succ. Qed.
Global Opaque sumN.
Lemma NR_succ n : NR (N.succ n) = NR n + 1.
Proof. rewrite N2Z.inj_succ, succ_IZR. reflexivity. Qed.
Lemma NR_pos n : 0 <= NR n. Proof. apply IZR_le. lia. Qed.
Lemma sumN_ext f g n : (forall k, (k < n)%N -> f k = g k) -> sumN f n = sumN g n.
Proof.
  induction n as [|n IH] using N.peano_ind; intros H; [now rewrite !sumN_0|]. rewrite !sumN_S, IH, H; [reflexivity|lia|].
  intros k Hk. apply H. lia.
Qed.
Lemma sumN_plus f g n : sumN (fun k => f k + g k) n = sumN f n + sumN g n.
Proof. induction n as [|n IH] using N.peano_ind; [rewrite !sumN_0; ring|]. rewrite !sumN_S, IH. ring. Qed.
Lemma sumN_scal c f n : sumN (fun k => c * f k) n = c * sumN f n.
Proof. induction n as [|n IH] using N.peano_ind; [rewrite !sumN_0; ring|]. rewrite !sumN_S, IH. ring. Qed.
Lemma sumN_minus f g n : sumN (fun k => f k - g k) n = sumN f n - sumN g n.
Proof. induction n as [|n IH] using N.peano_ind; [rewrite !sumN_0; ring|]. rewrite !sumN_S, IH. ring. Qed.
Lemma sumN_const c n : sumN (fun _ => c) n = NR n * c.
Proof. induction n as [|n IH] using N.peano_ind; [rewrite sumN_0; cbn; ring|]. rewrite sumN_S, IH, NR_succ. ring. Qed.
Lemma sumN_le f g n : (forall k, (k < n)%N -> f k <= g k) -> sumN f n <= sumN g n.
Proof.
  induction n as [|n IH] using N.peano_ind; intros H; [rewrite !sumN_0; lra|]. rewrite !sumN_S. apply Rplus_le_compat; [|apply H; lia].
  apply IH. intros k Hk. apply H. lia.
Qed.
Lemma sumN_nonneg f n : (forall k, (k < n)%N -> 0 <= f k) -> 0 <= sumN f n.
Proof. intros H. replace 0 with (sumN (fun _ => 0) n) by (rewrite sumN_const; ring). now apply sumN_le. Qed.
Lemma sumN_close f g n e : (forall k, (k < n)%N -> Rabs (f k - g k) <= e) -> Rabs (sumN f n - sumN g n) <= NR n * e.
Proof.
  intros H. rewrite <- sumN_minus. apply Rabs_le. split.
  - replace (- (NR n * e)) with (sumN (fun _ => - e) n) by (rewrite sumN_const; ring). apply sumN_le. intros k Hk. specialize (H k Hk). apply Rabs_le_inv in H. lra.
  - rewrite <- sumN_const. apply sumN_le. intros k Hk. specialize (H k Hk). apply Rabs_le_inv in H. lra.
Qed.
Lemma sumN_add f a b : sumN f (a + b) = sumN f a + sumN (fun k => f (a + k)%N) b.
Proof.
  induction b as [|b IH] using N.peano_ind; [rewrite N.add_0_r, sumN_0; ring|]. rewrite N.add_succ_r, !sumN_S, IH. ring.
Qed.
Lemma sumN_mul f a b : sumN f (a * b) = sumN (fun i => sumN (fun j => f (i * b + j)%N) b) a.
Proof.
  induction a as [|a IH] using N.peano_ind; [now rewrite !sumN_0|]. rewrite N.mul_succ_l, sumN_add, sumN_S, IH. reflexivity.
Qed.
Lemma sumN_swap (f : N -> N -> R) a b : sumN (fun i => sumN (f i) b) a = sumN (fun j => sumN (fun i => f i j) a) b.
Proof.
  induction a as [|a IH] using N.peano_ind.
  - rewrite sumN_0. rewrite (sumN_ext _ (fun _ => 0)) by (intros; apply sumN_0). rewrite sumN_const. ring.
  - rewrite sumN_S, IH, <- sumN_plus. apply sumN_ext. intros k _. now rewrite sumN_S.
Qed.
Definition ind (b : bool) : R := if b then 1 else 0.
Lemma ind_range b : 0 <= ind b <= 1. Proof. destruct b; cbn; lra. Qed.
(** counting the numbers below n satisfying a threshold-like predicate *)
Lemma sumN_count_low (b : N -> bool) lo n : (forall k, (k < n)%N -> NR k < lo -> b k = true) -> Rmin (NR n) lo <= sumN (fun k => ind (b k)) n.
Proof.
  induction n as [|n IH] using N.peano_ind; intros H; [rewrite sumN_0; cbn; apply Rmin_l|]. rewrite sumN_S.
  assert (H' : forall k, (k < n)%N -> NR k < lo -> b k = true) by (intros k Hk; apply H; lia). specialize (IH H'). rewrite NR_succ.
  pose proof (ind_range (b n)) as R. destruct (Rlt_dec (NR n) lo) as [L|L].
  - rewrite (H n) in * by (try lia; exact L). cbn [ind]. rewrite Rmin_left in IH by lra. apply Rle_trans with (NR n + 1); [apply Rmin_l|lra].
  - rewrite Rmin_right in IH by lra. apply Rle_trans with lo; [apply Rmin_r|lra].
Qed.
Lemma sumN_ind_le b n : sumN (fun k => ind (b k)) n <= NR n.
Proof. replace (NR n) with (sumN (fun _ => 1) n) by (rewrite sumN_const; ring). apply sumN_le. intros. apply ind_range. Qed.
Lemma sumN_count_high (b : N -> bool) hi n : (forall k, (k < n)%N -> b k = true -> NR k <= hi) -> sumN (fun k => ind (b k)) n <= Rmax 0 (Rmin (NR n) (hi + 1)).
Proof.
  induction n as [|n IH] using N.peano_ind; intros H; [rewrite sumN_0; apply Rmax_l|]. rewrite sumN_S.
  assert (H' : forall k, (k < n)%N -> b k = true -> NR k <= hi) by (intros k Hk; apply H; lia). specialize (IH H'). rewrite NR_succ.
  destruct (b n) eqn:B; cbn [ind].
  - pose proof (H n ltac:(lia) B) as Hn. pose proof (sumN_ind_le b n). apply Rle_trans with (2 := Rmax_r _ _). apply Rmin_glb; lra.
  - rewrite Rplus_0_r. apply Rle_trans with (1 := IH). apply Rmax_case; [apply Rmax_l|]. apply Rle_trans with (2 := Rmax_r _ _).
    apply Rmin_glb; [|apply Rmin_r]. pose proof (Rmin_l (NR n) (hi + 1)). lra.
Qed.

(** ** Lists of words *)
Definition W64 : N := 2 ^ 64.
Lemma W64_eq : W64 = (2 ^ 64)%N. Proof. reflexivity. Qed.
Lemma NR_W64 : NR W64 = IZR (2 ^ 64). Proof. reflexivity. Qed.
Global Opaque W64.
Definition sumNN (f : N -> N) (n : N) : N := N.peano_rect (fun _ => N) 0%N (fun k acc => (acc + f k)%N) n.
Lemma sumNN_0 f : sumNN f 0 = 0%N. Proof. reflexivity. Qed.
Lemma sumNN_S f n : sumNN f (N.succ n) = (sumNN f n + f n)%N.
Proof. unfold sumNN. now rewrite N.peano_rect_succ. Qed.
Global Opaque sumNN.
Fixpoint cnt (n : nat) (P : list N -> bool) : N :=
  match n with O => if P [] then 1%N else 0%N | S n => sumNN (fun u => cnt n (fun ws => P (u :: ws))) W64 end.
Fixpoint pr (n : nat) (P : list N -> bool) : R :=
  match n with O => ind (P []) | S n => / IZR (2 ^ 64) * sumN (fun u => pr n (fun ws => P (u :: ws))) W64 end.
Lemma P64 : 0 < IZR (2 ^ 64). Proof. now apply IZR_lt. Qed.
Lemma cnt_pr n : forall P, NR (cnt n P) = pr n P * IZR (2 ^ 64) ^ n.
Proof.
  pose proof P64 as PP. induction n as [|n IH]; intros P; cbn [cnt pr pow]; [destruct (P []); cbn; ring|].
  assert (S : forall m, NR (sumNN (fun u => cnt n (fun ws => P (u :: ws))) m) = sumN (fun u => pr n (fun ws => P (u :: ws))) m * IZR (2 ^ 64) ^ n).
  { intros m. induction m as [|m IHm] using N.peano_ind; [rewrite sumNN_0, sumN_0; cbn; ring|].
    rewrite sumNN_S, sumN_S, N2Z.inj_add, plus_IZR, IHm, IH. ring. }
  rewrite S. field. lra.
Qed.
Lemma cnt_exact n : forall P, has_exactly (fun ws => (length ws = n /\ Forall w64 ws) /\ P ws = true) (cnt n P).
Proof.
  induction n as [|n IH]; intros P; cbn [cnt].
  - destruct (P []) eqn:E.
    + exists [[]]. split; [repeat constructor; intros []|]. split; [|reflexivity]. intros ws. cbn [In]. split.
      * intros [<-|[]]. auto.
      * intros [[L _] _]. left. destruct ws; [reflexivity|discriminate L].
    + apply has_exactly_none. intros ws [[L _] H]. destruct ws; [congruence|discriminate L].
  - assert (S : forall m, has_exactly (fun ws => ((length ws = S n /\ Forall w64 ws) /\ P ws = true) /\ (hd 0 ws < m)%N) (sumNN (fun u => cnt n (fun ws => P (u :: ws))) (N.min m W64))).
    { intros m. induction m as [|m IHm] using N.peano_ind.
      - rewrite N.min_0_l, sumNN_0. apply has_exactly_none. intros ws [_ H]. lia.
      - destruct (N.lt_ge_cases m W64) as [L|L].
        + replace (N.min (N.succ m) W64) with (N.succ m) by lia. replace (N.min m W64) with m in IHm by lia. rewrite sumNN_S.
          apply (has_exactly_ext (fun ws => (((length ws = S n /\ Forall w64 ws) /\ P ws = true) /\ (hd 0 ws < m)%N) \/ (((length ws = S n /\ Forall w64 ws) /\ P ws = true) /\ hd 0%N ws = m))).
          * intros ws. split; [intros [[H1 H2]|[H1 H2]]; (split; [exact H1|lia])|]. intros [H1 H2].
            destruct (N.eq_dec (hd 0%N ws) m) as [E|E]; [right; auto|left; split; [exact H1|lia]].
          * apply has_exactly_or; [intros ws [_ H1] [_ H2]; lia|exact IHm|].
            apply (has_exactly_bij _ _ (fun ws => m :: ws) (@tl N)) with (5 := IH (fun ws => P (m :: ws))).
            -- intros ws [[H1 H2] H3]. cbn [length hd]. split; [|reflexivity]. split; [|exact H3]. split; [now rewrite H1|]. constructor; [unfold w64; rewrite <- W64_eq; exact L|exact H2].
            -- intros [|u ws] [[[H1 H2] H3] H4]; [discriminate H1|]. cbn [hd] in H4. subst u. cbn [tl]. inversion H2; subst. injection H1 as H1. auto.
            -- reflexivity.
            -- intros [|u ws] [[[H1 H2] H3] H4]; [discriminate H1|]. cbn [hd] in H4. subst u. reflexivity.
        + replace (N.min (N.succ m) W64) with (N.min m W64) by lia.
          apply (has_exactly_ext (fun ws => ((length ws = S n /\ Forall w64 ws) /\ P ws = true) /\ (hd 0 ws < m)%N)); [|exact IHm].
          intros ws. split; intros [H1 H2]; (split; [exact H1|]); [lia|]. destruct H1 as [[H1 H3] _]. destruct ws as [|u ws]; [discriminate H1|].
          inversion H3; subst. unfold w64 in *. rewrite <- W64_eq in *. cbn [hd] in *. lia. }
    specialize (S W64). rewrite N.min_id in S. revert S. apply has_exactly_ext. intros ws. split; [tauto|]. intros H. split; [exact H|].
    destruct H as [[H1 H3] _]. destruct ws as [|u ws]; [discriminate H1|]. inversion H3; subst. unfold w64 in *. rewrite <- W64_eq in *. assumption.
Qed.
Lemma prob_pr n P Q : (forall ws, length ws = n -> Forall w64 ws -> (Q ws <-> P ws = true)) -> prob n Q (pr n P).
Proof.
  intros H. exists (cnt n P). split.
  - apply (has_exactly_ext (fun ws => (length ws = n /\ Forall w64 ws) /\ P ws = true)); [|apply cnt_exact]. intros ws. split; intros [[H1 H2] H3]; (split; [auto|]); now apply (H ws H1 H2).
  - rewrite cnt_pr. field. apply pow_nonzero. pose proof P64. lra.
Qed.
Lemma pr_ext n : forall P Q, (forall ws, length ws = n -> Forall w64 ws -> P ws = Q ws) -> pr n P = pr n Q.
Proof.
  induction n as [|n IH]; intros P Q H; cbn [pr]; [rewrite H by (try constructor; reflexivity); reflexivity|]. f_equal. apply sumN_ext. intros u Hu. apply IH.
  intros ws L F. apply H; [cbn; now rewrite L|]. constructor; [unfold w64; rewrite <- W64_eq; exact Hu|exact F].
Qed.
Lemma pr_const n c : pr n (fun _ => c) = ind c.
Proof. induction n as [|n IH]; cbn [pr]; [reflexivity|]. rewrite (sumN_ext _ (fun _ => ind c)) by (intros; apply IH). rewrite sumN_const, NR_W64. pose proof P64. field. lra. Qed.
Lemma pr_range n : forall P, 0 <= pr n P <= 1.
Proof.
  pose proof P64 as PP. induction n as [|n IH]; intros P; cbn [pr]; [apply ind_range|]. split.
  - apply Rmult_le_pos; [left; now apply Rinv_0_lt_compat|]. apply sumN_nonneg. intros. apply IH.
  - apply Rmult_le_reg_l with (IZR (2 ^ 64)); [exact PP|]. rewrite <- Rmult_assoc, Rinv_r, Rmult_1_l, Rmult_1_r by lra.
    replace (IZR (2 ^ 64)) with (sumN (fun _ => 1) W64) by (rewrite sumN_const, NR_W64; ring). apply sumN_le. intros. apply IH.
Qed.
