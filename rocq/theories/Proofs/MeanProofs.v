(** The mean of a bounded quantity from its distribution function. *)
From Coq Require Import Reals Lia Lra Psatz ZifyN ZifyNat Bool.
From Coquelicot Require Import Coquelicot.
From Flocq Require Import Core BinarySingleNaN.
From Verif Require Import Model.Base Model.Rng Model.Float Spec.Common Spec.Counting Spec.Floats Spec.Zig Spec.Prob Spec.Words Spec.Mean.
From Verif Require Import Proofs.SumN Proofs.ZigStep Proofs.GenLaw Proofs.UintnLaw.
Local Open Scope R_scope.

(** *** averages *)
Lemma average_S n h : average (S n) h = mean64 (fun u => average n (fun ws => h (u :: ws))).
Proof. cbn [average]. rewrite sum_below_sumN. unfold mean64. change (2 ^ 64)%N with W64. unfold Rdiv. apply Rmult_comm. Qed.
Lemma average_pr n : forall b, average n (fun ws => ind (b ws)) = pr n b.
Proof. induction n as [|n IH]; intros b; [reflexivity|]. rewrite average_S, pr_S. apply mean64_ext. intros u _. apply (IH (fun ws => b (u :: ws))). Qed.
Lemma mean64_le f g : (forall u, (u < W64)%N -> f u <= g u) -> mean64 f <= mean64 g.
Proof. intros H. unfold mean64. apply Rmult_le_compat_l; [left; apply Rinv_0_lt_compat, P64|]. now apply sumN_le. Qed.
Lemma average_le n : forall g h, (forall ws, length ws = n -> Forall w64 ws -> g ws <= h ws) -> average n g <= average n h.
Proof.
  induction n as [|n IH]; intros g h H; [apply H; constructor|]. rewrite !average_S. apply mean64_le. intros u Hu. apply IH. intros ws L F. apply H; [cbn; now rewrite L|].
  constructor; [unfold w64; rewrite <- W64_eq; exact Hu|exact F].
Qed.
Lemma average_plus n : forall g h, average n (fun ws => g ws + h ws) = average n g + average n h.
Proof. induction n as [|n IH]; intros g h; [reflexivity|]. rewrite !average_S, <- mean64_plus. apply mean64_ext. intros u _. apply (IH (fun ws => g (u :: ws)) (fun ws => h (u :: ws))). Qed.
Lemma average_scal n c : forall g, average n (fun ws => c * g ws) = c * average n g.
Proof. induction n as [|n IH]; intros g; [reflexivity|]. rewrite !average_S, <- mean64_scal. apply mean64_ext. intros u _. apply (IH (fun ws => g (u :: ws))). Qed.
Lemma average_const n c : average n (fun _ => c) = c.
Proof. induction n as [|n IH]; [reflexivity|]. rewrite average_S. rewrite (mean64_ext _ (fun _ => c)); [apply mean64_const|]. intros. exact IH. Qed.
Lemma average_ext n g h : (forall ws, length ws = n -> Forall w64 ws -> g ws = h ws) -> average n g = average n h.
Proof. intros H. apply Rle_antisym; apply average_le; intros ws L F; rewrite (H ws L F); lra. Qed.
(** f 0 + ... + f (K - 1) *)
Fixpoint sm (f : nat -> R) (K : nat) : R := match K with O => 0 | S K => sm f K + f K end.
Lemma sm_ext f g K : (forall k, (k < K)%nat -> f k = g k) -> sm f K = sm g K.
Proof. induction K as [|K IH]; intros H; [reflexivity|]. cbn [sm]. rewrite IH, (H K) by (intros; try apply H; lia). reflexivity. Qed.
Lemma sm_close f g K e : (forall k, (k < K)%nat -> Rabs (f k - g k) <= e) -> Rabs (sm f K - sm g K) <= INR K * e.
Proof.
  induction K as [|K IH]; intros H; [cbn; rewrite Rminus_0_r, Rabs_R0; lra|]. cbn [sm]. rewrite S_INR. specialize (IH ltac:(intros; apply H; lia)). specialize (H K ltac:(lia)).
  apply Rabs_le_inv in IH. apply Rabs_le_inv in H. apply Rabs_le. lra.
Qed.
Lemma average_sm n (T : nat -> list N -> R) K : average n (fun ws => sm (fun k => T k ws) K) = sm (fun k => average n (T k)) K.
Proof. induction K as [|K IH]; cbn [sm]; [apply average_const|]. rewrite average_plus, IH. reflexivity. Qed.
Lemma sm_lim (f : nat -> nat -> R) (l : nat -> R) K : (forall k, (k < K)%nat -> is_lim_seq (fun n => f n k) (l k)) -> is_lim_seq (fun n => sm (f n) K) (sm l K).
Proof.
  induction K as [|K IH]; intros H; cbn [sm]; [apply is_lim_seq_const|]. apply is_lim_seq_plus'; [apply IH; intros; apply H; lia|apply H; lia].
Qed.
(** the steps below t *)
Lemma steps (d t : R) K : 0 < d -> 0 <= t -> let N := sm (fun k => 1 - ind (Rle_bool t (INR k * d))) K in d * N <= t + d /\ Rmin t (INR K * d) <= d * N /\ N <= INR K.
Proof.
  intros Hd Ht. cbv zeta. induction K as [|K (I1 & I2 & I3)]; cbn [sm].
  - cbn [INR]. rewrite Rmult_0_r, Rmult_0_l. pose proof (Rmin_r t 0). lra.
  - rewrite S_INR. set (N := sm _ K) in *. clearbody N. case Rle_bool_spec; intros C; cbn [ind].
    + rewrite Rmin_left in * by lra. lra.
    + rewrite Rmin_right in I2 by lra. assert (d * N <= d * INR K) by (apply Rmult_le_compat_l; lra). pose proof (Rmin_r t ((INR K + 1) * d)). lra.
Qed.

Section Layers.
  Context {A : Type} (next : nat -> list N -> outcome (A * list N)) (h : A -> R) (lo hi eps J C : R) (p F : R -> R).
  Hypothesis ST : steady next.
  Hypothesis HB : forall f, lo <= h f <= hi.
  Hypothesis LH : lo < hi.
  Hypothesis RET : draw_prob next (fun _ => True) 1.
  Hypothesis LAW : forall x, lo <= x < hi -> draw_prob next (fun f => h f <= x) (p x) /\ Rabs (p x - F x) <= eps.
  (** Riemann sums of 1 - F tend to J *)
  Definition width (K : nat) : R := (hi - lo) / INR K.
  Definition pt (K k : nat) : R := lo + INR k * width K.
  Hypothesis SUM : forall K, (0 < K)%nat -> Rabs (width K * sm (fun k => 1 - F (pt K k)) K - J) <= C * width K.
  Definition returned (ws : list N) : Prop := exists fuel f ws', next fuel ws = Ret (f, ws').
  Definition g (ws : list N) : R := real (Lim_seq (fun fuel => match next fuel ws with Ret (f, _) => h f | _ => 0 end)).
  Lemma g_returned fu ws f ws' : next fu ws = Ret (f, ws') -> g ws = h f.
  Proof.
    intros E. unfold g. replace (Lim_seq _) with (Finite (h f)); [reflexivity|]. symmetry. apply is_lim_seq_unique. apply is_lim_seq_spec. intros eps0. exists fu. intros n Hn.
    rewrite (ST _ n _ _ Hn E). rewrite Rminus_eq_0, Rabs_R0. apply cond_pos.
  Qed.
  Lemma g_not ws : ~ returned ws -> g ws = 0.
  Proof.
    intros N. unfold g. rewrite (Lim_seq_ext _ (fun _ => 0)); [now rewrite Lim_seq_const|]. intros n. destruct (next n ws) as [[f w]| |] eqn:E; try reflexivity. exfalso. apply N. unfold returned. eauto.
  Qed.
  Lemma g_value ws : value_on next h ws (g ws).
  Proof. split; [intros fu f w E; exact (g_returned fu ws f w E)|exact (g_not ws)]. Qed.
  Definition R1 (ws : list N) : bool := ev (exists fuel f ws', next fuel ws = Ret (f, ws') /\ True).
  Definition R2 (x : R) (ws : list N) : bool := ev (exists fuel f ws', next fuel ws = Ret (f, ws') /\ h f <= x).
  Lemma width_pos K : (0 < K)%nat -> 0 < width K.
  Proof. intros H. unfold width. apply Rdiv_lt_0_compat; [lra|]. now apply lt_0_INR. Qed.
  Lemma width_K K : (0 < K)%nat -> INR K * width K = hi - lo.
  Proof. intros H. apply lt_0_INR in H. unfold width. field. lra. Qed.
  Definition up (K : nat) (ws : list N) : R := lo * ind (R1 ws) + width K * sm (fun k => ind (R1 ws) + (-1) * ind (R2 (pt K k) ws)) K.
  Lemma sandwich K ws : (0 < K)%nat -> up K ws - width K <= g ws <= up K ws.
  Proof.
    intros HK. pose proof (width_pos K HK) as WP. pose proof (width_K K HK) as WK. unfold up. destruct (R1 ws) eqn:E1; cbn [ind].
    - apply (proj1 (ev_iff _)) in E1. destruct E1 as (fu & f & w & E & _). rewrite (g_returned _ _ _ _ E). pose proof (HB f) as B.
      destruct (steps (width K) (h f - lo) K WP ltac:(lra)) as (S1 & S2 & _). rewrite WK, Rmin_left in S2 by lra.
      rewrite (sm_ext _ (fun k => 1 - ind (Rle_bool (h f - lo) (INR k * width K)))); [lra|]. intros k _.
      replace (R2 (pt K k) ws) with (Rle_bool (h f - lo) (INR k * width K)); [ring|]. apply eq_true_iff_eq. unfold R2, pt. rewrite ev_iff. split.
      + case Rle_bool_spec; [|discriminate]. intros H _. exists fu, f, w. split; [exact E|lra].
      + intros (fu' & f' & w' & E' & H'). apply Rle_bool_true. pose proof (ST _ (Nat.max fu fu') _ _ (Nat.le_max_l _ _) E) as X. pose proof (ST _ (Nat.max fu fu') _ _ (Nat.le_max_r _ _) E') as Y. rewrite X in Y. injection Y as -> _. lra.
    - assert (N : ~ returned ws). { intros (fu & f & w & E). assert (R1 ws = true); [|congruence]. apply ev_iff. exists fu, f, w. tauto. }
      rewrite (g_not ws N). rewrite (sm_ext _ (fun _ => 0)).
      + replace (sm (fun _ => 0) K) with 0; [lra|]. clear. induction K as [|K IH]; cbn [sm]; lra.
      + intros k _. replace (R2 (pt K k) ws) with false; [cbn; ring|]. symmetry. apply not_true_iff_false. intros H. apply (proj1 (ev_iff _)) in H. destruct H as (fu & f & w & E & _). apply N. unfold returned. eauto.
  Qed.
  Definition top (K : nat) : R := lo + width K * sm (fun k => 1 + (-1) * p (pt K k)) K.
  Lemma up_lim K : (0 < K)%nat -> is_lim_seq (fun n => average n (up K)) (top K).
  Proof.
    intros HK. assert (PL : forall Q q, draw_prob next Q q -> is_lim_seq (fun n => pr n (fun ws => ev (exists fuel f ws', next fuel ws = Ret (f, ws') /\ Q f))) q).
    { intros Q q (r & Hr & L). apply (is_lim_seq_ext r); [|exact L]. intros n. apply (prob_unique n _ _ _ (Hr n)). apply prob_pr. intros ws _ _. symmetry. apply ev_iff. }
    apply (is_lim_seq_ext (fun n => lo * pr n R1 + width K * sm (fun k => pr n R1 + (-1) * pr n (R2 (pt K k))) K)).
    - intros n. unfold up. rewrite average_plus, !average_scal, average_pr. f_equal. f_equal. rewrite (average_sm n (fun k ws => ind (R1 ws) + (-1) * ind (R2 (pt K k) ws))). apply sm_ext. intros k _. rewrite average_plus, average_scal, !average_pr. reflexivity.
    - unfold top. pose proof (PL _ _ RET) as L1. replace (Finite (lo + width K * sm (fun k => 1 + -1 * p (pt K k)) K)) with (Finite (lo * 1 + width K * sm (fun k => 1 + -1 * p (pt K k)) K)) by (f_equal; ring).
      apply is_lim_seq_plus'; [apply (is_lim_seq_scal_l _ lo 1); exact L1|]. apply (is_lim_seq_scal_l _ (width K) (Finite (sm (fun k => 1 + -1 * p (pt K k)) K))).
      apply (sm_lim (fun n k => pr n R1 + -1 * pr n (R2 (pt K k))) (fun k => 1 + -1 * p (pt K k))). intros k Hk. apply is_lim_seq_plus'; [exact L1|]. apply (is_lim_seq_scal_l _ (-1) (Finite (p (pt K k)))). apply PL. apply LAW.
      pose proof (width_pos K HK) as WP. pose proof (width_K K HK) as WK. unfold pt. pose proof (pos_INR k) as PK. apply lt_INR in Hk. assert (0 <= INR k * width K) by (apply Rmult_le_pos; lra). assert (INR k * width K < INR K * width K) by (apply Rmult_lt_compat_r; lra). lra.
  Qed.
  Definition qa (n : nat) : R := average n g.
  Lemma qa_near K : (0 < K)%nat -> exists M, forall n, (M <= n)%nat -> top K - 2 * width K <= qa n <= top K + width K.
  Proof.
    intros HK. pose proof (width_pos K HK) as WP. pose proof (up_lim K HK) as L. apply is_lim_seq_spec in L. destruct (L (mkposreal _ WP)) as [M HM]. cbn in HM. exists M. intros n Hn. specialize (HM n Hn). apply Rabs_lt_between in HM.
    assert (S1 : qa n <= average n (up K)) by (apply average_le; intros; now apply sandwich).
    assert (S2 : average n (up K) + - width K <= qa n). { rewrite <- (average_const n (- width K)), <- average_plus. apply average_le. intros ws _ _. pose proof (sandwich K ws HK). lra. }
    lra.
  Qed.
  Lemma small_width e : 0 < e -> exists K, (0 < K)%nat /\ width K < e.
  Proof.
    intros He. destruct (archimed_cor1 (e / (hi - lo)) ltac:(apply Rdiv_lt_0_compat; lra)) as (K & H1 & H2). exists K. split; [exact H2|]. unfold width. unfold Rdiv.
    apply (Rmult_lt_compat_l (hi - lo)) in H1; [|lra]. replace ((hi - lo) * (e / (hi - lo))) with e in H1 by (field; lra). exact H1.
  Qed.
  Theorem layer_cake : 0 <= C -> exists e, mean_value next h e /\ Rabs (e - (lo + J)) <= (hi - lo) * eps.
  Proof.
    intros C0. assert (CA : ex_lim_seq_cauchy qa).
    { intros e. destruct (small_width (e / 3) ltac:(pose proof (cond_pos e); lra)) as (K & HK & HW). destruct (qa_near K HK) as [M HM]. exists M. intros n m Hn Hm. pose proof (HM n Hn). pose proof (HM m Hm). apply Rabs_lt_between. lra. }
    apply ex_lim_seq_cauchy_corr in CA. destruct CA as [e He]. exists e. split; [exists g; split; [exact g_value|exact He]|].
    assert (B : forall d, 0 < d -> Rabs (e - (lo + J)) <= (hi - lo) * eps + (C + 2) * d).
    { intros d Hd. destruct (small_width d Hd) as (K & HK & HW). pose proof (width_pos K HK) as WP. pose proof (width_K K HK) as WK. destruct (qa_near K HK) as [M HM].
      assert (E1 : e <= top K + width K). { apply (is_lim_seq_le_loc qa (fun _ => top K + width K) e (top K + width K)); [exists M; intros n Hn; apply HM, Hn|exact He|apply is_lim_seq_const]. }
      assert (E2 : top K - 2 * width K <= e). { apply (is_lim_seq_le_loc (fun _ => top K - 2 * width K) qa (top K - 2 * width K) e); [exists M; intros n Hn; apply HM, Hn|apply is_lim_seq_const|exact He]. }
      assert (T : Rabs (sm (fun k => 1 + -1 * p (pt K k)) K - sm (fun k => 1 - F (pt K k)) K) <= INR K * eps).
      { apply sm_close. intros k Hk. replace (1 + -1 * p (pt K k) - (1 - F (pt K k))) with (- (p (pt K k) - F (pt K k))) by ring. rewrite Rabs_Ropp. apply LAW.
        unfold pt. pose proof (pos_INR k) as PK. apply lt_INR in Hk. assert (0 <= INR k * width K) by (apply Rmult_le_pos; lra). assert (INR k * width K < INR K * width K) by (apply Rmult_lt_compat_r; lra). lra. }
      pose proof (SUM K HK) as SK. apply Rabs_le_inv in T. apply Rabs_le_inv in SK. unfold top in *. set (S1 := sm _ K) in *. set (S2 := sm (fun k => 1 - F (pt K k)) K) in *. clearbody S1 S2.
      assert (T1 : width K * (S1 - S2) <= width K * (INR K * eps)) by (apply Rmult_le_compat_l; lra). assert (T2 : width K * (- (INR K * eps)) <= width K * (S1 - S2)) by (apply Rmult_le_compat_l; lra).
      replace (width K * (INR K * eps)) with ((hi - lo) * eps) in T1 by (rewrite <- WK; ring). replace (width K * (- (INR K * eps))) with (- ((hi - lo) * eps)) in T2 by (rewrite <- WK; ring).
      assert (C * width K <= C * d) by (apply Rmult_le_compat_l; lra). apply Rabs_le. lra. }
    apply le_epsilon. intros d Hd. assert (P2 : 0 < d / (C + 2)) by (apply Rdiv_lt_0_compat; lra). specialize (B _ P2). replace ((C + 2) * (d / (C + 2))) with d in B by (field; lra). exact B.
  Qed.
End Layers.
