(** Rejection sampling on a tape of uniform words: one round, and the limit of many. *)
From Coq Require Import Reals Lia Lra Psatz ZifyN ZifyNat.
From Coquelicot Require Import Coquelicot.
From Flocq Require Import Core.
From Verif Require Import Model.Base Spec.Common Proofs.SumN Proofs.ZigAccept.
Local Open Scope R_scope.

(** ** Affine recursions *)
Lemma affine_limit (a c : nat -> R) (q l : R) : 0 <= q < 1 -> (forall n, a (S (S n)) = c n + q * a n) -> is_lim_seq c l -> is_lim_seq a (l / (1 - q)).
Proof.
  intros Hq R Hc. apply is_lim_seq_spec. apply is_lim_seq_spec in Hc. unfold is_lim_seq' in Hc |- *. intros eps. pose proof (cond_pos eps) as He.
  assert (HB : 0 < eps / 2 * (1 - q)) by (apply Rmult_lt_0_compat; lra).
  destruct (Hc (mkposreal _ HB)) as [N HN]. cbn in HN. set (L := l / (1 - q)).
  assert (EL : L = l + q * L) by (unfold L; field; lra).
  set (C := Rmax (Rabs (a N - L)) (Rabs (a (S N) - L))).
  assert (B : forall k, Rabs (a (N + 2 * k)%nat - L) <= eps / 2 + q ^ k * C /\ Rabs (a (S N + 2 * k)%nat - L) <= eps / 2 + q ^ k * C).
  { assert (ST : forall n t, (N <= n)%nat -> Rabs (a n - L) <= eps / 2 + t -> Rabs (a (S (S n)) - L) <= eps / 2 + q * t).
    { intros n t Hn H. specialize (HN n Hn). rewrite R. rewrite EL. replace (c n + q * a n - (l + q * L)) with ((c n - l) + q * (a n - L)) by ring.
      apply Rle_trans with (1 := Rabs_triang _ _). rewrite Rabs_mult, (Rabs_pos_eq q) by lra. apply (Rmult_le_compat_l q) in H; [|lra]. lra. }
    induction k as [|k [I1 I2]].
    - cbn [pow]. rewrite !Nat.mul_0_r, !Nat.add_0_r, !Rmult_1_l. unfold C. split; [pose proof (Rmax_l (Rabs (a N - L)) (Rabs (a (S N) - L)))|pose proof (Rmax_r (Rabs (a N - L)) (Rabs (a (S N) - L)))]; lra.
    - cbn [pow]. rewrite !Rmult_assoc. replace (N + 2 * S k)%nat with (S (S (N + 2 * k))) by lia. replace (S N + 2 * S k)%nat with (S (S (S N + 2 * k))) by lia. split; apply ST; (lia || assumption). }
  pose proof (is_lim_seq_geom q ltac:(rewrite Rabs_pos_eq; lra)) as G. apply is_lim_seq_spec in G. unfold is_lim_seq' in G.
  assert (C0 : 0 <= C) by (unfold C; apply Rle_trans with (2 := Rmax_l _ _); apply Rabs_pos).
  assert (HC : 0 < eps / 2 / (C + 1)) by (apply Rdiv_lt_0_compat; lra). destruct (G (mkposreal _ HC)) as [K HK]. cbn in HK.
  exists (N + 2 * K + 2)%nat. intros n Hn.
  assert (P : forall k, (K <= k)%nat -> q ^ k * C < eps / 2).
  { intros k Hk. specialize (HK k Hk). rewrite Rminus_0_r, Rabs_pos_eq in HK by (apply pow_le; lra).
    apply Rle_lt_trans with (eps / 2 / (C + 1) * C); [apply Rmult_le_compat_r; lra|]. apply Rmult_lt_reg_r with (C + 1); [lra|]. replace (eps / 2 / (C + 1) * C * (C + 1)) with (eps / 2 * C) by (field; lra).
    apply Rmult_lt_compat_l; lra. }
  destruct (Nat.Even_or_Odd (n - N)) as [[k Ek]|[k Ek]].
  - destruct (B k) as [B1 _]. replace (N + 2 * k)%nat with n in B1 by lia. specialize (P k ltac:(lia)). lra.
  - destruct (B k) as [_ B2]. replace (S N + 2 * k)%nat with n in B2 by lia. specialize (P k ltac:(lia)). lra.
Qed.

(** ** Sums over a draw *)
Lemma sumN_mod (phi : N -> R) : sumN (fun v => phi (v mod 2 ^ 53)%N) W64 = IZR (2 ^ 11) * sumN phi M53.
Proof.
  replace W64 with (2 ^ 11 * M53)%N by (rewrite W64_eq, M53_eq; reflexivity). rewrite sumN_mul.
  rewrite (sumN_ext _ (fun _ => sumN phi M53)); [rewrite sumN_const; reflexivity|]. intros i _. apply sumN_ext. intros j Hj. f_equal. rewrite M53_eq in *.
  rewrite N.add_comm, N.mod_add by discriminate. now apply N.mod_small.
Qed.
Definition mean64 (phi : N -> R) : R := / IZR (2 ^ 64) * sumN phi W64.
Definition mean53 (phi : N -> R) : R := sumN phi M53 / IZR (2 ^ 53).
Lemma pr_S n P : pr (S n) P = mean64 (fun u => pr n (fun ws => P (u :: ws))). Proof. reflexivity. Qed.
Lemma mean64_mod phi : mean64 (fun v => phi (v mod 2 ^ 53)%N) = mean53 phi.
Proof. unfold mean64, mean53. rewrite sumN_mod. cbn [Z.pow Z.pow_pos Pos.iter Z.mul Pos.mul]. field. Qed.
Lemma mean64_ext f g : (forall u, (u < W64)%N -> f u = g u) -> mean64 f = mean64 g.
Proof. intros H. unfold mean64. f_equal. now apply sumN_ext. Qed.
Lemma mean64_plus f g : mean64 (fun u => f u + g u) = mean64 f + mean64 g.
Proof. unfold mean64. rewrite sumN_plus. ring. Qed.
Lemma mean64_scal c f : mean64 (fun u => c * f u) = c * mean64 f.
Proof. unfold mean64. rewrite sumN_scal. ring. Qed.
Lemma mean64_const c : mean64 (fun _ => c) = c.
Proof. unfold mean64. rewrite sumN_const, NR_W64. pose proof P64. field. lra. Qed.
Lemma mean64_range f : (forall u, 0 <= f u <= 1) -> 0 <= mean64 f <= 1.
Proof.
  intros H. assert (E1 := mean64_const 1). unfold mean64 in *. pose proof (Rinv_0_lt_compat _ P64). split.
  - apply Rmult_le_pos; [lra|]. apply sumN_nonneg. intros. apply H.
  - rewrite <- E1. apply Rmult_le_compat_l; [lra|]. apply sumN_le. intros. apply H.
Qed.
Lemma mean53_range f : (forall u, 0 <= f u <= 1) -> 0 <= mean53 f <= 1.
Proof.
  intros H. pose proof P53. assert (I : 0 < / IZR (2 ^ 53)) by now apply Rinv_0_lt_compat. unfold mean53. split.
  - apply Rmult_le_pos; [|lra]. apply sumN_nonneg. intros. apply H.
  - apply Rmult_le_reg_r with (IZR (2 ^ 53)); [lra|]. unfold Rdiv. rewrite Rmult_assoc, Rinv_l, Rmult_1_r by lra. rewrite Rmult_1_l, <- NR_M53. replace (NR M53) with (sumN (fun _ => 1) M53) by (rewrite sumN_const; ring). apply sumN_le. intros. apply H.
Qed.
(** layer (10 bits), bit 53, low 53 bits *)
Lemma mean64_split phi : mean64 phi = sumN (fun i => (mean53 (fun m => phi (i * 2 ^ 54 + m)%N) + mean53 (fun m => phi (i * 2 ^ 54 + 2 ^ 53 + m)%N)) / 2) 1024 / 1024.
Proof.
  unfold mean64, mean53. replace W64 with (1024 * (2 * M53))%N by (rewrite W64_eq, M53_eq; reflexivity). rewrite sumN_mul.
  rewrite (sumN_ext _ (fun i => 2 * IZR (2 ^ 53) * ((sumN (fun m => phi (i * 2 ^ 54 + m)%N) M53 / IZR (2 ^ 53) + sumN (fun m => phi (i * 2 ^ 54 + 2 ^ 53 + m)%N) M53 / IZR (2 ^ 53)) / 2))).
  - rewrite sumN_scal. cbn [Z.pow Z.pow_pos Pos.iter Z.mul Pos.mul]. field.
  - intros i _. replace (2 * M53)%N with (M53 + M53)%N by lia. rewrite sumN_add. pose proof P53.
    rewrite (sumN_ext (fun j => phi (i * (M53 + M53) + j)%N) (fun m => phi (i * 2 ^ 54 + m)%N)) by (intros; f_equal; rewrite M53_eq; lia).
    rewrite (sumN_ext (fun k => phi (i * (M53 + M53) + (M53 + k))%N) (fun m => phi (i * 2 ^ 54 + 2 ^ 53 + m)%N)) by (intros; f_equal; rewrite M53_eq; lia). field. lra.
Qed.

(** ** One round *)
Section Round.
  Variables (ins tl le : N -> bool) (below : N -> N -> bool) (TE : N -> list N -> bool) (E : list N -> bool).
  Hypothesis ES : forall u v ws, w64 u -> w64 v -> E (u :: v :: ws) =
    if ins u then le u else if tl u then TE u (v :: ws) else if below u (v mod 2 ^ 53)%N then le u else E ws.
  Definition frac (u : N) : R := mean53 (fun k => ind (below u k)).
  (** a draw is decided by the first word and returns, goes to the tail, or is rejected *)
  Definition hit : R := mean64 (fun u => if ins u then ind (le u) else if tl u then 0 else ind (le u) * frac u).
  Definition tails (n : nat) : R := mean64 (fun u => if ins u then 0 else if tl u then pr (S n) (TE u) else 0).
  Definition miss : R := mean64 (fun u => if ins u then 0 else if tl u then 0 else 1 - frac u).
  Lemma frac_range u : 0 <= frac u <= 1. Proof. apply mean53_range. intros. apply ind_range. Qed.
  Lemma round n : pr (S (S n)) E = (hit + tails n) + miss * pr n E.
  Proof.
    rewrite pr_S. rewrite (mean64_ext _ (fun u => ((if ins u then ind (le u) else if tl u then 0 else ind (le u) * frac u) + (if ins u then 0 else if tl u then pr (S n) (TE u) else 0)) +
      pr n E * (if ins u then 0 else if tl u then 0 else 1 - frac u))).
    - rewrite mean64_plus, mean64_plus, mean64_scal. unfold hit, tails, miss. ring.
    - intros u Hu. assert (Wu : w64 u) by (unfold w64; rewrite <- W64_eq; exact Hu). rewrite pr_S. destruct (ins u) eqn:EI.
      + rewrite (mean64_ext _ (fun _ => ind (le u))); [rewrite mean64_const; ring|]. intros v Hv. rewrite (pr_ext n _ (fun _ => le u)); [apply pr_const|]. intros ws _ _. rewrite ES, EI; [reflexivity|exact Wu|unfold w64; rewrite <- W64_eq; exact Hv].
      + destruct (tl u) eqn:ET.
        * rewrite Rplus_0_l, Rmult_0_r, Rplus_0_r, pr_S. apply mean64_ext. intros v Hv. apply pr_ext. intros ws _ _. rewrite ES, EI, ET; [reflexivity|exact Wu|unfold w64; rewrite <- W64_eq; exact Hv].
        * set (phi := fun k => ind (le u) * ind (below u k) + pr n E * (1 - ind (below u k))). rewrite (mean64_ext _ (fun v => phi (v mod 2 ^ 53)%N)).
          -- rewrite (mean64_mod phi). unfold frac, mean53, phi. rewrite sumN_plus, !sumN_scal, sumN_minus, sumN_const, NR_M53. pose proof P53. field. lra.
          -- intros v Hv. unfold phi. assert (Wv : w64 v) by (unfold w64; rewrite <- W64_eq; exact Hv). destruct (below u (v mod 2 ^ 53)%N) eqn:EB; cbn [ind].
             ++ rewrite (pr_ext n _ (fun _ => le u)); [rewrite pr_const; ring|]. intros ws _ _. rewrite ES, EI, ET, EB; auto.
             ++ rewrite (pr_ext n _ E); [ring|]. intros ws _ _. rewrite ES, EI, ET, EB; auto.
  Qed.
  (** with the tail's probability tending to t *)
  Lemma rounds_limit (t : R) : miss < 1 -> is_lim_seq tails t -> is_lim_seq (fun n => pr n E) ((hit + t) / (1 - miss)).
  Proof.
    intros M T. apply (affine_limit (fun n => pr n E) (fun n => hit + tails n)).
    - split; [|exact M]. unfold miss. apply mean64_range. intros u. destruct (ins u); [lra|]. destruct (tl u); [lra|]. pose proof (frac_range u). lra.
    - intros n. apply round.
    - apply (is_lim_seq_plus' (fun _ => hit) tails); [apply is_lim_seq_const|exact T].
  Qed.
  (** the three outcomes *)
  Lemma total : mean64 (fun u => if ins u then 1 else if tl u then 0 else frac u) + mean64 (fun u => if ins u then 0 else if tl u then 1 else 0) + miss = 1.
  Proof.
    unfold miss. rewrite <- !mean64_plus. rewrite (mean64_ext _ (fun _ => 1)); [apply mean64_const|]. intros u _. destruct (ins u); [ring|]. destruct (tl u); ring.
  Qed.
End Round.
