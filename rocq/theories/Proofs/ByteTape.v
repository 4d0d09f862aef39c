(** Rejection loops on a tape of bytes. *)
From Coq Require Import Reals Lia Lra ZifyN ZifyNat Bool.
From Coquelicot Require Import Coquelicot.
From Verif Require Import Model.Base Model.Rng Spec.Common Spec.Counting Spec.Bytes.
From Verif Require Import Proofs.WordLemmas Proofs.ReadProofs Proofs.Count.

Lemma has_exactly_union {A} (P Q : A -> Prop) n m : (forall a, P a -> Q a -> False) -> has_exactly P n -> has_exactly Q m -> has_exactly (fun a => P a \/ Q a) (n + m).
Proof.
  intros D (l & N1 & I1 & <-) (l' & N2 & I2 & <-). exists (l ++ l'). split; [|split].
  - assert (D' : forall a, In a l -> In a l' -> False) by (intros a H1 H2; apply (D a); [now apply I1|now apply I2]). clear - N1 N2 D'.
    induction N1 as [|a l Ha _ IH]; cbn [app]; [exact N2|]. constructor.
    + intros Hi. apply in_app_or in Hi. destruct Hi as [Hi|Hi]; [now apply Ha|]. apply (D' a); cbn; auto.
    + apply IH. intros x Hx. apply D'. cbn; auto.
  - intros a. rewrite in_app_iff, I1, I2. reflexivity.
  - rewrite app_length. lia.
Qed.
Lemma bytes_app a b x y : bytes_of_length a x -> bytes_of_length b y -> bytes_of_length (a + b) (x ++ y).
Proof. intros [L1 B1] [L2 B2]. split; [rewrite app_length; lia|]. apply Forall_app. auto. Qed.
Lemma bytes_cut a b z : bytes_of_length (a + b) z -> bytes_of_length a (firstn (N.to_nat a) z) /\ bytes_of_length b (skipn (N.to_nat a) z).
Proof.
  intros [L B]. rewrite <- (firstn_skipn (N.to_nat a) z) in B. apply Forall_app in B. destruct B as [B1 B2]. split; (split; [|assumption]).
  - rewrite firstn_length. lia.
  - rewrite skipn_length. lia.
Qed.
Lemma bytes_count k : has_exactly (bytes_of_length k) (256 ^ k)%N.
Proof.
  pose proof (bytes_number k (fun _ => True) (256 ^ k)%N) as H. assert (H0 : has_exactly (fun x : N => (x < 256 ^ k)%N /\ True) (256 ^ k)%N).
  { eapply has_exactly_ext; [|apply has_exactly_below]. intros a. cbv beta. tauto. }
  apply H in H0. eapply has_exactly_ext; [|exact H0]. intros a. cbv beta. tauto.
Qed.
(** a block of [m] bytes satisfying P followed by [k] bytes satisfying Q *)
Lemma block_count m k (P Q : list N -> Prop) c d : has_exactly (fun b => bytes_of_length m b /\ P b) c -> has_exactly (fun bs => bytes_of_length k bs /\ Q bs) d ->
  has_exactly (fun z => bytes_of_length (m + k) z /\ P (firstn (N.to_nat m) z) /\ Q (skipn (N.to_nat m) z)) (c * d)%N.
Proof.
  intros H1 H2. apply (has_exactly_bij _ _ (fun xy => fst xy ++ snd xy) (fun z => (firstn (N.to_nat m) z, skipn (N.to_nat m) z))) with (5 := has_exactly_pair _ _ _ _ H1 H2).
  - intros [x y] [[B1 P1] [B2 P2]]. cbn [fst snd] in *. split; [now apply bytes_app|]. destruct B1 as [L _].
    rewrite firstn_app, skipn_app. replace (N.to_nat m - length x)%nat with O by lia. cbn [firstn skipn]. rewrite app_nil_r, firstn_all2, skipn_all2 by lia. cbn [app]. auto.
  - intros z (B & P1 & P2). cbn [fst snd]. destruct (bytes_cut _ _ _ B). auto.
  - intros [x y] [[B1 P1] _]. cbn [fst snd] in *. destruct B1 as [L _]. rewrite firstn_app, skipn_app. replace (N.to_nat m - length x)%nat with O by lia.
    cbn [firstn skipn]. now rewrite app_nil_r, firstn_all2, skipn_all2 by lia.
  - intros z _. cbn [fst snd]. apply firstn_skipn.
Qed.

Section Rejection.
  (** E: a run on the tape succeeds; it does so iff the first m bytes are accepted with the right result, or rejected and E holds of the rest *)
  Context (E acc rej : list N -> Prop) (m : nat) (ca cj : N).
  Hypothesis M0 : (0 < m)%nat.
  Hypothesis short : forall bs, (length bs < m)%nat -> ~ E bs.
  Hypothesis step : forall bs, (m <= length bs)%nat -> Forall isbyte bs -> (E bs <-> acc (firstn m bs) \/ (rej (firstn m bs) /\ E (skipn m bs))).
  Hypothesis apart : forall b, acc b -> rej b -> False.
  Hypothesis Ca : has_exactly (fun b => bytes_of_length (N.of_nat m) b /\ acc b) ca.
  Hypothesis Cj : has_exactly (fun b => bytes_of_length (N.of_nat m) b /\ rej b) cj.
  Fixpoint block_hits (k s : nat) : N :=
    match k with O => 0 | S k => ca * 256 ^ N.of_nat (k * m + s) + cj * block_hits k s end%N.
  Lemma block_hits_count k s : (s < m)%nat -> has_exactly (fun bs => bytes_of_length (N.of_nat (k * m + s)) bs /\ E bs) (block_hits k s).
  Proof.
    intros Hs. induction k as [|k IH]; cbn [block_hits].
    - apply has_exactly_none. intros bs [[L _] HE]. apply (short bs); [lia|exact HE].
    - pose proof (block_count (N.of_nat m) (N.of_nat (k * m + s)) acc (fun _ => True) ca (256 ^ N.of_nat (k * m + s))%N Ca) as A.
      pose proof (block_count _ _ _ _ _ _ Cj IH) as R.
      assert (A0 : has_exactly (fun bs : list N => bytes_of_length (N.of_nat (k * m + s)) bs /\ True) (256 ^ N.of_nat (k * m + s))%N) by (eapply has_exactly_ext; [|apply bytes_count]; intros a; cbv beta; tauto).
      specialize (A A0). rewrite !Nat2N.id in A, R. eapply has_exactly_ext; [|eapply has_exactly_union; [|exact A|exact R]; intros bs (_ & H1 & _) (_ & H2 & _); exact (apart _ H1 H2)].
      intros bs. cbv beta. replace (N.of_nat (S k * m + s)) with (N.of_nat m + N.of_nat (k * m + s))%N by lia.
      split.
      + intros [(B & H & _)|(B & H & HE)]; (split; [exact B|]); destruct B as [L B]; apply step; auto; lia.
      + intros [B HE]. pose proof B as [L F]. apply step in HE; [|lia|exact F]. tauto.
  Qed.
  Local Open Scope R_scope.
  Let a := IZR (Z.of_N ca) / 256 ^ m.
  Let j := IZR (Z.of_N cj) / 256 ^ m.
  Lemma pow256_Z n : IZR (Z.of_N (256 ^ N.of_nat n)) = 256 ^ n.
  Proof. rewrite N2Z.inj_pow, nat_N_Z. symmetry. apply pow_IZR. Qed.
  Lemma block_hits_prob k s : j < 1 -> IZR (Z.of_N (block_hits k s)) / 256 ^ (k * m + s) = a / (1 - j) * (1 - j ^ k).
  Proof.
    intros J1. assert (P : forall n, 0 < 256 ^ n) by (intros; apply pow_lt; lra). induction k as [|k IH].
    - cbn [block_hits]. change (Z.of_N 0) with 0%Z. cbn [pow]. unfold Rdiv. ring.
    - cbn [block_hits]. rewrite N2Z.inj_add, !N2Z.inj_mul, plus_IZR, !mult_IZR, pow256_Z. replace (S k * m + s)%nat with (m + (k * m + s))%nat by lia. rewrite (pow_add 256 m).
      replace ((IZR (Z.of_N ca) * 256 ^ (k * m + s) + IZR (Z.of_N cj) * IZR (Z.of_N (block_hits k s))) / (256 ^ m * 256 ^ (k * m + s))) with (a + j * (IZR (Z.of_N (block_hits k s)) / 256 ^ (k * m + s))).
      2:{ unfold a, j. field. pose proof (P m). pose proof (P (k * m + s)%nat). lra. }
      rewrite IH. cbn [pow]. field. lra.
  Qed.
  Lemma rejection_law : j < 1 -> exists q, (forall n, bytes_prob n E (q n)) /\ is_lim_seq q (a / (1 - j)).
  Proof.
    intros J1. exists (fun n => a / (1 - j) * (1 - j ^ (n / m))). split.
    - intros n. exists (block_hits (n / m) (n mod m)). pose proof (Nat.div_mod n m ltac:(lia)) as D. assert (D' : n = (n / m * m + n mod m)%nat) by lia. split.
      + pose proof (block_hits_count (n / m) (n mod m) ltac:(apply Nat.mod_upper_bound; lia)) as X. rewrite <- D' in X. exact X.
      + rewrite <- block_hits_prob with (s := (n mod m)%nat) by exact J1. now rewrite <- D'.
    - assert (J0 : 0 <= j) by (apply Rmult_le_pos; [apply IZR_le; lia|left; apply Rinv_0_lt_compat, pow_lt; lra]).
      replace (Finite (a / (1 - j))) with (Rbar_mult (a / (1 - j)) (1 - 0)) by (cbn; f_equal; ring). apply is_lim_seq_scal_l. apply is_lim_seq_minus'; [apply is_lim_seq_const|].
      apply (is_lim_seq_subseq (fun k => j ^ k) 0 (fun n => (n / m)%nat)).
      + intros P [N HN]. exists (N * m)%nat. intros n Hn. apply HN. apply Nat.div_le_lower_bound; lia.
      + apply is_lim_seq_geom. rewrite Rabs_pos_eq; lra.
  Qed.
End Rejection.
