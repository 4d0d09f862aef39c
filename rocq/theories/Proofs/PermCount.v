(** Counting permutations and draw sequences. *)
From Coq Require Import Lia ZifyN ZifyNat ZifyBool Permutation Factorial.
From Verif Require Import Model.Base Spec.Common Spec.Counting Spec.Shuffling.
From Verif Require Import Proofs.WordLemmas Proofs.Count.
Local Open Scope N_scope.

Lemma has_exactly_or {A} (P Q : A -> Prop) n m : (forall a, P a -> Q a -> False) -> has_exactly P n -> has_exactly Q m ->
  has_exactly (fun a => P a \/ Q a) (n + m).
Proof.
  intros D (l & N1 & I1 & <-) (l' & N2 & I2 & <-). exists (l ++ l'). split; [|split].
  - clear - D N1 N2 I1 I2. assert (H : forall a, In a l -> ~ In a l') by (intros a Ha Hb; apply (D a); [now apply I1|now apply I2]).
    clear I1 D. induction N1 as [|a l Ha _ IH]; cbn [app]; [exact N2|]. constructor; [|apply IH; intros; apply H; now right].
    rewrite in_app_iff. intros [K|K]; [contradiction|]. apply (H a); [now left|exact K].
  - intros a. rewrite in_app_iff, I1, I2. tauto.
  - rewrite app_length. lia.
Qed.
(** if every fibre over the M values of Q has c elements, there are M * c elements *)
Lemma fiber_sum {A B} (P : A -> Prop) (Q : B -> Prop) (f : A -> B) M c : (forall a, P a -> Q (f a)) -> has_exactly Q M ->
  (forall b, Q b -> has_exactly (fun a => P a /\ f a = b) c) -> has_exactly P (M * c).
Proof.
  intros HQ (l & N & I & <-) HF.
  assert (K : forall l, NoDup l -> (forall b, In b l -> Q b) -> has_exactly (fun a => P a /\ In (f a) l) (N.of_nat (length l) * c)).
  { clear l N I. induction 1 as [|b l Hb _ IH]; intros Hl.
    - cbn [length]. apply has_exactly_none. intros a [_ []].
    - apply (has_exactly_ext (fun a => (P a /\ f a = b) \/ (P a /\ In (f a) l))).
      + intros a. cbn [In]. intuition congruence.
      + replace (N.of_nat (length (b :: l)) * c) with (c + N.of_nat (length l) * c) by (cbn [length]; lia).
        apply has_exactly_or; [intros a [_ E] [_ H]; congruence|apply HF, Hl; now left|apply IH; intros; apply Hl; now right]. }
  apply (has_exactly_ext (fun a => P a /\ In (f a) l)); [|apply K; [exact N|intros b; now apply I]].
  intros a. rewrite I. split; [tauto|]. intros H. split; auto.
Qed.

(** n! permutations *)
Section Perm.
  Context {A : Type} (eq_dec : forall a b : A, {a = b} + {a <> b}).
  Fixpoint pos (x : A) (l : list A) : nat :=
    match l with [] => O | y :: l => if eq_dec x y then O else S (pos x l) end.
  Fixpoint rem (x : A) (l : list A) : list A :=
    match l with [] => [] | y :: l => if eq_dec x y then l else y :: rem x l end.
  Lemma pos_rem x l : In x l -> (pos x l < length l)%nat /\ firstn (pos x l) (rem x l) ++ x :: skipn (pos x l) (rem x l) = l.
  Proof.
    induction l as [|y l IH]; intros H; [destruct H|]. cbn [pos rem]. destruct (eq_dec x y) as [<-|Hn].
    - cbn. split; [lia|reflexivity].
    - destruct H as [<-|H]; [contradiction|]. destruct (IH H) as [L E]. cbn [length firstn skipn app]. split; [lia|]. now rewrite E.
  Qed.
  Lemma rem_perm x l : In x l -> Permutation l (x :: rem x l).
  Proof.
    induction l as [|y l IH]; intros H; [destruct H|]. cbn [rem]. destruct (eq_dec x y) as [<-|Hn]; [apply Permutation_refl|].
    destruct H as [<-|H]; [contradiction|]. rewrite perm_swap. now apply perm_skip, IH.
  Qed.
  Lemma pos_ins x l1 l2 : ~ In x l1 -> pos x (l1 ++ x :: l2) = length l1 /\ rem x (l1 ++ x :: l2) = l1 ++ l2.
  Proof.
    induction l1 as [|y l1 IH]; intros H; cbn [app pos rem length].
    - destruct (eq_dec x x); [auto|contradiction].
    - destruct (eq_dec x y) as [<-|Hn]; [exfalso; apply H; now left|]. destruct IH as [E1 E2]; [intros K; apply H; now right|]. now rewrite E1, E2.
  Qed.
  Lemma perms_count (l : list A) : NoDup l -> has_exactly (Permutation l) (N.of_nat (fact (length l))).
  Proof.
    induction 1 as [|x l Hx N IH].
    - exists [[]]. split; [repeat constructor; intros []|]. split; [|reflexivity]. intros a. split.
      + intros [<-|[]]. constructor.
      + intros H. apply Permutation_nil in H. now left.
    - pose proof (has_exactly_pair _ _ _ _ (has_exactly_below (N.of_nat (S (length l)))) IH) as K.
      replace (N.of_nat (fact (length (x :: l)))) with (N.of_nat (S (length l)) * N.of_nat (fact (length l))) by (cbn [length fact]; lia).
      revert K. apply (has_exactly_bij _ _ (fun ip => firstn (N.to_nat (fst ip)) (snd ip) ++ x :: skipn (N.to_nat (fst ip)) (snd ip))
        (fun q => (N.of_nat (pos x q), rem x q))).
      + intros [i p] [Hi Hp]. cbn [fst snd] in *. rewrite <- Permutation_middle. apply perm_skip. now rewrite firstn_skipn.
      + intros q Hq. cbn [fst snd]. assert (Hin : In x q) by (apply (Permutation_in _ Hq); now left).
        destruct (pos_rem x q Hin) as [L _]. rewrite <- (Permutation_length Hq) in L. split; [cbn [length] in L; lia|].
        apply (Permutation_cons_inv (a := x)). rewrite Hq. now apply rem_perm.
      + intros [i p] [Hi Hp]. cbn [fst snd] in *. assert (Hni : ~ In x (firstn (N.to_nat i) p)).
        { intros K. apply Hx. apply (Permutation_in _ (Permutation_sym Hp)). rewrite <- (firstn_skipn (N.to_nat i) p). apply in_or_app. now left. }
        destruct (pos_ins x _ (skipn (N.to_nat i) p) Hni) as [E1 E2]. rewrite E1, E2, firstn_skipn. f_equal.
        rewrite firstn_length_le; [lia|]. rewrite <- (Permutation_length Hp). lia.
      + intros q Hq. cbn [fst snd]. assert (Hin : In x q) by (apply (Permutation_in _ Hq); now left). rewrite Nat2N.id. now apply pos_rem.
  Qed.
End Perm.

(** sequences of k numbers below n *)
Lemma draws_count (n : N) (k : nat) : has_exactly (fun js => length js = k /\ Forall (fun j => j < n) js) (n ^ N.of_nat k).
Proof.
  induction k as [|k IH].
  - exists [[]]. split; [repeat constructor; intros []|]. split; [|reflexivity]. intros a. split.
    + intros [<-|[]]. repeat constructor.
    + intros [L _]. destruct a; [now left|discriminate L].
  - pose proof (has_exactly_pair _ _ _ _ (has_exactly_below n) IH) as K. rewrite Nat2N.inj_succ, N.pow_succ_r'. revert K.
    apply (has_exactly_bij _ _ (fun x => fst x :: snd x) (fun js => (hd 0 js, tl js))).
    + intros [j js] (H1 & H2 & H3). cbn [fst snd] in *. split; [cbn; lia|]. now constructor.
    + intros js [L F]. destruct js as [|j js]; [discriminate L|]. inversion F; subst. cbn in *. repeat split; auto; lia.
    + intros [j js] _. reflexivity.
    + intros js [L F]. destruct js; [discriminate L|]. reflexivity.
Qed.

(** (n-1) divides n! but n^n = 1 modulo n-1 *)
Lemma fact_mult n : (2 <= n)%nat -> exists k, fact n = (k * (n - 1))%nat.
Proof.
  intros H. destruct n as [|[|n]]; try lia. exists (S (S n) * fact n)%nat. cbn [fact]. replace (S (S n) - 1)%nat with (S n) by lia. nia.
Qed.
Lemma pow_mod_pred (m : nat) : forall k, exists q, ((S m) ^ k = q * m + 1)%nat.
Proof. induction k as [|k [q IH]]; [exists 0%nat; reflexivity|]. cbn [Nat.pow]. rewrite IH. exists (S m * q + 1)%nat. nia. Qed.
Lemma fact_not_div n c : (3 <= n)%nat -> (n ^ n)%nat <> (fact n * c)%nat.
Proof.
  intros H E. destruct (fact_mult n) as [k Ek]; [lia|]. destruct (pow_mod_pred (n - 1) n) as [q Eq]. replace (S (n - 1)) with n in Eq by lia.
  rewrite Eq, Ek in E. set (m := (n - 1)%nat) in *. assert (Hm : (2 <= m)%nat) by lia. clearbody m. clear - E Hm.
  assert (E1 : (1 = (k * c) * m - q * m)%nat) by nia. rewrite <- Nat.mul_sub_distr_r in E1. destruct (k * c - q)%nat; nia.
Qed.
