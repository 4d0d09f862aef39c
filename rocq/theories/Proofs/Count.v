(** Counting lemmas. *)
From Coq Require Import Lia ZifyN ZifyNat ZifyBool.
From Verif Require Import Model.Base Spec.Common Spec.Counting.
From Verif Require Import Proofs.WordLemmas Proofs.ReadProofs.
Local Open Scope N_scope.

Lemma NoDup_map_on {A B} (f : A -> B) l : NoDup l -> (forall a b, In a l -> In b l -> f a = f b -> a = b) -> NoDup (map f l).
Proof.
  induction 1 as [|a l Ha _ IH]; intros Hf; cbn [map]; constructor.
  - intros Hin. apply in_map_iff in Hin. destruct Hin as (b & Hb & Hi). apply Ha. rewrite (Hf a b); cbn; auto.
  - apply IH. intros x y Hx Hy. apply Hf; cbn; auto.
Qed.
Lemma has_exactly_ext {A} (P Q : A -> Prop) n : (forall a, P a <-> Q a) -> has_exactly P n -> has_exactly Q n.
Proof. intros H (l & N & I & L). exists l. repeat split; auto; intros; firstorder. Qed.
Lemma has_exactly_bij {A B} (P : A -> Prop) (Q : B -> Prop) (f : A -> B) (g : B -> A) n :
  (forall a, P a -> Q (f a)) -> (forall b, Q b -> P (g b)) -> (forall a, P a -> g (f a) = a) -> (forall b, Q b -> f (g b) = b) ->
  has_exactly P n -> has_exactly Q n.
Proof.
  intros H1 H2 H3 H4 (l & N & I & L). exists (map f l). split; [|split].
  - apply NoDup_map_on; [exact N|]. intros a b Ha Hb E. rewrite <- (H3 a), <- (H3 b), E by (apply I; assumption). reflexivity.
  - intros b. split.
    + intros Hi. apply in_map_iff in Hi. destruct Hi as (a & <- & Ha). apply H1, I, Ha.
    + intros Hb. apply in_map_iff. exists (g b). split; [apply H4, Hb|apply I, H2, Hb].
  - now rewrite map_length.
Qed.
(** at most one count *)
Lemma has_exactly_unique {A} (P : A -> Prop) n m : has_exactly P n -> has_exactly P m -> n = m.
Proof.
  intros (l & N1 & I1 & <-) (l' & N2 & I2 & <-). f_equal. apply Nat.le_antisymm; apply NoDup_incl_length; auto; intros a Ha.
  - now apply I2, I1.
  - now apply I1, I2.
Qed.
Lemma has_exactly_below n : has_exactly (fun x => x < n) n.
Proof.
  exists (map N.of_nat (seq 0 (N.to_nat n))). split; [|split].
  - apply NoDup_map_on; [apply seq_NoDup|]. intros; lia.
  - intros a. rewrite in_map_iff. split.
    + intros (k & <- & Hk). apply in_seq in Hk. lia.
    + intros Ha. exists (N.to_nat a). split; [lia|]. apply in_seq. lia.
  - rewrite map_length, seq_length. lia.
Qed.
Lemma has_exactly_none {A} (P : A -> Prop) : (forall a, ~ P a) -> has_exactly P 0.
Proof. intros H. exists []. repeat split; [constructor|intros []|intros Ha; destruct (H a Ha)]. Qed.
Lemma has_exactly_pair {A B} (P : A -> Prop) (Q : B -> Prop) n m : has_exactly P n -> has_exactly Q m ->
  has_exactly (fun x => P (fst x) /\ Q (snd x)) (n * m).
Proof.
  intros (l & N1 & I1 & <-) (l' & N2 & I2 & <-). exists (list_prod l l'). split; [|split].
  - clear I1. induction N1 as [|a l Ha _ IH]; cbn [list_prod]; [constructor|].
    assert (ND : forall (l1 l2 : list (A * B)), NoDup l1 -> NoDup l2 -> (forall x, In x l1 -> In x l2 -> False) -> NoDup (l1 ++ l2)).
    { clear. intros l1 l2 H1. induction H1 as [|x l1 Hx _ IH]; intros H2 D; cbn [app]; [exact H2|]. constructor.
      - intros Hi. apply in_app_or in Hi. destruct Hi as [Hi|Hi]; [now apply Hx|]. apply (D x); cbn; auto.
      - apply IH; [exact H2|]. intros y Hy. apply D; cbn; auto. }
    apply ND; [|exact IH|].
    + apply NoDup_map_on; [exact N2|]. intros; congruence.
    + intros [x y] H1 H2. apply in_map_iff in H1. destruct H1 as (b & E & _). apply in_prod_iff in H2. destruct H2 as [H2 _]. apply Ha. congruence.
  - intros [a b]. rewrite in_prod_iff, I1, I2. reflexivity.
  - rewrite prod_length. lia.
Qed.
(** numbers below a*b with remainder r modulo b *)
Lemma has_exactly_mod a b r : r < b -> has_exactly (fun x => x < a * b /\ x mod b = r) a.
Proof.
  intros Hr. apply (has_exactly_bij (fun q => q < a) _ (fun q => q * b + r) (fun x => x / b)); [| | | |apply has_exactly_below].
  - intros q Hq. split; [nia|]. rewrite N.add_comm, N.mod_add by lia. apply N.mod_small, Hr.
  - intros x [Hx _]. apply N.div_lt_upper_bound; lia.
  - intros q _. rewrite N.div_add_l by lia. rewrite N.div_small by exact Hr. lia.
  - intros x [_ E]. rewrite <- E. rewrite (N.div_mod x b) at 3 by lia. lia.
Qed.
(** byte strings and the numbers they denote *)
Lemma bytes_number k (P : N -> Prop) n : has_exactly (fun x => x < 256 ^ k /\ P x) n ->
  has_exactly (fun bs => bytes_of_length k bs /\ P (le_val bs)) n.
Proof.
  apply (has_exactly_bij _ _ (le_bytes (N.to_nat k)) le_val).
  - intros x [Hx Px]. split; [split; [rewrite le_bytes_length; lia|apply le_bytes_isbyte]|].
    rewrite le_val_bytes, N2Nat.id, N.mod_small by exact Hx. exact Px.
  - intros bs [[L B] Pb]. split; [|exact Pb]. pose proof (le_val_bound bs B). rewrite <- L. exact H.
  - intros x [Hx _]. rewrite le_val_bytes, N2Nat.id. now apply N.mod_small.
  - intros bs [[L B] _]. rewrite <- L, Nat2N.id. now apply le_bytes_val.
Qed.
