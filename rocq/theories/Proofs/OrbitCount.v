(** Counting positions in a full cycle. *)
From Coq Require Import Lia ZifyN ZifyNat ZifyBool.
From Verif Require Import Model.Base Spec.Common Spec.Counting.
From Verif Require Import Proofs.WordLemmas Proofs.ReadProofs Proofs.PureGen Proofs.Count.
Local Open Scope N_scope.

(** pulling a count back along a function that is one-to-one between [P] and [Q] *)
Lemma has_exactly_pull {A B} (P : A -> Prop) (Q : B -> Prop) (f : A -> B) n :
  (forall a, P a -> Q (f a)) -> (forall b, Q b -> exists a, P a /\ f a = b) ->
  (forall a a', P a -> P a' -> f a = f a' -> a = a') ->
  has_exactly Q n -> has_exactly P n.
Proof.
  intros H1 H2 H3 (l & Nd & I & L).
  assert (E : forall l, (forall b, In b l -> Q b) -> exists l', Forall P l' /\ map f l' = l).
  { clear - H2. induction l as [|b l IH]; intros H; [exists []; split; [constructor|reflexivity]|].
    destruct IH as (l' & F & E); [intros; apply H; cbn; auto|]. destruct (H2 b) as (a & Pa & Ea); [apply H; cbn; auto|].
    exists (a :: l'). split; [constructor; assumption|]. cbn. now rewrite Ea, E. }
  destruct (E l) as (l' & F & E'); [intros b; apply I|]. exists l'. split; [|split].
  - apply (NoDup_map_inv f). now rewrite E'.
  - intros a. rewrite Forall_forall in F. split; [apply F|]. intros Pa.
    assert (J : In (f a) l) by (apply I, H1, Pa). rewrite <- E' in J. apply in_map_iff in J. destruct J as (a' & Ea & Ja).
    rewrite <- (H3 a' a); auto.
  - now rewrite <- L, <- E', map_length.
Qed.
Lemma has_exactly_positive n : has_exactly (fun x => x <> 0 /\ x < n) (n - 1).
Proof.
  apply (has_exactly_bij (fun x => x < n - 1) _ N.succ N.pred); try (intros; lia). apply has_exactly_below.
Qed.
(** removing one element *)
Lemma has_exactly_remove {A} (dec : forall a b : A, {a = b} + {a <> b}) (P : A -> Prop) (x : A) n : has_exactly P n -> P x ->
  has_exactly (fun a => P a /\ a <> x) (n - 1).
Proof.
  intros (l & Nd & I & L) Px. exists (remove dec x l). split; [|split].
  - clear - Nd. induction Nd as [|a l Ha Nd IH]; cbn; [constructor|]. destruct (dec x a); [exact IH|]. constructor; [|exact IH].
    intros Hi. apply in_remove in Hi. now apply Ha.
  - intros a. split.
    + intros Hi. apply in_remove in Hi. rewrite <- I. exact Hi.
    + intros [Ha Hx]. apply in_in_remove; [exact Hx|]. now apply I.
  - assert (Hi : In x l) by now apply I. clear I Px P. revert n L. induction Nd as [|a l Ha Nd IH]; intros n L; [destruct Hi|].
    cbn [remove]. destruct (dec x a) as [->|Hx].
    + rewrite notin_remove by exact Ha. cbn [length] in L. lia.
    + destruct Hi as [Hi|Hi]; [congruence|]. cbn [length] in *. specialize (IH Hi (n - 1)).
      destruct l as [|b l]; [destruct Hi|]. cbn [length] in *. rewrite Nat2N.inj_succ. rewrite IH by lia. lia.
Qed.

Section Orbit.
  Context {V : Type}.
  Variable wf : V -> Prop.
  Variable f : V -> V.
  Variable Ord : N.
  Hypothesis ord_pos : Ord <> 0.
  Hypothesis wf_f : forall v, wf v -> wf (f v).
  Hypothesis order : forall v, wf v -> forall n, N.iter n f v = v <-> (Ord | n).
  Hypothesis full : forall v w, wf v -> wf w -> exists n, n < Ord /\ N.iter n f v = w.
  Lemma orbit_count (Q : V -> Prop) k v : wf v -> has_exactly (fun t => wf t /\ Q t) k ->
    has_exactly (fun n => n < Ord /\ Q (N.iter n f v)) k.
  Proof.
    intros Hv. apply (has_exactly_pull _ _ (fun n => N.iter n f v)).
    - intros n [Hn Hq]. split; [|exact Hq]. now apply (iterN_wf wf f wf_f).
    - intros w [Hw Hq]. destruct (full v w Hv Hw) as (n & Hn & <-). eauto.
    - intros m n [Hm _] [Hn _]. now apply (orbit_inj wf f Ord ord_pos wf_f order).
  Qed.
End Orbit.

Section Pure.
  Context {S : Type}.
  Variable u : S -> outcome (N * S).
  Variable out : S -> N.
  Variable step : S -> S.
  Hypothesis pure : forall s, u s = Ret (out s, step s).
  Lemma occurs_at_iff s n t : occurs_at u s n t <-> exists s', runs u (N.iter n step s) t s'.
  Proof.
    split.
    - intros (xs & s1 & s2 & L & R1 & R2). rewrite (runs_iter u out step pure _ _ _ R1), L in R2. eauto.
    - intros (s' & R). destruct (runs_exist u out step pure (N.to_nat n) s) as (xs & L & R1). rewrite N2Nat.id in R1.
      exists xs, (N.iter n step s), s'. rewrite L, N2Nat.id. auto.
  Qed.
  Lemma runs_one s x : (exists s', runs u s [x] s') <-> out s = x.
  Proof.
    split.
    - intros (s' & R). inversion R as [|? ? ? ? ? E]; subst. rewrite pure in E. now inversion E.
    - intros <-. exists (step s). econstructor; [apply pure|constructor].
  Qed.
  Lemma runs_two s x y : (exists s', runs u s [x; y] s') <-> out s = x /\ out (step s) = y.
  Proof.
    split.
    - intros (s' & R). inversion R as [|? ? ? ? ? E R']; subst. rewrite pure in E. inversion E; subst.
      split; [reflexivity|]. apply runs_one. eauto.
    - intros [<- <-]. exists (step (step s)). do 2 (econstructor; [apply pure|]). constructor.
  Qed.
End Pure.
