(** Shuffles (util.go:152-189): C45, C46. *)
From Coq Require Import Lia ZifyN ZifyNat ZifyBool Permutation Factorial.
From Verif Require Import Model.Base Model.Rng Model.Util Spec.Common Spec.Counting Spec.Shuffling.
From Verif Require Import Proofs.WordLemmas Proofs.ReadProofs Proofs.SaveProofs Proofs.Count Proofs.PermCount Props.Rng Props.Compose.
Local Open Scope N_scope.

(** ** C45 *)
Section Swapper.
  Context {W : Type} (read : reader W) {D : Type} (len : D -> nat) (swap : D -> nat -> nat -> outcome D).
  Notation pick fuel ub n := (RNG_Uintn read fuel ub (N.of_nat n)).
  Lemma shuffle_loop_iff ub fuel n : forall k i d w d' w', shuffle_loop read ub swap fuel k i n d w = Ret (d', w') <->
    exists js, runs (pick fuel ub n) w js w' /\ length js = k /\ swap_calls swap i js d = Ret d'.
  Proof.
    induction k as [|k IH]; intros i d w d' w'; cbn [shuffle_loop].
    - split.
      + intros E. injection E as <- <-. exists []. repeat split. constructor.
      + intros (js & R & L & E). destruct js; [|discriminate L]. inversion R; subst. cbn in E. congruence.
    - split.
      + intros E. destruct (pick fuel ub n w) as [[j w1]| |] eqn:Ej; cbn [bind] in E; try discriminate E.
        destruct (swap d i (N.to_nat j)) as [d1| |] eqn:Es; cbn [bind] in E; try discriminate E.
        apply IH in E. destruct E as (js & R & L & E). exists (j :: js). split; [econstructor; eassumption|]. split; [cbn; lia|]. cbn [swap_calls]. now rewrite Es.
      + intros (js & R & L & E). destruct js as [|j js]; [discriminate L|]. inversion R as [|s x s1 xs s2 Ej Rj]; subst. rewrite Ej. cbn [bind].
        cbn [swap_calls] in E. destruct (swap d i (N.to_nat j)) as [d1| |]; cbn [bind] in *; try discriminate E. apply IH. exists js. cbn in L. auto.
  Qed.
  (** Shuffle on any Swapper: with n = Len(), exactly n index draws Uintn(n) and the n calls
      Swap(0, j0), ..., Swap(n-1, j(n-1)), in this order; every index is in range. *)
  Theorem C45_shuffle_calls ub fuel d w d' w' : Shuffle read ub len swap fuel d w = Ret (d', w') <->
    exists js, runs (pick fuel ub (len d)) w js w' /\ index_draws (len d) js /\ swap_calls swap 0 js d = Ret d'.
  Proof.
    unfold Shuffle. rewrite shuffle_loop_iff. split; intros (js & R & L & E); exists js; (split; [exact R|]).
    - split; [|exact E]. split; [exact L|]. clear - R. induction R as [|w x w1 xs w' Ex _ IH]; constructor; auto. exact (C26_uintn_in_range read _ _ _ _ _ _ Ex).
    - split; [apply L|exact E].
  Qed.
End Swapper.

Lemma slice_swap_same {A} (d : list A) i : (i < length d)%nat -> slice_swap d i i = Ret d.
Proof.
  intros H. destruct (nth_error d i) as [a|] eqn:E; [|apply nth_error_None in E; lia].
  apply nth_error_split in E. destruct E as (l1 & l2 & -> & <-). unfold slice_swap. rewrite aget_here. cbn [bind]. rewrite aset_here. cbn [bind]. apply aset_here.
Qed.
Lemma slice_swap_two {A} (p q r : list A) a b :
  slice_swap (p ++ a :: q ++ b :: r) (length p) (length p + S (length q)) = Ret (p ++ b :: q ++ a :: r) /\
  slice_swap (p ++ a :: q ++ b :: r) (length p + S (length q)) (length p) = Ret (p ++ b :: q ++ a :: r).
Proof.
  assert (R : forall a b, p ++ a :: q ++ b :: r = (p ++ a :: q) ++ b :: r) by (intros; rewrite <- app_assoc; reflexivity).
  assert (L : forall a, (length p + S (length q))%nat = length (p ++ a :: q)) by (intros; rewrite app_length; reflexivity).
  unfold slice_swap. split.
  - rewrite (R a b) at 1. rewrite (L a) at 1. rewrite aget_here. cbn [bind]. rewrite aget_here. cbn [bind]. rewrite aset_here. cbn [bind].
    rewrite (R b b), (L b), aset_here. now rewrite <- (R b a).
  - rewrite aget_here. cbn [bind]. rewrite (R a b) at 1. rewrite (L a) at 1. rewrite aget_here. cbn [bind]. rewrite (R a b), (L a), aset_here. cbn [bind].
    rewrite <- (R a a), aset_here. reflexivity.
Qed.
Lemma split_two {A} (d : list A) i j : (i < j < length d)%nat -> exists p a q b r, d = p ++ a :: q ++ b :: r /\ i = length p /\ j = (length p + S (length q))%nat.
Proof.
  intros H. destruct (nth_error d i) as [a|] eqn:E; [|apply nth_error_None in E; lia]. apply nth_error_split in E. destruct E as (p & l & -> & Ep).
  rewrite app_length in H. cbn [length] in H. destruct (nth_error l (j - S i)) as [b|] eqn:E; [|apply nth_error_None in E; lia]. apply nth_error_split in E.
  destruct E as (q & r & -> & Eq). exists p, a, q, b, r. split; [reflexivity|]. lia.
Qed.
Lemma slice_swap_perm {A} (d : list A) i j : (i < length d)%nat -> (j < length d)%nat -> exists d', slice_swap d i j = Ret d' /\ Permutation d d'.
Proof.
  intros Hi Hj. assert (P : forall p (a : A) q b r, Permutation (p ++ a :: q ++ b :: r) (p ++ b :: q ++ a :: r)).
  { intros. apply Permutation_app_head. rewrite <- !(Permutation_middle q). apply perm_swap. }
  destruct (Nat.lt_trichotomy i j) as [H|[<-|H]].
  - destruct (split_two d i j) as (p & a & q & b & r & -> & -> & ->); [lia|]. eexists. split; [apply slice_swap_two|apply P].
  - exists d. split; [now apply slice_swap_same|apply Permutation_refl].
  - destruct (split_two d j i) as (p & a & q & b & r & -> & -> & ->); [lia|]. eexists. split; [apply slice_swap_two|apply P].
Qed.
Lemma swap_calls_perm {A} (d : list A) : forall js i, (i + length js <= length d)%nat -> Forall (fun j => j < N.of_nat (length d)) js ->
  exists d', swap_calls slice_swap i js d = Ret d' /\ Permutation d d'.
Proof.
  intros js. revert d. induction js as [|j js IH]; intros d i Hi F; cbn [swap_calls]; [eauto using Permutation_refl|].
  inversion F as [|? ? Fj Fjs]; subst. cbn [length] in Hi. destruct (slice_swap_perm d i (N.to_nat j)) as (d1 & E1 & P1); [lia|lia|]. rewrite E1. cbn [bind].
  pose proof (Permutation_length P1) as L1. destruct (IH d1 (S i)) as (d2 & E2 & P2); [lia|rewrite <- L1; exact Fjs|]. exists d2. split; [exact E2|]. now transitivity d1.
Qed.
Section Slices.
  Context {W : Type} (read : reader W) {A : Type}.
  Lemma slice_loop_eq ub fuel : forall k i n (d : list A) w, length d = n -> (i + k <= n)%nat ->
    shuffle_slice_loop read ub fuel k i d w = shuffle_loop read ub slice_swap fuel k i n d w.
  Proof.
    induction k as [|k IH]; intros i n d w L H; cbn [shuffle_slice_loop shuffle_loop]; [reflexivity|]. unfold RNG_Intn. rewrite L.
    destruct (Z.ltb_spec (Z.of_nat n) 0) as [H0|_]; [lia|]. replace (Z.to_N (Z.of_nat n)) with (N.of_nat n) by lia.
    destruct (RNG_Uintn read fuel ub (N.of_nat n) w) as [[j w1]| |] eqn:Ej; cbn [bind]; [|reflexivity|reflexivity].
    pose proof (C26_uintn_in_range read _ _ _ _ _ _ Ej) as Hj. replace (Z.to_nat (Z.of_N j)) with (N.to_nat j) by lia.
    destruct (slice_swap_perm d i (N.to_nat j)) as (d1 & E1 & P1); [lia|lia|]. rewrite E1. cbn [bind]. apply IH; [|lia]. rewrite <- (Permutation_length P1). exact L.
  Qed.
  (** ShuffleInts, ShuffleFloat64s and ShuffleStrings behave exactly as Shuffle on the slice (same draws, same result) *)
  Theorem C45_slices_as_shuffle ub fuel (d : list A) w :
    ShuffleSlice read ub fuel d w = Shuffle read ub (@length A) slice_swap fuel d w.
  Proof. unfold ShuffleSlice, Shuffle. apply slice_loop_eq; [reflexivity|lia]. Qed.
  (** the result is a permutation of the input *)
  Theorem C45_permutes ub fuel (d : list A) w d' w' : ShuffleSlice read ub fuel d w = Ret (d', w') -> Permutation d d'.
  Proof.
    rewrite C45_slices_as_shuffle. intros E. apply C45_shuffle_calls in E. destruct E as (js & _ & [L F] & E).
    destruct (swap_calls_perm d js 0) as (d1 & E1 & P); [lia|exact F|]. rewrite E1 in E. injection E as <-. exact P.
  Qed.
  (** no index is ever out of range *)
  Theorem C45_never_panics ub fuel (d : list A) w : go_reader read -> total_reader read -> ShuffleSlice read ub fuel d w <> Panic.
  Proof.
    intros G T. unfold ShuffleSlice. enough (K : forall k i d w, (i + k <= length d)%nat -> shuffle_slice_loop read ub fuel k i d w <> Panic) by (apply K; lia).
    clear d w. induction k as [|k IH]; intros i d w H; cbn [shuffle_slice_loop]; [discriminate|].
    pose proof (C26_intn_panics_iff read fuel ub (Z.of_nat (length d)) w G T) as P.
    destruct (RNG_Intn read fuel ub (Z.of_nat (length d)) w) as [[j w1]| |] eqn:Ej; cbn [bind].
    - pose proof (C26_intn_in_range read _ _ _ _ _ _ Ej) as Hj. destruct (slice_swap_perm d i (Z.to_nat j)) as (d1 & E1 & P1); [lia|lia|]. rewrite E1. cbn [bind].
      apply IH. rewrite <- (Permutation_length P1). lia.
    - exfalso. assert (Z.of_nat (length d) <= 0)%Z by (now apply P). lia.
    - discriminate.
  Qed.
End Slices.
(** A source delivering in-range indices is used as is. *)
Lemma word_pick ub n fuel j w : 0 < n -> n < 2 ^ ub -> ub <= 64 -> j < n -> RNG_Uintn word_source (S fuel) ub n (j :: w) = Ret (j, w).
Proof.
  intros H0 Hn Hu Hj. apply C26_uintn_is_first_accepted_draw; [exact H0|]. exists [], j. split; [cbn; lia|].
  assert (H64 : j < 2 ^ 64) by (apply N.lt_le_trans with (2 ^ ub); [lia|apply N.pow_le_mono_r; lia]).
  split; [econstructor; [|constructor]|].
  - unfold RNG_Uint64, word_source. cbn [zeros repeat length bind]. rewrite get64_8 by apply le_bytes_length. cbn [bind]. now rewrite le_val_bytes8 by exact H64.
  - split; [constructor|]. rewrite (N.mod_small j (2 ^ ub)) by lia. split; [|symmetry; now apply N.mod_small]. unfold rejected. rewrite (N.mod_small j (2 ^ ub)) by lia.
    assert (1 <= (2 ^ ub - 1) / n) by (apply N.div_le_lower_bound; lia). nia.
Qed.
Lemma word_runs ub n fuel js : 0 < n -> n < 2 ^ ub -> ub <= 64 -> Forall (fun j => j < n) js -> runs (RNG_Uintn word_source (S fuel) ub n) js js [].
Proof. intros H0 Hn Hu. induction 1 as [|j js Hj _ IH]; [constructor|]. econstructor; [now apply word_pick|exact IH]. Qed.
Lemma word_shuffle {A} ub fuel (d : list A) js : N.of_nat (length d) < 2 ^ ub -> ub <= 64 -> index_draws (length d) js ->
  exists d', ShuffleSlice word_source ub (S fuel) d js = Ret (d', []) /\ swap_calls slice_swap 0 js d = Ret d' /\ Permutation d d'.
Proof.
  intros Hn Hu [L F]. destruct (swap_calls_perm d js 0) as (d' & E & P); [lia|exact F|]. exists d'. split; [|auto]. rewrite C45_slices_as_shuffle.
  apply C45_shuffle_calls. exists js. split; [|split; [split; assumption|exact E]].
  destruct js as [|j js]; [constructor|]. apply word_runs; auto. inversion F; lia.
Qed.
Lemma swap_calls_reach {A} : forall (l' p l : list A), Permutation l l' -> exists js, length js = length l /\
  Forall (fun j => j < N.of_nat (length (p ++ l))) js /\ swap_calls slice_swap (length p) js (p ++ l) = Ret (p ++ l').
Proof.
  induction l' as [|x l' IH]; intros p l P.
  - apply Permutation_sym, Permutation_nil in P. subst l. exists []. repeat split. constructor.
  - assert (Hin : In x l) by (apply (Permutation_in _ (Permutation_sym P)); now left). apply in_split in Hin. destruct Hin as (l1 & l2 & ->).
    assert (K : exists l3, Permutation l3 l' /\ length l3 = (length l1 + length l2)%nat /\ slice_swap (p ++ l1 ++ x :: l2) (length p) (length p + length l1) = Ret (p ++ x :: l3)).
    { destruct l1 as [|y l1].
      - exists l2. split; [apply (Permutation_cons_inv (a := x)); exact P|]. split; [reflexivity|]. cbn [length app]. rewrite Nat.add_0_r. apply slice_swap_same. rewrite app_length. cbn [length]. lia.
      - exists (l1 ++ y :: l2). split; [|split].
        + apply (Permutation_cons_inv (a := x)). rewrite <- P. cbn [app]. rewrite <- !(Permutation_middle l1). apply perm_swap.
        + rewrite app_length. cbn [length]. lia.
        + cbn [length app]. apply slice_swap_two. }
    destruct K as (l3 & P3 & L3 & E3). destruct (IH (p ++ [x]) l3 P3) as (js & L & F & E).
    exists (N.of_nat (length p + length l1) :: js). split; [cbn [length]; rewrite app_length; cbn [length]; lia|]. split.
    + constructor; [rewrite !app_length; cbn [length]; lia|]. replace (length (p ++ l1 ++ x :: l2)) with (length ((p ++ [x]) ++ l3)); [exact F|].
      rewrite !app_length. cbn [length]. lia.
    + cbn [swap_calls]. rewrite Nat2N.id, E3. cbn [bind]. replace (S (length p)) with (length (p ++ [x])) by (rewrite app_length; cbn; lia).
      rewrite <- !app_assoc in E. cbn [app] in E. exact E.
Qed.
(** every order can come out: for each permutation of the data there are index draws giving it *)
Theorem C45_every_order_possible {A} ub fuel (d d' : list A) : N.of_nat (length d) < 2 ^ ub -> ub <= 64 -> Permutation d d' ->
  exists js, index_draws (length d) js /\ ShuffleSlice word_source ub (S fuel) d js = Ret (d', []).
Proof.
  intros Hn Hu P. destruct (swap_calls_reach d' [] d P) as (js & L & F & E). cbn [app length] in *. exists js.
  assert (I : index_draws (length d) js) by (split; assumption). split; [exact I|].
  destruct (word_shuffle ub fuel d js Hn Hu I) as (d1 & -> & E1 & _). rewrite E in E1. now injection E1 as ->.
Qed.
Example C45_nonvacuous : ShuffleSlice word_source 64 1 [10; 20; 30] [2; 2; 0] = Ret ([20; 10; 30], []) /\
  index_draws 3 [2; 2; 0] /\ Permutation [10; 20; 30] [20; 10; 30].
Proof. split; [vm_compute; reflexivity|]. split; [split; [reflexivity|repeat constructor]|apply perm_swap]. Qed.

(** ** C46: with n >= 3 distinct elements and all n^n index sequences equally likely, the orders are not equally likely. *)
Theorem C46_not_uniform {A} (eq_dec : forall a b : A, {a = b} + {a <> b}) ub fuel (d : list A) : NoDup d -> (3 <= length d)%nat ->
  N.of_nat (length d) < 2 ^ ub -> ub <= 64 ->
  ~ exists c, forall d', Permutation d d' ->
      has_exactly (fun js => index_draws (length d) js /\ ShuffleSlice word_source ub (S fuel) d js = Ret (d', [])) c.
Proof.
  intros N H3 Hn Hu (c & H).
  set (f := fun js => match ShuffleSlice word_source ub (S fuel) d js with Ret (d', _) => d' | _ => [] end).
  assert (T : has_exactly (index_draws (length d)) (N.of_nat (fact (length d)) * c)).
  { apply (fiber_sum _ (Permutation d) f); [|apply (perms_count eq_dec d N)|].
    - intros js I. destruct (word_shuffle ub fuel d js Hn Hu I) as (d' & E & _ & P). unfold f. now rewrite E.
    - intros d' P. specialize (H d' P). revert H. apply has_exactly_ext. intros js. split; intros [I E]; (split; [exact I|]).
      + unfold f. now rewrite E.
      + unfold f in E. destruct (word_shuffle ub fuel d js Hn Hu I) as (d1 & E1 & _ & _). rewrite E1 in *. now rewrite E. }
  pose proof (has_exactly_unique _ _ _ T (draws_count (N.of_nat (length d)) (length d))) as E.
  apply (fact_not_div (length d) (N.to_nat c) H3). apply Nat2N.inj. rewrite Nat2N.inj_mul, N2Nat.id, E. symmetry.
  clear. assert (K : forall m k, N.of_nat m ^ N.of_nat k = N.of_nat (m ^ k)); [|apply K].
  induction k as [|k IH]; [reflexivity|]. rewrite Nat2N.inj_succ, N.pow_succ_r'. cbn [Nat.pow]. rewrite Nat2N.inj_mul. now rewrite IH.
Qed.
(** For at most two elements the orders are equally likely. *)
Theorem C46_uniform_up_to_two {A} ub fuel (d d' : list A) : NoDup d -> (length d <= 2)%nat -> N.of_nat (length d) < 2 ^ ub -> ub <= 64 -> Permutation d d' ->
  has_exactly (fun js => index_draws (length d) js /\ ShuffleSlice word_source ub (S fuel) d js = Ret (d', [])) (N.of_nat (Nat.max 1 (length d))).
Proof.
  intros N H2 Hn Hu P.
  assert (X : forall js, index_draws (length d) js -> (ShuffleSlice word_source ub (S fuel) d js = Ret (d', []) <-> swap_calls slice_swap 0 js d = Ret d')).
  { intros js I. destruct (word_shuffle ub fuel d js Hn Hu I) as (d1 & E1 & E2 & _). rewrite E1, E2. split; intros E; injection E as ->; reflexivity. }
  apply (has_exactly_ext (fun js => index_draws (length d) js /\ swap_calls slice_swap 0 js d = Ret d')).
  { intros js. split; intros [I E]; (split; [exact I|]); now apply X. }
  clear X Hn. destruct d as [|a [|b [|? ?]]]; cbn [length] in *; try lia.
  - apply Permutation_nil in P. subst d'. exists [[]]. split; [repeat constructor; intros []|]. split; [|reflexivity]. intros js. split.
    + intros [<-|[]]. split; [split; [reflexivity|constructor]|reflexivity].
    + intros [[L _] _]. destruct js; [now left|discriminate L].
  - apply Permutation_length_1_inv in P. subst d'. exists [[0]]. split; [repeat constructor; intros []|]. split; [|reflexivity]. intros js. split.
    + intros [<-|[]]. split; [split; [reflexivity|repeat constructor]|reflexivity].
    + intros [[L F] _]. destruct js as [|j [|? ?]]; try discriminate L. inversion F; subst. left. f_equal. lia.
  - assert (Hab : a <> b) by (inversion N as [|? ? Ha _]; subst; intros ->; apply Ha; now left).
    assert (J : forall js, index_draws 2 js <-> In js [[0; 0]; [0; 1]; [1; 0]; [1; 1]]).
    { intros js. split.
      - intros [L F]. destruct js as [|j [|k [|? ?]]]; try discriminate L. inversion F as [|? ? Fj F']; subst. inversion F' as [|? ? Fk _]; subst. change (N.of_nat 2) with 2 in *.
        assert (j = 0 \/ j = 1) as [->| ->] by lia; assert (k = 0 \/ k = 1) as [->| ->] by lia; cbn; auto.
      - intros H. cbn in H. destruct H as [<-|[<-|[<-|[<-|[]]]]]; (split; [reflexivity|repeat constructor]). }
    assert (S : forall js, In js [[0; 0]; [0; 1]; [1; 0]; [1; 1]] -> swap_calls slice_swap 0 js [a; b] = Ret (if list_eq_dec N.eq_dec js [0; 1] then [a; b] else if list_eq_dec N.eq_dec js [1; 0] then [a; b] else [b; a])).
    { intros js H. cbn in H. destruct H as [<-|[<-|[<-|[<-|[]]]]]; reflexivity. }
    apply Permutation_length_2_inv in P. destruct P as [->| ->].
    + exists [[0; 1]; [1; 0]]. split; [|split; [|reflexivity]].
      * constructor; [intros [H|[]]; discriminate H|]. constructor; [intros []|constructor].
      * intros js. rewrite J. split.
        -- intros H. cbn in H. destruct H as [<-|[<-|[]]]; (split; [cbn; tauto|reflexivity]).
        -- intros [H E]. cbn in H. destruct H as [<-|[<-|[<-|[<-|[]]]]]; cbn in E; try (injection E as E1 E2; congruence); cbn; auto.
    + exists [[0; 0]; [1; 1]]. split; [|split; [|reflexivity]].
      * constructor; [intros [H|[]]; discriminate H|]. constructor; [intros []|constructor].
      * intros js. rewrite J. split.
        -- intros H. cbn in H. destruct H as [<-|[<-|[]]]; (split; [cbn; tauto|reflexivity]).
        -- intros [H E]. cbn in H. destruct H as [<-|[<-|[<-|[<-|[]]]]]; cbn in E; try (injection E as E1 E2; congruence); cbn; auto.
Qed.
Example C46_nonvacuous : NoDup [1; 2; 3] /\ (3 <= length [1; 2; 3])%nat /\ N.of_nat (length [1; 2; 3]) < 2 ^ 64.
Proof. split; [|split; [cbn; lia|reflexivity]]. repeat (constructor; [cbn; intuition discriminate|]). constructor. Qed.
