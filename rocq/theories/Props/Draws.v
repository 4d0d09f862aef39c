(** Properties C65-C67: the distributions of Uintn, Intn, RandString and the shuffles on uniform words. *)
From Coq Require Import Reals Lia Lra Psatz ZifyN ZifyNat ZifyBool Bool Permutation Zpow_facts.
From Coquelicot Require Import Coquelicot.
From Verif Require Import Model.Base Model.Rng Model.Util Model.Utf8 Spec.Common Spec.Counting Spec.Zig Spec.Prob Spec.Shuffling.
From Verif Require Import Proofs.WordLemmas Proofs.ReadProofs Proofs.SaveProofs Proofs.SumN Proofs.PermCount Proofs.UintnLaw Props.Rng Props.Strings Props.Shuffle.
Local Open Scope R_scope.

(** ** C65 *)
Lemma sumN_pick (f : N -> R) r m : (r < m)%N -> sumN (fun j => f j * (if (j =? r)%N then 1 else 0)) m = f r.
Proof.
  induction m as [|m IH] using N.peano_ind; [lia|]. intros H. rewrite sumN_S. destruct (N.eqb_spec m r) as [->|Hm].
  - rewrite (sumN_ext _ (fun _ => 0)), sumN_const; [ring|]. intros j Hj. destruct (N.eqb_spec j r); [lia|ring].
  - rewrite IH by lia. ring.
Qed.
Lemma width b : b = 32%N \/ b = 64%N -> (b <= 64)%N. Proof. lia. Qed.
Theorem C65_uintn_distribution b max r : b = 32%N \/ b = 64%N -> (0 < max < 2 ^ b)%N -> (r < max)%N ->
  draw_prob (fun fuel ws => RNG_Uintn tape fuel b max ws) (fun x => x = r) (uintn_share b max r).
Proof.
  intros Hb Hm Hr.
  replace (uintn_share b max r) with (independent (uintn_share b max) max 1 (fun js => match js with [j] => (j =? r)%N | _ => false end)).
  2:{ cbn [independent]. rewrite sum_below_sumN. apply sumN_pick, Hr. }
  apply (law_of b max (width b Hb) Hm). intros ws F. split.
  - intros (fuel & x & ws' & E & ->). exists fuel, [r], ws'. split; [econstructor; [exact E|constructor]|]. split; [reflexivity|apply N.eqb_refl].
  - intros (fuel & js & ws' & R & L & G). destruct js as [|j [|]]; try discriminate. apply N.eqb_eq in G. subst j.
    inversion R as [|? ? s1 ? ? E R']; subst. inversion R'; subst. eauto.
Qed.
Theorem C65_intn_distribution b max r : b = 32%N \/ b = 64%N -> (0 < max < 2 ^ Z.of_N b)%Z -> (0 <= r < max)%Z ->
  draw_prob (fun fuel ws => RNG_Intn tape fuel b max ws) (fun x => x = r) (uintn_share b (Z.to_N max) (Z.to_N r)).
Proof.
  intros Hb Hm Hr. assert (HB : Z.to_N max = Z.to_N max /\ (Z.to_N max < 2 ^ b)%N).
  { split; [reflexivity|]. apply N2Z.inj_lt. rewrite Z2N.id, N2Z.inj_pow by lia. apply Hm. }
  destruct (C65_uintn_distribution b (Z.to_N max) (Z.to_N r) Hb ltac:(lia) ltac:(lia)) as (q & P & L).
  exists q. split; [|exact L]. intros n. destruct (P n) as (c & C & E). exists c. split; [|exact E].
  revert C. apply Count.has_exactly_ext. intros ws.
  enough ((exists fuel f ws', RNG_Uintn tape fuel b (Z.to_N max) ws = Ret (f, ws') /\ f = Z.to_N r) <->
          (exists fuel f ws', RNG_Intn tape fuel b max ws = Ret (f, ws') /\ f = r)) by tauto.
  unfold RNG_Intn. destruct (Z.ltb_spec max 0) as [H0|_]; [lia|]. split; intros (fuel & f & ws' & E1 & E2); exists fuel.
  - rewrite E1. cbn [bind]. do 2 eexists. split; [reflexivity|]. lia.
  - destruct (RNG_Uintn tape fuel b (Z.to_N max) ws) as [[y w1]| |]; cbn [bind] in E1; try discriminate. inversion E1; subst. do 2 eexists. split; [reflexivity|lia].
Qed.
(** the shares are within 1/(2^b - max) of 1/max, and add up to 1: Uintn returns with probability 1 *)
Theorem C65_nearly_uniform b max r : (0 < max < 2 ^ b)%N -> (r < max)%N ->
  Rabs (uintn_share b max r - / IZR (Z.of_N max)) <= / IZR (Z.of_N (2 ^ b - max)).
Proof.
  intros Hm Hr. pose proof (split_range b max Hm) as SR. unfold uintn_share. fold (q b max).
  assert (R1 : (rest b max < max)%N) by (apply N.mod_lt; lia).
  set (Q := q b max) in *. assert (A1 : (2 ^ b - max <= Q * max + 1)%N) by lia. assert (A2 : (0 < 2 ^ b - max)%N) by lia.
  assert (P1 : 0 < IZR (Z.of_N max)) by (apply IZR_lt; lia). assert (P2 : 0 < IZR (Z.of_N (2 ^ b - max))) by (apply IZR_lt; lia).
  assert (P3 : IZR (Z.of_N (2 ^ b - max)) <= IZR (Z.of_N (Q * max + 1))) by (apply IZR_le; lia).
  assert (EQ : IZR (Z.of_N (Q * max + 1)) = IZR (Z.of_N Q) * IZR (Z.of_N max) + 1) by (rewrite N2Z.inj_add, N2Z.inj_mul, plus_IZR, mult_IZR; reflexivity).
  set (T := IZR (Z.of_N (Q * max + 1))) in *. set (M := IZR (Z.of_N max)) in *.
  apply Rle_trans with (/ T); [|apply Rinv_le_contravar; lra].
  assert (M1 : 1 <= M) by (apply IZR_le; lia).
  assert (K : forall c, (c - T / M) * / T = c / T - / M) by (intros c; field; split; lra).
  rewrite <- K, Rabs_mult, (Rabs_pos_eq (/ T)) by (left; apply Rinv_0_lt_compat; lra).
  rewrite <- (Rmult_1_l (/ T)) at 2. apply Rmult_le_compat_r; [left; apply Rinv_0_lt_compat; lra|].
  replace (T / M) with (IZR (Z.of_N Q) + / M) by (rewrite EQ; field; lra).
  assert (I : 0 < / M <= 1) by (split; [now apply Rinv_0_lt_compat|]; rewrite <- Rinv_1; apply Rinv_le_contravar; lra).
  destruct (r =? 0)%N; [rewrite N2Z.inj_add, plus_IZR|]; apply Rabs_le; cbn; lra.
Qed.
Lemma share_total b max : (0 < max < 2 ^ b)%N -> sumN (uintn_share b max) max = 1.
Proof.
  intros Hm. pose proof (split_range b max Hm) as SR.
  assert (D : forall (Q : N) m, (0 < m)%N -> sumN (fun j => IZR (Z.of_N (if (j =? 0)%N then Q + 1 else Q))) m = IZR (Z.of_N (Q * m + 1))).
  { intros Q m. induction m as [|m IH] using N.peano_ind; [lia|]. intros _. rewrite sumN_S. destruct (N.eqb_spec m 0) as [->|H0].
    - rewrite sumN_0. rewrite Rplus_0_l. f_equal. f_equal. lia.
    - rewrite IH by lia. rewrite <- plus_IZR. f_equal. lia. }
  unfold uintn_share. fold (q b max). set (T := IZR (Z.of_N (q b max * max + 1))).
  assert (PT : 0 < T) by (apply IZR_lt; lia).
  rewrite (sumN_ext _ (fun j => / T * IZR (Z.of_N (if (j =? 0)%N then q b max + 1 else q b max)))) by (intros; unfold Rdiv; apply Rmult_comm).
  rewrite sumN_scal, D by lia. fold T. field. lra.
Qed.
Theorem C65_uintn_returns b max : b = 32%N \/ b = 64%N -> (0 < max < 2 ^ b)%N ->
  draw_prob (fun fuel ws => RNG_Uintn tape fuel b max ws) (fun x => (x < max)%N) 1.
Proof.
  intros Hb Hm.
  replace 1 with (independent (uintn_share b max) max 1 (fun _ => true)).
  2:{ cbn [independent]. rewrite sum_below_sumN. transitivity (sumN (uintn_share b max) max); [|apply share_total, Hm]. apply sumN_ext. intros j _. apply Rmult_1_r. }
  apply (law_of b max (width b Hb) Hm). intros ws F. split.
  - intros (fuel & x & ws' & E & Hx). exists fuel, [x], ws'. split; [econstructor; [exact E|constructor]|]. auto.
  - intros (fuel & js & ws' & R & L & G). destruct js as [|j [|]]; try discriminate.
    inversion R as [|? ? s1 ? ? E R']; subst. inversion R'; subst. do 3 eexists. split; [exact E|]. now apply C26_uintn_in_range in E.
Qed.
Example C65_nonvacuous : uintn_share 64 10 7 = 1844674407370955161 / 18446744073709551611 /\
  uintn_share 64 10 0 = 1844674407370955162 / 18446744073709551611.
Proof. split; reflexivity. Qed.

(** ** C66 *)
(** the share of the letter c: that of the positions where it stands in the alphabet *)
Definition letter_share (b : N) (a : list N) (c : N) : R :=
  sum_below (N.of_nat (length a)) (fun j => if (nth (N.to_nat j) a 0 =? c)%N then uintn_share b (N.of_nat (length a)) j else 0).
Fixpoint letters (a : list N) (target js : list N) : bool :=
  match target, js with
  | [], [] => true
  | c :: target, j :: js => (nth (N.to_nat j) a 0 =? c)%N && letters a target js
  | _, _ => false
  end.
Lemma letters_iff a target : forall js, letters a target js = true <-> map (fun j => nth (N.to_nat j) a 0%N) js = target.
Proof.
  induction target as [|c t IH]; intros [|j js]; cbn [letters map]; try (split; [discriminate|discriminate]); [tauto|].
  rewrite andb_true_iff, IH, N.eqb_eq. split; [intros [-> ->]; reflexivity|intros E; inversion E; auto].
Qed.
Lemma independent_ext sh m k : forall G H, (forall js, length js = k -> G js = H js) -> independent sh m k G = independent sh m k H.
Proof.
  induction k as [|k IH]; intros G H E; cbn [independent]; [now rewrite E|]. rewrite !sum_below_sumN. apply sumN_ext. intros j _. f_equal.
  apply IH. intros js L. apply E. cbn. now rewrite L.
Qed.
Lemma independent_false sh m k : independent sh m k (fun _ => false) = 0.
Proof.
  induction k as [|k IH]; cbn [independent]; [reflexivity|]. rewrite sum_below_sumN. rewrite (sumN_ext _ (fun _ => 0)), sumN_const; [ring|]. intros. rewrite IH. ring.
Qed.
Lemma letters_prob b a target : independent (uintn_share b (N.of_nat (length a))) (N.of_nat (length a)) (length target) (letters a target) =
  fold_right Rmult 1 (map (letter_share b a) target).
Proof.
  induction target as [|c t IH]; [reflexivity|]. cbn [length independent map fold_right]. rewrite <- IH. unfold letter_share. rewrite !sum_below_sumN.
  rewrite Rmult_comm, <- sumN_scal. apply sumN_ext. intros j _. cbn [letters]. destruct (nth (N.to_nat j) a 0%N =? c)%N; cbn [andb].
  - etransitivity; [apply Rmult_comm|]. apply (f_equal (fun z => z * _)), independent_ext. reflexivity.
  - rewrite independent_false. ring.
Qed.
(** RandString returns a string with the characters [target] with the product of their shares: the characters are
    independent, each drawn by Uintn(number of characters in the alphabet). *)
Theorem C66_randstring_distribution b alphabet target : b = 32%N \/ b = 64%N ->
  let a := string_runes alphabet in
  (0 < length a)%nat -> (N.of_nat (length a) < 2 ^ b)%N ->
  draw_prob (fun fuel ws => RandString tape b fuel alphabet (Z.of_nat (length target)) ws) (fun s => string_runes s = target)
    (fold_right Rmult 1 (map (letter_share b a) target)).
Proof.
  intros Hb a Ha Hl. rewrite <- letters_prob. apply (law_of b (N.of_nat (length a)) (width b Hb) ltac:(lia)).
  intros ws F. split.
  - intros (fuel & s & ws' & E & Hs). destruct (C44_randstring tape b fuel alphabet _ ws s ws' E) as (_ & js & R & L & _ & Es). fold a in R, Es.
    rewrite Nat2Z.id in L. exists fuel, js, ws'. split; [exact R|]. split; [exact L|]. apply letters_iff. now rewrite <- Es.
  - intros (fuel & js & ws' & R & L & G). destruct (C44_randstring_returns tape b fuel alphabet (Z.of_nat (length target)) ws js ws') as (s & E); [lia|exact R|lia|].
    exists fuel, s, ws'. split; [exact E|]. destruct (C44_randstring tape b fuel alphabet _ ws s ws' E) as (_ & js' & R' & L' & _ & Es). fold a in R', Es.
    destruct (runs_det _ _ _ _ R' _ _ R) as [-> _]; [lia|]. rewrite Es. now apply letters_iff.
Qed.
(** for an alphabet without repetition each character's share is within 1/(2^b - n) of 1/n *)
Theorem C66_letters_nearly_uniform b a c : NoDup a -> In c a -> (N.of_nat (length a) < 2 ^ b)%N ->
  Rabs (letter_share b a c - / INR (length a)) <= / IZR (Z.of_N (2 ^ b - N.of_nat (length a))).
Proof.
  intros Nd Hc Hl. apply In_nth with (d := 0%N) in Hc. destruct Hc as (i & Hi & Ei).
  assert (E : letter_share b a c = uintn_share b (N.of_nat (length a)) (N.of_nat i)).
  { unfold letter_share. rewrite sum_below_sumN. rewrite <- (sumN_pick (uintn_share b (N.of_nat (length a))) (N.of_nat i) (N.of_nat (length a))) by lia.
    apply sumN_ext. intros j Hj. destruct (N.eqb_spec j (N.of_nat i)) as [->|Hn].
    - rewrite Nat2N.id, Ei, N.eqb_refl. ring.
    - destruct (N.eqb_spec (nth (N.to_nat j) a 0%N) c) as [En|_]; [|ring]. exfalso. apply Hn.
      rewrite NoDup_nth with (d := 0%N) in Nd. rewrite <- (Nd (N.to_nat j) i); [lia|lia|lia|congruence]. }
  rewrite E, INR_IZR_INZ, <- nat_N_Z. apply C65_nearly_uniform; lia.
Qed.

Example C66_nonvacuous : (* "aab": a has twice the share of b, nearly *)
  letter_share 64 [97; 97; 98]%N 97 = 12297829382473034411 / 18446744073709551616 /\ letter_share 64 [97; 97; 98]%N 98 = 6148914691236517205 / 18446744073709551616.
Proof.
  unfold letter_share. cbn [length]. change (N.of_nat 3) with 3%N. assert (E : uintn_share 64 3 0 = 6148914691236517206 / 18446744073709551616 /\ uintn_share 64 3 1 = 6148914691236517205 / 18446744073709551616 /\
    uintn_share 64 3 2 = 6148914691236517205 / 18446744073709551616) by (repeat split; reflexivity).
  revert E. generalize (uintn_share 64 3). intros sh (s0 & s1 & s2). unfold sum_below. change (N.to_nat 3) with 3%nat. cbn -[IZR].
  change (Pos.to_nat 1) with 1%nat; change (Pos.to_nat 2) with 2%nat; cbn -[IZR]. rewrite s0, s1, s2. change (97 =? 97)%N with true; change (98 =? 97)%N with false; change (97 =? 98)%N with false; change (98 =? 98)%N with true. split; lra.
Qed.

(** ** C67 *)
(** The shuffles of slices: n = len(data) independent indices below n are drawn, and give the order d' with the total
    share of the index sequences that swap the data into d'. *)
Theorem C67_shuffle_distribution {A} (dec : forall x y : list A, {x = y} + {x <> y}) b (d d' : list A) : b = 32%N \/ b = 64%N ->
  (0 < length d)%nat -> (N.of_nat (length d) < 2 ^ b)%N ->
  draw_prob (fun fuel ws => ShuffleSlice tape b fuel d ws) (fun r => r = d')
    (independent (uintn_share b (N.of_nat (length d))) (N.of_nat (length d)) (length d)
      (fun js => match swap_calls slice_swap 0 js d with Ret r => if dec r d' then true else false | _ => false end)).
Proof.
  intros Hb Hd Hl. apply (law_of b (N.of_nat (length d)) (width b Hb) ltac:(lia)). intros ws F. split.
  - intros (fuel & r & ws' & E & ->). rewrite C45_slices_as_shuffle in E. apply C45_shuffle_calls in E. destruct E as (js & R & [L _] & E).
    exists fuel, js, ws'. split; [exact R|]. split; [exact L|]. rewrite E. now destruct (dec d' d').
  - intros (fuel & js & ws' & R & L & G). destruct (swap_calls slice_swap 0 js d) as [r| |] eqn:E; try discriminate. destruct (dec r d') as [->|]; [|discriminate].
    exists fuel, d', ws'. split; [|reflexivity]. rewrite C45_slices_as_shuffle. apply C45_shuffle_calls. exists js. split; [exact R|]. split; [|exact E].
    split; [exact L|]. clear - R. induction R as [|w x w1 xs w' Ex _ IH]; constructor; auto. exact (C26_uintn_in_range tape _ _ _ _ _ _ Ex).
Qed.
(** The number of those sequences settles the probability up to the bias of Uintn. *)
Lemma independent_count m k : forall G, exists c, has_exactly (fun js => (length js = k /\ Forall (fun j => (j < m)%N) js) /\ G js = true) c /\
  independent (fun _ => 1) m k G = IZR (Z.of_N c).
Proof.
  induction k as [|k IH]; intros G; cbn [independent].
  - destruct (G []) eqn:E.
    + exists 1%N. split; [|reflexivity]. exists [[]]. split; [repeat constructor; intros []|]. split; [|reflexivity]. intros js. split.
      * intros [<-|[]]. auto.
      * intros [[L _] _]. destruct js; [now left|discriminate].
    + exists 0%N. split; [|reflexivity]. apply Count.has_exactly_none. intros js [[L _] H]. destruct js; [congruence|discriminate].
  - rewrite sum_below_sumN.
    assert (S : forall m', (m' <= m)%N -> exists c, has_exactly (fun js => ((length js = S k /\ Forall (fun j => (j < m)%N) js) /\ G js = true) /\ (hd 0 js < m')%N) c /\
       sumN (fun j => 1 * independent (fun _ => 1) m k (fun js => G (j :: js))) m' = IZR (Z.of_N c)).
    { intros m'. induction m' as [|m' IHm] using N.peano_ind; intros Hm.
      - exists 0%N. rewrite sumN_0. split; [|reflexivity]. apply Count.has_exactly_none. intros js [_ H]. lia.
      - destruct IHm as (c & C & E); [lia|]. destruct (IH (fun js => G (m' :: js))) as (c' & C' & E'). exists (c + c')%N. split.
        + apply (Count.has_exactly_ext (fun js => (((length js = S k /\ Forall (fun j => (j < m)%N) js) /\ G js = true) /\ (hd 0 js < m')%N) \/
            (((length js = S k /\ Forall (fun j => (j < m)%N) js) /\ G js = true) /\ hd 0%N js = m'))).
          { intros js. split; [intros [[H1 H2]|[H1 H2]]; (split; [exact H1|lia])|]. intros [H1 H2]. destruct (N.eq_dec (hd 0%N js) m'); [right|left; split; [exact H1|lia]]. auto. }
          apply PermCount.has_exactly_or; [intros js [_ H1] [_ H2]; lia|exact C|].
          apply (Count.has_exactly_bij _ _ (fun js => m' :: js) (@tl N)) with (5 := C').
          * intros js [[L F] H]. cbn [hd length]. split; [|reflexivity]. split; [|exact H]. split; [lia|]. constructor; [lia|exact F].
          * intros js [[[L F] H] Hh]. destruct js as [|j js]; [discriminate|]. cbn [hd] in Hh. subst j. inversion F; subst. injection L as L. cbn [tl]. auto.
          * reflexivity.
          * intros js [[[L F] H] Hh]. destruct js as [|j js]; [discriminate|]. cbn [hd] in Hh. subst j. reflexivity.
        + rewrite sumN_S, E, E', N2Z.inj_add, plus_IZR. apply (f_equal (fun z => _ + z)). ring. }
    destruct (S m (N.le_refl m)) as (c & C & E). exists c. split; [|exact E]. revert C. apply Count.has_exactly_ext. intros js. split; [tauto|]. intros H.
    split; [exact H|]. destruct H as [[L F] _]. destruct js as [|j js]; [discriminate|]. now inversion F.
Qed.
Lemma independent_nonneg sh m k : (forall j, (j < m)%N -> 0 <= sh j) -> forall G, 0 <= independent sh m k G.
Proof.
  intros Hs. induction k as [|k IH]; intros G; cbn [independent]; [destruct (G []); lra|]. rewrite sum_below_sumN.
  rewrite <- (Rmult_0_r (IZR (Z.of_N m))), <- sumN_const. apply sumN_le. intros j Hj. apply Rmult_le_pos; [now apply Hs|apply IH].
Qed.
Lemma independent_between sh m k lo hi : 0 <= lo -> (forall j, (j < m)%N -> lo <= sh j <= hi) -> forall G,
  lo ^ k * independent (fun _ => 1) m k G <= independent sh m k G <= hi ^ k * independent (fun _ => 1) m k G.
Proof.
  intros H0 Hs. induction k as [|k IH]; intros G; cbn [independent pow]; [destruct (G []); lra|]. rewrite !sum_below_sumN, <- !sumN_scal.
  assert (N1 : forall j, 0 <= independent (fun _ => 1) m k (fun js => G (j :: js))) by (intros j; apply independent_nonneg; intros; lra).
  split; apply sumN_le; intros j Hj; destruct (IH (fun js => G (j :: js))) as [A B]; destruct (Hs j Hj) as [C D]; specialize (N1 j).
  - rewrite Rmult_1_l. replace (lo * lo ^ k * independent (fun _ => 1) m k (fun js => G (j :: js))) with (lo * (lo ^ k * independent (fun _ => 1) m k (fun js => G (j :: js)))) by ring.
    apply Rmult_le_compat; auto. apply Rmult_le_pos; [now apply pow_le|exact N1].
  - rewrite Rmult_1_l. replace (hi * hi ^ k * independent (fun _ => 1) m k (fun js => G (j :: js))) with (hi * (hi ^ k * independent (fun _ => 1) m k (fun js => G (j :: js)))) by ring.
    apply Rmult_le_compat; auto; [lra|]. apply Rle_trans with (lo ^ k * independent (fun _ => 1) m k (fun js => G (j :: js))); [|exact A]. apply Rmult_le_pos; [now apply pow_le|exact N1].
Qed.
Theorem C67_shuffle_counts {A} (dec : forall x y : list A, {x = y} + {x <> y}) b (d d' : list A) c : b = 32%N \/ b = 64%N ->
  (0 < length d)%nat -> (N.of_nat (length d) < 2 ^ b)%N ->
  has_exactly (fun js => index_draws (length d) js /\ swap_calls slice_swap 0 js d = Ret d') c ->
  let q := ((2 ^ b - 1) / N.of_nat (length d))%N in let T := IZR (Z.of_N (q * N.of_nat (length d) + 1)) in
  exists p, draw_prob (fun fuel ws => ShuffleSlice tape b fuel d ws) (fun r => r = d') p /\
    IZR (Z.of_N c) * (IZR (Z.of_N q) / T) ^ length d <= p <= IZR (Z.of_N c) * (IZR (Z.of_N (q + 1)) / T) ^ length d.
Proof.
  intros Hb Hd Hl Hc Q T. eexists. split; [apply (C67_shuffle_distribution dec b d d' Hb Hd Hl)|].
  match goal with |- _ <= independent ?sh ?m ?k ?F <= _ => destruct (independent_count m k F) as (c' & C' & E'); pose proof (independent_between sh m k (IZR (Z.of_N Q) / T) (IZR (Z.of_N (Q + 1)) / T)) as K; specialize (fun a b => K a b F) end.
  assert (c' = c) as ->.
  { apply (Count.has_exactly_unique _ _ _ C'). revert Hc. apply Count.has_exactly_ext. intros js. unfold index_draws.
    destruct (swap_calls slice_swap 0 js d) as [r| |]; [destruct (dec r d') as [->|Hn]| |]; split; intros [H1 H2]; (split; [exact H1|]); try congruence; try reflexivity; try discriminate. }
  assert (PT : 0 < T) by (apply IZR_lt; lia). assert (PI : 0 < / T) by now apply Rinv_0_lt_compat.
  rewrite E' in K. rewrite !(Rmult_comm (IZR (Z.of_N c))). apply K.
  - apply Rmult_le_pos; [apply IZR_le; lia|lra].
  - intros j Hj. unfold uintn_share. fold Q. fold T. unfold Rdiv. split; apply Rmult_le_compat_r; try lra; apply IZR_le; destruct (j =? 0)%N; lia.
Qed.
(** No order of two or more elements has exactly the probability 1/n! of a fair shuffle. *)
Lemma sumN_int (f : N -> R) m : (forall j, (j < m)%N -> exists z, f j = IZR z) -> exists z, sumN f m = IZR z.
Proof.
  induction m as [|m IH] using N.peano_ind; intros H; [exists 0%Z; now rewrite sumN_0|]. destruct IH as [z Ez]; [intros; apply H; lia|].
  destruct (H m ltac:(lia)) as [y Ey]. exists (z + y)%Z. now rewrite sumN_S, Ez, Ey, plus_IZR.
Qed.
Lemma independent_den sh m T k : T <> 0 -> (forall j, exists z, sh j = IZR z / T) -> forall G, exists z, independent sh m k G = IZR z / T ^ k.
Proof.
  intros HT Hs. induction k as [|k IH]; intros G; cbn [independent pow].
  - destruct (G []); [exists 1%Z|exists 0%Z]; field.
  - rewrite sum_below_sumN.
    destruct (sumN_int (fun j => sh j * independent sh m k (fun js => G (j :: js)) * (T * T ^ k)) m) as [z Ez].
    { intros j _. destruct (Hs j) as [y ->]. destruct (IH (fun js => G (j :: js))) as [x ->]. exists (y * x)%Z. rewrite mult_IZR.
      field. split; [|exact HT]. now apply pow_nonzero. }
    exists z. rewrite <- Ez. rewrite (sumN_ext (fun j => sh j * independent sh m k (fun js => G (j :: js)) * (T * T ^ k)) (fun j => (T * T ^ k) * (sh j * independent sh m k (fun js => G (j :: js))))) by (intros; apply Rmult_comm).
    rewrite sumN_scal. field. split; [now apply pow_nonzero|exact HT].
Qed.
Lemma fact_div n : (1 <= n)%nat -> (Z.of_nat n | Z.of_nat (fact n))%Z.
Proof. destruct n; [lia|]. intros _. cbn [fact]. exists (Z.of_nat (fact n)). lia. Qed.
Lemma draw_prob_unique {A} (next : nat -> list N -> outcome (A * list N)) P p p' : draw_prob next P p -> draw_prob next P p' -> p = p'.
Proof.
  intros (q1 & H1 & L1) (q2 & H2 & L2). apply is_lim_seq_unique in L1. rewrite (is_lim_seq_unique q1 p') in L1; [congruence|].
  revert L2. apply is_lim_seq_ext. intros n. destruct (H1 n) as (c1 & C1 & ->). destruct (H2 n) as (c2 & C2 & ->). now rewrite (Count.has_exactly_unique _ _ _ C1 C2).
Qed.
Theorem C67_never_uniform {A} (dec : forall x y : list A, {x = y} + {x <> y}) b (d d' : list A) : b = 32%N \/ b = 64%N ->
  (2 <= length d)%nat -> (N.of_nat (length d) < 2 ^ b)%N ->
  ~ draw_prob (fun fuel ws => ShuffleSlice tape b fuel d ws) (fun r => r = d') (/ INR (fact (length d))).
Proof.
  intros Hb Hd Hl H. pose proof (draw_prob_unique _ _ _ _ H (C67_shuffle_distribution dec b d d' Hb ltac:(lia) Hl)) as E. symmetry in E. clear H. revert E.
  set (n := length d) in *. set (Q := q b (N.of_nat n)). set (t := (Z.of_N Q * Z.of_nat n + 1)%Z).
  assert (Ht : (0 < t)%Z) by (unfold t; lia).
  match goal with |- independent ?sh ?m ?k ?F = _ -> _ => assert (X : exists z, independent sh m k F = IZR z / IZR t ^ k) end.
  { apply independent_den; [apply IZR_neq; lia|]. intros j. unfold uintn_share. fold (q b (N.of_nat n)). fold Q. exists (Z.of_N (if (j =? 0)%N then Q + 1 else Q)). f_equal. f_equal. unfold t. lia. }
  destruct X as [z Ez]. rewrite Ez. intros E. pose proof (fact_div n ltac:(lia)) as [c Hc].
  assert (E1 : IZR (z * Z.of_nat (fact n)) = IZR (t ^ Z.of_nat n)).
  { rewrite mult_IZR, <- pow_IZR, <- INR_IZR_INZ. assert (P1 : IZR t ^ n <> 0) by (apply pow_nonzero, IZR_neq; lia).
    assert (P2 : INR (fact n) <> 0) by (apply not_0_INR, fact_neq_0).
    apply (f_equal (fun x => x * IZR t ^ n * INR (fact n))) in E. replace (IZR z / IZR t ^ n * IZR t ^ n * INR (fact n)) with (IZR z * INR (fact n)) in E by (field; exact P1).
    rewrite E. field. exact P2. }
  apply eq_IZR in E1. rewrite Hc in E1.
  assert (E2 : (t ^ Z.of_nat n mod Z.of_nat n = 1)%Z).
  { rewrite Zpower_mod by lia. unfold t. rewrite Z.add_comm, Z.mod_add, (Z.mod_small 1), Z.pow_1_l by lia. apply Z.mod_small. lia. }
  rewrite <- E1, Z.mul_assoc, Z.mod_mul in E2 by lia. discriminate.
Qed.
Lemma share_three : uintn_share 64 3 0 = 6148914691236517206 / 18446744073709551616 /\ uintn_share 64 3 1 = 6148914691236517205 / 18446744073709551616 /\
  uintn_share 64 3 2 = 6148914691236517205 / 18446744073709551616.
Proof. repeat split; reflexivity. Qed.
(** Three elements: 4 of the 27 index sequences leave the order as it was, 5 of them exchange the last two elements; a fair
    shuffle gives both the probability 1/6 = 4.5/27. *)
Theorem C67_three_biased : exists p p',
  draw_prob (fun fuel ws => ShuffleSlice tape 64 fuel [1; 2; 3]%N ws) (fun r => r = [1; 2; 3]%N) p /\ Rabs (p - 4 / 27) <= / 2 ^ 60 /\
  draw_prob (fun fuel ws => ShuffleSlice tape 64 fuel [1; 2; 3]%N ws) (fun r => r = [1; 3; 2]%N) p' /\ Rabs (p' - 5 / 27) <= / 2 ^ 60.
Proof.
  eexists. eexists. split; [apply (C67_shuffle_distribution (list_eq_dec N.eq_dec)); [right; reflexivity|cbn; lia|reflexivity]|].
  split; [|split; [apply (C67_shuffle_distribution (list_eq_dec N.eq_dec)); [right; reflexivity|cbn; lia|reflexivity]|]].
  all: change (N.of_nat (length [1; 2; 3]%N)) with 3%N; cbn [length]; destruct share_three as (s0 & s1 & s2); revert s0 s1 s2.
  all: generalize (uintn_share 64 3); intros sh s0 s1 s2; unfold independent, sum_below; change (N.to_nat 3) with 3%nat; cbn; change (Pos.to_nat 1) with 1%nat; change (Pos.to_nat 2) with 2%nat; cbn; rewrite s0, s1, s2; apply Rabs_le; lra.
Qed.
