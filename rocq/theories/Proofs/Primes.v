(** Primality certificates (Lucas), proved from the exact-order theorem and a pigeonhole argument. *)
From Coq Require Import Lia ZifyN ZifyNat ZifyBool Znumtheory ZArith.
From Verif Require Import Proofs.WordLemmas Proofs.Gf2.
Local Open Scope Z_scope.

Fixpoint zpowm (a : Z) (e : positive) (n : Z) : Z :=
  match e with
  | xH => a mod n
  | xO e' => let r := zpowm a e' n in (r * r) mod n
  | xI e' => let r := zpowm a e' n in (a * ((r * r) mod n)) mod n
  end.
Lemma zpowm_spec a e n : 1 < n -> zpowm a e n = a ^ Zpos e mod n.
Proof.
  intros Hn. induction e as [e IH|e IH|]; cbn [zpowm].
  - rewrite IH, <- Zmult_mod, Zmult_mod_idemp_r. f_equal.
    replace (Z.pos e~1) with (Z.pos e + Z.pos e + 1) by lia. rewrite !Z.pow_add_r by lia. ring.
  - rewrite IH, <- Zmult_mod. f_equal.
    replace (Z.pos e~0) with (Z.pos e + Z.pos e) by lia. now rewrite Z.pow_add_r by lia.
  - now rewrite Z.pow_1_r.
Qed.

Lemma prime_divisor z : 1 < z -> exists p, prime p /\ (p | z).
Proof.
  intros Hz. assert (H0 : 0 <= z) by lia. revert Hz. pattern z. apply Zlt_0_ind; [|exact H0].
  intros y IH _ Hy. destruct (prime_dec y) as [Hp|Hnp]; [exists y; split; [exact Hp|apply Z.divide_refl]|].
  apply not_prime_divide in Hnp; [|lia]. destruct Hnp as (d & Hd1 & Hd2).
  destruct (IH d) as (p & Hp & Hpd); [lia|lia|].
  exists p. split; [exact Hp|]. eapply Z.divide_trans; eassumption.
Qed.

Definition lucas_check (n a : Z) (qs : list Z) : bool :=
  (1 <? n) && (n - 1 =? fold_right Z.mul 1 qs) &&
  (zpowm a (Z.to_pos (n - 1)) n =? 1) &&
  forallb (fun q => (2 <=? (n - 1) / q) && (Z.gcd (zpowm a (Z.to_pos ((n - 1) / q)) n - 1) n =? 1)) qs.

Section Lucas.
  Variables (n a : Z) (qs : list Z).
  Hypothesis Hchk : lucas_check n a qs = true.
  Lemma chk_split : 1 < n /\ n - 1 = fold_right Z.mul 1 qs /\ a ^ (n - 1) mod n = 1 /\
    forall q, In q qs -> 2 <= (n - 1) / q /\ Z.gcd (a ^ ((n - 1) / q) mod n - 1) n = 1.
  Proof.
    unfold lucas_check in Hchk. rewrite !andb_true_iff in Hchk. destruct Hchk as [[[A B] C] D].
    apply Z.ltb_lt in A. apply Z.eqb_eq in B. rewrite zpowm_spec in C by exact A. apply Z.eqb_eq in C.
    repeat split; auto.
    - rewrite Z2Pos.id in C; [exact C|]. destruct (Z.eq_dec n 1); lia.
    - rewrite forallb_forall in D. apply D in H. apply andb_true_iff in H. destruct H as [H _]. lia.
    - rewrite forallb_forall in D. apply D in H. apply andb_true_iff in H. destruct H as [H1 H2].
      rewrite zpowm_spec in H2 by exact A. rewrite Z2Pos.id in H2 by lia. lia.
  Qed.
  Hypothesis Hqs : Forall prime qs.
  Variable p : Z.
  Hypothesis Hp : prime p.
  Hypothesis Hpn : (p | n).

  Let f (x : Z) : Z := (a * x) mod p.
  Let p1 : 1 < p. Proof. destruct Hp; assumption. Qed.
  Lemma iter_pow (k : N) : N.iter k f 1 = a ^ Z.of_N k mod p.
  Proof.
    induction k as [|k IH] using N.peano_ind.
    - cbn. rewrite Z.mod_1_l; [reflexivity|exact p1].
    - rewrite N.iter_succ, IH. unfold f. rewrite Zmult_mod_idemp_r, N2Z.inj_succ, Z.pow_succ_r by lia.
      reflexivity.
  Qed.
  Lemma mod_n_p x : x mod n mod p = x mod p.
  Proof. destruct chk_split as (A & _). symmetry. apply Zmod_div_mod; [lia|lia|exact Hpn]. Qed.
  Let Ord : N := Z.to_N (n - 1).
  Lemma lucas_order m : N.iter m f 1 = 1 <-> (Ord | m)%N.
  Proof.
    destruct chk_split as (A & B & C & D).
    apply (order_exact f 1 qs Ord Hqs).
    - unfold Ord. rewrite Z2N.id by lia. exact B.
    - unfold Ord. lia.
    - unfold Ord. rewrite iter_pow, Z2N.id by lia.
      rewrite <- mod_n_p, C. apply Z.mod_1_l, p1.
    - intros q Hq E. rewrite iter_pow in E. unfold Ord in E. rewrite (Z2N.id (n - 1)) in E by lia.
      destruct (D q Hq) as [D1 D2]. rewrite Z2N.id in E by lia.
      rewrite <- mod_n_p in E.
      assert (Hd : (p | a ^ ((n - 1) / q) mod n - 1)).
      { apply Z.mod_divide; [lia|]. rewrite Zminus_mod, E, (Z.mod_1_l p p1), Z.sub_diag. apply Z.mod_0_l. lia. }
      assert (Hg : (p | 1)) by (rewrite <- D2; apply Z.gcd_greatest; assumption).
      apply Z.divide_1_r_nonneg in Hg; lia.
  Qed.
  Lemma lucas_p : p = n.
  Proof.
    destruct chk_split as (A & B & C & D).
    assert (Hle : p <= n) by (apply Z.divide_pos_le; [lia|exact Hpn]).
    enough (n - 1 <= p - 1) by lia.
    set (L := map (fun i => Z.to_nat (N.iter (N.of_nat i) f 1)) (seq 0 (Z.to_nat (n - 1)))).
    assert (F1 : N.iter Ord f 1 = 1) by (apply lucas_order; apply N.divide_refl).
    assert (ND : NoDup L).
    { apply NoDup_nth with (d := O). unfold L. rewrite map_length, seq_length.
      intros i j Hi Hj E.
      rewrite (nth_indep _ O (Z.to_nat (N.iter (N.of_nat 0) f 1))) in E by (rewrite map_length, seq_length; exact Hi).
      rewrite (nth_indep _ O (Z.to_nat (N.iter (N.of_nat 0) f 1))) in E by (rewrite map_length, seq_length; exact Hj).
      rewrite !(map_nth (fun i => Z.to_nat (N.iter (N.of_nat i) f 1)) _ O) in E.
      rewrite !seq_nth in E by assumption. cbn [Nat.add] in E.
      assert (nn : forall k, 0 <= N.iter k f 1).
      { intros k. rewrite iter_pow. apply Z.mod_pos_bound. lia. }
      apply Z2Nat.inj in E; try apply nn.
      assert (W : forall i j, (i < j)%nat -> (j < Z.to_nat (n - 1))%nat ->
        N.iter (N.of_nat i) f 1 = N.iter (N.of_nat j) f 1 -> False).
      { clear i j Hi Hj E. intros i j Hij Hj E.
        assert (E2 : N.iter (Ord - N.of_nat i + N.of_nat j) f 1 = 1).
        { rewrite N.iter_add, <- E, <- N.iter_add.
          replace (Ord - N.of_nat i + N.of_nat i)%N with Ord by (unfold Ord; lia). exact F1. }
        apply lucas_order in E2. destruct E2 as [c Hc].
        assert (Hm : (N.of_nat j < Ord)%N) by (unfold Ord; lia).
        assert (Hij' : (N.of_nat i < N.of_nat j)%N) by lia.
        revert Hc Hm Hij'. generalize (N.of_nat i), (N.of_nat j), Ord. clear. intros i j m Hc Hj Hij.
        destruct (N.le_gt_cases c 1) as [H|H].
        - assert (c * m <= 1 * m)%N by (apply N.mul_le_mono_r; exact H). lia.
        - assert (2 * m <= c * m)%N by (apply N.mul_le_mono_r; lia). lia. }
      destruct (Nat.lt_trichotomy i j) as [H|[H|H]]; [|exact H|]; exfalso.
      - exact (W i j H Hj E).
      - exact (W j i H Hi (eq_sym E)). }
    assert (IN : incl L (seq 1 (Z.to_nat (p - 1)))).
    { intros x Hx. unfold L in Hx. apply in_map_iff in Hx. destruct Hx as (i & <- & Hi).
      apply in_seq in Hi. apply in_seq.
      assert (Hb : 0 <= N.iter (N.of_nat i) f 1 < p) by (rewrite iter_pow; apply Z.mod_pos_bound; lia).
      assert (Hz : N.iter (N.of_nat i) f 1 <> 0).
      { intros Z0. assert (F0 : N.iter (Ord - N.of_nat i) f 0 = 1).
        { rewrite <- Z0, <- N.iter_add.
          replace (Ord - N.of_nat i + N.of_nat i)%N with Ord by (unfold Ord; lia). exact F1. }
        assert (FF : forall k, N.iter k f 0 = 0).
        { intros k. apply (N.iter_invariant k Z f (fun x => x = 0)); [|reflexivity].
          intros x ->. unfold f. rewrite Z.mul_0_r. apply Z.mod_0_l. lia. }
        rewrite FF in F0. discriminate. }
      lia. }
    apply NoDup_incl_length in IN; [|exact ND].
    unfold L in IN. rewrite map_length, !seq_length in IN. lia.
  Qed.
End Lucas.

Lemma lucas n a qs : lucas_check n a qs = true -> Forall prime qs -> prime n.
Proof.
  intros H Hq. destruct (chk_split n a qs H) as (A & _).
  destruct (prime_divisor n A) as (p & Hp & Hd).
  rewrite <- (lucas_p n a qs H Hq p Hp Hd). exact Hp.
Qed.

(** trial division *)
Fixpoint no_divisor (k : nat) (d n : Z) : bool :=
  match k with
  | O => true
  | S k' => negb (n mod d =? 0) && no_divisor k' (d + 1) n
  end.
Lemma no_divisor_spec k : forall d n, no_divisor k d n = true ->
  forall e, d <= e < d + Z.of_nat k -> 0 < e -> ~ (e | n).
Proof.
  induction k as [|k IH]; intros d n H e He H0 Hd; [lia|].
  cbn [no_divisor] in H. apply andb_true_iff in H. destruct H as [H1 H2].
  destruct (Z.eq_dec e d) as [->|Hne].
  - apply Z.mod_divide in Hd; [|lia]. rewrite Hd in H1. discriminate.
  - apply (IH (d + 1) n H2 e); [lia|lia|exact Hd].
Qed.
Definition trial (k : nat) (n : Z) : bool :=
  (1 <? n) && (n <? (Z.of_nat k + 2) * (Z.of_nat k + 2)) && no_divisor k 2 n.
Lemma trial_prime k n : trial k n = true -> prime n.
Proof.
  intros H. unfold trial in H. rewrite !andb_true_iff in H. destruct H as [[H1 H2] H3].
  destruct (prime_dec n) as [Hp|Hnp]; [exact Hp|exfalso].
  apply not_prime_divide in Hnp; [|lia]. destruct Hnp as (d & Hd1 & Hd2).
  pose proof (no_divisor_spec _ _ _ H3) as N3.
  destruct (Z.lt_ge_cases d (Z.of_nat k + 2)) as [Hl|Hg].
  - apply (N3 d); [lia|lia|exact Hd2].
  - pose proof Hd2 as [e He]. apply (N3 e); [nia|nia|]. exists d. lia.
Qed.

Ltac by_trial k := apply (trial_prime k); vm_compute; reflexivity.
Lemma pr2 : prime 2. Proof. exact prime_2. Qed.
Lemma pr3 : prime 3. Proof. exact prime_3. Qed.
Lemma pr5 : prime 5. Proof. by_trial 2%nat. Qed.
Lemma pr7 : prime 7. Proof. by_trial 2%nat. Qed.
Lemma pr17 : prime 17. Proof. by_trial 4%nat. Qed.
Lemma pr47 : prime 47. Proof. by_trial 6%nat. Qed.
Lemma pr181 : prime 181. Proof. by_trial 13%nat. Qed.
Lemma pr257 : prime 257. Proof. by_trial 16%nat. Qed.
Lemma pr373 : prime 373. Proof. by_trial 20%nat. Qed.
Lemma pr449 : prime 449. Proof. by_trial 22%nat. Qed.
Lemma pr641 : prime 641. Proof. by_trial 25%nat. Qed.
Lemma pr2203 : prime 2203. Proof. by_trial 50%nat. Qed.
Lemma pr12497 : prime 12497. Proof. by_trial 120%nat. Qed.
Lemma pr65537 : prime 65537. Proof. by_trial 260%nat. Qed.
Lemma pr274177 : prime 274177. Proof. by_trial 530%nat. Qed.
Lemma pr1896229 : prime 1896229. Proof. by_trial 1400%nat. Qed.
Lemma pr2998279 : prime 2998279. Proof. by_trial 1750%nat. Qed.
Lemma pr6700417 : prime 6700417. Proof. by_trial 2600%nat. Qed.
Lemma pr6939437 : prime 6939437. Proof. by_trial 2650%nat. Qed.

Global Hint Resolve pr2 pr3 pr5 pr7 pr17 pr47 pr181 pr257 pr373 pr449 pr641 pr2203 pr12497 pr65537
  pr274177 pr1896229 pr2998279 pr6700417 pr6939437 : primes.
Ltac primes_list := repeat (constructor; [solve [eauto with primes]|]); try constructor.
Ltac by_lucas' a qs := apply (lucas _ a qs); [vm_compute; reflexivity|primes_list].
Lemma pr55515497 : prime 55515497. Proof. by_lucas' 3 [2;2;2;6939437]. Qed.
Global Hint Resolve pr55515497 : primes.
Lemma pr733803839347 : prime 733803839347. Proof. by_lucas' 2 [2;3;2203;55515497]. Qed.
Global Hint Resolve pr733803839347 : primes.
Lemma pr5704689200685129054721 : prime 5704689200685129054721.
Proof. by_lucas' 21 [2;2;2;2;2;2;2;2;2;3;3;3;3;3;5;12497;733803839347]. Qed.
Lemma pr18533742247 : prime 18533742247. Proof. by_lucas' 6 [2;3;3;3;181;1896229]. Qed.
Global Hint Resolve pr18533742247 : primes.
Lemma pr116503103764643 : prime 116503103764643. Proof. by_lucas' 2 [2;7;449;18533742247]. Qed.
Global Hint Resolve pr116503103764643 : primes.
Lemma pr59649589127497217 : prime 59649589127497217. Proof. by_lucas' 3 [2;2;2;2;2;2;2;2;2;116503103764643]. Qed.
Lemma pr67280421310721 : prime 67280421310721. Proof. by_lucas' 3 [2;2;2;2;2;2;2;2;5;47;373;2998279]. Qed.
