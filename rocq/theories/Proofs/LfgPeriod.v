(** The exact period of LFG streams. *)
From Coq Require Import Lia ZifyN ZifyNat ZifyBool ZArith Znumtheory List.
From Verif Require Import Proofs.WordLemmas Proofs.Gf2 Proofs.Gf2Seq Proofs.Primes Proofs.LfgProofs Proofs.LfgStream
  Proofs.LfgPow4 Proofs.LfgPeriodCert Proofs.LfgPrimes Model.Lfg.
Import ListNotations.
Local Open Scope N_scope.

(** ** sequences of bits *)
Definition brec (v : N -> bool) : Prop := forall n, v (n + 335) = xorb (v (n + 334)) (v n).
Lemma brec_killed v : brec v -> killed lfgP v.
Proof.
  intros H m. unfold lfgP. rewrite !act_lxor, !act_pow2, H.
  change (act 1 v m) with (v m). destruct (v (m + 334)), (v m); reflexivity.
Qed.
Lemma act_false p v n : (forall m, v m = false) -> act p v n = false.
Proof. intros H. destruct p; [reflexivity|]. cbn [act]. now apply pact_false. Qed.
Lemma inv_kills c r a v : inv_ok c r a = true -> killed lfgP v -> (forall n, act r v n = false) ->
  forall n, act c v n = false.
Proof.
  intros C K H n. unfold inv_ok in C. apply N.eqb_eq in C. rewrite <- C, act_mulmod by exact K.
  apply act_false. intros m. rewrite act_mulmod by exact K. apply act_false, H.
Qed.
Lemma bits_period v : brec v -> forall m n, v (n + Npos lfgEo * m) = v n.
Proof.
  intros H m.
  assert (P : forall n, v (n + Npos lfgEo) = v n).
  { intros n. pose proof (sacts_ppow lfgP 335 2 1 lfgEo (sacts_x lfgP) v (brec_killed v H) n) as E.
    rewrite N.mul_1_l in E. rewrite <- E. clear E. pose proof lfgEo_check as C. apply N.eqb_eq in C. rewrite C. reflexivity. }
  induction m as [|m IH] using N.peano_ind; intros n; [f_equal; lia|].
  rewrite N.mul_succ_r, N.add_assoc, P. apply IH.
Qed.
(** closed under gcd *)
Lemma per_mul {A} (s : N -> A) a : (forall n, s (n + a) = s n) -> forall k n, s (n + k * a) = s n.
Proof.
  intros P k. induction k as [|k IH] using N.peano_ind; intros n; [f_equal; lia|].
  replace (n + N.succ k * a) with (n + k * a + a) by lia. now rewrite P, IH.
Qed.
Lemma per_gcd {A} (s : N -> A) a b : 0 < a -> (forall n, s (n + a) = s n) -> (forall n, s (n + b) = s n) ->
  forall n, s (n + N.gcd a b) = s n.
Proof.
  intros Ha Pa Pb n. destruct (N.gcd_bezout_pos a b Ha) as (x & y & B).
  rewrite <- (per_mul s b Pb y (n + N.gcd a b)), <- (per_mul s a Pa x n), B. f_equal. lia.
Qed.
(** a period is least if it divided by any of its prime factors is no period *)
Lemma least_period {A} (s : N -> A) (T : N) (ps : list Z) : Forall prime ps ->
  Z.of_N T = fold_right Z.mul 1%Z ps -> 0 < T -> (forall n, s (n + T) = s n) ->
  (forall p, In p ps -> ~ forall n, s (n + T / Z.to_N p) = s n) ->
  forall p, (forall n, s (n + p) = s n) <-> (T | p).
Proof.
  intros Pp Pr T0 PT Pm p. split.
  - intros Hn. pose proof (per_gcd s T p T0 PT Hn) as Hg. set (g := N.gcd T p) in *.
    destruct (N.gcd_divide_l T p) as [c Hc]. fold g in Hc.
    destruct (N.eq_dec c 1) as [->|Hc1]; [rewrite Hc, N.mul_1_l; apply N.gcd_divide_r|]. exfalso.
    destruct (prime_divisor (Z.of_N c)) as (q & Hq & e & He); [clear -Hc Hc1 T0; assert (c <> 0) by (intros ->; lia); lia|].
    assert (Hin : In q ps).
    { apply (prime_in_list ps 1%N); [exact Pp|discriminate|exact Hq|]. rewrite <- Pr, Hc, N2Z.inj_mul. apply Z.divide_mul_l. now exists e. }
    apply (Pm q Hin).
    assert (Hq1 : (1 < q)%Z) by (destruct Hq; assumption).
    assert (Heq : T / Z.to_N q = Z.to_N e * g).
    { assert (Ec : c = Z.to_N e * Z.to_N q) by (clear -He Hq1; assert (0 <= e)%Z by nia; rewrite <- Z2N.inj_mul by lia; lia).
      rewrite Hc, Ec. replace (Z.to_N e * Z.to_N q * g) with (Z.to_N e * g * Z.to_N q) by lia. apply N.div_mul. lia. }
    rewrite Heq. apply per_mul, Hg.
  - intros [m ->] n. now apply per_mul.
Qed.

(** a bit sequence with the LFG's recurrence whose component modulo p is not zero *)
Lemma bits_no_period p deg o c v q a : order_ok p deg o c = true -> cert_ok p deg o (q, a) = true -> brec v ->
  (forall n, v (n + Npos lfgEo / Npos q) = v n) -> forall n, act c v n = false.
Proof.
  intros O C H P. unfold order_ok in O. unfold cert_ok in C. cbn [fst snd] in C. destruct o as [|o]; [discriminate|].
  destruct (N.pos o / N.pos q) as [|e]; [discriminate|]. apply andb_prop in O, C. destruct O as [O1 O2]. destruct C as [C1 C2].
  apply N.eqb_eq in O1, O2, C1, C2.
  set (w := act c v). fold w.
  assert (K : killed p w).
  { intros n. unfold w. rewrite <- (act_mulmod lfgP 335 p c v n (brec_killed v H)), O2. reflexivity. }
  assert (P1 : forall n, w (n + Npos o) = w n).
  { intros n. pose proof (sacts_ppow p deg 2 1 o (sacts_x p) w K n) as E. rewrite N.mul_1_l, O1 in E. symmetry. exact E. }
  assert (P2 : forall n, w (n + Npos lfgEo / Npos q) = w n).
  { intros n. unfold w. rewrite <- act_shift. apply act_ext. exact P. }
  pose proof (per_gcd w _ _ (eq_refl : 0 < Npos o) P1 P2) as P3. rewrite N.gcd_comm, C1 in P3.
  intros n. change (w n) with (act 1 w n). rewrite <- C2, act_mulmod by exact K. apply act_false. intros m.
  rewrite act_lxor. change (act 1 w m) with (w m).
  rewrite (sacts_ppow p deg 2 1 e (sacts_x p) w K m), N.mul_1_l, P3. apply xorb_nilpotent.
Qed.

(** ** lifting to sequences of integers modulo powers of two *)
Local Open Scope Z_scope.
Definition zrec (k : nat) (u : N -> Z) : Prop := forall n, (2 ^ Z.of_nat k | u (n + 335)%N - u (n + 334)%N - u n).
Lemma zrec_weaken k j u : (j <= k)%nat -> zrec k u -> zrec j u.
Proof.
  intros L H n. apply Z.divide_trans with (2 ^ Z.of_nat k); [|apply H].
  exists (2 ^ (Z.of_nat k - Z.of_nat j)). rewrite <- Z.pow_add_r by lia. f_equal. lia.
Qed.
Lemma zrec_odd u : zrec 1 u -> brec (fun n => Z.odd (u n)).
Proof.
  intros H j. destruct (H j) as [q Hq]. change (2 ^ Z.of_nat 1) with 2 in Hq.
  replace (u (j + 335)%N) with (u (j + 334)%N + u j + 2 * q) by lia.
  rewrite !Z.odd_add, Z.odd_mul. cbn [Z.odd]. rewrite andb_false_l, xorb_false_r. reflexivity.
Qed.
(** the quotient of a difference *)
Lemma zrec_quot k j u T : (j <= k)%nat -> zrec k u -> (forall n, (2 ^ Z.of_nat j | u (n + T)%N - u n)) ->
  exists d, (forall n, u (n + T)%N = u n + 2 ^ Z.of_nat j * d n) /\ zrec (k - j) d.
Proof.
  intros L H D. set (M := 2 ^ Z.of_nat j) in *. assert (Mpos : 0 < M) by (apply Z.pow_pos_nonneg; lia).
  exists (fun n => (u (n + T)%N - u n) / M).
  assert (E : forall n, u (n + T)%N = u n + M * ((u (n + T)%N - u n) / M)).
  { intros n. rewrite <- Z_div_exact_full_2; [lia|lia|]. apply Z.mod_divide; [lia|apply D]. }
  split; [exact E|]. set (d := fun n => (u (n + T)%N - u n) / M) in *.
  assert (E' : forall n, M * d n = u (n + T)%N - u n) by (intros n; pose proof (E n); unfold d; lia).
  intros n. apply (Z.mul_divide_cancel_l _ _ M); [lia|].
  replace (M * 2 ^ Z.of_nat (k - j)) with (2 ^ Z.of_nat k).
  2:{ unfold M. rewrite <- Z.pow_add_r by lia. f_equal. lia. }
  replace (M * (d (n + 335)%N - d (n + 334)%N - d n)) with
    ((u (n + T + 335)%N - u (n + T + 334)%N - u (n + T)%N) - (u (n + 335)%N - u (n + 334)%N - u n)).
  - apply Z.divide_sub_r; apply H.
  - pose proof (E' (n + 335)%N) as E1. pose proof (E' (n + 334)%N) as E2. pose proof (E' n) as E3.
    replace (n + 335 + T)%N with (n + T + 335)%N in E1 by lia.
    replace (n + 334 + T)%N with (n + T + 334)%N in E2 by lia. lia.
Qed.
Definition bact (p : N) (u : N -> Z) (n : N) : bool := act p (fun m => Z.odd (u m)) n.
Lemma divide2_odd z : (2 | z) <-> Z.odd z = false.
Proof. rewrite <- Z.negb_even, negb_false_iff, Z.even_spec. split; intros [q Hq]; exists q; lia. Qed.
(** one period of the parities *)
Lemma lift0 u : zrec 2 u -> exists d, (forall n, u (n + Npos lfgEo)%N = u n + 2 * d n) /\
  forall n, Z.odd (d n) = bact lfgU u n.
Proof.
  intros H. assert (R : rec4 u) by exact H.
  assert (E : forall n, exists q, u (n + Npos lfgEo)%N - u n = 2 * (zact lfgU u n - 2 * q)).
  { intros n. destruct pow4_split as (e & E1 & E2).
    destruct (z4_oddpow (ppow lfgP 335 (tab lfgP 335) 2 e) (Npos e) u n) with (2 := R) as [q Hq].
    { intros v Hv m. apply divide2_odd. rewrite Z.odd_sub, zact_odd.
      rewrite (sacts_ppow lfgP 335 2 1 e (sacts_x lfgP) (fun m => Z.odd (v m)) (brec_killed _ (zrec_odd v Hv)) m), N.mul_1_l.
      apply xorb_nilpotent. }
    rewrite E2 in Hq. unfold z4 in Hq. cbn [fst snd] in Hq. change (zact 1 u n) with (u n) in Hq.
    replace (Npos e + Npos e + 1)%N with (Npos lfgEo) in Hq by (rewrite E1; lia). exists q.
    revert Hq. generalize (Npos lfgEo). intros E Hq. lia. }
  exists (fun n => (u (n + Npos lfgEo)%N - u n) / 2). revert E. generalize (Npos lfgEo). intros EE E.
  assert (E2 : forall n, exists q, u (n + EE)%N - u n = 2 * (zact lfgU u n - 2 * q) /\
    (u (n + EE)%N - u n) / 2 = zact lfgU u n - 2 * q).
  { intros n. destruct (E n) as [q Hq]. exists q. split; [exact Hq|]. rewrite Hq, (Z.mul_comm 2 (zact lfgU u n - 2 * q)). apply Z.div_mul. discriminate. }
  split; intros n; destruct (E2 n) as (q & Hq & ->); [lia|].
  rewrite Z.odd_sub, zact_odd, Z.odd_mul. cbn [Z.odd andb]. apply xorb_false_r.
Qed.
Lemma lift_mod2 u : zrec 1 u -> forall m n, (2 | u (n + Npos lfgEo * m)%N - u n).
Proof.
  intros H m n. apply divide2_odd. rewrite Z.odd_sub.
  rewrite (bits_period (fun n => Z.odd (u n)) (zrec_odd u H) m n). apply xorb_nilpotent.
Qed.
(** two periods of the parities *)
Lemma lift1 u : zrec 3 u -> exists d, (forall n, u (n + Npos lfgEo * 2)%N = u n + 4 * d n) /\
  forall n, Z.odd (d n) = xorb (bact lfgU u n) (act lfgU (fun m => bact lfgU u m) n).
Proof.
  intros H. destruct (lift0 u (zrec_weaken 3 2 u ltac:(lia) H)) as (d & Ed & Od).
  destruct (zrec_quot 3 1 u (Npos lfgEo) ltac:(lia) H) as (d' & Ed' & Rd').
  { intros n. exists (d n). rewrite Ed. change (2 ^ Z.of_nat 1) with 2. lia. }
  assert (E : forall n, d' n = d n).
  { intros n. pose proof (Ed n) as A. pose proof (Ed' n) as B. change (2 ^ Z.of_nat 1) with 2 in B. lia. }
  assert (Rd : zrec 2 d).
  { intros n. rewrite <- !E. apply Rd'. }
  destruct (lift0 d Rd) as (e & Ee & Oe). exists (fun n => d n + e n). split; intros n.
  - replace (n + N.pos lfgEo * 2)%N with (n + Npos lfgEo + Npos lfgEo)%N by lia. rewrite !Ed, Ee. ring.
  - rewrite Z.odd_add, Od, Oe. f_equal. unfold bact at 1. apply act_ext. exact Od.
Qed.
Lemma lift_mod4 u : zrec 2 u -> forall m n, (4 | u (n + Npos lfgEo * 2 * m)%N - u n).
Proof.
  intros H m.
  assert (P : forall n, (4 | u (n + Npos lfgEo * 2)%N - u n)).
  { intros n. destruct (lift0 u H) as (d & Ed & _).
    assert (Rd : zrec 1 d).
    { destruct (zrec_quot 2 1 u (Npos lfgEo) ltac:(lia) H) as (d' & Ed' & Rd').
      { intros k. exists (d k). rewrite Ed. change (2 ^ Z.of_nat 1) with 2. lia. }
      assert (E : forall k, d' k = d k).
      { intros k. pose proof (Ed k) as A. pose proof (Ed' k) as B. change (2 ^ Z.of_nat 1) with 2 in B. lia. }
      intros k. rewrite <- !E. apply Rd'. }
    destruct (lift_mod2 d Rd 1 n) as [q Hq]. rewrite N.mul_1_r in Hq.
    replace (n + N.pos lfgEo * 2)%N with (n + Npos lfgEo + Npos lfgEo)%N by lia. rewrite !Ed. exists (d n + q). lia. }
  induction m as [|m IH] using N.peano_ind; intros n.
  - rewrite N.mul_0_r, N.add_0_r, Z.sub_diag. apply Z.divide_0_r.
  - rewrite N.mul_succ_r, N.add_assoc. destruct (P (n + N.pos lfgEo * 2 * m)%N) as [a Ha]. destruct (IH n) as [b Hb].
    exists (a + b). lia.
Qed.
Definition wbits (v : N -> bool) (n : N) : bool := xorb (act lfgU v n) (act lfgU (act lfgU v) n).
Lemma lift_main k : forall u, zrec (S (S (S k))) u -> exists d,
  (forall n, u (n + Npos lfgEo * 2 ^ N.of_nat (S k))%N = u n + 2 ^ Z.of_nat (S (S k)) * d n) /\
  forall n, Z.odd (d n) = wbits (fun m => Z.odd (u m)) n.
Proof.
  induction k as [|k IH]; intros u H.
  - destruct (lift1 u H) as (d & Ed & Od). exists d. split; [exact Ed|]. intros n. rewrite Od. reflexivity.
  - destruct (IH u (zrec_weaken _ _ u (Nat.le_succ_diag_r _) H)) as (d & Ed & Od).
    set (T := (Npos lfgEo * 2 ^ N.of_nat (S k))%N) in *.
    destruct (zrec_quot (S (S (S (S k)))) (S (S k)) u T ltac:(lia) H) as (d' & Ed' & Rd').
    { intros n. exists (d n). rewrite Ed. lia. }
    assert (Mpos : 0 < 2 ^ Z.of_nat (S (S k))) by (apply Z.pow_pos_nonneg; lia).
    assert (E : forall n, d' n = d n).
    { intros n. pose proof (Ed n) as A. pose proof (Ed' n) as B. apply (Z.mul_reg_l _ _ (2 ^ Z.of_nat (S (S k)))); lia. }
    replace (S (S (S (S k))) - S (S k))%nat with 2%nat in Rd' by lia.
    assert (Rd : zrec 2 d) by (intros n; rewrite <- !E; apply Rd').
    assert (D4 : forall n, (4 | d (n + T)%N - d n)).
    { intros n. unfold T. rewrite Nat2N.inj_succ, N.pow_succ_r', N.mul_assoc. now apply lift_mod4. }
    exists (fun n => d n + (d (n + T)%N - d n) / 2). 
    assert (H2 : forall n, exists q, d (n + T)%N = d n + 4 * q /\ (d (n + T)%N - d n) / 2 = 2 * q).
    { intros n. destruct (D4 n) as [q Hq]. exists q. split; [lia|]. rewrite Hq.
      replace (q * 4) with (2 * q * 2) by lia. now rewrite Z.div_mul by lia. }
    split; intros n; destruct (H2 n) as (q & Hq1 & Hq2); rewrite Hq2.
    + replace (n + N.pos lfgEo * 2 ^ N.of_nat (S (S k)))%N with (n + T + T)%N.
      2:{ unfold T. rewrite (Nat2N.inj_succ (S k)), N.pow_succ_r'. lia. }
      rewrite !Ed, Hq1. rewrite (Nat2Z.inj_succ (S (S k))), Z.pow_succ_r by lia. ring.
    + rewrite Z.odd_add, Z.odd_mul. cbn [Z.odd andb]. rewrite xorb_false_r. apply Od.
Qed.
Local Close Scope Z_scope.

(** ** sequences of words *)
Definition wrec (s : N -> N) : Prop := forall n, s n < 2 ^ 64 /\ s (n + 335) = (s (n + 334) + s n) mod 2 ^ 64.
Definition lfgTo : N := Npos lfgEo * 2 ^ 63.
Definition lfg_factors : list Z :=
  (repeat 2 63 ++ [23; 89; 131071; 707983; 1032670816743843860998850056278950666491537;
    3; 3; 3; 3; 7; 19; 37; 73; 109; 87211; 246241; 262657; 279073])%Z.
Lemma lfgTo_factors : (Z.of_N lfgTo =? fold_right Z.mul 1%Z lfg_factors)%Z = true.
Proof. vm_cast_no_check (eq_refl true). Qed.
Lemma lfg_factors_prime : Forall prime lfg_factors.
Proof.
  unfold lfg_factors. apply Forall_app. split.
  - apply Forall_forall. intros x H. apply repeat_spec in H. subst x. exact prime_2.
  - repeat (constructor; [solve [eauto with primes]|]). constructor.
Qed.
Lemma wrec_z s : wrec s -> zrec 64 (fun n => Z.of_N (s n)).
Proof.
  intros H n. destruct (H n) as [_ E]. rewrite E, N2Z.inj_mod, N2Z.inj_add.
  change (Z.of_N (2 ^ 64)) with (2 ^ 64)%Z. change (Z.of_nat 64) with 64%Z.
  set (z := (Z.of_N (s (n + 334)%N) + Z.of_N (s n))%Z).
  exists (- (z / 2 ^ 64))%Z. pose proof (Z.div_mod z (2 ^ 64)). lia.
Qed.
Definition parity (s : N -> N) (n : N) : bool := N.odd (s n).
Lemma odd_of_N x : Z.odd (Z.of_N x) = N.odd x.
Proof. destruct x as [|[|[]|]]; reflexivity. Qed.
Lemma wrec_parity s : wrec s -> brec (parity s).
Proof.
  intros H n. pose proof (zrec_odd _ (zrec_weaken 64 1 _ ltac:(lia) (wrec_z s H)) n) as E. cbv beta in E.
  now rewrite !odd_of_N in E.
Qed.
Lemma wrec_half s : wrec s -> exists d : N -> Z,
  (forall n, Z.of_N (s (n + Npos lfgEo * 2 ^ 62)) = (Z.of_N (s n) + 2 ^ 63 * d n)%Z) /\
  (forall n, Z.odd (d n) = wbits (parity s) n).
Proof.
  intros H. destruct (lift_main 61 _ (wrec_z s H)) as (d & Ed & Od). exists d. split; [exact Ed|].
  intros n. rewrite Od. unfold wbits. f_equal.
  - apply act_ext. intros m. apply odd_of_N.
  - apply act_ext. intros m. apply act_ext. intros k. apply odd_of_N.
Qed.
Lemma wrec_period s : wrec s -> forall n, s (n + lfgTo) = s n.
Proof.
  intros H n. destruct (wrec_half s H) as (d & Ed & Od).
  assert (O : Z.odd (d (n + Npos lfgEo * 2 ^ 62)) = Z.odd (d n)).
  { rewrite !Od. pose proof (wrec_parity s H) as B. unfold wbits. rewrite <- !act_shift. f_equal.
    - apply act_ext. intros m. apply (bits_period _ B).
    - apply act_ext. intros m. rewrite <- act_shift. apply act_ext. intros k. apply (bits_period _ B). }
  pose proof (Ed n) as E1. pose proof (Ed (n + Npos lfgEo * 2 ^ 62)) as E2.
  replace (n + N.pos lfgEo * 2 ^ 62 + N.pos lfgEo * 2 ^ 62) with (n + lfgTo) in E2.
  2:{ unfold lfgTo. change (2 ^ 63) with (2 ^ 62 + 2 ^ 62). generalize (N.pos lfgEo), (2 ^ 62). intros a b. lia. }
  revert O E1 E2. generalize (d (n + N.pos lfgEo * 2 ^ 62)), (s (n + N.pos lfgEo * 2 ^ 62)). intros d' s' O E1 E2.
  destruct (H n) as [W1 _]. destruct (H (n + lfgTo)) as [W2 _]. revert W2 E2. generalize (s (n + lfgTo)). intros x W2 E2.
  assert (Q : exists q, (d n + d' = 2 * q)%Z).
  { destruct (proj2 (divide2_odd (d n + d'))) as [q Hq]; [rewrite Z.odd_add, O; apply xorb_nilpotent|]. exists q. lia. }
  destruct Q as [q Hq]. change (2 ^ 64) with 18446744073709551616 in *.
  change (2 ^ 63)%Z with 9223372036854775808%Z in *. lia.
Qed.
(** neither the component of degree 108 nor that of degree 187 of the parities is zero *)
Definition nondeg (s : N -> N) : Prop :=
  ~ (forall n, act c108 (parity s) n = false) /\ ~ (forall n, act c187 (parity s) n = false).
Lemma lfgTo_pos : (0 <? lfgTo) = true. Proof. vm_cast_no_check (eq_refl true). Qed.
(** T/q = (E/q) 2^63 and gcd (T/q) E = E/q *)
Definition div_ok (q : positive) : bool :=
  (N.gcd (Npos lfgEo) (lfgTo / Npos q) =? Npos lfgEo / Npos q).
Lemma div_check : forallb div_ok (map fst certs187 ++ map fst certs108) = true.
Proof. vm_cast_no_check (eq_refl true). Qed.
Lemma half_check : (lfgTo / 2 =? Npos lfgEo * 2 ^ 62) = true.
Proof. vm_cast_no_check (eq_refl true). Qed.
Lemma parity_div s q : wrec s -> div_ok q = true -> (forall n, s (n + lfgTo / Npos q) = s n) ->
  forall n, parity s (n + Npos lfgEo / Npos q) = parity s n.
Proof.
  intros H C P. unfold div_ok in C. apply N.eqb_eq in C. rewrite <- C.
  apply per_gcd; [reflexivity| |].
  - intros n. rewrite <- (N.mul_1_r (Npos lfgEo)). apply bits_period, wrec_parity, H.
  - intros n. unfold parity. now rewrite P.
Qed.
Theorem wrec_exact s : wrec s -> nondeg s -> forall p, (forall n, s (n + p) = s n) <-> (lfgTo | p).
Proof.
  intros H [N1 N2]. apply (least_period s lfgTo lfg_factors lfg_factors_prime).
  - apply Z.eqb_eq, lfgTo_factors.
  - apply N.ltb_lt, lfgTo_pos.
  - apply wrec_period, H.
  - intros p Hp P. unfold lfg_factors in Hp. apply in_app_or in Hp.
    assert (G : p = 2%Z \/ (exists q a, In (q, a) certs187 /\ p = Zpos q) \/ (exists q a, In (q, a) certs108 /\ p = Zpos q)).
    { destruct Hp as [Hp|Hp]; [left; now apply repeat_spec in Hp|right].
      unfold certs187, certs108. cbn [In] in Hp |- *.
      repeat (destruct Hp as [<-|Hp]; [first [left; eexists; eexists; split; [|reflexivity]; clear; tauto
        |right; eexists; eexists; split; [|reflexivity]; clear; tauto]|]). contradiction. }
    clear Hp. destruct G as [->|[(q & a & Hq & ->)|(q & a & Hq & ->)]].
    + change (Z.to_N 2) with 2 in P. rewrite (proj1 (N.eqb_eq _ _) half_check) in P.
      apply N1. destruct (wrec_half s H) as (d & Ed & Od).
      assert (W : forall n, wbits (parity s) n = false).
      { intros n. rewrite <- Od. specialize (Ed n). rewrite P in Ed. replace (d n) with 0%Z by lia. reflexivity. }
      pose proof (brec_killed _ (wrec_parity s H)) as K.
      apply (inv_kills _ _ _ _ inv2_check K). intros n. rewrite act_lxor, act_mulmod by exact K. apply W.
    + apply N2. change (Z.to_N (Z.pos q)) with (Npos q) in P.
      pose proof certs187_check as C. rewrite forallb_forall in C. specialize (C _ Hq).
      apply (bits_no_period _ _ _ _ _ _ _ o187_check C (wrec_parity s H)). apply parity_div; [exact H| |exact P].
      pose proof div_check as D. rewrite forallb_forall in D. apply D, in_or_app. left. apply (in_map fst _ _ Hq).
    + apply N1. change (Z.to_N (Z.pos q)) with (Npos q) in P.
      pose proof certs108_check as C. rewrite forallb_forall in C. specialize (C _ Hq).
      apply (bits_no_period _ _ _ _ _ _ _ o108_check C (wrec_parity s H)). apply parity_div; [exact H| |exact P].
      pose proof div_check as D. rewrite forallb_forall in D. apply D, in_or_app. right. apply (in_map fst _ _ Hq).
Qed.
