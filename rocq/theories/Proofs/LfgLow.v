(** The low bits of an additive sequence modulo 2^64 (C85). *)
From Coq Require Import NArith ZArith Lia ZifyN ZifyNat ZifyBool List Bool Znumtheory.
From Verif Require Import Proofs.WordLemmas Proofs.Gf2 Proofs.Gf2Seq Proofs.Primes Proofs.LfgProofs Proofs.LfgStream
  Proofs.LfgPow4 Proofs.LfgPeriodCert Proofs.LfgPrimes Proofs.LfgPeriod Model.Lfg.
Import ListNotations.
Local Open Scope N_scope.

(** ** the parities *)
Definition odd_factors : list Z :=
  ([23; 89; 131071; 707983; 1032670816743843860998850056278950666491537;
    3; 3; 3; 3; 7; 19; 37; 73; 109; 87211; 246241; 262657; 279073])%Z.
Lemma lfgEo_factors : (Z.of_N (Npos lfgEo) =? fold_right Z.mul 1%Z odd_factors)%Z = true.
Proof. vm_cast_no_check (eq_refl true). Qed.
Lemma parity_exact s : wrec s -> nondeg s -> forall p, (forall n, parity s (n + p) = parity s n) <-> (Npos lfgEo | p).
Proof.
  intros H [N1 N2]. apply (least_period (parity s) (Npos lfgEo) odd_factors).
  - pose proof lfg_factors_prime as F. unfold lfg_factors in F. now apply Forall_app in F.
  - apply Z.eqb_eq, lfgEo_factors.
  - reflexivity.
  - intros n. pose proof (bits_period _ (wrec_parity s H) 1 n) as E. rewrite N.mul_1_r in E. exact E.
  - intros p Hp P. unfold odd_factors in Hp.
    assert (G : (exists q a, In (q, a) certs187 /\ p = Zpos q) \/ (exists q a, In (q, a) certs108 /\ p = Zpos q)).
    { unfold certs187, certs108. cbn [In] in Hp |- *.
      repeat (destruct Hp as [<-|Hp]; [first [left; eexists; eexists; split; [|reflexivity]; clear; tauto
        |right; eexists; eexists; split; [|reflexivity]; clear; tauto]|]). contradiction. }
    clear Hp. destruct G as [(q & a & Hq & ->)|(q & a & Hq & ->)]; change (Z.to_N (Z.pos q)) with (Npos q) in P.
    + apply N2. pose proof certs187_check as C. rewrite forallb_forall in C. specialize (C _ Hq).
      exact (bits_no_period _ _ _ _ _ _ _ o187_check C (wrec_parity s H) P).
    + apply N1. pose proof certs108_check as C. rewrite forallb_forall in C. specialize (C _ Hq).
      exact (bits_no_period _ _ _ _ _ _ _ o108_check C (wrec_parity s H) P).
Qed.

(** ** from j bits to j+1 *)
Definition low_period (s : N -> N) (j p : N) : Prop := forall n, s (n + p) mod 2 ^ j = s n mod 2 ^ j.
Lemma low_z s j p : low_period s j p <-> forall n, (2 ^ Z.of_N j | Z.of_N (s (n + p)%N) - Z.of_N (s n))%Z.
Proof.
  assert (M : 2 ^ j <> 0) by (apply N.pow_nonzero; discriminate).
  assert (EZ : Z.of_N (2 ^ j) = (2 ^ Z.of_N j)%Z) by (rewrite N2Z.inj_pow; reflexivity). assert (MZ : (2 ^ Z.of_N j <> 0)%Z) by (rewrite <- EZ; lia).
  split; intros H n; specialize (H n).
  - apply Z.mod_divide; [exact MZ|]. rewrite Zminus_mod, <- EZ, <- !N2Z.inj_mod, H, Z.sub_diag. apply Z.mod_0_l. lia.
  - apply N2Z.inj. rewrite !N2Z.inj_mod, EZ. destruct H as [q Hq]. replace (Z.of_N (s (n + p))) with (Z.of_N (s n) + q * 2 ^ Z.of_N j)%Z by lia. apply Z.mod_add. exact MZ.
Qed.
(** doubling: if a multiple p of the parities' period is a period of j bits, 2p is a period of j+1 bits *)
Lemma low_double s j p : wrec s -> 1 <= j < 64 -> (Npos lfgEo | p) -> low_period s j p -> low_period s (j + 1) (2 * p).
Proof.
  intros H Hj [m Hm] P. rewrite low_z in P |- *.
  destruct (zrec_quot 64 (N.to_nat j) (fun n => Z.of_N (s n)) p ltac:(lia) (wrec_z s H)) as (d & Ed & Rd).
  { intros n. replace (Z.of_nat (N.to_nat j)) with (Z.of_N j) by lia. apply P. }
  apply (zrec_weaken _ 1) in Rd; [|lia]. pose proof (bits_period _ (zrec_odd d Rd) m) as B.
  replace (Npos lfgEo * m) with p in B by (rewrite Hm; apply N.mul_comm). clear Hm P Rd.
  intros n. pose proof (Ed n) as E1. pose proof (Ed (n + p)) as E2. specialize (B n). cbv beta in *.
  replace (n + 2 * p) with (n + p + p) by lia. replace (Z.of_nat (N.to_nat j)) with (Z.of_N j) in * by lia.
  destruct (proj2 (divide2_odd (d n + d (n + p)%N)%Z)) as [q Hq]; [rewrite Z.odd_add, B; apply xorb_nilpotent|].
  exists q. rewrite N2Z.inj_add, Z.pow_add_r by lia. change (2 ^ Z.of_N 1)%Z with 2%Z.
  rewrite E2, E1. replace (d (n + p)) with (q * 2 - d n)%Z by lia. ring.
Qed.
Lemma low_one s p : low_period s 1 p <-> forall n, parity s (n + p) = parity s n.
Proof.
  assert (O : forall x, x mod 2 ^ 1 = if N.odd x then 1 else 0).
  { intros x. change (2 ^ 1) with 2. rewrite <- N.bit0_mod, N.bit0_odd. destruct (N.odd x); reflexivity. }
  unfold low_period, parity. split; intros H n; specialize (H n); rewrite !O in *.
  - destruct (N.odd (s (n + p))), (N.odd (s n)); congruence.
  - now rewrite H.
Qed.
Lemma low_weaken s i j p : i <= j -> low_period s j p -> low_period s i p.
Proof.
  intros Hi P. rewrite low_z in *. intros n. apply Z.divide_trans with (2 ^ Z.of_N j)%Z; [|apply P].
  exists (2 ^ (Z.of_N j - Z.of_N i))%Z. rewrite <- Z.pow_add_r by lia. f_equal. lia.
Qed.
Lemma low_64 s p : wrec s -> low_period s 64 p <-> forall n, s (n + p) = s n.
Proof.
  intros H. split; intros P n; specialize (P n); [|now rewrite P].
  rewrite !N.mod_small in P by apply H. exact P.
Qed.
Definition lfgLo (j : N) : N := Npos lfgEo * 2 ^ (j - 1).
Lemma low_has_period s j : wrec s -> 1 <= j <= 64 -> low_period s j (lfgLo j).
Proof.
  intros H. unfold lfgLo. pattern j. apply N.peano_ind; [lia|]. clear j. intros j IH Hj.
  destruct (N.eq_dec j 0) as [->|Z].
  - change (2 ^ (N.succ 0 - 1)) with 1. apply low_one. apply bits_period, wrec_parity, H.
  - replace (N.succ j) with (j + 1) by lia. replace (2 ^ (j + 1 - 1)) with (2 * 2 ^ (j - 1)) by (rewrite <- N.pow_succ_r'; f_equal; lia).
    specialize (IH ltac:(lia)). revert IH.
    replace (Npos lfgEo * (2 * 2 ^ (j - 1))) with (2 * (Npos lfgEo * 2 ^ (j - 1))) by (generalize (Npos lfgEo); intros; ring).
    intros IH. apply low_double; [exact H|lia| |exact IH]. exists (2 ^ (j - 1)). apply N.mul_comm.
Qed.
Lemma low_up s j p k : wrec s -> 1 <= j -> j + k <= 64 -> (Npos lfgEo | p) -> low_period s j p -> low_period s (j + k) (2 ^ k * p).
Proof.
  intros H Hj. induction k as [|k IH] using N.peano_ind; intros Hk D P.
  - rewrite N.add_0_r, N.pow_0_r, N.mul_1_l. exact P.
  - rewrite N.pow_succ_r', N.add_succ_r, <- N.add_1_r, <- N.mul_assoc. apply low_double; [exact H|lia| |apply IH; [lia|exact D|exact P]].
    now apply N.divide_mul_r.
Qed.
Theorem low_exact s j : wrec s -> nondeg s -> 1 <= j <= 64 -> forall p, low_period s j p <-> (lfgLo j | p).
Proof.
  intros H ND Hj p. split.
  - intros P. assert (D : (Npos lfgEo | p)).
    { apply (parity_exact s H ND). apply low_one. apply (low_weaken s 1 j); [lia|exact P]. }
    pose proof (low_up s j p (64 - j) H ltac:(lia) ltac:(lia) D P) as U. replace (j + (64 - j)) with 64 in U by lia.
    pose proof (proj1 (low_64 s _ H) U) as U1. apply (wrec_exact s H ND) in U1. rename U into U0; rename U1 into U. unfold lfgTo in U. unfold lfgLo.
    destruct U as [q Hq]. exists q. apply (N.mul_cancel_l _ _ (2 ^ (64 - j))); [apply N.pow_nonzero; discriminate|].
    rewrite Hq. replace 63 with ((64 - j) + (j - 1)) at 1 by lia. rewrite N.pow_add_r. generalize (Npos lfgEo), (2 ^ (64 - j)), (2 ^ (j - 1)). intros; ring.
  - intros [q ->] n. pose proof (low_has_period s j H Hj) as P. exact (per_mul (fun n => s n mod 2 ^ j) (lfgLo j) P q n).
Qed.
