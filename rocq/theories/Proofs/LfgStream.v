(** LFG: the output recurrence and its period. *)
From Coq Require Import Lia ZifyN ZifyNat ZifyBool.
From Verif Require Import Proofs.WordLemmas Proofs.ReadProofs Proofs.Gf2 Proofs.Gf2Seq Proofs.LfgProofs
  Model.Lfg.
Ltac Zify.zify_post_hook ::= Z.div_mod_to_equations.
Local Open Scope N_scope.

Definition lstep (g : lfg) : lfg := match LFG_Uint64 g with Ret (_, g') => g' | _ => g end.
Lemma lstep_ok g : lfg_ok g -> lfg_ok (lstep g).
Proof. intros H. destruct (lfg_total g H) as (x & g' & E & H'). unfold lstep. now rewrite E. Qed.
Lemma literate_ok n g : lfg_ok g -> lfg_ok (N.iter n lstep g).
Proof. intros H. apply N.iter_invariant; auto using lstep_ok. Qed.
Lemma lstep_rv g i : lfg_ok g -> (i < 334)%nat -> rv (lstep g) i = rv g (i + 1).
Proof.
  intros H Hi. destruct (lfg_step g H) as (g' & E & _ & _ & R). unfold lstep. rewrite E, R by lia.
  destruct (Nat.eqb_spec i 334); [lia|]. f_equal. lia.
Qed.
Lemma lstep_last g : lfg_ok g -> LFG_Uint64 g = Ret (rv (lstep g) 334, lstep g) /\
  rv (lstep g) 334 = add64 (rv g 334) (rv g 0).
Proof.
  intros H. destruct (lfg_step g H) as (g' & E & _ & _ & R). unfold lstep. rewrite E.
  rewrite (R 334%nat) by lia. split; reflexivity.
Qed.

(** the sequence behind a state *)
Definition useq (g : lfg) (n : N) : N := rv (N.iter n lstep g) 0.
Lemma useq_rv g (n : N) i : lfg_ok g -> (i <= 334)%nat -> rv (N.iter n lstep g) i = useq g (n + N.of_nat i).
Proof.
  intros H. revert n. induction i as [|i IH]; intros n Hi.
  - unfold useq. now rewrite N.add_0_r.
  - replace (n + N.of_nat (S i)) with (n + 1 + N.of_nat i) by lia. rewrite <- IH by lia.
    rewrite N.add_1_r, N.iter_succ, lstep_rv by (try apply literate_ok; try exact H; lia).
    f_equal. lia.
Qed.
Lemma useq_rec g n : lfg_ok g -> useq g (n + 335) = add64 (useq g (n + 334)) (useq g n).
Proof.
  intros H. replace (n + 335) with (N.succ n + N.of_nat 334) by lia.
  rewrite <- useq_rv by (auto || lia). rewrite N.iter_succ.
  destruct (lstep_last (N.iter n lstep g) (literate_ok n g H)) as [_ ->].
  rewrite !useq_rv by (auto || lia). now rewrite N.add_0_r.
Qed.
Lemma useq_w g n : lfg_ok g -> w64 (useq g n).
Proof. intros H. apply rv_w64, literate_ok, H. Qed.
Lemma useq_out g n : lfg_ok g ->
  LFG_Uint64 (N.iter n lstep g) = Ret (useq g (n + 335), N.iter (n + 1) lstep g).
Proof.
  intros H. destruct (lstep_last (N.iter n lstep g) (literate_ok n g H)) as [-> _].
  rewrite N.add_1_r, N.iter_succ. f_equal. f_equal.
  rewrite <- N.iter_succ, useq_rv by (auto || lia). f_equal. lia.
Qed.
Lemma runs_useq g xs g' : lfg_ok g -> runs LFG_Uint64 g xs g' ->
  g' = N.iter (N.of_nat (length xs)) lstep g /\
  forall k, (k < length xs)%nat -> nth k xs 0 = useq g (N.of_nat k + 335).
Proof.
  intros H Hr.
  enough (G : forall n, runs LFG_Uint64 (N.iter n lstep g) xs g' ->
    g' = N.iter (n + N.of_nat (length xs)) lstep g /\
    forall k, (k < length xs)%nat -> nth k xs 0 = useq g (n + N.of_nat k + 335)).
  { destruct (G 0 Hr) as [G1 G2]. split; [exact G1|]. intros k Hk. rewrite G2 by exact Hk. f_equal. }
  clear Hr. induction xs as [|x xs IH]; intros n Hr.
  - inversion Hr; subst. rewrite N.add_0_r. split; [reflexivity|]. intros k Hk. cbn in Hk. lia.
  - inversion Hr as [|? ? s1 ? ? Hx Hr']; subst.
    rewrite (useq_out g n H) in Hx. inversion Hx; subst x s1.
    destruct (IH _ Hr') as [E1 E2]. split.
    + rewrite E1. f_equal. cbn [length]. lia.
    + intros [|k] Hk; cbn [nth length] in *.
      * f_equal. lia.
      * rewrite E2 by lia. f_equal. lia.
Qed.

(** ** periodicity, by lifting from mod 2 *)
Definition lfgE : positive := 0x7ffffffffffffffffffffffffff7fffffffffffffffffff000000000000000000000000001.
Definition lfgP : N := N.lxor (2 ^ 335) (N.lxor (2 ^ 334) 1).

Lemma lfgE_check : N.eqb (ppow lfgP 335 (tab lfgP 335) 2 lfgE) 1 = true.
Proof. vm_cast_no_check (eq_refl true). Qed.

Lemma act_pow2 k v n : act (2 ^ k) v n = v (n + k).
Proof.
  revert n. induction k as [|k IH] using N.peano_ind; intros n.
  - cbn. now rewrite N.add_0_r.
  - rewrite N.pow_succ_r', <- N.double_spec, act_double, IH. f_equal. lia.
Qed.

(** a bit sequence with b(n+335) = b(n+334) xor b(n) has period lfgE *)
Lemma lfg_bits_period (v : N -> bool) :
  (forall n, v (n + 335) = xorb (v (n + 334)) (v n)) -> forall n, v (n + Npos lfgE) = v n.
Proof.
  intros H n.
  assert (K : killed lfgP v).
  { intros m. unfold lfgP. rewrite !act_lxor, !act_pow2, H.
    change (act 1 v m) with (v m). destruct (v (m + 334)), (v m); reflexivity. }
  pose proof (sacts_ppow lfgP 335 2 1 lfgE (sacts_x lfgP) v K n) as E.
  rewrite N.mul_1_l in E. rewrite <- E. clear E.
  pose proof lfgE_check as C. apply N.eqb_eq in C. rewrite C. reflexivity.
Qed.
Lemma lfg_bits_period_mul (v : N -> bool) :
  (forall n, v (n + 335) = xorb (v (n + 334)) (v n)) -> forall m n, v (n + Npos lfgE * m) = v n.
Proof.
  intros H m. induction m as [|m IH] using N.peano_ind; intros n.
  - f_equal. lia.
  - rewrite N.mul_succ_r, N.add_assoc, (lfg_bits_period v H). apply IH.
Qed.

Local Open Scope Z_scope.
(** lifting: recurrence mod 2^(k+1) implies period lfgE * 2^k mod 2^(k+1) *)
Lemma lfg_lift (k : nat) : forall u : N -> Z,
  (forall n, (2 ^ Z.of_nat (S k) | u (n + 335)%N - u (n + 334)%N - u n)) ->
  forall n, (2 ^ Z.of_nat (S k) | u (n + Npos lfgE * 2 ^ N.of_nat k)%N - u n).
Proof.
  assert (base : forall u : N -> Z, (forall n, (2 | u (n + 335)%N - u (n + 334)%N - u n)) ->
    forall m n, (2 | u (n + Npos lfgE * m)%N - u n)).
  { intros u H m n.
    assert (B : forall n, Z.odd (u (n + 335)%N) = xorb (Z.odd (u (n + 334)%N)) (Z.odd (u n))).
    { intros j. specialize (H j). destruct H as [q Hq].
      replace (u (j + 335)%N) with (u (j + 334)%N + u j + 2 * q) by lia.
      rewrite !Z.odd_add, Z.odd_mul. cbn [Z.odd]. rewrite andb_false_l, xorb_false_r. reflexivity. }
    pose proof (lfg_bits_period_mul (fun j => Z.odd (u j)) B m n) as E. cbv beta in E.
    apply Z.mod_divide; [lia|]. rewrite Zmod_odd, Z.odd_sub, E, xorb_nilpotent. reflexivity. }
  induction k as [|k IH]; intros u H n.
  - apply base. exact H.
  - set (M := 2 ^ Z.of_nat (S k)) in *.
    assert (HM : 2 ^ Z.of_nat (S (S k)) = 2 * M).
    { unfold M. rewrite !Nat2Z.inj_succ, !Z.pow_succ_r by lia. reflexivity. }
    rewrite HM in *.
    assert (Mpos : 0 < M) by (apply Z.pow_pos_nonneg; lia).
    set (T := (Npos lfgE * 2 ^ N.of_nat k)%N) in *.
    assert (ET : (Npos lfgE * 2 ^ N.of_nat (S k) = T + T)%N).
    { unfold T. rewrite Nat2N.inj_succ, N.pow_succ_r'. lia. }
    rewrite ET.
    assert (D : forall j, (M | u (j + T)%N - u j)).
    { apply IH. intros j. apply Z.divide_trans with (2 * M); [exists 2; lia|apply H]. }
    set (v := fun j => (u (j + T)%N - u j) / M).
    assert (Ev : forall j, u (j + T)%N - u j = M * v j).
    { intros j. unfold v. apply Z_div_exact_full_2; [lia|]. apply Z.mod_divide; [lia|apply D]. }
    assert (Rv : forall j, (2 | v (j + 335)%N - v (j + 334)%N - v j)).
    { intros j. apply (Z.mul_divide_cancel_l _ _ M); [lia|].
      replace (M * (v (j + 335)%N - v (j + 334)%N - v j)) with
        ((u (j + T + 335)%N - u (j + T + 334)%N - u (j + T)%N) - (u (j + 335)%N - u (j + 334)%N - u j)).
      - rewrite (Z.mul_comm M 2). apply Z.divide_sub_r; apply H.
      - pose proof (Ev (j + 335)%N) as E1. pose proof (Ev (j + 334)%N) as E2. pose proof (Ev j) as E3.
        replace (j + 335 + T)%N with (j + T + 335)%N in E1 by lia.
        replace (j + 334 + T)%N with (j + T + 334)%N in E2 by lia. lia. }
    pose proof (base v Rv (2 ^ N.of_nat k)%N n) as Bv. fold T in Bv. destruct Bv as [q Hq].
    pose proof (Ev n) as E1. pose proof (Ev (n + T)%N) as E2.
    replace (n + T + T)%N with (n + (T + T))%N in E2 by lia.
    exists (v n + q).
    replace (u (n + (T + T))%N - u n) with (M * v (n + T)%N + M * v n) by lia.
    replace (v (n + T)%N) with (v n + q * 2) by lia. ring.
Qed.
Local Close Scope Z_scope.

Definition lfgT : N := Npos lfgE * 2 ^ 63.
Lemma useq_period g n : lfg_ok g -> useq g (n + lfgT) = useq g n.
Proof.
  intros H.
  pose proof (lfg_lift 63 (fun j => Z.of_N (useq g j))) as L. cbv beta in L.
  change (Z.of_nat 64) with 64%Z in L. change (N.of_nat 63) with 63 in L.
  assert (D : (2 ^ 64 | Z.of_N (useq g (n + lfgT)) - Z.of_N (useq g n))%Z).
  { apply L. intros j. rewrite useq_rec by exact H. rewrite add64_mod.
    rewrite N2Z.inj_mod, N2Z.inj_add. change (Z.of_N (2 ^ 64)) with (2 ^ 64)%Z.
    set (z := (Z.of_N (useq g (j + 334)) + Z.of_N (useq g j))%Z).
    exists (- (z / 2 ^ 64))%Z. pose proof (Z.div_mod z (2 ^ 64)). lia. }
  destruct D as [q Hq].
  pose proof (useq_w g (n + lfgT) H) as W1. pose proof (useq_w g n H) as W2. unfold w64 in *.
  assert (q = 0%Z) by (change (2 ^ 64) with 18446744073709551616 in *; lia). lia.
Qed.
