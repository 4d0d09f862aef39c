(** Generators whose Uint64 never fails: runs are iterations; orbits that fill a space. *)
From Coq Require Import Lia ZifyN ZifyNat ZifyBool FinFun.
From Verif Require Import Proofs.WordLemmas Proofs.ReadProofs Proofs.Gf2.
Local Open Scope N_scope.

(** proves equalities between xors of atoms, bit by bit *)
Ltac xor_bits :=
  apply N.bits_inj; intros ?n; rewrite ?N.lxor_spec, ?N.bits_0;
  repeat match goal with |- context [N.testbit ?a ?k] => destruct (N.testbit a k) end; reflexivity.

Section Pure.
  Context {S : Type}.
  Variable u64 : S -> outcome (N * S).
  Variable out : S -> N.
  Variable step : S -> S.
  Hypothesis pure : forall s, u64 s = Ret (out s, step s).

  Lemma runs_iter s xs s' : runs u64 s xs s' -> s' = N.iter (N.of_nat (length xs)) step s.
  Proof.
    induction 1 as [s|s x s1 xs s' Hx _ IH]; [reflexivity|].
    rewrite pure in Hx. inversion Hx; subst. cbn [length].
    rewrite Nat2N.inj_succ, N.iter_succ_r. reflexivity.
  Qed.
  Lemma runs_nth s xs s' : runs u64 s xs s' -> forall k, (k < length xs)%nat ->
    nth k xs 0 = out (N.iter (N.of_nat k) step s).
  Proof.
    induction 1 as [s|s x s1 xs s' Hx _ IH]; intros k Hk; cbn [length] in Hk; [lia|].
    rewrite pure in Hx. inversion Hx; subst.
    destruct k as [|k]; [reflexivity|]. cbn [nth].
    rewrite Nat2N.inj_succ, N.iter_succ_r. apply IH. lia.
  Qed.
  Lemma runs_exist n s : exists xs, length xs = n /\ runs u64 s xs (N.iter (N.of_nat n) step s).
  Proof.
    revert s. induction n as [|n IH]; intros s.
    - exists []. split; [reflexivity|constructor].
    - destruct (IH (step s)) as (xs & L & R). exists (out s :: xs). split; [cbn; lia|].
      rewrite Nat2N.inj_succ, N.iter_succ_r. econstructor; [apply pure|exact R].
  Qed.
End Pure.

(** ** full cycles: an orbit with exactly [Ord] distinct points in a space with [Ord] points *)
Section Orbit.
  Context {V : Type}.
  Variable wf : V -> Prop.
  Variable f : V -> V.
  Variable Ord : N.
  Hypothesis ord_pos : Ord <> 0.
  Hypothesis wf_f : forall v, wf v -> wf (f v).
  Hypothesis order : forall v, wf v -> forall n, N.iter n f v = v <-> (Ord | n).

  Lemma iterN_wf n v : wf v -> wf (N.iter n f v).
  Proof. intros H. apply N.iter_invariant; auto. Qed.
  Lemma orbit_inj v m n : wf v -> m < Ord -> n < Ord -> N.iter m f v = N.iter n f v -> m = n.
  Proof.
    intros Hv.
    assert (G : forall m n, m <= n -> n < Ord -> N.iter m f v = N.iter n f v -> m = n).
    { clear m n. intros m n Hmn Hn E. replace n with ((n - m) + m) in E by lia.
      rewrite N.iter_add in E. symmetry in E. apply (order _ (iterN_wf m v Hv)) in E.
      destruct (N.eq_dec (n - m) 0) as [H0|H0]; [lia|].
      apply N.divide_pos_le in E; lia. }
    intros Hm Hn E. destruct (N.le_gt_cases m n) as [H|H]; [now apply G|].
    symmetry. apply G; [lia|exact Hm|now symmetry].
  Qed.
  Lemma iter_mod v n : wf v -> N.iter n f v = N.iter (n mod Ord) f v.
  Proof.
    intros Hv. pose proof (N.div_mod n Ord ord_pos) as E.
    replace (N.iter n f v) with (N.iter (n mod Ord + Ord * (n / Ord)) f v) by (f_equal; lia).
    rewrite N.iter_add. f_equal. apply (order v Hv). exists (n / Ord). lia.
  Qed.
  Lemma orbit_eq v m n : wf v -> N.iter m f v = N.iter n f v <-> m mod Ord = n mod Ord.
  Proof.
    intros Hv. split; intros E.
    - rewrite (iter_mod v m), (iter_mod v n) in E by exact Hv.
      apply orbit_inj in E; auto using N.mod_lt.
    - now rewrite (iter_mod v m), (iter_mod v n), E.
  Qed.

  Variable code : V -> N.
  Hypothesis code_inj : forall a b, wf a -> wf b -> code a = code b -> a = b.
  Hypothesis code_range : forall a, wf a -> 1 <= code a <= Ord.

  Lemma orbit_full v w : wf v -> wf w -> exists n, n < Ord /\ N.iter n f v = w.
  Proof.
    intros Hv Hw.
    set (M := N.to_nat Ord).
    set (l := map (fun k => N.to_nat (code (N.iter (N.of_nat k) f v))) (seq 0 M)).
    assert (ND : NoDup l).
    { apply NoDup_nth with (d := O). unfold l. rewrite map_length, seq_length.
      intros i j Hi Hj E.
      rewrite (nth_indep _ O (N.to_nat (code (N.iter (N.of_nat O) f v)))) in E by (rewrite map_length, seq_length; lia).
      rewrite (nth_indep _ O (N.to_nat (code (N.iter (N.of_nat O) f v))) (n:=j)) in E by (rewrite map_length, seq_length; lia).
      rewrite !(map_nth (fun k => N.to_nat (code (N.iter (N.of_nat k) f v)))), !seq_nth in E by lia.
      apply N2Nat.inj in E. apply code_inj in E; [|apply iterN_wf, Hv|apply iterN_wf, Hv].
      apply orbit_inj in E; try exact Hv; lia. }
    assert (IN : incl (seq 1 M) l).
    { apply NoDup_length_incl; [exact ND|unfold l; now rewrite map_length, !seq_length|].
      intros x Hx. unfold l in Hx. apply in_map_iff in Hx. destruct Hx as (k & <- & _).
      apply in_seq. pose proof (code_range _ (iterN_wf (N.of_nat k) v Hv)). lia. }
    assert (Hin : In (N.to_nat (code w)) l).
    { apply IN. apply in_seq. pose proof (code_range w Hw). lia. }
    unfold l in Hin. apply in_map_iff in Hin. destruct Hin as (k & E & Hk).
    apply in_seq in Hk. apply N2Nat.inj in E. apply code_inj in E; [|apply iterN_wf, Hv|exact Hw].
    exists (N.of_nat k). split; [lia|exact E].
  Qed.
End Orbit.
