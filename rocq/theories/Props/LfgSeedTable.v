(** C58: the comment on LFG's seed table is right: it is the generator's state after 2^34 calls from 0, 1, ..., 606. *)
From Coq Require Import Lia ZifyN ZifyNat ZifyBool.
From Verif Require Import Model.Base Model.LfgTable Model.Lfg Model.Api Spec.Common Spec.States Spec.Kinds Spec.LfgRef.
From Verif Require Import Proofs.WordLemmas Proofs.ReadProofs Proofs.LfgProofs Proofs.LfgSave Proofs.LfgStream Proofs.LfgPower Proofs.LfgFast Proofs.LfgJump
  Proofs.KindProofs Props.Lfg Props.LfgMore.
Ltac Zify.zify_post_hook ::= Z.div_mod_to_equations.
Local Open Scope N_scope.

Definition count607 : list N := map N.of_nat (seq 0 607).
Lemma count607_ok : length count607 = 607%nat /\ Forall w64 count607.
Proof.
  split; [reflexivity|]. apply Forall_forall. intros x Hx. apply in_map_iff in Hx. destruct Hx as (k & <- & Hk).
  apply in_seq in Hk. unfold w64. lia.
Qed.
(** computations: the 335 newest words, and the 272 older ones by the recurrence *)
Lemma table_rec_check : forallb (fun k => nth (k + 335) table_run 0 =? (nth (k + 334) table_run 0 + nth k table_run 0) mod 2 ^ 64) (seq 0 272) = true.
Proof. vm_cast_no_check (eq_refl true). Qed.
Opaque lfgS0.
Lemma table_run_length : length table_run = 607%nat.
Proof. unfold table_run. rewrite app_length, skipn_length, firstn_length, lfgS0_length. reflexivity. Qed.
Lemma table_run_w k : w64 (nth k table_run 0).
Proof.
  destruct (Nat.lt_ge_cases k 607) as [H|H]; [|rewrite nth_overflow by (rewrite table_run_length; exact H); reflexivity].
  assert (F : Forall w64 table_run).
  { pose proof lfgS0_w64 as F. rewrite <- (firstn_skipn 114 lfgS0) in F. apply Forall_app in F. destruct F. unfold table_run. apply Forall_app. auto. }
  rewrite Forall_forall in F. apply F, nth_In. rewrite table_run_length. exact H.
Qed.
Lemma table_run_nth k : (k < 607)%nat -> nth k lfgS0 0 = nth ((k + 493) mod 607) table_run 0.
Proof.
  intros Hk. unfold table_run. pose proof lfgS0_length as L.
  destruct (Nat.lt_ge_cases k 114) as [H|H].
  - rewrite app_nth2 by (rewrite skipn_length, L; lia). rewrite skipn_length, L.
    replace ((k + 493) mod 607 - (607 - 114))%nat with k by lia. rewrite <- (firstn_skipn 114 lfgS0) at 1. rewrite app_nth1 by (rewrite firstn_length, L; lia). reflexivity.
  - rewrite app_nth1 by (rewrite skipn_length, L; lia). rewrite nth_skipn. f_equal. lia.
Qed.

Section FromZero.
  Let g0 := mkLFG 334 0 count607.
  Lemma g0_ok : lfg_ok g0.
  Proof. apply lfg_fresh_ok; apply count607_ok. Qed.
  Let u := useq g0.
  Lemma u_rec n : u (n + 335) = (u (n + 334) + u n) mod 2 ^ 64.
  Proof. apply useq_recN, g0_ok. Qed.
  Lemma u_w n : w64 (u n).
  Proof. apply useq_w, g0_ok. Qed.
  Lemma u_start i : (i < 335)%nat -> u (N.of_nat i) = N.of_nat i.
  Proof.
    intros Hi. pose proof (useq_rv g0 0 i g0_ok ltac:(lia)) as E. rewrite N.add_0_l in E. unfold u. rewrite <- E. cbn [N.iter].
    unfold rv. cbn [lt ls g0]. rewrite Nat.add_0_l, Nat.mod_small by lia. unfold count607.
    rewrite (nth_indep _ 0 (N.of_nat 0)) by (rewrite map_length, seq_length; lia).
    rewrite (map_nth N.of_nat), seq_nth by lia. reflexivity.
  Qed.
  Lemma u_new i : (i < 335)%nat -> u (2 ^ 34 + N.of_nat i) = nth (272 + i) table_run 0.
  Proof.
    intros Hi. rewrite (jump_windows u u_rec u_start u_w i Hi). rewrite table_jump_eq.
    apply nth_skipn.
  Qed.
  Lemma u_table k : (k <= 606)%nat -> u (2 ^ 34 - 272 + N.of_nat k) = nth k table_run 0.
  Proof.
    assert (G : forall m k, (k + m = 606)%nat -> u (2 ^ 34 - 272 + N.of_nat k) = nth k table_run 0).
    { intros m. induction m as [m IH] using lt_wf_ind. intros k' Hk. destruct (Nat.lt_ge_cases m 335) as [Hm|Hm].
      - replace (2 ^ 34 - 272 + N.of_nat k') with (2 ^ 34 + N.of_nat (k' - 272)) by lia. rewrite u_new by lia. f_equal. lia.
      - pose proof table_rec_check as C. rewrite forallb_forall in C. specialize (C k'). rewrite in_seq, N.eqb_eq in C.
        specialize (C ltac:(lia)). pose proof (u_rec (2 ^ 34 - 272 + N.of_nat k')) as Ru.
        replace (2 ^ 34 - 272 + N.of_nat k' + 335) with (2 ^ 34 - 272 + N.of_nat (k' + 335)) in Ru by lia.
        replace (2 ^ 34 - 272 + N.of_nat k' + 334) with (2 ^ 34 - 272 + N.of_nat (k' + 334)) in Ru by lia.
        rewrite (IH (m - 335)%nat), (IH (m - 334)%nat), C in Ru by lia.
        pose proof (u_w (2 ^ 34 - 272 + N.of_nat k')) as W1. pose proof (table_run_w k') as W2. pose proof (table_run_w (k' + 334)) as W3.
        unfold w64 in *. generalize dependent (nth k' table_run 0). generalize dependent (u (2 ^ 34 - 272 + N.of_nat k')).
        generalize dependent (nth (k' + 334) table_run 0). clear. intros a Ha b Hb c _ E Hc. lia. }
    intros Hk. apply (G (606 - k)%nat). lia.
  Qed.
  Lemma lt_iter n : lt (N.iter n lstep g0) = (N.to_nat (n mod 607)).
  Proof.
    induction n as [|n IH] using N.peano_ind; [reflexivity|].
    rewrite N.iter_succ. destruct (lfg_step (N.iter n lstep g0) (literate_ok n g0 g0_ok)) as (g' & E & _ & T & _).
    unfold lstep at 1. rewrite E. rewrite T, IH. clear. lia.
  Qed.
  Lemma state_is_table n : n = 2 ^ 34 -> ls (N.iter n lstep g0) = lfgS0.
  Proof.
    intros Hn. set (t := N.iter n lstep g0). assert (Ht : lfg_ok t) by (apply literate_ok, g0_ok).
    assert (Lt : lt t = 386%nat) by (unfold t; rewrite lt_iter, Hn; reflexivity).
    destruct Ht as (L & _ & _ & _).
    apply (list_eq_nth 0); [rewrite L; symmetry; apply lfgS0_length|]. intros k Hk. rewrite L in Hk.
    rewrite table_run_nth by exact Hk.
    assert (E : nth k (ls t) 0 = rv t ((k + 221) mod 607)) by (unfold rv; rewrite Lt; f_equal; lia).
    rewrite E. set (i := ((k + 221) mod 607)%nat). assert (Hi : (i < 607)%nat) by (unfold i; lia).
    replace ((k + 493) mod 607)%nat with ((i + 272) mod 607)%nat by (unfold i; lia).
    destruct (Nat.lt_ge_cases i 335) as [H|H].
    - unfold t. rewrite rv_new by (try exact g0_ok; lia). fold u.
      replace (n + N.of_nat i) with (2 ^ 34 - 272 + N.of_nat (i + 272)) by lia.
      rewrite u_table by lia. f_equal. lia.
    - pose proof (rv_old g0 (606 - i) g0_ok ltac:(lia) (2 ^ 34 - 272 + N.of_nat (i - 335))) as O.
      replace (606 - (606 - i))%nat with i in O by lia.
      replace (2 ^ 34 - 272 + N.of_nat (i - 335) + N.of_nat (606 - i) + 1) with n in O by lia.
      unfold t. rewrite O. fold u. rewrite u_table by lia. f_equal. lia.
  Qed.
End FromZero.

(** Restore the words 0, 1, ..., 606 into an LFG and call Uint64 2^34 times: field s then equals the table,
    word for word *)
Theorem C58_table_is_the_state_after_2_34_calls xs t :
  runs LFG_Uint64 (mkLFG 334 0 (map N.of_nat (seq 0 607))) xs t -> N.of_nat (length xs) = 2 ^ 34 -> ls t = lfgS0.
Proof.
  intros R L. destruct (runs_useq _ _ _ g0_ok R) as [E _]. rewrite E. apply state_is_table, L.
Qed.
Theorem C58_such_a_run_exists : exists xs t, reachable gLFG (mkLFG 334 0 (map N.of_nat (seq 0 607))) /\
  N.of_nat (length xs) = 2 ^ 34 /\ runs LFG_Uint64 (mkLFG 334 0 (map N.of_nat (seq 0 607))) xs t.
Proof.
  destruct (runs_total LFG_Uint64 lfg_ok (inv_total gLFG) (N.to_nat (2 ^ 34)) _ g0_ok) as (xs & t & R & L & _).
  exists xs, t. split; [apply lfg_restored_reachable; apply count607_ok|]. split; [rewrite L; apply N2Nat.id|exact R].
Qed.
Print Assumptions C58_table_is_the_state_after_2_34_calls.
Print Assumptions C58_such_a_run_exists.
