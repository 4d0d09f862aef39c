(** The heavy computation behind C58, kept apart: words 2^34 .. 2^34+334 of the sequence that starts 0, 1, ..., 334. *)
From Verif Require Import Model.Base Model.LfgTable Spec.Common Proofs.LfgPower Proofs.LfgFast.
Local Open Scope N_scope.
Fixpoint words_eqb (a b : list N) : bool :=
  match a, b with [], [] => true | x :: a, y :: b => (x =? y) && words_eqb a b | _, _ => false end.
Lemma words_eqb_eq a : forall b, words_eqb a b = true -> a = b.
Proof.
  induction a as [|x a IH]; intros [|y b] H; try discriminate; [reflexivity|].
  cbn in H. apply andb_prop in H. destruct H as [H1 H2]. apply N.eqb_eq in H1. rewrite H1, (IH b H2). reflexivity.
Qed.
Lemma table_fast_check : words_eqb (map toN (fwindows 335 (fsq 26 (map ofN x256)) (map ofN first670))) (skipn 272 (skipn 114 lfgS0 ++ firstn 114 lfgS0)) = true.
Proof. vm_cast_no_check (eq_refl true). Qed.
Lemma first670_check : forallb (fun x => x <? 2 ^ 64) first670 = true.
Proof. vm_cast_no_check (eq_refl true). Qed.
Lemma x256_check : forallb (fun x => x <? 2 ^ 64) x256 = true.
Proof. vm_cast_no_check (eq_refl true). Qed.
Lemma all_w64 l : forallb (fun x => x <? 2 ^ 64) l = true -> Forall w64 l.
Proof. intros H. rewrite forallb_forall in H. apply Forall_forall. intros x Hx. apply N.ltb_lt, H, Hx. Qed.
Lemma table_jump_eq : windows 335 (sq335 26 x256) first670 = skipn 272 (skipn 114 lfgS0 ++ firstn 114 lfgS0).
Proof.
  rewrite (fast_windows 335 26 x256 first670 eq_refl (all_w64 _ x256_check) (all_w64 _ first670_check)).
  exact (words_eqb_eq _ _ table_fast_check).
Qed.
