(** Polynomials over GF(2) acting on infinite bit sequences by shifts. *)
From Coq Require Import Lia ZifyN ZifyNat ZifyBool.
From Verif Require Import Proofs.WordLemmas Proofs.Gf2.
Local Open Scope N_scope.

Fixpoint pact (p : positive) (v : N -> bool) (n : N) : bool :=
  match p with
  | xH => v n
  | xO q => pact q v (n + 1)
  | xI q => xorb (v n) (pact q v (n + 1))
  end.
Definition act (p : N) (v : N -> bool) (n : N) : bool :=
  match p with N0 => false | Npos q => pact q v n end.

Lemma pact_ext p v w : (forall n, v n = w n) -> forall n, pact p v n = pact p w n.
Proof. intros H. induction p as [p IH|p IH|]; intros n; cbn [pact]; rewrite ?H, ?IH; reflexivity. Qed.
Lemma act_ext p v w : (forall n, v n = w n) -> forall n, act p v n = act p w n.
Proof. intros H n. destruct p; cbn [act]; [reflexivity|]. now apply pact_ext. Qed.
Lemma act_double p v n : act (N.double p) v n = act p v (n + 1).
Proof. destruct p; reflexivity. Qed.
Lemma act_succ_double p v n : act (N.succ_double p) v n = xorb (v n) (act p v (n + 1)).
Proof. destruct p; cbn; [now rewrite xorb_false_r|reflexivity]. Qed.
Lemma pact_lxor p : forall q v n, act (Pos.lxor p q) v n = xorb (pact p v n) (pact q v n).
Proof.
  induction p as [p IH|p IH|]; intros [q|q|] v n; cbn [Pos.lxor pact];
    rewrite ?act_double, ?act_succ_double, ?IH; cbn [act pact];
    repeat match goal with |- context [pact ?a v ?m] => destruct (pact a v m) end;
    destruct (v n); reflexivity.
Qed.
Lemma act_lxor p q v n : act (N.lxor p q) v n = xorb (act p v n) (act q v n).
Proof.
  destruct p as [|p], q as [|q]; cbn [act].
  - reflexivity.
  - change (N.lxor 0 (Npos q)) with (Npos q). cbn [act]. now destruct (pact q v n).
  - change (N.lxor (Npos p) 0) with (Npos p). cbn [act]. now rewrite xorb_false_r.
  - apply pact_lxor.
Qed.
Lemma pact_shift p k : forall v n, pact p (fun m => v (m + k)) n = pact p v (n + k).
Proof.
  induction p as [p IH|p IH|]; intros v n; cbn [pact]; rewrite ?IH.
  - now replace (n + 1 + k) with (n + k + 1) by lia.
  - now replace (n + 1 + k) with (n + k + 1) by lia.
  - reflexivity.
Qed.
Lemma act_shift p k v n : act p (fun m => v (m + k)) n = act p v (n + k).
Proof. destruct p; [reflexivity|]. apply pact_shift. Qed.

Section Mod.
  Variable P deg : N.
  Definition killed (v : N -> bool) : Prop := forall n, act P v n = false.
  Lemma killed_shift v k : killed v -> killed (fun m => v (m + k)).
  Proof. intros H n. rewrite act_shift. apply H. Qed.
  Lemma act_xtime a v n : killed v -> act (xtime P deg a) v n = act a v (n + 1).
  Proof.
    intros H. unfold xtime. destruct (N.testbit _ _).
    - rewrite act_lxor, (H n), xorb_false_r. apply act_double.
    - apply act_double.
  Qed.
  Lemma act_mulmod a b v n : killed v -> act (mulmod P deg a b) v n = act a (act b v) n.
  Proof.
    intros H. destruct a as [|a]; cbn [mulmod]; [reflexivity|]. cbn [act]. revert n.
    induction a as [a IH|a IH|]; intros n; cbn [pmulmod pact].
    - rewrite act_lxor, act_xtime, IH by exact H. reflexivity.
    - rewrite act_xtime, IH by exact H. reflexivity.
    - reflexivity.
  Qed.
  Definition sacts (a k : N) : Prop := forall v, killed v -> forall n, act a v n = v (n + k).
  Lemma sacts_mul a b k l : sacts a k -> sacts b l -> sacts (mulmod P deg a b) (k + l).
  Proof.
    intros Ha Hb v Hv n. rewrite act_mulmod by exact Hv.
    rewrite (act_ext a (act b v) (fun m => v (m + l))) by (intros m; apply Hb, Hv).
    rewrite (Ha _ (killed_shift v l Hv)). f_equal. lia.
  Qed.
  Lemma sacts_x : sacts 2 1. Proof. intros v _ n. reflexivity. Qed.
  Lemma pact_xor p : forall v w n, pact p (fun m => xorb (v m) (w m)) n = xorb (pact p v n) (pact p w n).
  Proof.
    induction p as [p IH|p IH|]; intros v w n; cbn [pact]; rewrite ?IH; [|reflexivity|reflexivity].
    destruct (v n), (w n), (pact p v (n + 1)), (pact p w (n + 1)); reflexivity.
  Qed.
  Lemma pact_comm p : forall q w k, pact p (pact q w) k = pact q (pact p w) k.
  Proof.
    induction p as [p IHp|p IHp|]; intros q w k; cbn [pact].
    - rewrite IHp. symmetry.
      change (pact p~1 w) with (fun m => xorb (w m) (pact p w (m + 1))).
      rewrite pact_xor. f_equal. rewrite (pact_shift q 1 (pact p w) k). reflexivity.
    - rewrite IHp. rewrite <- (pact_shift q 1 (pact p w) k). reflexivity.
    - reflexivity.
  Qed.
  Lemma pact_false q : forall w, (forall m, w m = false) -> forall k, pact q w k = false.
  Proof. induction q as [q IHq|q IHq|]; intros w H k; cbn [pact]; rewrite ?IHq, ?H by exact H; reflexivity. Qed.
  Lemma act_pact_comm c q w k : act c (pact q w) k = pact q (act c w) k.
  Proof. destruct c as [|c]; cbn [act]; [|apply pact_comm]. symmetry. now apply pact_false. Qed.
  Lemma killed_pact q w : killed w -> killed (pact q w).
  Proof. intros H m. rewrite act_pact_comm. now apply pact_false. Qed.
  Lemma act_psqt n a : forall cur v m, killed v -> (Pos.size_nat a <= n)%nat ->
    act (psqt (mk_tab P deg n cur) a) v m = act cur (pact a (pact a v)) m.
  Proof.
    revert a; induction n as [|n IH]; intros a cur v m Hv Hs; [destruct a; cbn in Hs; lia|].
    assert (XX : forall a' m, (Pos.size_nat a' <= n)%nat ->
      act (psqt (mk_tab P deg n (xtime P deg (xtime P deg cur))) a') v m = act cur (pact a' (pact a' v)) (m + 1 + 1)).
    { intros a' m0 Hs'. rewrite IH by assumption. now rewrite !act_xtime by now apply killed_pact, killed_pact. }
    destruct a as [a|a|]; cbn [mk_tab psqt Pos.size_nat] in *.
    - rewrite act_lxor, XX by lia.
      rewrite (act_ext cur (pact a~1 (pact a~1 v)) (fun m => xorb (v m) (pact a (pact a v) (m + 1 + 1)))).
      + destruct cur as [|c]; cbn [act]; [reflexivity|]. rewrite pact_xor. f_equal.
        rewrite <- (pact_shift c 1 _ (m + 1)), <- (pact_shift c 1 _ m). reflexivity.
      + intros k. cbn [pact].
        change (pact a~1 v) with (fun m => xorb (v m) (pact a v (m + 1))).
        rewrite pact_xor, (pact_shift a 1 (pact a v)).
        destruct (v k), (pact a v (k + 1)), (pact a (pact a v) (k + 1 + 1)); reflexivity.
    - rewrite XX by lia. rewrite <- (act_shift cur 1 _ (m + 1)), <- (act_shift cur 1 _ m).
      apply act_ext. intros k. cbn [pact]. now rewrite (pact_shift a 1 (pact a v)).
    - reflexivity.
  Qed.
  Lemma act_sq a v n : killed v -> act (sq P deg (tab P deg) a) v n = act a (act a v) n.
  Proof.
    intros Hv. destruct a as [|a]; cbn [sq]; [reflexivity|].
    unfold tab. rewrite mk_tab_length.
    destruct (Nat.leb_spec (Pos.size_nat a) (N.to_nat deg)) as [H|H].
    - rewrite act_psqt by assumption. reflexivity.
    - apply act_mulmod, Hv.
  Qed.
  Lemma sacts_sq a k : sacts a k -> sacts (sq P deg (tab P deg) a) (k + k).
  Proof.
    intros Ha v Hv n. rewrite act_sq by exact Hv.
    rewrite (act_ext a (act a v) (fun m => v (m + k))) by (intros m; apply Ha, Hv).
    rewrite (Ha _ (killed_shift v k Hv)). f_equal. lia.
  Qed.
  Lemma sacts_ppow a k n : sacts a k -> sacts (ppow P deg (tab P deg) a n) (k * Npos n).
  Proof.
    intros Ha. induction n as [n IH|n IH|]; cbn [ppow].
    - replace (k * N.pos n~1) with (k + (k * Npos n + k * Npos n)) by lia.
      apply sacts_mul; [exact Ha|]. apply sacts_sq; exact IH.
    - replace (k * N.pos n~0) with (k * Npos n + k * Npos n) by lia.
      apply sacts_sq; exact IH.
    - now rewrite N.mul_1_r.
  Qed.
End Mod.
