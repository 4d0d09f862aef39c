(** Jumping ahead in the LFG's sequence: x^(2^k) modulo its characteristic polynomial over Z/2^64. *)
From Coq Require Import Lia ZifyN ZifyNat ZifyBool.
From Verif Require Import Model.Base Spec.Common Proofs.WordLemmas.
Local Open Scope N_scope.

Fixpoint add_at (k : nat) (c : N) (v : list N) : list N :=
  match v with [] => [] | x :: v => match k with O => trunc64 (x + c) :: v | S k => x :: add_at k c v end end.
(** multiply by x and reduce: x^335 = x^334 + 1 *)
Definition xtime335 (v : list N) : list N := let c := last v 0 in add_at 334 c (c :: removelast v).
Fixpoint axpy (c : N) (q acc : list N) : list N :=
  match q, acc with x :: q, y :: acc => trunc64 (c * x + y) :: axpy c q acc | _, _ => [] end.
Definition zero335 : list N := repeat 0 335.
Fixpoint mul335 (p q : list N) : list N :=
  match p with [] => zero335 | c :: p => let r := xtime335 (mul335 p q) in match c with 0 => r | _ => axpy c q r end end.
Fixpoint sq335 (k : nat) (p : list N) : list N := match k with O => p | S k => sq335 k (mul335 p p) end.

Lemma add_at_length k c v : length (add_at k c v) = length v.
Proof. revert k; induction v as [|x v IH]; intros [|k]; cbn; auto. Qed.
Lemma removelast_len {A} (v : list A) : length (removelast v) = (length v - 1)%nat.
Proof. induction v as [|x [|y v] IH]; [reflexivity|reflexivity|]. cbn [removelast length] in *. rewrite IH. lia. Qed.
Lemma xtime335_length v : length v = 335%nat -> length (xtime335 v) = 335%nat.
Proof. intros H. unfold xtime335. rewrite add_at_length. cbn [length]. rewrite removelast_len, H. reflexivity. Qed.
Lemma axpy_length c q : forall acc, length acc = length q -> length (axpy c q acc) = length q.
Proof. induction q as [|x q IH]; intros [|y acc] H; cbn in *; try discriminate; auto. Qed.
Lemma mul335_length p q : length q = 335%nat -> length (mul335 p q) = 335%nat.
Proof.
  intros H. induction p as [|c p IH]; [apply repeat_length|]. cbn [mul335]. cbv zeta.
  pose proof (xtime335_length _ IH). destruct c; [assumption|]. rewrite axpy_length; congruence.
Qed.
Lemma sq335_length k : forall p, length p = 335%nat -> length (sq335 k p) = 335%nat.
Proof. induction k as [|k IH]; intros p H; cbn [sq335]; [exact H|]. apply IH, mul335_length, H. Qed.

Section Jump.
  Variable u : N -> N.
  Hypothesis R : forall n, u (n + 335) = (u (n + 334) + u n) mod 2 ^ 64.
  Definition eqm (a b : N) : Prop := a mod 2 ^ 64 = b mod 2 ^ 64.
  Lemma eqm_add a b c d : eqm a b -> eqm c d -> eqm (a + c) (b + d).
  Proof. unfold eqm. intros H1 H2. rewrite N.add_mod, H1, H2, <- N.add_mod by discriminate. reflexivity. Qed.
  Lemma eqm_mul a b c d : eqm a b -> eqm c d -> eqm (a * c) (b * d).
  Proof. unfold eqm. intros H1 H2. rewrite N.mul_mod, H1, H2, <- N.mul_mod by discriminate. reflexivity. Qed.
  Lemma eqm_trunc a : eqm (trunc64 a) a.
  Proof. unfold eqm. rewrite trunc64_mod. now apply N.mod_mod. Qed.
  Fixpoint ev (p : list N) (n : N) : N := match p with [] => 0 | c :: p => c * u n + ev p (n + 1) end.
  Lemma ev_zeros k : forall n, ev (repeat 0 k) n = 0.
  Proof. induction k as [|k IH]; intros n; cbn [repeat ev]; [reflexivity|]. now rewrite IH. Qed.
  Lemma ev_app p : forall q n, ev (p ++ q) n = ev p n + ev q (n + N.of_nat (length p)).
  Proof.
    induction p as [|c p IH]; intros q n; cbn [app ev length N.of_nat]; [now rewrite N.add_0_r|].
    rewrite IH, N.add_assoc. do 2 f_equal. lia.
  Qed.
  Lemma ev_add_at k c : forall v n, (k < length v)%nat -> eqm (ev (add_at k c v) n) (ev v n + c * u (n + N.of_nat k)).
  Proof.
    induction k as [|k IH]; intros [|x v] n Hk; cbn [length] in Hk; try lia; cbn [add_at ev].
    - cbn [N.of_nat]. rewrite N.add_0_r. replace (x * u n + ev v (n + 1) + c * u n) with ((x + c) * u n + ev v (n + 1)) by ring.
      apply eqm_add; [|reflexivity]. apply eqm_mul; [apply eqm_trunc|reflexivity].
    - rewrite <- N.add_assoc. apply eqm_add; [reflexivity|].
      replace (n + N.of_nat (S k)) with (n + 1 + N.of_nat k) by lia. apply IH. lia.
  Qed.
  Lemma ev_xtime v n : length v = 335%nat -> eqm (ev (xtime335 v) n) (ev v (n + 1)).
  Proof.
    intros L. unfold xtime335. set (c := last v 0).
    assert (E : v = removelast v ++ [c]) by (apply app_removelast_last; intros ->; discriminate L).
    assert (L1 : length (removelast v) = 334%nat) by (rewrite removelast_len, L; reflexivity).
    unfold eqm. rewrite (ev_add_at 334 c (c :: removelast v) n) by (cbn [length]; rewrite L1; lia).
    rewrite E at 2. rewrite ev_app, L1. cbn [ev]. rewrite N.add_0_r.
    replace (n + 1 + N.of_nat 334) with (n + 335) by lia. change (N.of_nat 334) with 334.
    rewrite R. transitivity ((ev (removelast v) (n + 1) + c * (u (n + 334) + u n)) mod 2 ^ 64).
    - f_equal. ring.
    - apply eqm_add; [reflexivity|]. apply eqm_mul; [reflexivity|]. unfold eqm. symmetry. now apply N.mod_mod.
  Qed.
  Lemma ev_axpy c q : forall acc n, length acc = length q -> eqm (ev (axpy c q acc) n) (c * ev q n + ev acc n).
  Proof.
    induction q as [|x q IH]; intros [|y acc] n H; cbn [length] in H; try discriminate; cbn [axpy ev].
    - rewrite N.mul_0_r. reflexivity.
    - replace (c * (x * u n + ev q (n + 1)) + (y * u n + ev acc (n + 1))) with ((c * x + y) * u n + (c * ev q (n + 1) + ev acc (n + 1))) by ring.
      apply eqm_add; [apply eqm_mul; [apply eqm_trunc|reflexivity]|]. apply IH. lia.
  Qed.
  (** the product acts by acting twice *)
  Fixpoint ev2 (p : list N) (F : N -> N) (n : N) : N := match p with [] => 0 | c :: p => c * F n + ev2 p F (n + 1) end.
  Lemma ev_mul p q : length q = 335%nat -> forall n, eqm (ev (mul335 p q) n) (ev2 p (ev q) n).
  Proof.
    intros Lq. induction p as [|c p IH]; intros n; cbn [mul335 ev2]; [unfold zero335; rewrite ev_zeros; reflexivity|].
    cbv zeta. pose proof (mul335_length p q Lq) as L1. pose proof (xtime335_length _ L1) as L2.
    assert (E : eqm (ev (xtime335 (mul335 p q)) n) (ev2 p (ev q) (n + 1))).
    { unfold eqm. rewrite (ev_xtime _ _ L1). apply IH. }
    destruct c as [|c]; [rewrite N.mul_0_l, N.add_0_l; exact E|].
    unfold eqm. rewrite (ev_axpy _ _ _ _) by congruence. apply eqm_add; [reflexivity|exact E].
  Qed.
  Lemma ev2_ext p F G : (forall n, eqm (F n) (G n)) -> forall n, eqm (ev2 p F n) (ev2 p G n).
  Proof. intros H. induction p as [|c p IH]; intros n; cbn [ev2]; [reflexivity|]. apply eqm_add; [apply eqm_mul; [reflexivity|apply H]|apply IH]. Qed.
  Lemma ev2_u p m : forall n, ev2 p (fun k => u (k + m)) n = ev p (n + m).
  Proof. induction p as [|c p IH]; intros n; cbn [ev2 ev]; [reflexivity|]. rewrite IH. do 2 f_equal. lia. Qed.
  Lemma ev_sq p m : length p = 335%nat -> (forall n, eqm (u (n + m)) (ev p n)) -> forall n, eqm (u (n + 2 * m)) (ev (mul335 p p) n).
  Proof.
    intros L H n. unfold eqm. rewrite (ev_mul p p L n). rewrite <- (ev2_ext p (fun k => u (k + m)) (ev p) H n).
    rewrite ev2_u. rewrite <- H. f_equal. f_equal. lia.
  Qed.
  Lemma ev_pow k : forall p m, length p = 335%nat -> (forall n, eqm (u (n + m)) (ev p n)) ->
    forall n, eqm (u (n + 2 ^ N.of_nat k * m)) (ev (sq335 k p) n).
  Proof.
    induction k as [|k IH]; intros p m L H n; cbn [sq335].
    - rewrite N.mul_1_l. apply H.
    - rewrite Nat2N.inj_succ, N.pow_succ_r'. replace (2 * 2 ^ N.of_nat k * m) with (2 ^ N.of_nat k * (2 * m)) by ring.
      apply IH; [apply mul335_length, L|]. intros n'. apply ev_sq; assumption.
  Qed.
  Definition x256 : list N := repeat 0 256 ++ [1] ++ repeat 0 78.
  Lemma ev_x256 n : eqm (u (n + 256)) (ev x256 n).
  Proof.
    unfold x256. rewrite !ev_app, !ev_zeros, repeat_length. cbn [ev length].
    change (N.of_nat 256) with 256. rewrite N.mul_1_l, !N.add_0_r, N.add_0_l. reflexivity.
  Qed.
  Lemma jump34 n : eqm (u (n + 2 ^ 34)) (ev (sq335 26 x256) n).
  Proof.
    pose proof (ev_pow 26 x256 256 eq_refl ev_x256 n) as H.
    change (2 ^ N.of_nat 26 * 256) with (2 ^ 34) in H. exact H.
  Qed.
End Jump.

(** the sequence that starts 0, 1, ..., 334 *)
Fixpoint extend (k : nat) (w : list N) : list N :=
  match k with O => [] | S k => let v := trunc64 (last w 0 + hd 0 w) in v :: extend k (tl w ++ [v]) end.
Definition count335 : list N := map N.of_nat (seq 0 335).
Definition first670 : list N := count335 ++ extend 335 count335.
Fixpoint dot (p w : list N) : N := match p, w with c :: p, x :: w => c * x + dot p w | _, _ => 0 end.
Fixpoint windows (k : nat) (p w : list N) : list N :=
  match k with O => [] | S k => trunc64 (dot p w) :: windows k p (tl w) end.
Section Start.
  Variable u : N -> N.
  Hypothesis R : forall n, u (n + 335) = (u (n + 334) + u n) mod 2 ^ 64.
  Hypothesis U0 : forall i, (i < 335)%nat -> u (N.of_nat i) = N.of_nat i.
  Lemma nth_u_map (f : nat -> N) m i : (i < m)%nat -> nth i (map f (seq 0 m)) 0 = f i.
  Proof.
    intros H. rewrite (nth_indep _ 0 (f 0%nat)) by (rewrite map_length, seq_length; exact H).
    rewrite map_nth, seq_nth by exact H. reflexivity.
  Qed.
  Lemma last_nth {A} (d : A) l : last l d = nth (length l - 1) l d.
  Proof.
    induction l as [|x [|y l] IH]; [reflexivity|reflexivity|]. cbn [last length] in *. rewrite IH.
    replace (S (S (length l)) - 1)%nat with (S (S (length l) - 1)) by lia. reflexivity.
  Qed.
  Lemma nth_tl {A} (d : A) i l : nth i (tl l) d = nth (S i) l d.
  Proof. destruct l as [|x l]; [destruct i; reflexivity|reflexivity]. Qed.
  Lemma extend_spec k : forall w n, length w = 335%nat -> (forall i, (i < 335)%nat -> nth i w 0 = u (n + N.of_nat i)) ->
    extend k w = map (fun i => u (n + 335 + N.of_nat i)) (seq 0 k).
  Proof.
    induction k as [|k IH]; intros w n L H; cbn [extend seq map]; [reflexivity|]. cbv zeta.
    assert (V : trunc64 (last w 0 + hd 0 w) = u (n + 335)).
    { rewrite last_nth, L. change (335 - 1)%nat with 334%nat. rewrite H by lia.
      replace (hd 0 w) with (nth 0 w 0) by (destruct w; reflexivity). rewrite H by lia.
      rewrite R, trunc64_mod, N.add_0_r. reflexivity. }
    rewrite V. change (N.of_nat 0) with 0. rewrite N.add_0_r. f_equal. rewrite (IH _ (n + 1)).
    - rewrite <- seq_shift, map_map. apply map_ext. intros i. f_equal. lia.
    - rewrite app_length. destruct w; cbn [tl length] in *; lia.
    - intros i Hi. assert (Lt : length (tl w) = 334%nat) by (destruct w; cbn [tl length] in *; lia).
      destruct (Nat.eq_dec i 334) as [->|Hne].
      + rewrite app_nth2 by lia. rewrite Lt. cbn [nth Nat.sub]. f_equal. lia.
      + rewrite app_nth1 by lia. rewrite nth_tl, H by lia. f_equal. lia.
  Qed.
  Lemma first670_spec : first670 = map (fun i => u (N.of_nat i)) (seq 0 670).
  Proof.
    unfold first670. change 670%nat with (335 + 335)%nat. rewrite seq_app, map_app. f_equal.
    - apply map_ext_in. intros i Hi. apply in_seq in Hi. symmetry. apply U0. lia.
    - rewrite (extend_spec 335 count335 0).
      + change (0 + 335)%nat with (335 + 0)%nat.
        assert (S : forall m k, seq (m + k) 335 = map (fun i => (m + i)%nat) (seq k 335)).
        { intros m k. generalize 335%nat. intros q. revert k. induction q as [|q IH]; intros k; cbn [seq map]; [reflexivity|].
          f_equal. rewrite <- IH. f_equal. lia. }
        rewrite S, map_map. apply map_ext. intros i. f_equal. lia.
      + unfold count335. now rewrite map_length, seq_length.
      + intros i Hi. unfold count335. rewrite nth_u_map by exact Hi. symmetry. rewrite N.add_0_l. apply U0, Hi.
  Qed.
  Lemma dot_ev p : forall w n, (length p <= length w)%nat -> (forall i, (i < length p)%nat -> nth i w 0 = u (n + N.of_nat i)) ->
    dot p w = ev u p n.
  Proof.
    induction p as [|c p IH]; intros [|x w] n L H; cbn [length] in L; try lia; cbn [dot ev]; [reflexivity|reflexivity|].
    f_equal.
    - f_equal. specialize (H 0%nat). cbn in H. rewrite H by lia. f_equal. lia.
    - apply IH; [lia|]. intros i Hi. specialize (H (S i)). cbn [nth length] in H. rewrite H by lia. f_equal. lia.
  Qed.
  Lemma windows_ev p k : forall w n, (k + length p <= S (length w))%nat ->
    (forall i, (i < length w)%nat -> nth i w 0 = u (n + N.of_nat i)) ->
    windows k p w = map (fun i => trunc64 (ev u p (n + N.of_nat i))) (seq 0 k).
  Proof.
    induction k as [|k IH]; intros w n L H; cbn [windows seq map]; [reflexivity|]. f_equal.
    - f_equal. rewrite (dot_ev p w n) by (try lia; intros i Hi; apply H; lia). f_equal. lia.
    - rewrite (IH _ (n + 1)).
      + rewrite <- seq_shift, map_map. apply map_ext. intros i. do 2 f_equal. lia.
      + destruct w; cbn [tl length] in *; lia.
      + intros i Hi. rewrite nth_tl, H; [f_equal; lia|]. destruct w; cbn [tl length] in *; lia.
  Qed.
  Hypothesis W : forall n, w64 (u n).
  (** values 2^34, ..., 2^34+334 of the sequence *)
  Lemma jump_windows i : (i < 335)%nat -> u (2 ^ 34 + N.of_nat i) = nth i (windows 335 (sq335 26 x256) first670) 0.
  Proof.
    intros Hi. assert (L : length first670 = 670%nat) by (rewrite first670_spec, map_length, seq_length; reflexivity).
    rewrite (windows_ev _ 335 first670 0).
    - rewrite nth_u_map by exact Hi. rewrite N.add_0_l, trunc64_mod.
      rewrite <- (jump34 u R (N.of_nat i)). rewrite N.mod_small by apply W. f_equal. lia.
    - rewrite sq335_length, L by reflexivity. lia.
    - intros j Hj. rewrite L in Hj. rewrite first670_spec, nth_u_map by exact Hj. now rewrite N.add_0_l.
  Qed.
End Start.
