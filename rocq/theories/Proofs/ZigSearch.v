(** The script's search for the base edge r. *)
From Coq Require Import Reals Lia Lra Psatz List Arith.
From Coquelicot Require Import Coquelicot.
From Verif Require Import Model.ZigScript Spec.ZigBuild Proofs.ZigSolve.
Import ListNotations.
Local Open Scope R_scope.

Lemma breaks_dec tol M y : {breaks tol M y} + {~ breaks tol M y}.
Proof.
  unfold breaks, almosteq. destruct (Rle_dec M y); [left; auto|]. destruct (Rle_dec (Rabs (y - M)) tol); [left; auto|].
  destruct (Rle_dec (Rabs (y - M)) (tol * Rmax (Rabs y) (Rabs M))); [left; auto|right; tauto].
Qed.
Lemma almosteq_dec tol M y : {almosteq tol y M} + {~ almosteq tol y M}.
Proof.
  unfold almosteq. destruct (Rle_dec (Rabs (y - M)) tol); [left; auto|].
  destruct (Rle_dec (Rabs (y - M)) (tol * Rmax (Rabs y) (Rabs M))); [left; auto|right; tauto].
Qed.
Lemma almosteq_0 y M : almosteq 0 y M <-> y = M.
Proof.
  unfold almosteq. rewrite Rmult_0_l. split; [|intros ->; left; rewrite Rminus_eq_0, Rabs_R0; lra].
  intros H. assert (A : Rabs (y - M) <= 0) by tauto. assert (B := Rabs_pos (y - M)). assert (C : Rabs (y - M) = 0) by lra. 
  destruct (Req_dec (y - M) 0) as [E|E]; [lra|]. apply Rabs_no_R0 in E. lra.
Qed.
Lemma almosteq_same tol y : 0 <= tol -> almosteq tol y y.
Proof. intros H. left. rewrite Rminus_eq_0, Rabs_R0. exact H. Qed.

Section Search.
  Variables (f : R -> R) (total : R).
  Hypothesis DD : decreasing_density f total.
  Let f_dec := f_dec f total DD.
  Let f_dec_le := f_dec_le f total DD.
  Let f_pos := f_pos f total DD.
  Let f_inj := f_inj f total DD.
  Let f_inj_lt := f_inj_lt f total DD.
  Notation base := (base f total).

  (** a value between f x and f 0 is taken in between *)
  Lemma f_onto x y : 0 <= x -> f x < y < f 0 -> exists t, 0 < t < x /\ f t = y.
  Proof.
    intros X Y. set (g t := f (Rmax 0 t)).
    assert (C : Ranalysis1.continuity g) by (intros t; apply continuity_pt_filterlim; apply (dd_continuous _ _ DD)).
    destruct (IVT_gen g 0 x y C) as [t [Ht E]].
    { unfold g. rewrite (Rmax_right 0 0), (Rmax_right 0 x) by lra. rewrite Rmin_right, Rmax_left; lra. }
    rewrite Rmin_left, Rmax_right in Ht by lra. unfold g in E. rewrite Rmax_right in E by lra. exists t. split; [|exact E].
    destruct Ht as [[A|A] [B|B]]; try lra; subst; lra.
  Qed.

  Section Loop.
    Variables (tol v : R).
    Hypothesis V : 0 < v.
    Notation loop := (loop f tol (f 0) v).
    Lemma loop_exists r N : 0 < r -> forall x xi, 0 < x <= r -> f 0 - f x < INR N * (v / r) -> exists out y h, loop (x :: xi) (f x) out y h.
    Proof.
      intros R0. induction N as [|N IH]; intros x xi X H.
      - simpl in H. assert (D := f_dec_le 0 x). lra.
      - destruct (breaks_dec tol (f 0) (f x + v / x)) as [B|B].
        + exists (0 :: x :: xi), (f x + v / x), (v / x). now constructor.
        + assert (P : 0 < v / x) by (apply Rdiv_lt_0_compat; lra).
          destruct (f_onto x (f x + v / x)) as [t [T E]]; [lra| |].
          { split; [lra|]. apply Rnot_le_lt. intros Q. apply B. now left. }
          destruct (IH t (x :: xi)) as (out & y & h & L); [lra| |].
          * rewrite E. rewrite S_INR in H. assert (v / r <= v / x) by (apply Rmult_le_compat_l; [lra|apply Rinv_le_contravar; lra]). lra.
          * exists out, y, h. rewrite E in L. apply loop_append with (x := t); auto. lra.
    Qed.
    Lemma loop_terminates r : 0 < r -> exists out y h, loop [r] (f r) out y h.
    Proof.
      intros R0. assert (P : 0 < v / r) by (apply Rdiv_lt_0_compat; lra).
      set (N := S (Z.to_nat (Rdefinitions.up ((f 0 - f r) / (v / r))))). apply (loop_exists r N R0); [lra|].
      assert (U := archimed ((f 0 - f r) / (v / r))). assert (D := f_dec_le 0 r). assert (Q : 0 <= (f 0 - f r) / (v / r)) by (apply Rdiv_le_0_compat; lra).
      assert (B : (f 0 - f r) / (v / r) < INR N).
      { unfold N. rewrite S_INR, INR_IZR_INZ, Z2Nat.id; [lra|]. apply le_IZR. lra. }
      apply (Rmult_lt_compat_r (v / r)) in B; [|exact P]. unfold Rdiv in B at 1. rewrite Rmult_assoc, Rinv_l in B; lra.
    Qed.
    Lemma loop_det xs y out y' h' : loop xs y out y' h' -> forall out2 y2 h2, loop xs y out2 y2 h2 -> out = out2 /\ y' = y2 /\ h' = h2.
    Proof.
      induction 1 as [x xi y B|x xi y t out y' h' B T E L IH]; intros out2 y2 h2 L2.
      - inversion L2; subst; [auto|contradiction].
      - inversion L2 as [|? ? ? t2 ? ? ? B2 T2 E2 L3]; subst; [contradiction|].
        assert (Q : t2 = t) by (apply f_inj; auto; lra). subst t2. now apply IH.
    Qed.
    Lemma loop_longer xs y out y' h' : loop xs y out y' h' -> (length xs < length out)%nat.
    Proof. induction 1; simpl in *; lia. Qed.
    (** the rungs found so far, the last one first *)
    Fixpoint chain (l : list R) : Prop :=
      match l with
      | [] => False
      | [r] => 0 < r
      | a :: ((b :: _) as l') => 0 < a < b /\ b * (f a - f b) = v /\ chain l'
      end.
    Lemma chain_hd a l : chain (a :: l) -> 0 < a.
    Proof. destruct l; simpl; tauto. Qed.
    Lemma loop_chain xs y out y' h' : loop xs y out y' h' -> forall x xi, xs = x :: xi -> y = f x -> chain xs ->
      exists b l, out = 0 :: b :: l /\ chain (b :: l) /\ y' = f b + v / b /\ h' = v / b /\ breaks tol (f 0) y' /\ last (b :: l) 0 = last xs 0.
    Proof.
      induction 1 as [x xi y B|x xi y t out y' h' B T E L IH]; intros x0 xi0 E1 E2 C; injection E1 as <- <-; subst y.
      - exists x, xi. auto 10.
      - assert (X := chain_hd _ _ C). assert (P : 0 < v / x) by (apply Rdiv_lt_0_compat; lra).
        assert (t < x) by (apply f_inj_lt; lra).
        assert (0 < t). { destruct T as [T|<-]; [exact T|]. exfalso. apply B. left. lra. }
        assert (Q : chain (t :: x :: xi)).
        { change (0 < t < x /\ x * (f t - f x) = v /\ chain (x :: xi)). split; [lra|]. split; [rewrite E; field; lra|exact C]. }
        destruct (IH t (x :: xi) eq_refl (eq_sym E) Q) as (b & l & R1 & R2 & R3 & R4 & R5 & R6). exists b, l. repeat (split; auto).
    Qed.
    Lemma chain_nth l : chain l -> forall j, (S j < length l)%nat -> nth j l 0 < nth (S j) l 0 /\ nth (S j) l 0 * (f (nth j l 0) - f (nth (S j) l 0)) = v.
    Proof.
      induction l as [|a l IH]; [simpl; tauto|]. intros C j Hj. destruct l as [|b l]; [simpl in Hj; lia|]. change (0 < a < b /\ b * (f a - f b) = v /\ chain (b :: l)) in C.
      destruct j as [|j]; [change (a < b /\ b * (f a - f b) = v); lra|]. change (nth (S j) (a :: b :: l) 0) with (nth j (b :: l) 0). change (nth (S (S j)) (a :: b :: l) 0) with (nth (S j) (b :: l) 0).
      apply IH; [tauto|simpl in *; lia].
    Qed.
  End Loop.
  Lemma last_nth (l : list R) d : last l d = nth (length l - 1) l d.
  Proof.
    induction l as [|a l IH]; [reflexivity|]. destruct l as [|b l]; [reflexivity|]. change (last (a :: b :: l) d) with (last (b :: l) d). rewrite IH.
    replace (length (a :: b :: l) - 1)%nat with (S (length (b :: l) - 1)) by (simpl; lia). reflexivity.
  Qed.

  (** ** comparison with the ziggurat of n layers *)
  Section Compare.
    Variables (n : nat) (e : nat -> R) (vs : R).
    Hypothesis N2 : (2 <= n)%nat.
    Hypothesis ZO : ziggurat_of f n e vs.
    Lemma e_S i : (S i < n)%nat -> e i < e (S i) /\ e (S i) * (f (e i) - f (e (S i))) = vs.
    Proof.
      intros H. assert (A := zo_edges _ _ _ _ ZO (S i)). assert (B := zo_areas _ _ _ _ ZO (S i)). replace (S i - 1)%nat with i in * by lia.
      split; [apply A|apply B]; lia.
    Qed.
    Lemma e_nonneg i : (i < n)%nat -> 0 <= e i.
    Proof. induction i as [|i IH]; intros H; [rewrite (zo_zero _ _ _ _ ZO); lra|]. assert (A := e_S i H). assert (B : 0 <= e i) by (apply IH; lia). lra. Qed.
    Lemma e_pos i : (0 < i < n)%nat -> 0 < e i.
    Proof. intros H. destruct i as [|i]; [lia|]. assert (A := e_S i (proj2 H)). assert (B : 0 <= e i) by (apply e_nonneg; lia). lra. Qed.
    Lemma e_mono i j : (i <= j)%nat -> (j < n)%nat -> e i <= e j.
    Proof. intros H. induction H as [|j H IH]; intros J; [lra|]. assert (A := e_S j J). assert (B : e i <= e j) by (apply IH; lia). lra. Qed.
    Lemma vs_pos : 0 < vs.
    Proof. destruct (e_S 0) as [A E]; [lia|]. rewrite <- E. assert (B : 0 <= e 0%nat) by (apply e_nonneg; lia). assert (D := f_dec (e 0%nat) (e 1%nat)). apply Rmult_lt_0_compat; lra. Qed.
    Lemma e_up i : (S i < n)%nat -> f (e i) = f (e (S i)) + vs / e (S i).
    Proof. intros H. destruct (e_S i H) as [A B]. assert (P := e_pos (S i)). rewrite <- B. field. apply Rgt_not_eq. apply P. lia. Qed.
    Lemma vs_base : vs = base (e (n - 1)%nat).
    Proof.
      destruct (zo_base _ _ _ _ ZO) as [A [QA E]]. rewrite <- E. unfold ZigSolve.base. rewrite (tail_unique f total DD (e (n - 1)%nat) A); [reflexivity| |exact QA].
      apply e_nonneg. lia.
    Qed.
    Variable tol : R.
    Hypothesis TOL : 0 <= tol.
    Hypothesis SMALL : tol * Rmax 1 (f 0) < f 0 - f (e 1%nat).
    Lemma not_close y : 0 <= y <= f (e 1%nat) -> ~ almosteq tol y (f 0).
    Proof.
      intros Y. assert (P := f_pos 0). assert (D := f_dec_le 0 (e 1%nat)). assert (E1 := e_pos 1).
      assert (M : 1 <= Rmax 1 (f 0)) by apply Rmax_l. assert (M' : f 0 <= Rmax 1 (f 0)) by apply Rmax_r.
      assert (tol * 1 <= tol * Rmax 1 (f 0)) by (apply Rmult_le_compat_l; lra).
      assert (tol * f 0 <= tol * Rmax 1 (f 0)) by (apply Rmult_le_compat_l; lra).
      assert (F1 : f (e 1%nat) <= f 0) by (apply D; split; [lra|]; left; apply E1; lia).
      unfold almosteq. rewrite (Rabs_left1 (y - f 0)) by lra. rewrite (Rabs_right y), (Rabs_right (f 0)), Rmax_right by lra. intros [Q|Q]; lra.
    Qed.
    Lemma loop_left v (V : vs < v) xs y out y' h' : loop f tol (f 0) v xs y out y' h' -> forall x xi, xs = x :: xi -> y = f x -> 0 < x ->
      (length xs < n)%nat -> x < e (n - length xs)%nat -> (length out <= n)%nat /\ (length out = n -> f 0 < y').
    Proof.
      assert (VP := vs_pos).
      assert (Step : forall x k, (S k < n)%nat -> 0 < x < e (S k) -> f (e k) < f x + v / x).
      { intros x k Hk X. rewrite (e_up k Hk). assert (D := f_dec x (e (S k))). assert (Q : / e (S k) < / x) by (apply Rinv_lt_contravar; [apply Rmult_lt_0_compat|]; lra).
        assert (0 < / e (S k)) by (apply Rinv_0_lt_compat; lra). assert (vs / e (S k) < v / x); [|lra].
        unfold Rdiv. apply Rlt_trans with (vs * / x); [apply Rmult_lt_compat_l; lra|apply Rmult_lt_compat_r; lra]. }
      induction 1 as [x xi y B|x xi y t out y' h' B T E L IH]; intros x0 xi0 E1 E2 X Hl HX; injection E1 as <- <-; subst y; cbn [length] in *.
      - split; [lia|]. intros Hn. replace (n - S (length xi))%nat with 1%nat in HX by lia.
        assert (Q := Step x 0%nat). rewrite (zo_zero _ _ _ _ ZO) in Q. apply Q; [lia|lra].
      - assert (K : (n - S (length xi) = S (n - S (S (length xi))))%nat) by lia. rewrite K in HX.
        assert (Q := Step x (n - S (S (length xi)))%nat). 
        assert (Q1 : f (e (n - S (S (length xi)))%nat) < f x + v / x) by (apply Q; [lia|lra]).
        assert (NE : (S (S (length xi)) < n)%nat).
        { destruct (Nat.eq_dec n (S (S (length xi)))) as [En|En]; [|lia]. exfalso. apply B. left. rewrite <- En, Nat.sub_diag, (zo_zero _ _ _ _ ZO) in Q1. lra. }
        assert (TP : 0 < t). { destruct T as [T|<-]; [exact T|]. exfalso. apply B. left. lra. }
        apply (IH t (x :: xi) eq_refl (eq_sym E) TP NE). apply f_inj_lt; [|lra|lra]. apply e_nonneg. lia.
    Qed.
    Lemma loop_right v (V : 0 < v < vs) xs y out y' h' : loop f tol (f 0) v xs y out y' h' -> forall x xi, xs = x :: xi -> y = f x ->
      (length xs < n)%nat -> e (n - length xs)%nat < x -> (n <= length out)%nat /\ (length out = n -> y' < f 0 /\ almosteq tol y' (f 0)).
    Proof.
      assert (VP := vs_pos).
      assert (Step : forall x k, (S k < n)%nat -> e (S k) < x -> f x + v / x < f (e k)).
      { intros x k Hk X. assert (EP := e_pos (S k)). assert (EP' : 0 < e (S k)) by (apply EP; lia). rewrite (e_up k Hk). assert (D := f_dec (e (S k)) x). assert (Q : / x < / e (S k)) by (apply Rinv_lt_contravar; [apply Rmult_lt_0_compat|]; lra).
        assert (0 < / x) by (apply Rinv_0_lt_compat; lra). assert (v / x < vs / e (S k)); [|lra].
        unfold Rdiv. apply Rlt_trans with (vs * / x); [apply Rmult_lt_compat_r; lra|apply Rmult_lt_compat_l; lra]. }
      induction 1 as [x xi y B|x xi y t out y' h' B T E L IH]; intros x0 xi0 E1 E2 Hl HX; injection E1 as <- <-; subst y; cbn [length] in *.
      - assert (EP : 0 <= e (n - S (length xi))%nat) by (apply e_nonneg; lia). assert (XP : 0 < x) by lra. assert (HP : 0 < v / x) by (apply Rdiv_lt_0_compat; lra).
        assert (K : (n - S (length xi) = S (n - S (S (length xi))))%nat) by lia. rewrite K in HX.
        assert (Q1 : f x + v / x < f (e (n - S (S (length xi)))%nat)) by (apply Step; [lia|lra]).
        assert (FX := f_pos x). assert (EK : 0 <= e (n - S (S (length xi)))%nat) by (apply e_nonneg; lia).
        assert (F0 := f_dec_le 0 (e (n - S (S (length xi)))%nat)).
        assert (AL : almosteq tol (f x + v / x) (f 0)) by (destruct B as [B|B]; [exfalso; lra|exact B]).
        assert (En : n = S (S (length xi))).
        { destruct (Nat.eq_dec n (S (S (length xi)))) as [En|En]; [exact En|]. exfalso. apply (not_close (f x + v / x)); [|exact AL]. split; [lra|].
          assert (F1 := f_dec_le (e 1%nat) (e (n - S (S (length xi)))%nat)). assert (E1P := e_pos 1). assert (M := e_mono 1 (n - S (S (length xi)))%nat).
          assert (f (e (n - S (S (length xi)))%nat) <= f (e 1%nat)); [apply F1; split; [apply Rlt_le, E1P; lia|apply M; lia]|lra]. }
        split; [lia|]. intros _. split; [lra|exact AL].
      - assert (EP : 0 <= e (n - S (length xi))%nat) by (apply e_nonneg; lia). assert (XP : 0 < x) by lra. assert (HP : 0 < v / x) by (apply Rdiv_lt_0_compat; lra).
        assert (K : (n - S (length xi) = S (n - S (S (length xi))))%nat) by lia. rewrite K in HX.
        assert (Q1 : f x + v / x < f (e (n - S (S (length xi)))%nat)) by (apply Step; [lia|lra]).
        assert (EK : 0 <= e (n - S (S (length xi)))%nat) by (apply e_nonneg; lia).
        assert (TX : e (n - S (S (length xi)))%nat < t) by (apply f_inj_lt; lra).
        destruct (Nat.eq_dec n (S (S (length xi)))) as [En|En].
        + assert (LL := loop_longer tol v _ _ _ _ _ L). cbn [length] in LL. split; [lia|]. intros; lia.
        + apply (IH t (x :: xi) eq_refl (eq_sym E)); [cbn [length]; lia|exact TX].
    Qed.
    (** from r itself the loop finds exactly the edges *)
    Lemma loop_exact k : (0 < k < n)%nat -> loop f tol (f 0) vs (map e (seq k (n - k))) (f (e k)) (map e (seq 0 n)) (f 0) (vs / e 1%nat).
    Proof.
      destruct k as [|k]; [lia|]. intros [_ H]. revert H. induction k as [|k IH]; intros H.
      - assert (U := e_up 0 H). rewrite (zo_zero _ _ _ _ ZO) in U.
        replace (seq 0 n) with (0%nat :: 1%nat :: seq 2 (n - 2)) by (replace n with (S (S (n - 2))) at 2 by lia; reflexivity).
        replace (seq 1 (n - 1)) with (1%nat :: seq 2 (n - 2)) by (replace (n - 1)%nat with (S (n - 2)) by lia; reflexivity).
        cbn [map]. rewrite (zo_zero _ _ _ _ ZO). rewrite U at 2. apply loop_break. left. lra.
      - assert (U := e_up (S k) H). replace (n - S (S k))%nat with (S (n - S (S (S k)))) by lia. cbn [seq map].
        assert (E1P : 0 < e (S k)) by (apply e_pos; lia). assert (M : e 1%nat <= e (S k)) by (apply e_mono; lia). assert (E1 : 0 < e 1%nat) by (apply e_pos; lia).
        assert (D := f_dec_le (e 1%nat) (e (S k))). assert (FP := f_pos (e (S k))). assert (F1 := f_dec 0 (e 1%nat)).
        apply loop_append with (x := e (S k)); [| |exact U|].
        + rewrite <- U. intros [B|B]; [lra|]. revert B. apply not_close. lra.
        + lra.
        + rewrite <- U. assert (L := IH ltac:(lia)). replace (n - S k)%nat with (S (S (n - S (S (S k))))) in L by lia. cbn [seq map] in L. exact L.
    Qed.
    Lemma base_inv r : 0 < r -> forall A v, quad_inf f r A -> v = r * f r + A -> v = base r.
    Proof. intros H A v QA ->. unfold ZigSolve.base. rewrite (tail_unique f total DD r A); [reflexivity|lra|exact QA]. Qed.
    Lemma last_pos : (0 < n - 1 < n)%nat. Proof. lia. Qed.
    (** what mini returns, by the side of r on which it is asked *)
    Lemma mini_at r m xi v : mini f tol n r m xi v -> 0 < r ->
      (r < e (n - 1)%nat -> m < 0 \/ m = 0 /\ exists y, f 0 < y /\ almosteq tol y (f 0)) /\ (r = e (n - 1)%nat -> m = 0) /\
      (e (n - 1)%nat < r -> 0 < m \/ m = 0 /\ exists y, y < f 0 /\ almosteq tol y (f 0)).
    Proof.
      intros MI R0. assert (BP := base_pos f total DD r R0). assert (EB := vs_base). assert (RP := e_pos _ last_pos).
      assert (HL : forall A w xi' y h, quad_inf f r A -> w = r * f r + A -> loop f tol (f 0) w [r] (f r) xi' y h ->
        0 < h /\
        (r < e (n - 1)%nat -> (length xi' <= n)%nat /\ (length xi' = n -> f 0 < y)) /\
        (r = e (n - 1)%nat -> length xi' = n /\ y = f 0) /\
        (e (n - 1)%nat < r -> (n <= length xi')%nat /\ (length xi' = n -> y < f 0 /\ almosteq tol y (f 0)))).
      { intros A w xi' y h QA Ew L. rewrite (base_inv r R0 A w QA Ew) in L. split.
        { destruct (loop_chain tol (base r) BP _ _ _ _ _ L r [] eq_refl eq_refl) as (b & l & _ & C & _ & E & _); [exact R0|].
          rewrite E. apply Rdiv_lt_0_compat; [exact BP|]. now apply chain_hd in C. }
        split; [|split].
        - intros H. assert (VV : vs < base r) by (rewrite EB; apply (base_dec f total DD); lra). apply (loop_left (base r) VV _ _ _ _ _ L r []); simpl; auto; lia.
        - intros ->. rewrite <- EB in L. assert (X := loop_exact (n - 1) last_pos). replace (n - (n - 1))%nat with 1%nat in X by lia. cbn [seq map] in X.
          destruct (loop_det tol vs _ _ _ _ _ L _ _ _ X) as (-> & -> & _). rewrite map_length, seq_length. auto.
        - intros H. assert (VV : 0 < base r < vs) by (split; [exact BP|]; rewrite EB; apply (base_dec f total DD); lra).
          apply (loop_right (base r) VV _ _ _ _ _ L r []); simpl; auto; lia. }
      destruct MI as [A w xi y h QA Ew L Hl C|A w xi y h QA Ew L Hl C|A w xi y h QA Ew L Hl]; destruct (HL A w xi y h QA Ew L) as (HP & H1 & H2 & H3); clear HL.
      - split; [|split]; [intros H; right; split; [reflexivity|]; exists y; split; [|exact C]|reflexivity|intros H; right; split; [reflexivity|]; exists y; split; [|exact C]].
        + now apply (H1 H).
        + now apply (H3 H).
      - split; [|split].
        + intros H. left. destruct (H1 H) as [_ Q]. assert (Q' := Q Hl). lra.
        + intros H. destruct (H2 H) as [_ ->]. lra.
        + intros H. destruct (H3 H) as [_ Q]. exfalso. exact (C (proj2 (Q Hl))).
      - split; [|split].
        + intros H. destruct (H1 H) as [Q _]. assert (Q' : (length xi < n)%nat) by lia. apply lt_INR in Q'. rewrite sign_eq_m1 by lra. left. lra.
        + intros H. destruct (H2 H) as [Q _]. contradiction.
        + intros H. destruct (H3 H) as [Q _]. assert (Q' : (n < length xi)%nat) by lia. apply lt_INR in Q'. rewrite sign_eq_1 by lra. left. lra.
    Qed.
    Lemma mini_exact_at : mini f tol n (e (n - 1)%nat) 0 (map e (seq 0 n)) vs.
    Proof.
      assert (X := loop_exact (n - 1) last_pos). replace (n - (n - 1))%nat with 1%nat in X by lia. cbn [seq map] in X.
      destruct (zo_base _ _ _ _ ZO) as [A [QA E]].
      apply mini_exact with (A := A) (y := f 0) (h := vs / e 1%nat); [exact QA|now symmetry|exact X|now rewrite map_length, seq_length|now apply almosteq_same].
    Qed.
  End Compare.
  (** with no tolerance, the sign is exact *)
  Lemma mini_sign n e vs : (2 <= n)%nat -> ziggurat_of f n e vs -> forall r m xi v, 0 < r -> mini f 0 n r m xi v ->
    (m < 0 <-> r < e (n - 1)%nat) /\ (m = 0 <-> r = e (n - 1)%nat) /\ (0 < m <-> e (n - 1)%nat < r).
  Proof.
    intros N2 ZO r m xi v R0 MI.
    assert (SM : 0 * Rmax 1 (f 0) < f 0 - f (e 1%nat)).
    { assert (P := e_pos n e vs N2 ZO 1). assert (D := f_dec 0 (e 1%nat)). rewrite Rmult_0_l. assert (0 < e 1%nat) by (apply P; lia). lra. }
    destruct (mini_at n e vs N2 ZO 0 (Rle_refl 0) SM r m xi v MI R0) as (A & B & C).
    assert (A' : r < e (n - 1)%nat -> m < 0) by (intros H; destruct (A H) as [Q|[_ [y [Y Q]]]]; [exact Q|apply almosteq_0 in Q; lra]).
    assert (C' : e (n - 1)%nat < r -> 0 < m) by (intros H; destruct (C H) as [Q|[_ [y [Y Q]]]]; [exact Q|apply almosteq_0 in Q; lra]).
    destruct (Rtotal_order r (e (n - 1)%nat)) as [L|[L|L]]; repeat split; intros; try lra; try (exfalso; lra).
  Qed.
End Search.
