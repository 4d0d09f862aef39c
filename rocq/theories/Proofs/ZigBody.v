(** All layers together: accepted abscissae up to x have the probability of the area under the curve up to x. *)
From Coq Require Import Reals Lia Lra Psatz ZifyN.
From Coquelicot Require Import Coquelicot.
From Flocq Require Import Core.
From Verif Require Import Proofs.SumN Proofs.Riemann Proofs.ZigLayer Proofs.ZigAccept Props.Tails.
Local Open Scope R_scope.

Lemma RInt_sumN (k : N -> R -> R) n a b : (forall i t, continuous (k i) t) ->
  ex_RInt (fun t => sumN (fun i => k i t) n) a b /\ RInt (fun t => sumN (fun i => k i t) n) a b = sumN (fun i => RInt (k i) a b) n.
Proof.
  intros C. induction n as [|n [IH1 IH2]] using N.peano_ind.
  - split.
    + apply (ex_RInt_ext (fun _ => 0)); [intros; now rewrite sumN_0|apply ex_RInt_const].
    + rewrite sumN_0, (RInt_ext _ (fun _ => 0)) by (intros; apply sumN_0). rewrite RInt_const. apply Rmult_0_r.
  - assert (E : forall t, sumN (fun i => k i t) n + k n t = sumN (fun i => k i t) (N.succ n)) by (intros; now rewrite sumN_S).
    assert (EK : ex_RInt (k n) a b) by (apply (ex_RInt_continuous (k n)); intros; apply C).
    split.
    + apply (ex_RInt_ext (fun t => plus (sumN (fun i => k i t) n) (k n t))); [intros; apply E|]. now apply (ex_RInt_plus (fun t => sumN (fun i => k i t) n) (k n)).
    + rewrite sumN_S, <- IH2. rewrite <- (RInt_ext (fun t => plus (sumN (fun i => k i t) n) (k n t))) by (intros; apply E). now rewrite (RInt_plus (fun t => sumN (fun i => k i t) n) (k n)).
Qed.
Lemma clamp_scale g v : 0 < g -> g * clamp 1 (v / g) = clamp g v.
Proof.
  intros G. unfold clamp. rewrite Rmult_min_distr_l by lra. rewrite <- RmaxRmult by lra. rewrite Rmult_1_r, Rmult_0_r. do 2 f_equal. field. lra.
Qed.

Section Body.
  Variable f : R -> R.
  Hypothesis FC : forall x, continuous f x.
  Hypothesis FD : forall x y, 0 <= x <= y -> f y <= f x.
  Variables (X F : N -> R) (K0 : N) (pt al : N -> N -> R) (V delta zeta : R).
  Notation w i := (X i / IZR (2 ^ 53)).
  Notation g i := (F (N.pred i) - F i).
  Definition is_layer (i : N) : Prop := (1 <= i < 1024)%N.
  Notation r := (X 1023%N).
  Hypothesis F0 : f 0 <= F 0%N.
  Hypothesis XP : forall i, (i < 1024)%N -> 0 < X i <= X 0%N.
  Hypothesis XR : forall i, is_layer i -> X i <= r.
  Hypothesis GP : forall i, is_layer i -> 0 < g i.
  Hypothesis FP : 0 < F 1023%N.
  Hypothesis AL : forall i m, is_layer i -> (m < M53)%N -> Rabs (al i m - clamp 1 ((f (NR m * w i) - F i) / g i)) <= delta.
  Hypothesis PT : forall i m, (i < 1024)%N -> (m < M53)%N -> Rabs (pt i m - NR m * w i) <= w i.
  Hypothesis VE : V = X 0%N * F 1023%N.
  Hypothesis AREA : forall i, is_layer i -> Rabs (X i * g i - V) <= 12 / 10 ^ 14 * V.
  Hypothesis CUT : forall i t, is_layer i -> X i * (1 + zeta) <= t -> f t <= F i.
  Hypothesis LAST : F 1023%N - f r <= 2 / 10 ^ 15 * F 1023%N.
  Hypothesis K0B : (0 < K0 <= M53)%N.
  Hypothesis K0R : Rabs (NR K0 * w 0%N - r) <= 3 * w 0%N.
  Hypothesis (D0 : 0 <= delta) (Z0 : 0 <= zeta <= 1 / 10).

  Definition layer_prob (x : R) (i : N) : R := sumN (fun m => ind (Rle_bool (pt i m) x) * al i m) M53 / IZR (2 ^ 53).
  Definition base_prob (x : R) : R := sumN (fun m => ind (Rle_bool (pt 0%N m) x)) K0 / IZR (2 ^ 53).
  Definition body (x : R) : R := (sumN (fun k => layer_prob x (N.succ k)) 1023 + base_prob x) / 1024.

  Definition hh (i : N) (t : R) : R := clamp 1 ((f t - F i) / g i).
  Lemma hh_cont i t : continuous (hh i) t.
  Proof.
    unfold hh. apply (clamp_continuous 1 (fun t => (f t - F i) / g i)). unfold Rdiv, Rminus. apply (continuous_mult (fun t => f t + - F i) (fun _ => / g i)); [|apply continuous_const].
    apply (continuous_plus f (fun _ => - F i)); [apply FC|apply continuous_const].
  Qed.
  Lemma hh_dec i : is_layer i -> forall x y, 0 <= x <= y -> hh i y <= hh i x.
  Proof.
    intros Hi x y H. unfold hh. apply clamp_mono. pose proof (GP i Hi) as G. apply Rmult_le_compat_r; [left; now apply Rinv_0_lt_compat|]. pose proof (FD x y H). lra.
  Qed.
  Lemma hh_range i t : 0 <= hh i t <= 1. Proof. apply clamp_range. lra. Qed.
  Lemma VP : 0 < V. Proof. rewrite VE. destruct (XP 0%N) as [P _]; [lia|]. now apply Rmult_lt_0_compat. Qed.
  Lemma int_nonneg i a b : is_layer i -> 0 <= a <= b -> 0 <= RInt (hh i) a b.
  Proof.
    intros Hi H. pose proof (int_between (hh i) (hh_cont i) (hh_dec i Hi) a b H) as B. pose proof (hh_range i b) as Q. pose proof (Rmult_le_pos (b - a) (hh i b) ltac:(lra) ltac:(lra)). lra.
  Qed.
  Lemma beyond i y : is_layer i -> X i <= y -> 0 <= RInt (hh i) (X i) y <= zeta * X i.
  Proof.
    intros Hi Hy. destruct (XP i) as [P _]; [unfold is_layer in Hi; lia|]. split; [apply int_nonneg; [exact Hi|lra]|].
    pose proof (int_between (hh i) (hh_cont i) (hh_dec i Hi)) as B. set (c := X i * (1 + zeta)).
    assert (C1 : X i <= c). { unfold c. pose proof (Rmult_le_pos (X i) zeta ltac:(lra) ltac:(lra)). lra. }
    assert (C2 : c - X i = zeta * X i) by (unfold c; ring).
    destruct (Rle_dec y c) as [L|L].
    - specialize (B (X i) y ltac:(lra)). pose proof (hh_range i (X i)) as Q. assert ((y - X i) * hh i (X i) <= (y - X i) * 1) by (apply Rmult_le_compat_l; lra). lra.
    - rewrite <- (int_chasles (hh i) (hh_cont i) (X i) c y). pose proof (B (X i) c ltac:(lra)) as B1. pose proof (B c y ltac:(lra)) as B2. pose proof (hh_range i (X i)) as Q.
      assert ((c - X i) * hh i (X i) <= (c - X i) * 1) by (apply Rmult_le_compat_l; lra).
      assert (Z : hh i c = 0).
      { unfold hh. apply clamp_zero; [lra|]. pose proof (CUT i c Hi (Rle_refl _)) as CC. pose proof (GP i Hi) as G. pose proof (Rinv_0_lt_compat _ G) as IG. unfold Rdiv. 
        replace 0 with (0 * / g i) by ring. apply Rmult_le_compat_r; lra. }
      rewrite Z in B2. lra.
  Qed.
  Lemma one_layer x i : 0 <= x -> is_layer i ->
    Rabs (layer_prob x i - g i * RInt (hh i) 0 (Rmin x r) / V) <= delta + zeta + 25 / 10 ^ 14.
  Proof.
    intros Hx Hi. assert (Hi' : (i < 1024)%N) by (unfold is_layer in Hi; lia). destruct (XP i Hi') as [P PX]. pose proof P53 as PP. pose proof (GP i Hi) as G. pose proof VP as VP. pose proof (XR i Hi) as XRi.
    assert (W0 : 0 < w i) by (apply Rmult_lt_0_compat; [exact P|now apply Rinv_0_lt_compat]).
    pose proof (layer_sum (hh i) (hh_cont i) (hh_dec i Hi) (fun t _ => hh_range i t) M53 (w i) delta (pt i) (al i)) as L.
    specialize (L ltac:(rewrite M53_eq; reflexivity) W0 D0 (fun j Hj => PT i j Hi' Hj) (fun j Hj => AL i j Hi Hj) x Hx). rewrite NR_M53 in L.
    replace (IZR (2 ^ 53) * w i) with (X i) in L by (field; lra). set (S := sumN _ M53) in *.
    replace (w i * S) with (X i * layer_prob x i) in L by (unfold layer_prob; fold S; field; lra). set (Q := layer_prob x i) in *.
    set (J := RInt (hh i) 0 (Rmin x r)). set (J' := RInt (hh i) 0 (Rmin x (X i))) in *.
    assert (JJ : J' <= J <= J' + zeta * X i).
    { unfold J, J'. destruct (Rle_dec x (X i)) as [E|E].
      - rewrite !Rmin_left by lra. pose proof (Rmult_le_pos zeta (X i) ltac:(lra) ltac:(lra)). lra.
      - rewrite (Rmin_right x (X i)) by lra. rewrite <- (int_chasles (hh i) (hh_cont i) 0 (X i) (Rmin x r)). pose proof (beyond i (Rmin x r) Hi) as Be. specialize (Be ltac:(apply Rmin_glb; lra)). lra. }
    assert (J'X : 0 <= J' <= X i).
    { pose proof (int_between (hh i) (hh_cont i) (hh_dec i Hi) 0 (Rmin x (X i))) as B. pose proof (Rmin_r x (X i)) as R1. assert (R2 : 0 <= Rmin x (X i)) by (apply Rmin_glb; lra).
      specialize (B ltac:(lra)). fold J' in B. split; [apply int_nonneg; [exact Hi|lra]|]. pose proof (hh_range i 0) as H0. assert ((Rmin x (X i) - 0) * hh i 0 <= (Rmin x (X i) - 0) * 1) by (apply Rmult_le_compat_l; lra). lra. }
    assert (E3 : 3 * w i = X i * (3 / IZR (2 ^ 53))) by (field; lra). rewrite E3 in L.
    assert (I53 : 3 / IZR (2 ^ 53) <= 4 / 10 ^ 16) by (unfold Rdiv; rewrite (proj1 inv53); pose proof small53; lra).
    apply Rabs_le_inv in L. pose proof (AREA i Hi) as AREAi. apply Rabs_le_inv in AREAi.
    assert (E4 : X i * (3 / IZR (2 ^ 53)) <= X i * (4 / 10 ^ 16)) by (apply Rmult_le_compat_l; lra).
    assert (ZX : zeta * X i <= 1 / 10 * X i) by (apply Rmult_le_compat_r; lra).
    (* from X Q - J to Q - g J / V *)
    assert (M1 : Rabs (X i * Q - J) <= X i * (delta + zeta + 4 / 10 ^ 16)) by (apply Rabs_le; lra).
    assert (M2 : Rabs (J * (V - X i * g i)) <= X i * V * (24 / 10 ^ 14)).
    { rewrite Rabs_mult, (Rabs_pos_eq J) by lra. assert (Rabs (V - X i * g i) <= 12 / 10 ^ 14 * V) by (apply Rabs_le; lra).
      apply Rle_trans with (2 * X i * (12 / 10 ^ 14 * V)); [apply Rmult_le_compat; [lra|apply Rabs_pos|lra|assumption]|]. lra. }
    assert (EQ : Q - g i * J / V = (V * (X i * Q - J) + J * (V - X i * g i)) * / (X i * V)) by (field; lra).
    assert (XV : 0 < X i * V) by now apply Rmult_lt_0_compat.
    rewrite EQ, Rabs_mult, (Rabs_pos_eq (/ (X i * V))) by (left; now apply Rinv_0_lt_compat). apply Rmult_le_reg_r with (X i * V); [exact XV|]. rewrite Rmult_assoc, Rinv_l, Rmult_1_r by lra.
    apply Rle_trans with (1 := Rabs_triang _ _). rewrite Rabs_mult, (Rabs_pos_eq V) by lra. apply (Rmult_le_compat_l V) in M1; [|lra].
    assert (X i * V * (1 / 10 ^ 14) <= X i * V) by lra.
    replace ((delta + zeta + 25 / 10 ^ 14) * (X i * V)) with (V * (X i * (delta + zeta + 4 / 10 ^ 16)) + X i * V * (24 / 10 ^ 14) + X i * V * (1 / 10 ^ 14 - 4 / 10 ^ 16)) by field.
    pose proof (Rmult_le_pos (X i * V) (1 / 10 ^ 14 - 4 / 10 ^ 16) ltac:(lra) ltac:(lra)). lra.
  Qed.
  Lemma base_layer x : 0 <= x -> Rabs (base_prob x - Rmin x r * F 1023%N / V) <= 1 / 10 ^ 14.
  Proof.
    intros Hx. destruct (XP 0%N) as [P _]; [lia|]. pose proof P53 as PP. assert (W0 : 0 < w 0%N) by (apply Rmult_lt_0_compat; [exact P|now apply Rinv_0_lt_compat]).
    pose proof (layer_sum (fun _ => 1) (fun t => continuous_const 1 t) (fun _ _ _ => Rle_refl 1) (fun _ _ => conj Rle_0_1 (Rle_refl 1)) K0 (w 0%N) 0 (pt 0%N) (fun _ => 1)) as L.
    specialize (L ltac:(lia) W0 (Rle_refl 0)). specialize (L ltac:(intros j Hj; apply PT; lia) ltac:(intros; rewrite Rminus_eq_0, Rabs_R0; lra) x Hx).
    rewrite (sumN_ext _ (fun m => ind (Rle_bool (pt 0%N m) x))) in L by (intros; ring). rewrite RInt_const in L. change (scal (Rmin x (NR K0 * w 0%N) - 0) 1) with ((Rmin x (NR K0 * w 0%N) - 0) * 1) in L.
    set (S := sumN _ K0) in *. replace (w 0%N * S) with (X 0%N * base_prob x) in L by (unfold base_prob; fold S; field; lra). set (Q := base_prob x) in *.
    assert (MM : Rabs (Rmin x (NR K0 * w 0%N) - Rmin x r) <= 3 * w 0%N).
    { apply Rle_trans with (2 := K0R). unfold Rmin. repeat destruct Rle_dec; unfold Rabs; repeat destruct Rcase_abs; lra. }
    assert (E : Q - Rmin x r * F 1023%N / V = (X 0%N * Q - Rmin x r) * / X 0%N) by (rewrite VE; field; lra).
    rewrite E, Rabs_mult, (Rabs_pos_eq (/ X 0%N)) by (left; now apply Rinv_0_lt_compat). apply Rmult_le_reg_r with (X 0%N); [exact P|]. rewrite Rmult_assoc, Rinv_l, Rmult_1_r by lra.
    assert (E5 : w 0%N = X 0%N * / 2 ^ 53) by (unfold Rdiv; now rewrite (proj1 inv53)). pose proof small53.
    assert (w 0%N <= X 0%N * (12 / 10 ^ 17)) by (rewrite E5; apply Rmult_le_compat_l; lra).
    apply Rabs_le_inv in L. apply Rabs_le_inv in MM. apply Rabs_le. lra.
  Qed.
  Lemma layers_int y : 0 <= y <= r -> Rabs (sumN (fun k => g (N.succ k) * RInt (hh (N.succ k)) 0 y) 1023 - (RInt f 0 y - y * F 1023%N)) <= 2 / 10 ^ 15 * V.
  Proof.
    intros Hy. assert (P0 := XP 0%N ltac:(lia)). assert (PR := XP 1023%N ltac:(lia)).
    set (cl := fun k t => clamp (F k - F (N.succ k)) (f t - F (N.succ k))).
    assert (CC : forall k t, continuous (cl k) t).
    { intros k t. unfold cl. apply (clamp_continuous _ (fun t => f t - F (N.succ k))). apply (continuous_plus f (fun _ => - F (N.succ k))); [apply FC|apply continuous_const]. }
    assert (E1 : sumN (fun k => g (N.succ k) * RInt (hh (N.succ k)) 0 y) 1023 = sumN (fun k => RInt (cl k) 0 y) 1023).
    { apply sumN_ext. intros k Hk. rewrite N.pred_succ. assert (GK := GP (N.succ k) ltac:(unfold is_layer; lia)). rewrite N.pred_succ in GK.
      change (scal (F k - F (N.succ k)) (RInt (hh (N.succ k)) 0 y) = RInt (cl k) 0 y). rewrite <- (RInt_scal (hh (N.succ k)) 0 y (F k - F (N.succ k))) by apply (h_int _ (hh_cont (N.succ k))). apply RInt_ext. intros t _. unfold cl, hh. change (scal ?a ?b) with (a * b).
      rewrite N.pred_succ. now apply clamp_scale. }
    rewrite E1. destruct (RInt_sumN cl 1023 0 y CC) as [EX <-].
    assert (E2 : forall t, 0 < t -> sumN (fun k => cl k t) 1023 = Rmax 0 (f t - F 1023%N)).
    { intros t Ht. unfold cl.
      set (F' := fun i => if (i <=? 1023)%N then F i else F 1023%N).
      rewrite (sumN_ext _ (fun k => clamp (F' k - F' (N.succ k)) (f t - F' (N.succ k)))).
      - rewrite (layers_sum F').
        + reflexivity.
        + intros i. unfold F'. destruct (N.leb_spec (N.succ i) 1023) as [H|H].
          * replace (i <=? 1023)%N with true by (symmetry; apply N.leb_le; lia). assert (GK := GP (N.succ i) ltac:(unfold is_layer; lia)). rewrite N.pred_succ in GK. lra.
          * destruct (N.leb_spec i 1023); [|lra]. replace i with 1023%N by lia. lra.
        + change (F' 0%N) with (F 0%N). pose proof (FD 0 t ltac:(lra)). lra.
      - intros k Hk. unfold F'. replace (k <=? 1023)%N with true by (symmetry; apply N.leb_le; lia). replace (N.succ k <=? 1023)%N with true by (symmetry; apply N.leb_le; lia). reflexivity. }
    assert (EF : ex_RInt f 0 y) by apply (h_int f FC). 
    assert (E3 : RInt f 0 y - y * F 1023%N = RInt (fun t => f t - F 1023%N) 0 y).
    { rewrite (RInt_minus f (fun _ => F 1023%N)) by (try apply ex_RInt_const; exact EF). rewrite RInt_const. change (RInt f 0 y - y * F 1023%N = RInt f 0 y - (y - 0) * F 1023%N). ring. }
    assert (EF2 : ex_RInt (fun t => f t - F 1023%N) 0 y) by (apply (ex_RInt_minus f (fun _ => F 1023%N)); [exact EF|apply ex_RInt_const]).
    rewrite E3. set (c := 2 / 10 ^ 15 * F 1023%N) in *.
    assert (YC : y * c <= 2 / 10 ^ 15 * V). { unfold c. rewrite VE. assert (y * F 1023%N <= X 0%N * F 1023%N) by (apply Rmult_le_compat_r; lra). lra. }
    assert (C0 : 0 <= c) by (unfold c; lra).
    assert (U1 : RInt (fun t => f t - F 1023%N) 0 y <= RInt (fun t => sumN (fun k => cl k t) 1023) 0 y).
    { apply RInt_le; [lra|exact EF2|exact EX|]. intros t Ht. rewrite E2 by lra. apply Rmax_r. }
    assert (U2 : RInt (fun t => sumN (fun k => cl k t) 1023) 0 y <= RInt (fun t => (f t - F 1023%N) + c) 0 y).
    { apply RInt_le; [lra|exact EX|apply (ex_RInt_plus (fun t => f t - F 1023%N) (fun _ => c)); [exact EF2|apply ex_RInt_const]|]. intros t Ht. rewrite E2 by lra. pose proof (FD t r ltac:(lra)).
      unfold Rmax; destruct Rle_dec; lra. }
    rewrite (RInt_plus (fun t => f t - F 1023%N) (fun _ => c)) in U2 by (try apply ex_RInt_const; exact EF2). rewrite RInt_const in U2.
    change (RInt (fun t => sumN (fun k => cl k t) 1023) 0 y <= RInt (fun t => f t - F 1023%N) 0 y + (y - 0) * c) in U2. apply Rabs_le. lra.
  Qed.
  Theorem body_prob x : 0 <= x -> Rabs (body x - RInt f 0 (Rmin x r) / (1024 * V)) <= delta + zeta + 3 / 10 ^ 13.
  Proof.
    intros Hx. pose proof VP as VP. assert (PR := XP 1023%N ltac:(lia)). set (y := Rmin x r). assert (Y : 0 <= y <= r) by (unfold y; split; [apply Rmin_glb; lra|apply Rmin_r]).
    pose proof (layers_int y Y) as LI. pose proof (base_layer x Hx) as BL. fold y in BL. set (G := sumN (fun k => g (N.succ k) * RInt (hh (N.succ k)) 0 y) 1023) in *.
    assert (LS : Rabs (sumN (fun k => layer_prob x (N.succ k)) 1023 - G / V) <= 1023 * (delta + zeta + 25 / 10 ^ 14)).
    { replace (G / V) with (sumN (fun k => g (N.succ k) * RInt (hh (N.succ k)) 0 y / V) 1023) by (unfold G, Rdiv; rewrite (sumN_ext _ (fun k => / V * (g (N.succ k) * RInt (hh (N.succ k)) 0 y))) by (intros; ring); rewrite sumN_scal; ring).
      apply (sumN_close _ _ 1023%N). intros k Hk. apply one_layer; [exact Hx|unfold is_layer; lia]. }
    set (S := sumN (fun k => layer_prob x (N.succ k)) 1023) in *. set (B := base_prob x) in *.
    assert (LI' : Rabs ((G + y * F 1023%N - RInt f 0 y) / V) <= 2 / 10 ^ 15).
    { unfold Rdiv at 1. rewrite Rabs_mult, (Rabs_pos_eq (/ V)) by (left; now apply Rinv_0_lt_compat). apply Rmult_le_reg_r with V; [exact VP|]. rewrite Rmult_assoc, Rinv_l, Rmult_1_r by lra.
      replace (G + y * F 1023%N - RInt f 0 y) with (G - (RInt f 0 y - y * F 1023%N)) by ring. exact LI. }
    assert (E : body x - RInt f 0 y / (1024 * V) = ((S - G / V) + (B - y * F 1023%N / V) + (G + y * F 1023%N - RInt f 0 y) / V) / 1024) by (unfold body; fold S B; field; lra).
    rewrite E. set (e1 := S - G / V) in *. set (e2 := B - y * F 1023%N / V) in *. set (e3 := (G + y * F 1023%N - RInt f 0 y) / V) in *. clearbody e1 e2 e3.
    apply Rabs_le_inv in LS. apply Rabs_le_inv in BL. apply Rabs_le_inv in LI'. apply Rabs_le. lra.
  Qed.
End Body.
