(** The script's tables, rounded to float64, fit the density. *)
From Coq Require Import Reals Lia Lra Psatz List Arith ZArith NArith.
From Coquelicot Require Import Coquelicot.
From Flocq Require Import Core BinarySingleNaN.
From Verif Require Import Model.Base Model.Float Model.Ziggurat Model.ZigScript Spec.Floats Spec.ZigBuild Spec.ZigUse.
From Verif Require Import Proofs.FloatProofs Proofs.RelError Proofs.SumN Proofs.ZigAccept Proofs.ZigFloat Props.Tails Props.ZigScript.
From Verif Require Proofs.ZigSolve Proofs.ZigAnswer.
From Verif Require Import Spec.Zig.
Local Open Scope R_scope.

Definition uu : R := / 2 ^ 53.
Lemma uu_bound : 111 / 10 ^ 18 < uu < 11103 / 10 ^ 20.
Proof. unfold uu. replace (2 ^ 53) with 9007199254740992 by (cbn; lra). split; lra. Qed.
(** consecutive is enough *)
Lemma increasing_from (g : nat -> R) a n : (forall i, (a <= i)%nat -> (S i < n)%nat -> g i < g (S i)) -> forall i j, (a <= i)%nat -> (i < j < n)%nat -> g i < g j.
Proof.
  intros H i j Hi [L Hj]. revert L Hj. induction j as [|j IH]; intros L Hj; [lia|].
  destruct (Nat.eq_dec i j) as [->|N]; [apply H; lia|]. apply Rlt_trans with (g j); [apply IH; lia|apply H; lia].
Qed.

Section Core.
  Context {W : Type} (z : Ziggurat W) (f : R -> R) (total r v : R) (X : nat -> R).
  Hypothesis DD : decreasing_density f total.
  Hypothesis FB : fits_53_bits f r v (X 1%nat).
  Hypothesis X0 : X 0%nat = 0.
  Hypothesis XR : X 1023%nat = r.
  Hypothesis XI : forall i, (0 < i < 1024)%nat -> X (i - 1)%nat < X i.
  Hypothesis VB : v = ZigSolve.base f total r.
  Hypothesis AR1 : Rabs (X 1%nat * (f (X 0%nat) - f (X 1%nat)) - v) <= 3 / 10 ^ 20 * X 1%nat.
  Hypothesis AR : forall i, (1 < i < 1024)%nat -> X i * (f (X (i - 1)%nat) - f (X i)) = v.
  Hypothesis TF : full_tables z.
  Hypothesis K0 : Z.of_N (tK z 0) = Zfloor (2 ^ 53 * r * f r / v).
  Hypothesis KI : forall i, (0 < i < 1024)%nat -> Z.of_N (tK z i) = Zfloor (2 ^ 53 * X (i - 1)%nat / X i).
  Hypothesis W0 : fvalue (tW z 0) (rnd (v / f r / 2 ^ 53)).
  Hypothesis WI : forall i, (0 < i < 1024)%nat -> fvalue (tW z i) (rnd (X i / 2 ^ 53)).
  Hypothesis FI : forall i, (i < 1024)%nat -> fvalue (tF z i) (rnd (f (X i))).
  Hypothesis PDF : accurate_pdf (zPDF z) f r.

  Lemma x1_pos : 0 < X 1%nat. Proof. assert (H := XI 1 ltac:(lia)). cbn [Nat.sub] in H. lra. Qed.
  Lemma x_ge i : (1 <= i < 1024)%nat -> X 1%nat <= X i.
  Proof. intros H. destruct (Nat.eq_dec i 1) as [->|N]; [lra|]. left. apply (increasing_from X 0 1024); [|lia|lia]. intros k _ Hk. assert (Q := XI (S k) ltac:(lia)). replace (S k - 1)%nat with k in Q by lia. exact Q. Qed.
  Lemma x_le i : (i < 1024)%nat -> X i <= r.
  Proof. intros H. rewrite <- XR. destruct (Nat.eq_dec i 1023) as [->|N]; [lra|]. left. apply (increasing_from X 0 1024); [|lia|lia]. intros k _ Hk. assert (Q := XI (S k) ltac:(lia)). replace (S k - 1)%nat with k in Q by lia. exact Q. Qed.
  Lemma r_pos : 0 < r. Proof. assert (H := x_le 1 ltac:(lia)). assert (P := x1_pos). lra. Qed.
  Lemma x_nonneg i : (i < 1024)%nat -> 0 <= X i.
  Proof. intros H. destruct (Nat.eq_dec i 0) as [->|N]; [rewrite X0; lra|]. assert (P := x1_pos). assert (Q := x_ge i ltac:(lia)). lra. Qed.
  Lemma fr_pos : 0 < f r. Proof. apply (ZigSolve.f_pos f total DD). assert (P := r_pos). lra. Qed.
  Lemma fx_pos i : (i < 1024)%nat -> 0 < f (X i). Proof. intros H. apply (ZigSolve.f_pos f total DD). now apply x_nonneg. Qed.
  Lemma v_pos : 0 < v. Proof. rewrite VB. apply (ZigSolve.base_pos f total DD). apply r_pos. Qed.
  Lemma fx_dec i : (0 < i < 1024)%nat -> f (X i) < f (X (i - 1)%nat).
  Proof. intros H. apply (ZigSolve.f_dec f total DD). split; [apply x_nonneg; lia|now apply XI]. Qed.
  (** the area of layer i, up to 2e-17 *)
  Lemma area_i i : (0 < i < 1024)%nat -> Rabs (X i * (f (X (i - 1)%nat) - f (X i)) - v) <= 2 / 10 ^ 17 * v /\ X i * f (X (i - 1)%nat) <= 49801 / 100 * v.
  Proof.
    intros H. assert (RC := fb_rect f r v _ FB (X i) (conj (x_nonneg i ltac:(lia)) (x_le i ltac:(lia)))).
    assert (XP := x_nonneg i ltac:(lia)). assert (VP := v_pos).
    assert (E : X i * (f (X (i - 1)%nat) - f (X i)) = X i * f (X (i - 1)%nat) - X i * f (X i)) by ring.
    destruct (Nat.eq_dec i 1) as [->|N].
    - assert (A := AR1). cbn [Nat.sub] in *. rewrite E in *. apply Rabs_le_between in A. rewrite X0, (fb_top f r v _ FB) in *. split; [apply Rabs_le|]; lra.
    - assert (A := AR i ltac:(lia)). rewrite E in *. rewrite A, Rminus_eq_0, Rabs_R0. split; lra.
  Qed.

  (** the rounded tables *)
  Lemma relW0 : is_finite (tW z 0) = true /\ rel uu (edge z 0) (v / f r).
  Proof.
    destruct W0 as [F E]. split; [exact F|]. unfold edge. rewrite E. change (IZR (2 ^ 53)) with 9007199254740992. assert (VP := v_pos). assert (FP := fr_pos).
    assert (L : r <= v / f r).
    { apply Rmult_le_reg_r with (f r); [exact FP|]. replace (v / f r * f r) with v by (field; lra). rewrite VB. unfold ZigSolve.base.
      assert (I := ZigSolve.int_below f total DD r ltac:(assert (P := r_pos); lra)). lra. }
    assert (L1 := x_le 1 ltac:(lia)). assert (L2 := fb_narrow f r v _ FB).
    replace (v / f r) with (9007199254740992 * (v / f r / 2 ^ 53)) at 2 by (field; lra). rewrite (Rmult_comm _ (rnd _)), (Rmult_comm _ (v / f r / 2 ^ 53)). apply rel_scale; [lra|]. apply rel_rnd.
    apply Rle_trans with (bpow radix2 (-100)); [apply bpow_le; lia|]. change (bpow radix2 (-100)) with (/ IZR (2 ^ 100)). apply Rle_trans with (/ 2 ^ 19 / 2 ^ 53); [change (IZR (2 ^ 100)) with 1267650600228229401496703205376; lra|]. apply Rmult_le_compat_r; lra.
  Qed.
  Lemma relW i : (0 < i < 1024)%nat -> is_finite (tW z i) = true /\ rel uu (edge z i) (X i).
  Proof.
    intros H. destruct (WI i H) as [F E]. split; [exact F|]. unfold edge. rewrite E. change (IZR (2 ^ 53)) with 9007199254740992.
    assert (L1 := x_ge i ltac:(lia)). assert (L2 := fb_narrow f r v _ FB).
    replace (X i) with (9007199254740992 * (X i / 2 ^ 53)) at 2 by (field; lra). rewrite (Rmult_comm _ (rnd _)), (Rmult_comm _ (X i / 2 ^ 53)). apply rel_scale; [lra|]. apply rel_rnd.
    apply Rle_trans with (bpow radix2 (-100)); [apply bpow_le; lia|]. change (bpow radix2 (-100)) with (/ IZR (2 ^ 100)). apply Rle_trans with (/ 2 ^ 19 / 2 ^ 53); [change (IZR (2 ^ 100)) with 1267650600228229401496703205376; lra|]. apply Rmult_le_compat_r; lra.
  Qed.
  Lemma fx_ge i : (i < 1024)%nat -> f r <= f (X i) <= 1.
  Proof.
    intros H. split; [apply (ZigSolve.f_dec_le f total DD); split; [now apply x_nonneg|now apply x_le]|].
    rewrite <- (fb_top f r v _ FB). apply (ZigSolve.f_dec_le f total DD). split; [lra|now apply x_nonneg].
  Qed.
  Lemma relF i : (i < 1024)%nat -> is_finite (tF z i) = true /\ rel uu (height z i) (f (X i)).
  Proof.
    intros H. destruct (FI i H) as [F E]. split; [exact F|]. unfold height. rewrite E. apply rel_rnd. assert (L := proj1 (fb_low f r v _ FB)). assert (L' := fx_ge i H).
    apply Rle_trans with (bpow radix2 (-100)); [apply bpow_le; lia|]. change (bpow radix2 (-100)) with (/ IZR (2 ^ 100)). change (IZR (2 ^ 100)) with 1267650600228229401496703205376. lra.
  Qed.
  Lemma height_0 : height z 0 = 1.
  Proof.
    destruct (FI 0 ltac:(lia)) as [_ E]. unfold height. rewrite E, X0, (fb_top f r v _ FB). apply rnd_id. replace 1 with (IZR 1 * bpow radix2 0) by (cbn; lra). apply representable_int; lia.
  Qed.
  (** consecutive edges are well apart *)
  Lemma gap i : (0 < i < 1024)%nat -> r / 8480 <= X i - X (i - 1)%nat.
  Proof.
    intros H. destruct (area_i i H) as [A B]. assert (XL := XI i H). assert (XP := x_nonneg (i - 1) ltac:(lia)). assert (LR := x_le i ltac:(lia)). assert (RP := r_pos). assert (VP := v_pos).
    assert (S := fb_steep f r v _ FB (X (i - 1)%nat) (X i) ltac:(lra) ltac:(lra)). assert (FP := fx_pos (i - 1) ltac:(lia)).
    set (x := X i) in *. set (x' := X (i - 1)%nat) in *. set (a := f x') in *. set (b := f x) in *. clearbody x x' a b. apply Rabs_le_between in A.
    assert (K : x * (a - b) <= 17 / r * (x - x') * (x * a)). { replace (17 / r * (x - x') * (x * a)) with (x * (17 / r * (x - x') * a)) by ring. apply Rmult_le_compat_l; lra. }
    assert (D0 : 0 <= 17 / r * (x - x')) by (apply Rmult_le_pos; [apply Rdiv_le_0_compat; lra|lra]).
    assert (K2 : 17 / r * (x - x') * (x * a) <= 17 / r * (x - x') * (49801 / 100 * v)) by (apply Rmult_le_compat_l; assumption).
    assert (K3 : (1 - 2 / 10 ^ 17) * v <= 17 / r * (x - x') * (49801 / 100) * v) by lra. apply Rmult_le_reg_r in K3; [|exact VP].
    apply Rmult_le_reg_l with (17 * (49801 / 100) / r); [apply Rdiv_lt_0_compat; lra|]. replace (17 * (49801 / 100) / r * (r / 8480)) with (17 * (49801 / 100) / 8480) by (field; lra).
    replace (17 * (49801 / 100) / r * (x - x')) with (17 / r * (x - x') * (49801 / 100)) by (field; lra). lra.
  Qed.
  Lemma base_gap : r / 20000 <= v / f r - r.
  Proof.
    assert (RP := r_pos). assert (FP := fr_pos). set (y := 10001 / 10000 * r).
    assert (S := fb_steep f r v _ FB r y ltac:(unfold y; lra) ltac:(unfold y; lra)).
    assert (I1 := ZigSolve.int_below f total DD y ltac:(unfold y; lra)). rewrite <- (ZigSolve.chasles f total DD 0 r y) in I1 by (unfold y; lra).
    assert (I2 := ZigSolve.int_lower f total DD r y ltac:(unfold y; lra)).
    assert (E : v = r * f r + (total - RInt f 0 r)) by (rewrite VB; reflexivity).
    assert (Q : 17 / r * (y - r) = 17 / 10000) by (unfold y; field; lra). rewrite Q in S.
    apply Rmult_le_reg_r with (f r); [exact FP|]. replace ((v / f r - r) * f r) with (v - r * f r) by (field; lra). rewrite E.
    assert (K : (y - r) * ((1 - 17 / 10000) * f r) <= (y - r) * f y) by (apply Rmult_le_compat_l; unfold y in *; lra).
    unfold y in *. nra.
  Qed.

  Lemma edge_of i : (0 < i < 1024)%nat -> X i - uu * X i <= edge z i <= X i + uu * X i.
  Proof. intros H. exact (proj2 (relW i H)). Qed.
  Lemma height_of i : (i < 1024)%nat -> f (X i) - uu * f (X i) <= height z i <= f (X i) + uu * f (X i).
  Proof. intros H. exact (proj2 (relF i H)). Qed.
  Lemma strip_of : (1 - 3 * uu) * v <= strip z <= (1 + 3 * uu) * v.
  Proof.
    destruct relW0 as [_ E]. assert (H := height_of 1023 ltac:(lia)). rewrite XR in H. unfold strip. assert (VP := v_pos). assert (FP := fr_pos). assert (U := uu_bound).
    unfold rel in E. set (w := v / f r) in *. assert (WE : w * f r = v) by (unfold w; field; lra). assert (WP : 0 < w) by now apply Rdiv_lt_0_compat. set (e := edge z 0) in *. set (h := height z 1023) in *. set (g := f r) in *. clearbody w e h g.
    assert (A : (w - uu * w) * (g - uu * g) <= e * h) by (apply Rmult_le_compat; nra). assert (B : e * h <= (w + uu * w) * (g + uu * g)) by (apply Rmult_le_compat; nra).
    replace ((w - uu * w) * (g - uu * g)) with ((1 - 2 * uu + uu * uu) * v) in A by (rewrite <- WE; ring). replace ((w + uu * w) * (g + uu * g)) with ((1 + 2 * uu + uu * uu) * v) in B by (rewrite <- WE; ring).
    assert (UU : 0 <= uu * uu <= uu) by nra. split; [apply Rle_trans with (2 := A)|apply Rle_trans with (1 := B)]; apply Rmult_le_compat_r; lra.
  Qed.
  (** a little sharper: two roundings *)
  Lemma strip_of2 : (1 - 2 * uu - 1 / 10 ^ 30) * v <= strip z <= (1 + 2 * uu + 1 / 10 ^ 30) * v.
  Proof.
    destruct relW0 as [_ E]. assert (H := height_of 1023 ltac:(lia)). rewrite XR in H. unfold strip. assert (VP := v_pos). assert (FP := fr_pos). assert (U := uu_bound).
    unfold rel in E. set (w := v / f r) in *. assert (WE : w * f r = v) by (unfold w; field; lra). assert (WP : 0 < w) by now apply Rdiv_lt_0_compat. set (e := edge z 0) in *. set (h := height z 1023) in *. set (g := f r) in *. clearbody w e h g.
    assert (A : (w - uu * w) * (g - uu * g) <= e * h) by (apply Rmult_le_compat; nra). assert (B : e * h <= (w + uu * w) * (g + uu * g)) by (apply Rmult_le_compat; nra).
    replace ((w - uu * w) * (g - uu * g)) with ((1 - 2 * uu + uu * uu) * v) in A by (rewrite <- WE; ring). replace ((w + uu * w) * (g + uu * g)) with ((1 + 2 * uu + uu * uu) * v) in B by (rewrite <- WE; ring).
    assert (UU : 0 <= uu * uu <= 1 / 10 ^ 30) by (split; [nra|]; apply Rle_trans with (12 / 10 ^ 17 * (12 / 10 ^ 17)); [apply Rmult_le_compat; lra|lra]). split; [apply Rle_trans with (2 := A)|apply Rle_trans with (1 := B)]; apply Rmult_le_compat_r; lra.
  Qed.
  Lemma areas i : (1 <= i < 1024)%nat -> Rabs (edge z i * (height z (i - 1) - height z i) - strip z) <= 12 / 10 ^ 14 * strip z.
  Proof.
    intros H. destruct (area_i i ltac:(lia)) as [A _]. assert (E := edge_of i ltac:(lia)). assert (H1 := height_of i ltac:(lia)). assert (H2 := height_of (i - 1) ltac:(lia)). assert (SS := strip_of2). assert (U := uu_bound).
    assert (RC := fb_rect f r v _ FB (X i) (conj (x_nonneg i ltac:(lia)) (x_le i ltac:(lia)))). assert (VP := v_pos). assert (XP := x_ge i ltac:(lia)). assert (X1P := x1_pos).
    assert (F1 := fx_pos i ltac:(lia)). assert (F2 := fx_dec i ltac:(lia)).
    set (x := X i) in *. set (a := f (X (i - 1)%nat)) in *. set (b := f x) in *. set (e := edge z i) in *. set (ha := height z (i - 1)) in *. set (hb := height z i) in *. set (S := strip z) in *. clearbody x a b e ha hb S. apply Rabs_le_between in A.
    assert (XA : x * (a - b) = x * a - x * b) by ring. assert (U0 : 0 < uu) by lra.
    (* heights *)
    assert (D1 : x * ((a - b) - uu * (a + b)) <= x * (ha - hb)) by (apply Rmult_le_compat_l; lra).
    assert (D2 : x * (ha - hb) <= x * ((a - b) + uu * (a + b))) by (apply Rmult_le_compat_l; lra).
    assert (XS : uu * (x * (a + b)) <= uu * ((995 + 1 / 1000) * v)) by (apply Rmult_le_compat_l; [lra|]; replace (x * (a + b)) with (x * (a - b) + 2 * (x * b)) by ring; lra).
    assert (G : Rabs (x * (ha - hb) - v) <= (995 * uu + 1 / 1000 * uu + 2 / 10 ^ 17) * v) by (apply Rabs_le; lra). apply Rabs_le_between in G.
    set (d := x * (ha - hb)) in *.
    assert (DV : d <= 2 * v /\ 0 <= d). { assert (995 * uu * v <= 1 / 10 * v /\ 1 / 1000 * uu * v <= 1 / 10 * v) by (split; apply Rmult_le_compat_r; lra). lra. }
    assert (HD : 0 <= ha - hb). { unfold d in DV. destruct (Rle_or_lt 0 (ha - hb)); [assumption|exfalso]. assert (x * (ha - hb) < 0) by (apply Ropp_lt_cancel; rewrite Ropp_0, Ropp_mult_distr_r; apply Rmult_lt_0_compat; lra). lra. }
    assert (E1 : (x - uu * x) * (ha - hb) <= e * (ha - hb)) by (apply Rmult_le_compat_r; lra). assert (E2 : e * (ha - hb) <= (x + uu * x) * (ha - hb)) by (apply Rmult_le_compat_r; lra).
    replace ((x - uu * x) * (ha - hb)) with (d - uu * d) in E1 by (unfold d; ring). replace ((x + uu * x) * (ha - hb)) with (d + uu * d) in E2 by (unfold d; ring).
    assert (UD : uu * d <= uu * ((1 + 2 / 10 ^ 13) * v)).
    { apply Rmult_le_compat_l; [lra|]. assert (995 * uu * v <= 12 / 10 ^ 14 * v /\ 1 / 1000 * uu * v <= 1 / 10 ^ 18 * v) by (split; apply Rmult_le_compat_r; lra). lra. }
    assert (P : Rabs (e * (ha - hb) - v) <= (996 * uu + 2 / 1000 * uu + 2 / 10 ^ 17) * v).
    { assert (uu * (2 / 10 ^ 13 * v) <= 1 / 1000 * uu * v) by nra. apply Rabs_le. lra. }
    apply Rabs_le_between in P. set (q := e * (ha - hb)) in *. clearbody q d.
    assert (UV : uu * v <= 11103 / 10 ^ 20 * v) by (apply Rmult_le_compat_r; lra). assert (UV0 : 0 <= uu * v) by (apply Rmult_le_pos; lra).
    apply Rabs_le. lra.
  Qed.
  Lemma step_edge i : (1 <= i)%nat -> (S i < 1024)%nat -> edge z i < edge z (S i).
  Proof.
    intros H1 H. assert (G := gap (S i) ltac:(lia)). replace (S i - 1)%nat with i in G by lia. assert (A := edge_of i ltac:(lia)). assert (B := edge_of (S i) ltac:(lia)). assert (U := uu_bound).
    assert (L1 := x_le i ltac:(lia)). assert (L2 := x_le (S i) ltac:(lia)). assert (RP := r_pos).
    assert (uu * X i <= 12 / 10 ^ 17 * r) by (apply Rmult_le_compat; try lra; apply x_nonneg; lia). assert (uu * X (S i) <= 12 / 10 ^ 17 * r) by (apply Rmult_le_compat; try lra; apply x_nonneg; lia). lra.
  Qed.
  Lemma steep_f i : (0 < i < 1024)%nat -> f (X (i - 1)%nat) <= 4985 / 10 * (f (X (i - 1)%nat) - f (X i)) /\ 99 / 100 * / 2 ^ 19 <= f (X (i - 1)%nat) - f (X i).
  Proof.
    intros H. destruct (area_i i H) as [A B]. assert (XP := x_ge i ltac:(lia)). assert (X1P := x1_pos). assert (LR := x_le i ltac:(lia)). assert (LV := proj2 (fb_low f r v _ FB)). assert (RP := r_pos). assert (VP := v_pos).
    apply Rabs_le_between in A. set (x := X i) in *. set (a := f (X (i - 1)%nat)) in *. set (b := f x) in *. clearbody x a b. split; apply Rmult_le_reg_l with x; try lra.
    assert (Q : / 2 ^ 19 * r <= v). { apply (Rmult_le_compat_r r) in LV; [|lra]. replace (v / r * r) with v in LV by (field; lra). exact LV. }
    assert (x * / 2 ^ 19 <= / 2 ^ 19 * r) by (rewrite Rmult_comm; apply Rmult_le_compat_l; lra). lra.
  Qed.
  Lemma steep i : (1 <= i < 1024)%nat -> height z (i - 1) <= 500 * (height z (i - 1) - height z i) /\ / 2 ^ 20 <= height z i /\ / 2 ^ 20 <= height z (i - 1) - height z i.
  Proof.
    intros H. destruct (steep_f i ltac:(lia)) as [A B]. assert (H1 := height_of i ltac:(lia)). assert (H2 := height_of (i - 1) ltac:(lia)). assert (F1 := fx_ge i ltac:(lia)). assert (F2 := fx_ge (i - 1) ltac:(lia)). assert (U := uu_bound). assert (LV := proj1 (fb_low f r v _ FB)).
    set (a := f (X (i - 1)%nat)) in *. set (b := f (X i)) in *. set (ha := height z (i - 1)) in *. set (hb := height z i) in *. clearbody a b ha hb.
    assert (uu * a <= 12 / 10 ^ 17 * a) by (apply Rmult_le_compat_r; lra). assert (uu * b <= 12 / 10 ^ 17 * b) by (apply Rmult_le_compat_r; lra). lra.
  Qed.
  Lemma two53 : IZR (2 ^ 53) = 2 ^ 53. Proof. change (IZR (2 ^ 53)) with 9007199254740992. cbn; lra. Qed.
  Lemma floor_div_lt a b : 0 <= a < b -> (0 <= Zfloor (2 ^ 53 * a / b) < 2 ^ 53)%Z.
  Proof.
    intros H. assert (Q : 0 <= 2 ^ 53 * a / b < IZR (2 ^ 53)).
    { rewrite two53. split; [apply Rdiv_le_0_compat; lra|]. apply Rmult_lt_reg_r with b; [lra|]. replace (2 ^ 53 * a / b * b) with (2 ^ 53 * a) by (field; lra). apply Rmult_lt_compat_l; lra. }
    split; [apply Zfloor_lub; cbn; lra|]. apply lt_IZR. apply Rle_lt_trans with (2 := proj2 Q). apply Zfloor_lb.
  Qed.
  Lemma tables : ziggurat_tables z.
  Proof.
    assert (RP := r_pos). assert (VP := v_pos). assert (FP := fr_pos). assert (U := uu_bound). assert (BG := base_gap). destruct relW0 as [FW0 RW0]. unfold rel in RW0.
    split.
    - exact TF.
    - intros i Hi. destruct (relF i Hi) as [FF RF]. unfold rel in RF. assert (F1 := fx_pos i Hi). assert (uu * f (X i) <= 1 / 2 * f (X i)) by (apply Rmult_le_compat_r; lra).
      destruct (Nat.eq_dec i 0) as [->|N].
      + repeat split; auto; try lra. assert (uu * (v / f r) <= 1 / 2 * (v / f r)) by (apply Rmult_le_compat_r; lra). lra.
      + destruct (relW i ltac:(lia)) as [FW RW]. unfold rel in RW. assert (XP := x_ge i ltac:(lia)). assert (X1P := x1_pos). assert (uu * X i <= 1 / 2 * X i) by (apply Rmult_le_compat_r; lra). repeat split; auto; lra.
    - apply (increasing_from (edge z) 1 1024). intros i H1 H2. now apply step_edge.
    - assert (E := edge_of 1023 ltac:(lia)). rewrite XR in E. assert (uu * (v / f r) <= 12 / 10 ^ 17 * (v / f r)) by (apply Rmult_le_compat_r; lra). assert (uu * r <= 12 / 10 ^ 17 * r) by (apply Rmult_le_compat_r; lra). lra.
    - exact height_0.
    - intros i j Hij. apply Ropp_lt_cancel. apply (increasing_from (fun i => - height z i) 0 1024); [|lia|lia]. intros k _ Hk. destruct (steep (S k) ltac:(lia)) as (_ & _ & Q). replace (S k - 1)%nat with k in Q by lia. assert (0 < / 2 ^ 20) by (apply Rinv_0_lt_compat; lra). lra.
    - intros i Hi. apply N2Z.inj_lt. change (Z.of_N (2 ^ 53)) with (2 ^ 53)%Z. destruct (Nat.eq_dec i 0) as [->|N].
      + rewrite K0. replace (2 ^ 53 * r * f r / v) with (2 ^ 53 * r / (v / f r)) by (field; lra). apply floor_div_lt. lra.
      + rewrite (KI i ltac:(lia)). apply floor_div_lt. split; [apply x_nonneg; lia|apply XI; lia].
    - apply N2Z.inj. rewrite (KI 1 ltac:(lia)). cbn [Nat.sub]. rewrite X0. rewrite Rmult_0_r. unfold Rdiv. rewrite Rmult_0_l. apply (Zfloor_IZR 0).
    - intros i Hi. rewrite (KI i ltac:(lia)). assert (E1 := edge_of i ltac:(lia)). assert (E2 := edge_of (i - 1) ltac:(lia)). assert (XL := XI i ltac:(lia)). assert (XP := x_ge (i - 1) ltac:(lia)). assert (X1P := x1_pos). assert (G := gap i ltac:(lia)). assert (LR := x_le i ltac:(lia)).
      rewrite two53. set (p := 2 ^ 53 * X (i - 1)%nat / X i). set (q := 2 ^ 53 * edge z (i - 1) / edge z i).
      set (x := X i) in *. set (x' := X (i - 1)%nat) in *. set (e := edge z i) in *. set (e' := edge z (i - 1)) in *.
      assert (EP : 0 < e) by (assert (uu * x <= 1 / 2 * x) by (apply Rmult_le_compat_r; lra); lra).
      assert (UP : 2 ^ 53 * uu = 1) by (unfold uu; apply Rinv_r; lra).
      assert (D : Rabs (p - q) <= 2).
      { assert (PQ : p - q = 2 ^ 53 * (x' * e - e' * x) / (x * e)) by (unfold p, q; field; lra). rewrite PQ.
        assert (N : Rabs (x' * e - e' * x) <= 2 * uu * (x' * x)) by (apply Rabs_le; nra).
        unfold Rdiv. rewrite !Rabs_mult, (Rabs_pos_eq (2 ^ 53)), (Rabs_pos_eq (/ _)) by (try lra; left; apply Rinv_0_lt_compat, Rmult_lt_0_compat; lra).
        apply Rmult_le_reg_r with (x * e); [apply Rmult_lt_0_compat; lra|]. rewrite Rmult_assoc, Rinv_l, Rmult_1_r by (apply Rgt_not_eq, Rmult_lt_0_compat; lra).
        apply Rle_trans with (2 ^ 53 * (2 * uu * (x' * x))); [apply Rmult_le_compat_l; [lra|exact N]|]. replace (2 ^ 53 * (2 * uu * (x' * x))) with (2 ^ 53 * uu * 2 * (x' * x)) by ring. rewrite UP.
        assert (x' <= e). { assert (uu * x <= 12 / 10 ^ 17 * r) by (apply Rmult_le_compat; lra). lra. } nra. }
      assert (P1 := Zfloor_lb p). assert (P2 := Zfloor_ub p). assert (Q1 := Zfloor_lb q). assert (Q2 := Zfloor_ub q). apply Rabs_le_between in D.
      assert (A1 : IZR (Zfloor p) - IZR (Zfloor q) < 3) by lra. assert (A2 : IZR (Zfloor q) - IZR (Zfloor p) < 3) by lra. rewrite <- minus_IZR in A1, A2. apply lt_IZR in A1, A2. apply Z.abs_le. lia.
    - exact areas.
  Qed.

  Lemma near_f x y d : 0 <= x <= y -> y <= 10001 / 10000 * r -> y - x <= d * r -> (1 - 17 * d) * f x <= f y <= f x.
  Proof.
    intros H Hy Hd. assert (RP := r_pos). assert (S := fb_steep f r v _ FB x y H Hy). assert (P := ZigSolve.f_pos f total DD x ltac:(lra)). split; [|now apply (ZigSolve.f_dec_le f total DD)].
    assert (K : 17 / r * (y - x) <= 17 * d). { apply Rmult_le_reg_r with r; [exact RP|]. replace (17 / r * (y - x) * r) with (17 * (y - x)) by (field; lra). lra. }
    apply (Rmult_le_compat_r (f x)) in K; lra.
  Qed.
  Lemma edge_16 : edge z 0 <= 16 /\ / 2 ^ 20 <= edge z 1.
  Proof.
    destruct relW0 as [_ E]. unfold rel in E. assert (L := fb_wide f r v _ FB). assert (U := uu_bound). assert (VP := v_pos). assert (FP := fr_pos). assert (WP : 0 < v / f r) by now apply Rdiv_lt_0_compat.
    assert (E1 := edge_of 1 ltac:(lia)). assert (L1 := fb_narrow f r v _ FB). assert (X1P := x1_pos).
    assert (uu * (v / f r) <= 1 / 1000 * (v / f r)) by (apply Rmult_le_compat_r; lra). assert (uu * X 1%nat <= 1 / 1000 * X 1%nat) by (apply Rmult_le_compat_r; lra). lra.
  Qed.
  Lemma pdf_ok i m : (1 <= i < 1024)%nat -> (m <= 2 ^ 53)%N -> exists p, fvalue (zPDF z (pointf z i m)) p /\
    Rabs (p - f (IZR (Z.of_N m) * (edge z i / IZR (2 ^ 53)))) <= 5 / 10 ^ 15 * f (IZR (Z.of_N m) * (edge z i / IZR (2 ^ 53))).
  Proof.
    intros Hi Hm. destruct edge_16 as [E16 E1]. destruct (pointf_value0 z tables E16 E1 i m ltac:(lia) Hm) as (y & Vy & Sy & Y16 & Ry).
    destruct (abscissa_le z tables i m ltac:(lia) Hm) as [T0 T1]. set (t := IZR (Z.of_N m) * (edge z i / IZR (2 ^ 53))) in *.
    assert (EI := edge_of i ltac:(lia)). assert (LR := x_le i ltac:(lia)). assert (XP := x_nonneg i ltac:(lia)). assert (RP := r_pos). assert (U := uu_bound). unfold rel in Ry. fold uu in Ry.
    assert (UR : uu * X i <= uu * r) by (apply Rmult_le_compat_l; lra). assert (UR2 : uu * r <= 12 / 10 ^ 17 * r) by (apply Rmult_le_compat_r; lra). assert (TR : t <= 1001 / 1000 * r) by lra. clear TR.
    assert (TR : t <= 100001 / 100000 * r) by lra. assert (UT : uu * t <= 12 / 10 ^ 17 * r). { apply Rle_trans with (11103 / 10 ^ 20 * (100001 / 100000 * r)); [apply Rmult_le_compat; lra|lra]. } assert (UT0 : 0 <= uu * t) by (apply Rmult_le_pos; lra).
    destruct (PDF _ y Vy Sy ltac:(lra)) as (p & Vp & Bp). exists p. split; [exact Vp|].
    assert (N : Rabs (f y - f t) <= 21 / 10 ^ 16 * f t).
    { destruct (Rle_or_lt t y) as [L|L].
      - destruct (near_f t y (12 / 10 ^ 17)); [lra|lra|lra|]. assert (P := ZigSolve.f_pos f total DD t T0). apply Rabs_le. lra.
      - destruct (near_f y t (12 / 10 ^ 17)); [lra|lra|lra|]. assert (P := ZigSolve.f_pos f total DD t T0). apply Rabs_le. lra. }
    assert (P := ZigSolve.f_pos f total DD t T0). apply Rabs_le_between in N. apply Rabs_le_between in Bp. apply Rabs_le. lra.
  Qed.
  Lemma inner i t : (2 <= i < 1024)%nat -> 0 <= t <= edge z (i - 1) + edge z i / IZR (2 ^ 53) -> (1 - 4 / 10 ^ 15) * height z (i - 1) <= f t.
  Proof.
    intros Hi [T0 T1]. rewrite edge_small in T1. fold uu in T1. assert (E1 := edge_of i ltac:(lia)). assert (E2 := edge_of (i - 1) ltac:(lia)). assert (LR := x_le i ltac:(lia)). assert (LR' := x_le (i - 1) ltac:(lia)). assert (XP := x_nonneg (i - 1) ltac:(lia)). assert (XP' := x_nonneg i ltac:(lia)). assert (RP := r_pos). assert (U := uu_bound).
    set (x := X (i - 1)%nat) in *. set (y := x + (2 * uu + 1 / 10 ^ 30) * r).
    assert (UR : uu * X i <= uu * r) by (apply Rmult_le_compat_l; lra). assert (UR' : uu * x <= uu * r) by (apply Rmult_le_compat_l; lra). assert (UR2 : uu * r <= 11103 / 10 ^ 20 * r) by (apply Rmult_le_compat_r; lra).
    assert (UUR : uu * (uu * X i) <= 11103 / 10 ^ 20 * (11103 / 10 ^ 20 * r)) by (apply Rmult_le_compat; [lra|apply Rmult_le_pos; lra|lra|lra]).
    assert (UE : edge z i * uu <= uu * X i + uu * (uu * X i)). { rewrite Rmult_comm. rewrite <- Rmult_plus_distr_l. apply Rmult_le_compat_l; lra. }
    assert (TY : t <= y) by (unfold y; lra).
    assert (YX : x <= y) by (unfold y; assert (0 <= (2 * uu + 1 / 10 ^ 30) * r) by (apply Rmult_le_pos; lra); lra).
    destruct (near_f x y (2 * uu + 1 / 10 ^ 30)) as [A _]; [lra|unfold y; lra|unfold y; lra|]. assert (B := ZigSolve.f_dec_le f total DD t y (conj T0 TY)).
    assert (H := height_of (i - 1) ltac:(lia)). fold x in H. assert (P := ZigSolve.f_pos f total DD x XP).
    assert (UF : uu * f x <= 11103 / 10 ^ 20 * f x) by (apply Rmult_le_compat_r; lra). assert (A' : f x - 34 * (uu * f x) - 17 / 10 ^ 30 * f x <= f y) by lra. lra.
  Qed.
  Lemma outer i t : (2 <= i < 1024)%nat -> 0 <= t -> edge z (i - 1) - 3 * (edge z i / IZR (2 ^ 53)) <= t -> f t <= 101 / 100 * height z (i - 1).
  Proof.
    intros Hi T0 T1. rewrite edge_small in T1. fold uu in T1. assert (E1 := edge_of i ltac:(lia)). assert (E2 := edge_of (i - 1) ltac:(lia)). assert (LR := x_le i ltac:(lia)). assert (LR' := x_le (i - 1) ltac:(lia)). assert (XP := x_nonneg (i - 1) ltac:(lia)). assert (XP' := x_nonneg i ltac:(lia)). assert (RP := r_pos). assert (U := uu_bound).
    set (x := X (i - 1)%nat) in *.
    assert (UR : uu * X i <= uu * r) by (apply Rmult_le_compat_l; lra). assert (UR' : uu * x <= uu * r) by (apply Rmult_le_compat_l; lra). assert (UR2 : uu * r <= 11103 / 10 ^ 20 * r) by (apply Rmult_le_compat_r; lra).
    assert (UE : edge z i * uu <= 2 * r * uu) by (apply Rmult_le_compat_r; lra).
    assert (H := height_of (i - 1) ltac:(lia)). fold x in H. assert (P := ZigSolve.f_pos f total DD x XP). assert (UF : uu * f x <= 11103 / 10 ^ 20 * f x) by (apply Rmult_le_compat_r; lra).
    destruct (Rle_or_lt x t) as [L|L].
    - assert (B := ZigSolve.f_dec_le f total DD x t (conj XP L)). lra.
    - destruct (near_f t x (1 / 10 ^ 10)) as [A _]; [lra|lra|lra|]. assert (P' := ZigSolve.f_pos f total DD t T0). lra.
  Qed.
  Lemma cut i t : (1 <= i < 1024)%nat -> edge z i * (1 + 3 / 10 ^ 13) <= t -> f t <= height z i.
  Proof.
    intros Hi T1. assert (E := edge_of i ltac:(lia)). assert (H := height_of i ltac:(lia)). assert (XP := x_ge i ltac:(lia)). assert (X1P := x1_pos). assert (LR := x_le i ltac:(lia)). assert (U := uu_bound). set (x := X i) in *.
    assert (UX : uu * x <= 11103 / 10 ^ 20 * x) by (apply Rmult_le_compat_r; lra). set (y := (1 + 29 / 10 ^ 14) * x).
    assert (TY : y <= t) by (unfold y; lra).
    assert (S := fb_flat f r v _ FB x y ltac:(unfold y; lra) LR ltac:(unfold y; lra)).
    replace ((y - x) / x) with (29 / 10 ^ 14) in S by (unfold y; field; lra). assert (B := ZigSolve.f_dec_le f total DD y t ltac:(unfold y in *; lra)).
    assert (P := ZigSolve.f_pos f total DD x ltac:(lra)). assert (UF : uu * f x <= 11103 / 10 ^ 20 * f x) by (apply Rmult_le_compat_r; lra). lra.
  Qed.
  Lemma last : height z 1023 - f (edge z 1023) <= 2 / 10 ^ 15 * height z 1023.
  Proof.
    assert (E := edge_of 1023 ltac:(lia)). assert (H := height_of 1023 ltac:(lia)). rewrite XR in *. assert (RP := r_pos). assert (FP := fr_pos). assert (U := uu_bound).
    assert (UX : uu * r <= 11103 / 10 ^ 20 * r) by (apply Rmult_le_compat_r; lra). assert (UF : uu * f r <= 11103 / 10 ^ 20 * f r) by (apply Rmult_le_compat_r; lra).
    destruct (Rle_or_lt r (edge z 1023)) as [L|L].
    - destruct (near_f r (edge z 1023) uu) as [A _]; [lra|lra|lra|]. lra.
    - assert (B := ZigSolve.f_dec_le f total DD (edge z 1023) r ltac:(lra)). assert (UF0 : 0 <= uu * f r) by (apply Rmult_le_pos; lra). lra.
  Qed.
  Lemma base_ok : (1 < tK z 0)%N /\ Rabs (IZR (Z.of_N (tK z 0)) * (edge z 0 / IZR (2 ^ 53)) - edge z 1023) <= 3 * (edge z 0 / IZR (2 ^ 53)).
  Proof.
    assert (RP := r_pos). assert (FP := fr_pos). assert (VP := v_pos). assert (U := uu_bound). assert (BG := base_gap). assert (UP : 2 ^ 53 * uu = 1) by (unfold uu; apply Rinv_r; lra).
    assert (L16 := fb_wide f r v _ FB). assert (L1 := fb_narrow f r v _ FB). assert (LX := x_le 1 ltac:(lia)).
    assert (KE : 2 ^ 53 * r * f r / v = 2 ^ 53 * r / (v / f r)) by (field; lra). rewrite KE in K0. set (w := v / f r) in *. assert (WP : 0 < w) by lra. set (q := 2 ^ 53 * r / w) in *.
    assert (QW : q * w = 2 ^ 53 * r) by (unfold q; field; lra). split.
    - apply N2Z.inj_lt. rewrite K0. change (Z.of_N 1) with 1%Z. apply Z.lt_le_trans with 2%Z; [lia|]. apply Zfloor_lub. apply Rmult_le_reg_r with w; [exact WP|]. rewrite QW. 
      apply Rle_trans with (2 ^ 53 * / 2 ^ 19); [lra|apply Rmult_le_compat_l; lra].
    - rewrite K0, edge_small. fold uu. destruct relW0 as [_ E0]. unfold rel in E0. fold w in E0. assert (E := edge_of 1023 ltac:(lia)). rewrite XR in E. assert (QL := Zfloor_lb q). assert (QU := Zfloor_ub q). set (k := IZR (Zfloor q)) in *. clearbody k.
      set (c := w * uu). assert (QC : q * c = r). { unfold c. replace (q * (w * uu)) with (q * w * uu) by ring. rewrite QW. replace (2 ^ 53 * r * uu) with (2 ^ 53 * uu * r) by ring. rewrite UP. ring. }
      assert (CP : 0 < c) by (apply Rmult_lt_0_compat; lra). set (e := edge z 0) in *. set (d := e * uu).
      assert (DC : c - uu * c <= d <= c + uu * c).
      { assert (A : (w - uu * w) * uu <= d) by (apply Rmult_le_compat_r; lra). assert (B : d <= (w + uu * w) * uu) by (apply Rmult_le_compat_r; lra).
        replace ((w - uu * w) * uu) with (c - uu * c) in A by (unfold c; ring). replace ((w + uu * w) * uu) with (c + uu * c) in B by (unfold c; ring). lra. }
      assert (K0' : 0 <= k). { assert (1 <= q). { apply Rmult_le_reg_r with w; [exact WP|]. rewrite QW. apply Rle_trans with (2 ^ 53 * / 2 ^ 19); [lra|apply Rmult_le_compat_l; lra]. } lra. }
      assert (KD1 : k * d <= k * (c + uu * c)) by (apply Rmult_le_compat_l; lra). assert (KD2 : k * (c - uu * c) <= k * d) by (apply Rmult_le_compat_l; lra).
      assert (KC : r - c <= k * c <= r). { assert (k * c <= q * c) by (apply Rmult_le_compat_r; lra). assert ((q - 1) * c <= k * c) by (apply Rmult_le_compat_r; lra). lra. }
      assert (UKC : uu * (k * c) <= uu * r) by (apply Rmult_le_compat_l; lra). assert (UKC0 : 0 <= uu * (k * c)) by (apply Rmult_le_pos; [lra|apply Rmult_le_pos; lra]).
      assert (RC : uu * r <= (1 - 1 / 30000) * c).
      { unfold c. rewrite (Rmult_comm uu r). rewrite <- Rmult_assoc. apply Rmult_le_compat_r; [lra|]. lra. }
      assert (UC : uu * c <= 12 / 10 ^ 17 * c) by (apply Rmult_le_compat_r; lra).
      apply Rabs_le. lra.
  Qed.
  Theorem script_fits : zig_for z f.
  Proof.
    destruct edge_16 as [A B]. split; auto.
    - exact tables.
    - apply (fb_continuous f r v _ FB).
    - intros x y H. now apply (ZigSolve.f_dec_le f total DD).
    - apply (fb_top f r v _ FB).
    - exact steep.
    - exact inner.
    - exact outer.
    - exact cut.
    - exact last.
    - exact base_ok.
    - exact pdf_ok.
  Qed.

  (** ** The law, in terms of f *)
  Definition A_right : R := total - RInt f 0 r.
  Definition body x : R := RInt f 0 (Rmax 0 (Rmin x r)).
  Lemma total_big : r / 68 <= total.
  Proof.
    assert (RP := r_pos). destruct (near_f 0 (r / 34) (1 / 34)) as [A _]; [lra|lra|lra|]. rewrite (fb_top f r v _ FB) in A.
    assert (I := ZigSolve.int_below f total DD (r / 34) ltac:(lra)). assert (J := ZigSolve.int_lower f total DD 0 (r / 34) ltac:(lra)).
    assert (K : (r / 34 - 0) * (1 / 2) <= (r / 34 - 0) * f (r / 34)) by (apply Rmult_le_compat_l; lra). lra.
  Qed.
  Lemma v_total : v <= total.
  Proof. assert (B := ZigSolve.base_0 f total). assert (RP := r_pos). assert (D := ZigSolve.base_dec f total DD 0 r ltac:(lra)). lra. Qed.
  Lemma int_lip a b : 0 <= a <= b -> 0 <= RInt f 0 b - RInt f 0 a <= b - a.
  Proof.
    intros H. rewrite <- (ZigSolve.chasles f total DD 0 a b) by lra. assert (M := ZigSolve.int_upper f total DD a b H). assert (I := ZigSolve.int_mono f total DD a b H). rewrite <- (ZigSolve.chasles f total DD 0 a b) in I by lra.
    assert (F1 : f a <= 1) by (rewrite <- (fb_top f r v _ FB); apply (ZigSolve.f_dec_le f total DD); lra).
    assert ((b - a) * f a <= (b - a) * 1) by (apply Rmult_le_compat_l; lra). lra.
  Qed.
  Lemma body_close x : Rabs (body_area z f x - body x) <= 100 * uu * total.
  Proof.
    assert (RP := r_pos). assert (U := uu_bound). assert (E := edge_of 1023 ltac:(lia)). rewrite XR in E. assert (TB := total_big). unfold body_area, body. set (e := edge z 1023) in *.
    assert (UR : uu * r <= 68 * uu * total) by (replace (68 * uu * total) with (uu * (68 * total)) by ring; apply Rmult_le_compat_l; lra).
    assert (UR0 : 0 <= uu * r) by (apply Rmult_le_pos; lra).
    assert (UT0 : 0 <= uu * total) by (apply Rmult_le_pos; lra).
    set (a := Rmax 0 (Rmin x e)). set (b := Rmax 0 (Rmin x r)).
    assert (EP : 0 <= e) by (assert (uu * r <= 1 / 2 * r) by (apply Rmult_le_compat_r; lra); lra).
    assert (AB : 0 <= a /\ 0 <= b /\ Rabs (a - b) <= uu * r). { split; [apply Rmax_l|]. split; [apply Rmax_l|]. apply Rabs_le. unfold a, b, Rmax, Rmin. repeat destruct Rle_dec; lra. }
    destruct AB as (A0 & B0 & AB). apply Rabs_le_between in AB. destruct (Rle_or_lt a b) as [L|L].
    - assert (Q := int_lip a b (conj A0 L)). apply Rabs_le. lra.
    - assert (Q := int_lip b a ltac:(lra)). apply Rabs_le. lra.
  Qed.
  Lemma tail_close : Rabs (ZigFit.tail_area z - A_right) <= 10 * uu * total.
  Proof.
    assert (RP := r_pos). assert (U := uu_bound). assert (SO := strip_of). assert (E := edge_of 1023 ltac:(lia)). assert (H := height_of 1023 ltac:(lia)). rewrite XR in *. assert (VP := v_pos). assert (FP := fr_pos). assert (VT := v_total). assert (TB := total_big).
    assert (AE : A_right = v - r * f r) by (unfold A_right; rewrite VB; unfold ZigSolve.base; ring).
    assert (RV : r * f r <= v). { rewrite VB. unfold ZigSolve.base. assert (I := ZigSolve.int_below f total DD r ltac:(lra)). lra. }
    unfold ZigFit.tail_area. unfold strip in SO. rewrite AE. set (e := edge z 1023) in *. set (h := height z 1023) in *. set (g := f r) in *. set (s := edge z 0 * h) in *.
    replace ((edge z 0 - e) * h) with (s - e * h) by (unfold s; ring). clearbody e h g s.
    assert (P1 : (r - uu * r) * (g - uu * g) <= e * h) by (apply Rmult_le_compat; nra). assert (P2 : e * h <= (r + uu * r) * (g + uu * g)) by (apply Rmult_le_compat; nra).
    replace ((r - uu * r) * (g - uu * g)) with (r * g - 2 * (uu * (r * g)) + uu * (uu * (r * g))) in P1 by ring. replace ((r + uu * r) * (g + uu * g)) with (r * g + 2 * (uu * (r * g)) + uu * (uu * (r * g))) in P2 by ring.
    assert (Q : 0 <= uu * (r * g) <= uu * total) by (split; [apply Rmult_le_pos; nra|apply Rmult_le_compat_l; lra]). assert (Q2 : 0 <= uu * (uu * (r * g)) <= uu * total) by (split; [apply Rmult_le_pos; lra|]; apply Rle_trans with (1 * (uu * total)); [apply Rmult_le_compat; lra|lra]).
    assert (QV : uu * v <= uu * total) by (apply Rmult_le_compat_l; lra). assert (0 <= uu * total) by lra. apply Rabs_le. lra.
  Qed.
  Lemma A_nonneg : 0 <= A_right. Proof. unfold A_right. assert (I := ZigSolve.int_below f total DD r ltac:(assert (RP := r_pos); lra)). lra. Qed.
  Lemma body_range x : 0 <= body x <= RInt f 0 r.
  Proof.
    assert (RP := r_pos). unfold body. set (b := Rmax 0 (Rmin x r)). assert (B : 0 <= b <= r) by (unfold b, Rmax, Rmin; repeat destruct Rle_dec; lra).
    assert (Z0 : RInt f 0 0 = 0) by (rewrite RInt_point; reflexivity). split; [assert (M := ZigSolve.int_mono f total DD 0 b ltac:(lra)); lra|apply (ZigSolve.int_mono f total DD); lra].
  Qed.
  Lemma body_r : body r = RInt f 0 r. Proof. unfold body. rewrite Rmin_left, Rmax_right; [reflexivity|assert (RP := r_pos); lra|lra]. Qed.
  Lemma quotient_close N D N' D' k : 0 < D' -> 0 <= N' <= D' -> 0 <= k <= 1 / 10 ^ 6 -> Rabs (N - N') <= k * D' -> Rabs (D - D') <= k * D' -> Rabs (N / D - N' / D') <= 3 * k.
  Proof.
    intros DP NR0 K H1 H2. apply Rabs_le_between in H1. apply Rabs_le_between in H2. assert (KD : k * D' <= 1 / 10 ^ 6 * D') by (apply Rmult_le_compat_r; lra).
    assert (DP2 : 9 / 10 * D' <= D) by lra. replace (N / D - N' / D') with (((N - N') * D' - N' * (D - D')) * / (D * D')) by (field; lra).
    assert (PP : 0 < D * D') by (apply Rmult_lt_0_compat; lra). rewrite Rabs_mult, (Rabs_pos_eq (/ _)) by (left; now apply Rinv_0_lt_compat).
    apply Rmult_le_reg_r with (D * D'); [exact PP|]. rewrite Rmult_assoc, Rinv_l, Rmult_1_r by lra.
    assert (B1 : Rabs ((N - N') * D') <= k * D' * D') by (rewrite Rabs_mult, (Rabs_pos_eq D') by lra; apply Rmult_le_compat_r; [lra|apply Rabs_le; lra]).
    assert (B2 : Rabs (N' * (D - D')) <= D' * (k * D')) by (rewrite Rabs_mult, (Rabs_pos_eq N') by lra; apply Rmult_le_compat; try lra; [apply Rabs_pos|apply Rabs_le; lra]).
    apply Rabs_le_between in B1. apply Rabs_le_between in B2.
    assert (B3 : k * D' * D' * (9 / 10) * 3 <= 3 * k * (D * D')). { replace (k * D' * D' * (9 / 10) * 3) with (3 * k * (9 / 10 * D' * D')) by ring. apply Rmult_le_compat_l; [lra|apply Rmult_le_compat_r; lra]. }
    assert (0 <= k * D' * D') by (apply Rmult_le_pos; [apply Rmult_le_pos; lra|lra]). apply Rabs_le. lra.
  Qed.
  Lemma area_is (t : R) x : 0 <= t <= 1 ->
    Rabs ((body_area z f x + ZigFit.tail_area z * t) / (body_area z f (edge z 1023) + ZigFit.tail_area z) - (body x + A_right * t) / total) <= 1 / 10 ^ 12.
  Proof.
    intros T. assert (U := uu_bound). assert (TP := ZigSolve.total_pos f total DD). assert (BR := body_range x). assert (AN := A_nonneg). assert (AE : RInt f 0 r + A_right = total) by (unfold A_right; ring).
    assert (UT : 0 <= uu * total) by (apply Rmult_le_pos; lra).
    apply Rle_trans with (3 * (180 * uu)); [|lra]. apply quotient_close; try lra.
    - split; [|rewrite <- AE]; nra.
    - assert (B := body_close x). assert (C := tail_close). apply Rabs_le_between in B. apply Rabs_le_between in C. set (ta := ZigFit.tail_area z) in *. assert (CT : Rabs ((ta - A_right) * t) <= 10 * uu * total * 1) by (rewrite Rabs_mult, (Rabs_pos_eq t) by lra; apply Rmult_le_compat; try lra; [apply Rabs_pos|apply Rabs_le; lra]). apply Rabs_le_between in CT. apply Rabs_le. lra.
    - assert (B := body_close r). assert (C := tail_close). rewrite body_r in B. apply Rabs_le_between in B. apply Rabs_le_between in C.
      assert (B2 := body_close (edge z 1023)). apply Rabs_le_between in B2. assert (Q : 0 <= body r - body (edge z 1023) <= 1 * uu * r).
      { assert (RP := r_pos). assert (E := edge_of 1023 ltac:(lia)). rewrite XR in E. assert (uu * r <= 1 / 2 * r) by (apply Rmult_le_compat_r; lra). unfold body. set (e := edge z 1023) in *. rewrite (Rmax_right 0 (Rmin r r)), Rmin_left by (try apply Rmin_glb; lra).
        set (b := Rmax 0 (Rmin e r)). assert (BB : 0 <= b <= r /\ r - b <= uu * r) by (assert (0 <= uu * r) by (apply Rmult_le_pos; lra); unfold b, Rmax, Rmin; repeat destruct Rle_dec; lra). assert (L := int_lip b r ltac:(lra)). lra. }
      assert (EE : body_area z f (edge z 1023) = body_area z f (edge z 1023)) by reflexivity. rewrite body_r in Q. assert (TB := total_big). assert (UR : uu * r <= 68 * uu * total) by (replace (68 * uu * total) with (uu * (68 * total)) by ring; apply Rmult_le_compat_l; lra).
      apply Rabs_le. lra.
  Qed.
  Lemma all_close : Rabs (body_area z f (edge z 1023) + ZigFit.tail_area z - total) <= 180 * uu * total /\ Rabs (body_area z f (edge z 1023) - body r) <= 170 * uu * total.
  Proof.
    assert (U := uu_bound). assert (TP := ZigSolve.total_pos f total DD). assert (AE : RInt f 0 r + A_right = total) by (unfold A_right; ring).
    assert (UT : 0 <= uu * total) by (apply Rmult_le_pos; lra).
    assert (C := tail_close). apply Rabs_le_between in C. assert (B2 := body_close (edge z 1023)). apply Rabs_le_between in B2. assert (Q : 0 <= body r - body (edge z 1023) <= 1 * uu * r).
    { assert (RP := r_pos). assert (E := edge_of 1023 ltac:(lia)). rewrite XR in E. assert (uu * r <= 1 / 2 * r) by (apply Rmult_le_compat_r; lra). unfold body. set (e := edge z 1023) in *. rewrite (Rmax_right 0 (Rmin r r)), Rmin_left by (try apply Rmin_glb; lra).
      set (b := Rmax 0 (Rmin e r)). assert (BB : 0 <= b <= r /\ r - b <= uu * r) by (assert (0 <= uu * r) by (apply Rmult_le_pos; lra); unfold b, Rmax, Rmin; repeat destruct Rle_dec; lra). assert (L := int_lip b r ltac:(lra)). lra. }
    rewrite body_r in *. assert (TB := total_big). assert (UR : uu * r <= 68 * uu * total) by (replace (68 * uu * total) with (uu * (68 * total)) by ring; apply Rmult_le_compat_l; lra).
    split; apply Rabs_le; lra.
  Qed.
  Lemma area_mirrored (t : R) x : 0 <= t <= 2 ->
    Rabs ((body_area z f x + (body_area z f (edge z 1023) - body_area z f (- x)) + ZigFit.tail_area z * t) / (2 * (body_area z f (edge z 1023) + ZigFit.tail_area z))
      - (body x + (RInt f 0 r - body (- x)) + A_right * t) / (2 * total)) <= 1 / 10 ^ 12.
  Proof.
    intros T. assert (U := uu_bound). assert (TP := ZigSolve.total_pos f total DD). assert (BR := body_range x). assert (BR' := body_range (- x)). assert (AN := A_nonneg). assert (AE : RInt f 0 r + A_right = total) by (unfold A_right; ring).
    assert (UT : 0 <= uu * total) by (apply Rmult_le_pos; lra). destruct all_close as [C1 C2]. rewrite body_r in C2.
    apply Rle_trans with (3 * (400 * uu)); [|lra]. apply quotient_close; try lra.
    - split; [|rewrite <- AE]; nra.
    - assert (B := body_close x). assert (B' := body_close (- x)). assert (C := tail_close). apply Rabs_le_between in B. apply Rabs_le_between in B'. apply Rabs_le_between in C. apply Rabs_le_between in C2. set (ta := ZigFit.tail_area z) in *. assert (CT : Rabs ((ta - A_right) * t) <= 10 * uu * total * 2) by (rewrite Rabs_mult, (Rabs_pos_eq t) by lra; apply Rmult_le_compat; try lra; [apply Rabs_pos|apply Rabs_le; lra]). apply Rabs_le_between in CT. apply Rabs_le. lra.
    - apply Rabs_le_between in C1. apply Rabs_le. lra.
  Qed.
End Core.
