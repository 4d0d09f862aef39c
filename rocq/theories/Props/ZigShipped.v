(** C79: the tables of expo.go and normal.go are what ziggurat.py is after. *)
From Coq Require Import Reals Lia Lra Psatz List Arith.
From Coquelicot Require Import Coquelicot.
From Flocq Require Import Core BinarySingleNaN.
From Verif Require Import Model.Base Model.Rng Model.Float Model.Distr Model.Ziggurat Model.ExpoTable Model.NormalTable Model.ExpoNormal Model.ZigScript.
From Verif Require Import Spec.Floats Spec.Zig Spec.Density Spec.ZigBuild.
From Verif Require Import Proofs.ZigTables Proofs.Gauss Proofs.Mills Proofs.ZigInst Proofs.ZigSolve Proofs.ZigSearch Proofs.ZigNear.
From Verif Require Import Props.Zig Props.ExpoNormal Props.Density Props.ZigScript Spec.Zig.
Local Open Scope R_scope.

Lemma expo_decreasing : decreasing_density expo_density 1.
Proof.
  assert (C : forall x, continuous expo_density x) by (intros x; apply (ex_derive_continuous expo_density x); unfold expo_density; auto_derive; trivial).
  split.
  - intros x. apply (continuous_comp (Rmax 0) expo_density); [|apply C]. intros P [e He]. exists e. intros y Hy. apply He.
    change (Rabs (y - x) < e) in Hy. change (Rabs (Rmax 0 y - Rmax 0 x) < e). revert Hy. unfold Rmax. repeat destruct Rle_dec; unfold Rabs; repeat destruct Rcase_abs; lra.
  - intros x y H. unfold expo_density. apply exp_increasing. lra.
  - split; [intros; apply expo_ex_RInt|]. replace 1 with (expo_density 0) by (unfold expo_density; rewrite Ropp_0; apply exp_0). apply (expo_area 0).
Qed.
Lemma normal_decreasing : decreasing_density normal_density (sqrt (PI / 2)).
Proof.
  split.
  - intros x. apply (continuous_comp (Rmax 0) normal_density); [|apply normal_continuous]. intros P [e He]. exists e. intros y Hy. apply He.
    change (Rabs (y - x) < e) in Hy. change (Rabs (Rmax 0 y - Rmax 0 x) < e). revert Hy. unfold Rmax. repeat destruct Rle_dec; unfold Rabs; repeat destruct Rcase_abs; lra.
  - intros x y H. unfold normal_density. apply exp_increasing. nra.
  - split; [intros; apply normal_ex_RInt|]. exact G_lim.
Qed.

(** tables with heights close to the curve *)
Section Close.
  Context {W : Type} (z : Ziggurat W) (f : R -> R) (total : R).
  Hypothesis DD : decreasing_density f total.
  Hypothesis T : ziggurat_tables z.
  Hypothesis F0 : f 0 = 1.
  Hypothesis HF : forall i, (1 <= i < 1024)%nat -> Rabs (height z i - f (edge z i)) <= 2 / 10 ^ 15 * f (edge z i).
  Hypothesis ST : forall i, (1 <= i < 1024)%nat -> height z (i - 1) <= 500 * (height z (i - 1) - height z i).
  Hypothesis BA : exists A, quad_inf f (edge z 1023) A /\ Rabs (edge z 0 * f (edge z 1023) - (edge z 1023 * f (edge z 1023) + A)) <= 1 / 10 ^ 15 * f (edge z 1023).
  Hypothesis E1 : 1 <= edge z 1023.
  Let X (i : nat) : R := match i with O => 0 | S _ => edge z i end.
  Let eps : R := 3 / 10 ^ 12.
  Lemma X_S i : (S i < 1024)%nat -> X i < X (S i).
  Proof.
    intros H. destruct i as [|i]; cbn [X]; [apply (tables_finite z T 1); lia|apply (edges_increase z T); lia].
  Qed.
  Lemma height_near i : (i < 1024)%nat -> Rabs (height z i - f (X i)) <= 21 / 10 ^ 16 * height z i.
  Proof.
    intros H. destruct i as [|i]; cbn [X]; [rewrite F0, (height_top z T), Rminus_eq_0, Rabs_R0; lra|].
    assert (Q := HF (S i) ltac:(lia)). destruct (tables_finite z T (S i) H) as (_ & _ & _ & P). apply Rabs_le_between in Q. apply Rabs_le. lra.
  Qed.
  Lemma strip_pos : 0 < strip z.
  Proof. unfold strip. destruct (tables_finite z T 0 ltac:(lia)) as (_ & _ & A & _). destruct (tables_finite z T 1023 ltac:(lia)) as (_ & _ & _ & B). now apply Rmult_lt_0_compat. Qed.
  Lemma layer_area i : (S i < 1024)%nat -> (1 - eps) * strip z <= X (S i) * (f (X i) - f (X (S i))) <= (1 + eps) * strip z.
  Proof.
    intros H. assert (EA := equal_areas z T (S i) ltac:(lia)). assert (SP := strip_pos). assert (S0 := ST (S i) ltac:(lia)). replace (S i - 1)%nat with i in * by lia.
    assert (N1 := height_near i ltac:(lia)). assert (N2 := height_near (S i) H). assert (HD := heights_decrease z T i (S i) ltac:(lia)).
    destruct (tables_finite z T (S i) H) as (_ & _ & PE & PH). change (X (S i)) with (edge z (S i)) in *. set (x := edge z (S i)) in *. set (a := height z i) in *. set (b := height z (S i)) in *.
    apply Rabs_le_between in EA. apply Rabs_le_between in N1. apply Rabs_le_between in N2.
    assert (Q : - (21 / 10 ^ 13) * (a - b) <= (f (X i) - f x) - (a - b) <= 21 / 10 ^ 13 * (a - b)) by lra.
    set (d := f (X i) - f x) in *. set (g := a - b) in *. set (sz := strip z) in *. clearbody d g sz.
    assert (K1 : x * (d - g) <= x * (21 / 10 ^ 13 * g)) by (apply Rmult_le_compat_l; lra).
    assert (K2 : x * (- (21 / 10 ^ 13) * g) <= x * (d - g)) by (apply Rmult_le_compat_l; lra). unfold eps. lra.
  Qed.
  Lemma base_area : (1 - eps) * strip z <= ZigSolve.base f total (X 1023) <= (1 + eps) * strip z.
  Proof.
    destruct BA as [A [QA B]]. change (X 1023) with (edge z 1023). unfold ZigSolve.base. rewrite <- (tail_unique f total DD (edge z 1023) A ltac:(lra) QA).
    assert (N := height_near 1023 ltac:(lia)). change (X 1023) with (edge z 1023) in N. assert (SP := strip_pos). unfold strip in *. destruct (tables_finite z T 1023 ltac:(lia)) as (_ & _ & _ & PH). assert (BW := base_wider z T).
    set (x := edge z 1023) in *. set (h := height z 1023) in *. set (w := edge z 0) in *. set (b := x * f x + A) in *. apply Rabs_le_between in B. apply Rabs_le_between in N.
    set (g := f x) in *. clearbody g b.
    assert (K1 : w * (g - h) <= w * (21 / 10 ^ 16 * h)) by (apply Rmult_le_compat_l; lra). assert (K2 : w * (- (21 / 10 ^ 16) * h) <= w * (g - h)) by (apply Rmult_le_compat_l; lra).
    assert (K3 : 1 * h <= w * h) by (apply Rmult_le_compat_r; lra). unfold eps. lra.
  Qed.
  Lemma close_v x v : ziggurat_of f 1024 x v -> Rabs (v - strip z) <= 3 / 10 ^ 12 * strip z.
  Proof.
    intros ZO. assert (N2 : (2 <= 1024)%nat) by lia.
    assert (L := near_low f total DD 1024 x v N2 ZO X ((1 - eps) * strip z) eq_refl X_S (fun i H => proj1 (layer_area i H)) (proj1 base_area)).
    assert (H := near_high f total DD 1024 x v N2 ZO X ((1 + eps) * strip z) eq_refl X_S (fun i H => proj2 (layer_area i H)) (proj2 base_area)).
    apply Rabs_le. unfold eps in *. lra.
  Qed.
  (** the base edge, when f falls there by its own value per unit at least *)
  Hypothesis FALL : forall s t, edge z 1023 - 1 / 10 ^ 11 <= s <= t -> f t <= f s * exp (- (t - s)).
  Hypothesis E0 : edge z 0 * (7 / 10) <= edge z 1023.
  Lemma close_r x v : ziggurat_of f 1024 x v -> Rabs (x 1023%nat - edge z 1023) < 1 / 10 ^ 11.
  Proof.
    intros ZO. assert (N2 : (2 <= 1024)%nat) by lia. assert (SP := strip_pos). set (d := 1 / 10 ^ 11).
    assert (CV := close_v x v ZO). apply Rabs_le_between in CV. assert (BB := base_area). change (X 1023) with (edge z 1023) in BB.
    assert (HN := height_near 1023 ltac:(lia)). change (X 1023) with (edge z 1023) in HN. destruct (tables_finite z T 1023 ltac:(lia)) as (_ & _ & _ & PH). set (r := edge z 1023) in *. set (h := height z 1023) in *.
    apply Rabs_le_between in HN.
    assert (DE : exp (- d) <= 1 - 99 / 100 * d).
    { assert (I := exp_ineq1_le d). assert (0 < 1 + d) by (unfold d; lra). rewrite exp_Ropp. apply Rle_trans with (/ (1 + d)); [apply Rinv_le_contravar; lra|].
      apply Rmult_le_reg_l with (1 + d); [lra|]. rewrite Rinv_r by lra. unfold d. lra. }
    assert (F1 := FALL r (r + d)). assert (F2 := FALL (r - d) r). replace (- (r + d - r)) with (- d) in F1 by ring. replace (- (r - (r - d))) with (- d) in F2 by ring.
    assert (FR : 0 < f r) by lra. assert (FD := f_dec f total DD (r - d) r).
    assert (G1 : 99 / 100 * d * f r <= f r - f (r + d)) by (assert (f (r + d) <= f r * exp (- d)) by (apply F1; unfold d; lra); assert (f r * exp (- d) <= f r * (1 - 99 / 100 * d)) by (apply Rmult_le_compat_l; lra); lra).
    assert (G2 : 99 / 100 * d * f r <= f (r - d) - f r).
    { assert (f r <= f (r - d) * exp (- d)) by (apply F2; unfold d; lra). assert (f (r - d) * exp (- d) <= f (r - d) * (1 - 99 / 100 * d)) by (apply Rmult_le_compat_l; unfold d in *; lra).
      assert (99 / 100 * d * f r <= 99 / 100 * d * f (r - d)) by (apply Rmult_le_compat_l; unfold d in *; lra). lra. }
    assert (SB : strip z <= 10 / 7 * r * h). { unfold strip. fold h. apply Rmult_le_compat_r; lra. }
    assert (RH : r * h <= 1001 / 1000 * (r * f r)) by nra. assert (RF : 0 < r * f r) by nra.
    apply (near_r f total DD 1024 x v N2 ZO ((1 - eps) * strip z) ((1 + eps) * strip z) r d); [unfold d; lra|unfold d; lra|unfold eps in *; lra|exact BB| |].
    - assert (r * (99 / 100 * d * f r) <= r * (f r - f (r + d))) by (apply Rmult_le_compat_l; lra). replace (r * (99 / 100 * d * f r)) with (99 / 100 * d * (r * f r)) in * by ring. unfold eps, d in *. lra.
    - assert ((r - d) * (99 / 100 * d * f r) <= (r - d) * (f (r - d) - f r)) by (apply Rmult_le_compat_l; unfold d in *; lra).
      replace ((r - d) * (99 / 100 * d * f r)) with (99 / 100 * d * (r * f r) - 99 / 100 * d * d * f r) in * by ring. assert (f r <= r * f r) by nra.
      assert (99 / 100 * d * d * f r <= 99 / 100 * d * d * (r * f r)) by (apply Rmult_le_compat_l; [unfold d; lra|exact H0]). unfold eps, d in *. lra.
  Qed.
End Close.

Section C79.
  Context {W : Type} (read : reader W) (math_exp math_log : float64 -> float64).
  Notation zig_e := (expoZig read math_exp math_log).
  Notation zig_n tf := (normalZig read math_exp math_log tf).
  Lemma expo_edge_range : 9 <= edge zig_e 1023.
  Proof. destruct (C35_expo_tail_start read math_exp math_log) as [_ A]. destruct expoR_value as (_ & _ & B). lra. Qed.
  Lemma normal_base_edges_ok : (4 * 2 ^ 59 <=? nz (map (scale 112) normalW_bin) 1023)%Z && (nz (map (scale 112) normalW_bin) 0 <=? 5 * 2 ^ 59)%Z = true.
  Proof. vm_cast_no_check (eq_refl true). Qed.
  Lemma normal_edge_range tf : 4 <= edge (zig_n tf) 1023 /\ edge (zig_n tf) 0 <= 5.
  Proof.
    assert (O := normal_base_edges_ok). apply andb_prop in O. destruct O as [O1 O2]. apply Z.leb_le in O1. apply Z.leb_le in O2. apply IZR_le in O1, O2.
    destruct (normal_edge read math_exp math_log tf 1023) as (-> & _); [lia|]. destruct (normal_edge read math_exp math_log tf 0) as (-> & _); [lia|].
    set (a := IZR (nz _ 1023)) in *. set (b := IZR (nz _ 0)) in *. clearbody a b. rewrite mult_IZR in O1, O2. change (IZR (2 ^ 59)) with 576460752303423488 in *. lra.
  Qed.
  Lemma right_of f r A : area_beyond f r A -> quad_inf f r A. Proof. intros [H L]. split; auto. Qed.
  (** The exponential tables: the area of a layer and the base edge of the one ziggurat with 1024 layers. *)
  Theorem C79_expo x v : ziggurat_of expo_density 1024 x v ->
    Rabs (v - strip zig_e) <= 3 / 10 ^ 12 * strip zig_e /\ Rabs (x 1023%nat - edge zig_e 1023) < 1 / 10 ^ 11 /\ Rabs (x 1023%nat - B2R expoR) < 11 / 10 ^ 12.
  Proof.
    intros ZO. assert (T := C35_expo_tables read math_exp math_log). assert (ER := expo_edge_range). destruct (C60_expo_base read math_exp math_log) as [EB [A [QA BA]]].
    assert (F0 : expo_density 0 = 1) by (unfold expo_density; rewrite Ropp_0; apply exp_0).
    assert (EH : forall i, (i < 1024)%nat -> edge zig_e i = IZR (nz (map (scale 112) expoW_bin) i) / IZR (2 ^ 59) /\ height zig_e i = IZR (nz (map (scale 68) expoF_bin) i) / IZR (2 ^ 68)) by (intros i Hi; destruct (expo_edge read math_exp math_log i Hi) as (? & ? & _); auto).
    assert (ST : forall i, (1 <= i < 1024)%nat -> height zig_e (i - 1) <= 500 * (height zig_e (i - 1) - height zig_e i)) by (intros i Hi; apply (steep_gen zig_e _ _ EH expo_steep i Hi)).
    assert (BA' : exists A, quad_inf expo_density (edge zig_e 1023) A /\ Rabs (edge zig_e 0 * expo_density (edge zig_e 1023) - (edge zig_e 1023 * expo_density (edge zig_e 1023) + A)) <= 1 / 10 ^ 15 * expo_density (edge zig_e 1023)).
    { exists A. split; [now apply right_of|]. rewrite BA, Rminus_eq_0, Rabs_R0. assert (P := exp_pos (- edge zig_e 1023)). fold (expo_density (edge zig_e 1023)) in P. lra. }
    assert (CV := close_v zig_e expo_density 1 expo_decreasing T F0 (C60_expo_heights read math_exp math_log) ST BA' ltac:(lra) x v ZO).
    assert (CR := close_r zig_e expo_density 1 expo_decreasing T F0 (C60_expo_heights read math_exp math_log) ST BA' ltac:(lra)).
    assert (CR' : Rabs (x 1023%nat - edge zig_e 1023) < 1 / 10 ^ 11).
    { apply (CR) with (v := v); [| |exact ZO].
      - intros s t H. unfold expo_density. rewrite <- exp_plus. right. f_equal. ring.
      - rewrite EB. lra. }
    split; [exact CV|]. split; [exact CR'|]. destruct (C35_expo_tail_start read math_exp math_log) as [_ [L U]]. apply Rabs_def2 in CR'. apply Rabs_def1; lra.
  Qed.
  (** The same for the normal tables. *)
  Theorem C79_normal tf x v : ziggurat_of normal_density 1024 x v ->
    Rabs (v - strip (zig_n tf)) <= 3 / 10 ^ 12 * strip (zig_n tf) /\ Rabs (x 1023%nat - edge (zig_n tf) 1023) < 1 / 10 ^ 11 /\ Rabs (x 1023%nat - B2R normalR) < 11 / 10 ^ 12.
  Proof.
    intros ZO. assert (T := C35_normal_tables read math_exp math_log tf). destruct (normal_edge_range tf) as [ER E0]. destruct (C60_normal_base read math_exp math_log tf) as [A [QA BA]].
    assert (F0 : normal_density 0 = 1) by (unfold normal_density; replace (- (0 ^ 2 / 2)) with 0 by field; apply exp_0).
    assert (EH : forall i, (i < 1024)%nat -> edge (zig_n tf) i = IZR (nz (map (scale 112) normalW_bin) i) / IZR (2 ^ 59) /\ height (zig_n tf) i = IZR (nz (map (scale 68) normalF_bin) i) / IZR (2 ^ 68)) by (intros i Hi; destruct (normal_edge read math_exp math_log tf i Hi) as (? & ? & _); auto).
    assert (ST : forall i, (1 <= i < 1024)%nat -> height (zig_n tf) (i - 1) <= 500 * (height (zig_n tf) (i - 1) - height (zig_n tf) i)) by (intros i Hi; apply (steep_gen (zig_n tf) _ _ EH normal_steep i Hi)).
    assert (BA' : exists A, quad_inf normal_density (edge (zig_n tf) 1023) A /\ Rabs (edge (zig_n tf) 0 * normal_density (edge (zig_n tf) 1023) - (edge (zig_n tf) 1023 * normal_density (edge (zig_n tf) 1023) + A)) <= 1 / 10 ^ 15 * normal_density (edge (zig_n tf) 1023)) by (exists A; split; [now apply right_of|exact BA]).
    assert (CV := close_v (zig_n tf) normal_density _ normal_decreasing T F0 (C60_normal_heights read math_exp math_log tf) ST BA' ltac:(lra) x v ZO).
    assert (CR' : Rabs (x 1023%nat - edge (zig_n tf) 1023) < 1 / 10 ^ 11).
    { apply (close_r (zig_n tf) normal_density _ normal_decreasing T F0 (C60_normal_heights read math_exp math_log tf) ST BA' ltac:(lra)) with (v := v); [| |exact ZO].
      - intros s t H. unfold normal_density. rewrite <- exp_plus. destruct (Req_dec s t) as [->|NE]; [right; f_equal; ring|]. left. apply exp_increasing. nra.
      - lra. }
    split; [exact CV|]. split; [exact CR'|]. destruct (C35_normal_tail_start read math_exp math_log tf) as [_ [L U]]. apply Rabs_def2 in CR'. apply Rabs_def1; lra.
  Qed.
End C79.
(** The densities meet the hypotheses of C78, the ziggurats of 1024 layers exist, and the script finds them at their base edges,
    within 11e-12 of the constants expoR and normalR. *)
Example C78_nonvacuous : decreasing_density expo_density 1 /\ decreasing_density normal_density (sqrt (PI / 2)) /\
  (exists r v xi, solve expo_density 0 1024 r v xi /\ Rabs (r - B2R expoR) < 11 / 10 ^ 12) /\
  (exists r v xi, solve normal_density 0 1024 r v xi /\ Rabs (r - B2R normalR) < 11 / 10 ^ 12).
Proof.
  set (rd := (fun _ p => Ret ((p, 0%nat, None), tt)) : reader unit). assert (N2 : (2 <= 1024)%nat) by lia.
  assert (K : forall f total, decreasing_density f total -> exists x v, ziggurat_of f 1024 x v /\ solve f 0 1024 (x 1023%nat) v (map x (seq 0 1024))).
  { intros f total DD. destruct (C78_ziggurat_exists f total DD 1024 N2) as (x & v & ZO). exists x, v. split; [exact ZO|].
    apply (mini_exact_at f total DD 1024 x v N2 ZO 0 (Rle_refl 0)). rewrite Rmult_0_l. assert (P := e_pos f 1024 x v N2 ZO 1 ltac:(lia)). assert (D := dd_decreasing _ _ DD 0 (x 1%nat)). lra. }
  split; [exact expo_decreasing|]. split; [exact normal_decreasing|]. split.
  - destruct (K _ _ expo_decreasing) as (x & v & ZO & S). exists (x 1023%nat), v, (map x (seq 0 1024)). split; [exact S|]. apply (C79_expo rd (fun x => x) (fun x => x) x v ZO).
  - destruct (K _ _ normal_decreasing) as (x & v & ZO & S). exists (x 1023%nat), v, (map x (seq 0 1024)). split; [exact S|]. 
    apply (C79_normal rd (fun x => x) (fun x => x) 0%nat x v ZO).
Qed.
Print Assumptions C79_expo.
