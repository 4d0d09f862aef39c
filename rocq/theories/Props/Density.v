(** C60: the tables of expo.go and normal.go tabulate the densities, and the base strips have the right area. *)
From Coq Require Import Reals Lia Lra Psatz Bool.
From Coquelicot Require Import Coquelicot.
From Flocq Require Import Core BinarySingleNaN.
From Verif Require Import Model.Base Model.Rng Model.Float Model.Distr Model.Ziggurat Model.ExpoTable Model.NormalTable Model.ExpoNormal.
From Verif Require Import Spec.Floats Spec.Zig Spec.Density.
From Verif Require Import Proofs.FloatProofs Proofs.ZigTables Proofs.ExpBounds Proofs.Mills Proofs.DensityTables Proofs.DensityProofs Props.Zig Props.ExpoNormal.
Local Open Scope R_scope.

Section C60.
  Context {W : Type} (read : reader W) (math_exp math_log : float64 -> float64).
  Notation zig_e := (expoZig read math_exp math_log).
  Notation zig_n tf := (normalZig read math_exp math_log tf).
  Lemma expo_edge i : (i < 1024)%nat -> edge zig_e i = IZR (nz (map (scale 112) expoW_bin) i) / IZR (2 ^ 59) /\ height zig_e i = IZR (nz (map (scale 68) expoF_bin) i) / IZR (2 ^ 68) /\
    0 < edge zig_e i /\ 0 < height zig_e i.
  Proof.
    intros Hi. destruct (edge_value zig_e _ _ _ 0 eq_refl expo_table_ok _ _ eq_refl eq_refl i Hi) as (_ & E & _).
    destruct (height_value zig_e _ _ _ 0 eq_refl expo_table_ok _ _ eq_refl eq_refl i Hi) as (_ & H & _). split; [exact E|]. split; [exact H|].
    destruct (tables_finite _ (C35_expo_tables read math_exp math_log) i Hi) as (_ & _ & P1 & P2). auto.
  Qed.
  Lemma normal_edge tf i : (i < 1024)%nat -> edge (zig_n tf) i = IZR (nz (map (scale 112) normalW_bin) i) / IZR (2 ^ 59) /\ height (zig_n tf) i = IZR (nz (map (scale 68) normalF_bin) i) / IZR (2 ^ 68) /\
    0 < edge (zig_n tf) i /\ 0 < height (zig_n tf) i.
  Proof.
    intros Hi. destruct (edge_value (zig_n tf) _ _ _ 1 eq_refl normal_table_ok _ _ eq_refl eq_refl i Hi) as (_ & E & _).
    destruct (height_value (zig_n tf) _ _ _ 1 eq_refl normal_table_ok _ _ eq_refl eq_refl i Hi) as (_ & H & _). split; [exact E|]. split; [exact H|].
    destruct (tables_finite _ (C35_normal_tables read math_exp math_log tf) i Hi) as (_ & _ & P1 & P2). auto.
  Qed.
  (** F[i] is the density at the right edge of layer i, to relative error 2e-15 (the density at 0 for i = 0). *)
  Theorem C60_expo_heights i : (1 <= i < 1024)%nat -> Rabs (height zig_e i - expo_density (edge zig_e i)) <= 2 / 10 ^ 15 * expo_density (edge zig_e i).
  Proof.
    intros Hi. destruct (expo_edge i) as (-> & -> & _); [lia|]. exact (expo_entry _ _ i expo_heights_ok Hi).
  Qed.
  Theorem C60_normal_heights tf i : (1 <= i < 1024)%nat -> Rabs (height (zig_n tf) i - normal_density (edge (zig_n tf) i)) <= 2 / 10 ^ 15 * normal_density (edge (zig_n tf) i).
  Proof.
    intros Hi. destruct (normal_edge tf i) as (-> & -> & _); [lia|]. exact (normal_entry _ _ i normal_heights_ok Hi).
  Qed.
  Theorem C60_top_height tf : height zig_e 0 = expo_density 0 /\ height (zig_n tf) 0 = normal_density 0.
  Proof.
    rewrite (height_top _ (C35_expo_tables _ _ _)), (height_top _ (C35_normal_tables _ _ _ tf)). unfold expo_density, normal_density.
    replace (- (0)) with 0 by ring. replace (- (0 ^ 2 / 2)) with 0 by field. rewrite exp_0. auto.
  Qed.
  (** The area beyond r under exp(-x) is exp(-r) ... *)
  Lemma expo_ex_RInt r T : ex_RInt expo_density r T.
  Proof. apply (ex_RInt_continuous expo_density). intros z _. apply (ex_derive_continuous expo_density z). unfold expo_density. auto_derive. trivial. Qed.
  Lemma expo_area r : area_beyond expo_density r (expo_density r).
  Proof.
    split; [intros; apply expo_ex_RInt|].
    apply (is_lim_ext (fun T => expo_density r - exp (- T))).
    - intros T. symmetry. apply is_RInt_unique. 
      assert (I : is_RInt expo_density r T (minus ((fun x => - exp (- x)) T) ((fun x => - exp (- x)) r))).
      { apply (is_RInt_derive (fun x => - exp (- x)) expo_density).
        - intros x _. unfold expo_density. auto_derive; [trivial|ring].
        - intros x _. apply (ex_derive_continuous expo_density x). unfold expo_density. auto_derive. trivial. }
      replace (expo_density r - exp (- T)) with (minus ((fun x => - exp (- x)) T) ((fun x => - exp (- x)) r)); [exact I|]. unfold minus, plus, opp, expo_density. cbn. ring.
    - evar_last. apply is_lim_minus'; [apply is_lim_const|]. apply (is_lim_comp exp (fun T => - T) p_infty 0 m_infty).
      + apply is_lim_exp_m.
      + evar_last. apply is_lim_opp. apply is_lim_id. reflexivity.
      + exists 0. intros. discriminate.
      + cbn. f_equal. ring.
  Qed.
  (** ... so the base strip has the area under the curve beyond the bottom layer plus the rectangle below it. *)
  Theorem C60_expo_base : edge zig_e 0 = edge zig_e 1023 + 1 /\
    exists A, area_beyond expo_density (edge zig_e 1023) A /\
      edge zig_e 0 * expo_density (edge zig_e 1023) = edge zig_e 1023 * expo_density (edge zig_e 1023) + A.
  Proof.
    assert (E : edge zig_e 0 = edge zig_e 1023 + 1).
    { destruct (expo_edge 0) as (-> & _); [lia|]. destruct (expo_edge 1023) as (-> & _); [lia|]. pose proof expo_base as B. unfold expo_base_ok in B. apply Z.eqb_eq in B. rewrite B, plus_IZR.
      assert (0 < IZR (2 ^ 59)) by now apply IZR_lt. field. lra. }
    split; [exact E|]. exists (expo_density (edge zig_e 1023)). split; [apply expo_area|]. rewrite E. ring.
  Qed.
  Theorem C60_normal_base tf : exists A, area_beyond normal_density (edge (zig_n tf) 1023) A /\
    Rabs (edge (zig_n tf) 0 * normal_density (edge (zig_n tf) 1023) - (edge (zig_n tf) 1023 * normal_density (edge (zig_n tf) 1023) + A)) <= 1 / 10 ^ 15 * normal_density (edge (zig_n tf) 1023).
  Proof.
    destruct (normal_edge tf 1023) as (ER & _ & PR & _); [lia|]. destruct (normal_edge tf 0) as (E0 & _); [lia|].
    destruct (normal_area _ PR) as [A HA]. exists A. split; [exact HA|]. pose proof (normal_area_bounds 20 20 _ A PR HA) as B.
    rewrite E0. rewrite ER in B, PR |- *. pose proof normal_base as C. unfold normal_base_ok in C. 
    set (r := nz _ 1023) in *. set (n0 := nz _ 0) in *. cbv zeta in C. rewrite <- ER in PR.
    assert (R0 : (0 < r)%Z). { apply lt_IZR. assert (P59 : 0 < IZR (2 ^ 59)) by now apply IZR_lt. rewrite ER in PR. apply Rmult_lt_reg_r with (/ IZR (2 ^ 59)); [now apply Rinv_0_lt_compat|]. rewrite Rmult_0_l. exact PR. }
    pose proof (ratioZ_value r (2 ^ 59) (2 * 20) R0 eq_refl) as V1. pose proof (ratioZ_value r (2 ^ 59) (S (2 * 20)) R0 eq_refl) as V2.
    destruct (ratioZ r (2 ^ 59) (2 * 20)) as [p q]. destruct (ratioZ r (2 ^ 59) (S (2 * 20))) as [p' q'].
    destruct V1 as [Q1 V1]. destruct V2 as [Q2 V2]. rewrite !andb_true_iff, !Z.leb_le in C. destruct C as [[_ C1] C2].
    unfold An in B. rewrite V1, V2 in B. set (x := IZR r / IZR (2 ^ 59)) in *. pose proof (normal_pos x) as N. set (phi := normal_density x) in *.
    apply IZR_le in C1, C2. rewrite !mult_IZR, minus_IZR, !mult_IZR, minus_IZR in C1, C2. apply IZR_lt in Q1, Q2.
    change (IZR (10 ^ 15)) with 1000000000000000 in C1, C2. assert (P59 : 0 < IZR (2 ^ 59)) by now apply IZR_lt. unfold x. set (b := IZR (2 ^ 59)) in *.
    assert (L1 : (IZR n0 - IZR r) / b - IZR p / IZR q <= 1 / 10 ^ 15).
    { apply Rmult_le_reg_r with (IZR q * b * 1000000000000000); [nra|]. replace (((IZR n0 - IZR r) / b - IZR p / IZR q) * (IZR q * b * 1000000000000000)) with (((IZR n0 - IZR r) * IZR q - IZR p * b) * 1000000000000000) by (field; lra). lra. }
    assert (L2 : IZR p' / IZR q' - (IZR n0 - IZR r) / b <= 1 / 10 ^ 15).
    { apply Rmult_le_reg_r with (IZR q' * b * 1000000000000000); [nra|]. replace ((IZR p' / IZR q' - (IZR n0 - IZR r) / b) * (IZR q' * b * 1000000000000000)) with ((IZR p' * b - (IZR n0 - IZR r) * IZR q') * 1000000000000000) by (field; lra). lra. }
    set (d := (IZR n0 - IZR r) / b) in *. replace (IZR n0 / b * phi - (IZR r / b * phi + A)) with (d * phi - A) by (unfold d; field; lra).
    set (u := IZR p / IZR q) in *. set (v := IZR p' / IZR q') in *. apply Rabs_le. split; nra.
  Qed.
End C60.
(** an index that meets the hypothesis, for some source and functions *)
Example C60_nonvacuous : (1 <= 512 < 1024)%nat /\ exists (read : reader unit) (e l : float64 -> float64), 0 < edge (expoZig read e l) 512 < edge (expoZig read e l) 1023.
Proof.
  split; [lia|]. exists (fun _ p => Ret ((p, 0%nat, None), tt)), (fun x => x), (fun x => x). split.
  - apply (tables_finite _ (C35_expo_tables _ _ _) 512); lia.
  - apply (edges_increase _ (C35_expo_tables _ _ _)); lia.
Qed.
Print Assumptions C60_expo_heights.
Print Assumptions C60_normal_base.
