(** The ziggurat of a decreasing density: it exists, is unique, and the script's search homes in on it. *)
From Coq Require Import Reals Lia Lra Psatz List Arith.
From Coquelicot Require Import Coquelicot.
From Verif Require Import Model.ZigScript Spec.ZigBuild.
Import ListNotations.
Local Open Scope R_scope.

Section Density.
  Variables (f : R -> R) (total : R).
  Hypothesis DD : decreasing_density f total.
  Let g (t : R) : R := f (Rmax 0 t).
  Lemma g_eq t : 0 <= t -> g t = f t. Proof. intros H. unfold g. now rewrite Rmax_right. Qed.
  Lemma g_cont x : continuous g x. Proof. apply (dd_continuous _ _ DD). Qed.
  Lemma f_dec x y : 0 <= x < y -> f y < f x. Proof. apply (dd_decreasing _ _ DD). Qed.
  Lemma f_dec_le x y : 0 <= x <= y -> f y <= f x.
  Proof. intros [H [L|<-]]; [left; now apply f_dec|right; reflexivity]. Qed.
  Lemma f_inj_lt x y : 0 <= x -> 0 <= y -> f x < f y -> y < x.
  Proof. intros X Y H. apply Rnot_le_lt. intros L. assert (D := f_dec_le x y (conj X L)). lra. Qed.
  Lemma f_inj x y : 0 <= x -> 0 <= y -> f x = f y -> x = y.
  Proof. intros X Y E. destruct (Rtotal_order x y) as [L|[L|L]]; [|exact L|]; [assert (D := f_dec x y (conj X L))|assert (D := f_dec y x (conj Y L))]; lra. Qed.
  Lemma g_int a b : ex_RInt g a b. Proof. apply (ex_RInt_continuous g). intros. apply g_cont. Qed.
  Lemma g_cty : Ranalysis1.continuity g.
  Proof. intros x. apply continuity_pt_filterlim. apply g_cont. Qed.
  Lemma RInt_fg a b : 0 <= a -> 0 <= b -> RInt f a b = RInt g a b.
  Proof. intros A B. apply RInt_ext. intros x [H _]. symmetry. apply g_eq. assert (0 <= Rmin a b) by now apply Rmin_glb. lra. Qed.
  Lemma f_int a b : 0 <= a -> 0 <= b -> ex_RInt f a b.
  Proof.
    intros A B. apply (ex_RInt_ext g); [|apply g_int]. intros x [H _]. apply g_eq. assert (0 <= Rmin a b) by now apply Rmin_glb. lra.
  Qed.
  Lemma chasles a b c : 0 <= a -> 0 <= b -> 0 <= c -> RInt f a b + RInt f b c = RInt f a c.
  Proof. intros A B C. apply (RInt_Chasles f); now apply f_int. Qed.
  Lemma int_lower a b : 0 <= a < b -> (b - a) * f b < RInt f a b.
  Proof.
    intros H. replace ((b - a) * f b) with (RInt (fun _ => f b) a b) by (rewrite RInt_const; reflexivity). rewrite RInt_fg by lra.
    apply RInt_lt; [lra|intros; apply g_cont|intros; apply continuous_const|]. intros x Hx. rewrite g_eq by lra. apply f_dec. lra.
  Qed.
  Lemma int_upper a b : 0 <= a <= b -> RInt f a b <= (b - a) * f a.
  Proof.
    intros H. replace ((b - a) * f a) with (RInt (fun _ => f a) a b) by (rewrite RInt_const; reflexivity).
    apply RInt_le; [lra|now apply f_int; lra|apply ex_RInt_const|]. intros x Hx. apply f_dec_le. lra.
  Qed.
  Lemma lim0 : is_lim (fun T => RInt f 0 T) p_infty total. Proof. apply (dd_total _ _ DD). Qed.
  Lemma f_pos x : 0 <= x -> 0 < f x.
  Proof.
    intros X. apply Rnot_le_lt. intros N.
    assert (N1 : f (x + 1) < 0) by (assert (D := f_dec x (x + 1)); lra). set (c := f (x + 1)) in *.
    assert (L : is_lim (fun T => RInt f 0 (x + 1) + (T - (x + 1)) * c) p_infty m_infty).
    { apply is_lim_ext with (fun T => c * T + (RInt f 0 (x + 1) - (x + 1) * c)); [intros; lra|].
      apply is_lim_spec. intros M. exists ((M - (RInt f 0 (x + 1) - (x + 1) * c)) / c). intros T HT.
      assert (c * T < M - (RInt f 0 (x + 1) - (x + 1) * c)); [|lra].
      replace (M - (RInt f 0 (x + 1) - (x + 1) * c)) with (c * ((M - (RInt f 0 (x + 1) - (x + 1) * c)) / c)) by (field; lra).
      apply Rmult_lt_gt_compat_neg_l; lra. }
    assert (B := is_lim_le_loc (fun T => RInt f 0 T) (fun T => RInt f 0 (x + 1) + (T - (x + 1)) * c) p_infty total m_infty).
    apply B; [|apply lim0|exact L]. exists (x + 1). intros T HT. rewrite <- (chasles 0 (x + 1) T) by lra.
    assert (U := int_upper (x + 1) T). fold c in U. lra.
  Qed.
  Lemma int_mono a b : 0 <= a <= b -> RInt f 0 a <= RInt f 0 b.
  Proof.
    intros [A [L|<-]]; [|lra]. rewrite <- (chasles 0 a b) by lra. assert (I := int_lower a b (conj A L)).
    assert (P : 0 < f b) by (apply f_pos; lra). assert (0 < (b - a) * f b) by (apply Rmult_lt_0_compat; lra). lra.
  Qed.
  Lemma int_below a : 0 <= a -> RInt f 0 a <= total.
  Proof.
    intros A. apply (is_lim_le_loc (fun _ => RInt f 0 a) (fun T => RInt f 0 T) p_infty (RInt f 0 a) total); [|apply is_lim_const|apply lim0].
    exists a. intros T HT. apply int_mono. lra.
  Qed.
  (** the tail *)
  Lemma tail_area r : 0 <= r -> quad_inf f r (total - RInt f 0 r).
  Proof.
    intros H. split; [intros T HT; apply f_int; lra|].
    apply is_lim_ext_loc with (fun T => RInt f 0 T - RInt f 0 r); [|apply is_lim_minus'; [apply lim0|apply is_lim_const]].
    exists r. intros T HT. rewrite <- (chasles 0 r T) by lra. lra.
  Qed.
  Lemma tail_unique r A : 0 <= r -> quad_inf f r A -> A = total - RInt f 0 r.
  Proof.
    intros H [_ L]. destruct (tail_area r H) as [_ L']. apply is_lim_unique in L, L'. rewrite L in L'. now injection L'.
  Qed.
  (** area of the base layer *)
  Definition base (r : R) : R := r * f r + (total - RInt f 0 r).
  Lemma base_dec a b : 0 <= a < b -> base b < base a.
  Proof.
    intros H. unfold base. rewrite <- (chasles 0 a b) by lra. assert (I := int_lower a b H). assert (D := f_dec a b H).
    assert (0 <= a * (f a - f b)) by (apply Rmult_le_pos; lra). nra.
  Qed.
  Lemma base_0 : base 0 = total. Proof. unfold base. rewrite RInt_point. unfold zero; simpl. lra. Qed.
  Lemma base_pos r : 0 < r -> 0 < base r.
  Proof. intros H. unfold base. assert (B := int_below r). assert (P := f_pos r). assert (0 < r * f r) by (apply Rmult_lt_0_compat; [lra|apply P; lra]). lra. Qed.
  Lemma total_pos : 0 < total.
  Proof. rewrite <- base_0. assert (D := base_dec 0 1). assert (P := base_pos 1). lra. Qed.
  Lemma base_cont x : continuous (fun t => base (Rmax 0 t)) x.
  Proof.
    assert (C0 : continuous (Rmax 0) x).
    { intros P [e He]. exists e. intros y Hy. apply He. change (Rabs (y - x) < e) in Hy. change (Rabs (Rmax 0 y - Rmax 0 x) < e).
      revert Hy. unfold Rmax. repeat destruct Rle_dec; unfold Rabs; repeat destruct Rcase_abs; lra. }
    apply (continuous_ext (fun t => plus (mult (Rmax 0 t) (g t)) (minus total (RInt g 0 (Rmax 0 t))))).
    { intros t. unfold base. assert (0 <= Rmax 0 t) by apply Rmax_l. rewrite RInt_fg by lra. unfold g. reflexivity. }
    apply @continuous_plus; [apply (continuous_mult (K := R_AbsRing)); [exact C0|apply g_cont]|].
    apply @continuous_minus; [apply continuous_const|].
    apply (continuous_comp (Rmax 0) (fun y => RInt g 0 y)); [exact C0|].
    apply (continuous_RInt_1 g 0 (Rmax 0 x) (fun y => RInt g 0 y)). apply filter_forall. intros z. apply (RInt_correct g). apply g_int.
  Qed.
  (** ** One layer up: the edge t >= x of the layer whose inner edge is x, when its area is v *)
  Definition phi (x t : R) : R := t * (f x - f t).
  Lemma phi_mono x s t : 0 <= x <= s -> s < t -> phi x s < phi x t.
  Proof.
    intros H L. unfold phi. assert (D := f_dec s t). assert (D' := f_dec_le x s). 
    apply Rle_lt_trans with (t * (f x - f s)); [apply Rmult_le_compat_r; lra|apply Rmult_lt_compat_l; lra].
  Qed.
  Lemma phi_self x : phi x x = 0. Proof. unfold phi. lra. Qed.
  Lemma phi_solve x v : 0 <= x -> 0 <= v -> exists t, x <= t /\ phi x t = v.
  Proof.
    intros X V. set (d := f x - f (x + 1)). assert (D : 0 < d) by (assert (Q := f_dec x (x + 1)); unfold d; lra).
    set (b := x + 1 + v / d). assert (Vd : 0 <= v / d) by (apply Rdiv_le_0_compat; lra).
    assert (C : Ranalysis1.continuity (fun t => t * (f x - g t))).
    { apply continuity_mult; [apply derivable_continuous, derivable_id|]. apply continuity_minus; [apply continuity_const; now intros ? ?|apply g_cty]. }
    destruct (IVT_gen (fun t => t * (f x - g t)) x b v C) as [t [Ht Et]].
    - rewrite !g_eq by (unfold b; lra). replace (x * (f x - f x)) with 0 by lra.
      assert (B : v <= b * (f x - f b)).
      { assert (Q := f_dec_le (x + 1) b). apply Rle_trans with (b * d); [|apply Rmult_le_compat_l; unfold b, d in *; lra].
        replace (b * d) with ((x + 1) * d + v) by (unfold b; field; lra). assert (0 <= (x + 1) * d) by (apply Rmult_le_pos; lra). lra. }
      rewrite Rmin_left, Rmax_right; lra.
    - rewrite Rmin_left, Rmax_right in Ht by (unfold b; lra). exists t. split; [lra|]. unfold phi. rewrite g_eq in Et by lra. exact Et.
  Qed.
  (** as a function, chosen without a choice axiom: the least upper bound *)
  Definition up (v x : R) : R := real (Lub_Rbar (fun t => x <= t /\ phi x t <= v)).
  Lemma up_is v x t : 0 <= x -> x <= t -> phi x t = v -> up v x = t.
  Proof.
    intros X H E. unfold up. rewrite (is_lub_Rbar_unique _ (Finite t)); [reflexivity|]. split.
    - intros s [S P]. apply Rnot_lt_le. intros L. assert (M := phi_mono x t s). lra.
    - intros b B. apply (B t). split; lra.
  Qed.
  Lemma up_spec v x : 0 <= x -> 0 <= v -> x <= up v x /\ phi x (up v x) = v.
  Proof. intros X V. destruct (phi_solve x v X V) as [t [H E]]. now rewrite (up_is v x t X H E). Qed.
  (** comparison *)
  Lemma up_lt v x t : 0 <= x -> 0 <= v -> x <= t -> (up v x < t <-> v < phi x t).
  Proof.
    intros X V H. destruct (up_spec v x X V) as [U E]. split; intros L.
    - rewrite <- E. apply phi_mono; lra.
    - apply Rnot_le_lt. intros [L'|L']; [assert (M := phi_mono x t (up v x)); lra|rewrite L' in L; lra].
  Qed.
  Fixpoint edge (v : R) (i : nat) : R := match i with O => 0 | S j => up v (edge v j) end.
  Lemma edge_nonneg v i : 0 <= v -> 0 <= edge v i.
  Proof. intros V. induction i as [|i IH]; simpl; [lra|]. destruct (up_spec v _ IH V). lra. Qed.
  Lemma edge_step v i : 0 <= v -> edge v i <= edge v (S i) /\ phi (edge v i) (edge v (S i)) = v.
  Proof. intros V. apply up_spec; [now apply edge_nonneg|exact V]. Qed.
  Lemma edge_step_lt v i : 0 < v -> edge v i < edge v (S i).
  Proof. intros V. destruct (edge_step v i) as [[L|L] E]; [lra|exact L|]. rewrite <- L, phi_self in E. lra. Qed.
  Lemma edge_zero i : edge 0 i = 0.
  Proof. induction i as [|i IH]; [reflexivity|]. simpl. rewrite IH. apply up_is; try lra. apply phi_self. Qed.
  Lemma edge_cont i x : continuous (fun v => edge (Rmax 0 v) i) x.
  Proof.
    induction i as [|i IH]; [apply continuous_const|]. set (v0 := Rmax 0 x). assert (V0 : 0 <= v0) by apply Rmax_l.
    set (e := fun v => edge (Rmax 0 v) i) in *.
    assert (EP : forall v, 0 <= e v) by (intros; apply edge_nonneg, Rmax_l).
    assert (C0 : continuous (Rmax 0) x).
    { intros P [ep He]. exists ep. intros y Hy. apply He. change (Rabs (y - x) < ep) in Hy. change (Rabs (Rmax 0 y - Rmax 0 x) < ep).
      revert Hy. unfold Rmax. repeat destruct Rle_dec; unfold Rabs; repeat destruct Rcase_abs; lra. }
    (* for a fixed c, the gap v - phi (e v) c is continuous in v *)
    assert (G : forall c, continuous (fun v => minus (Rmax 0 v) (mult c (minus (g (e v)) (g c)))) x).
    { intros c. apply @continuous_minus; [exact C0|]. apply (continuous_mult (K := R_AbsRing)); [apply continuous_const|].
      apply @continuous_minus; [|apply continuous_const]. apply (continuous_comp e g); [exact IH|apply g_cont]. }
    assert (GE : forall c v, 0 <= c -> minus (Rmax 0 v) (mult c (minus (g (e v)) (g c))) = Rmax 0 v - phi (e v) c).
    { intros c v Hc. rewrite !g_eq by (auto; lra). reflexivity. }
    set (t := edge v0 (S i)). assert (TE : e x <= t /\ phi (e x) t = v0) by (apply edge_step; exact V0). destruct TE as [T1 T2].
    assert (SS : forall v, edge (Rmax 0 v) (S i) = up (Rmax 0 v) (e v)) by reflexivity.
    intros P [ep HP]. 
    assert (Hup : locally x (fun v => edge (Rmax 0 v) (S i) < t + ep)).
    { assert (N : minus (Rmax 0 x) (mult (t + ep) (minus (g (e x)) (g (t + ep)))) < 0).
      { assert (E0 := EP x). assert (EQ := cond_pos ep). rewrite GE by lra. fold v0. rewrite <- T2. assert (M := phi_mono (e x) t (t + ep)). lra. }
      assert (O : locally x (fun v => minus (Rmax 0 v) (mult (t + ep) (minus (g (e v)) (g (t + ep)))) < 0)).
      { apply (G (t + ep) (fun y => y < 0)). now apply open_lt. }
      (* e v stays below t + ep/2 too *)
      assert (O2 : locally x (fun v => e v < t + ep)).
      { apply (IH (fun y => y < t + ep)). apply open_lt. assert (EQ := cond_pos ep). unfold e in T1. lra. }
      generalize (filter_and _ _ O O2). apply filter_imp. intros v [A B]. rewrite SS. assert (E0 := EP v). assert (EQ := cond_pos ep). assert (E1 := EP x). rewrite GE in A by lra.
      apply up_lt; [lra|apply Rmax_l|lra|lra]. }
    assert (Hlo : locally x (fun v => t - ep < edge (Rmax 0 v) (S i))).
    { destruct (Rle_or_lt (t - ep) (e x)) as [L|L].
      - (* t - ep <= e x <= t: the edge is at least e v, which is near e x *)
        destruct (Rlt_or_le (t - ep) (e x)) as [L'|L'].
        + assert (O : locally x (fun v => t - ep < e v)) by (apply (IH (fun y => t - ep < y)); now apply open_gt).
          revert O. apply filter_imp. intros v A. rewrite SS. destruct (up_spec (Rmax 0 v) (e v) (EP v) (Rmax_l _ _)). lra.
        + (* equality: look half way *)
          assert (EQ := cond_pos ep). assert (O : locally x (fun v => e x - ep / 2 < e v)) by (apply (IH (fun y => e x - ep / 2 < y)); apply open_gt; unfold e; lra).
          set (c := t - ep / 2). assert (C1 : e x < c) by (unfold c; lra). assert (E0 := EP x).
          assert (N : 0 < minus (Rmax 0 x) (mult c (minus (g (e x)) (g c)))).
          { rewrite GE by lra. fold v0. rewrite <- T2. assert (M := phi_mono (e x) c t). unfold c in *; lra. }
          assert (O1 : locally x (fun v => 0 < minus (Rmax 0 v) (mult c (minus (g (e v)) (g c))))) by (apply (G c (fun y => 0 < y)); now apply open_gt).
          assert (O2 : locally x (fun v => e v < c)) by (apply (IH (fun y => y < c)); now apply open_lt).
          generalize (filter_and _ _ O1 O2). apply filter_imp. intros v [A B]. rewrite SS. assert (E1 := EP v). rewrite GE in A by lra.
          apply Rnot_le_lt. intros Q. assert (Z : up (Rmax 0 v) (e v) < c) by (unfold c; lra). apply up_lt in Z; [|lra|apply Rmax_l|lra]. lra.
      - set (c := t - ep) in *. assert (E0 := EP x). assert (EQ := cond_pos ep).
        assert (N : 0 < minus (Rmax 0 x) (mult c (minus (g (e x)) (g c)))).
        { rewrite GE by lra. fold v0. rewrite <- T2. assert (M := phi_mono (e x) c t). unfold c in *; lra. }
        assert (O1 : locally x (fun v => 0 < minus (Rmax 0 v) (mult c (minus (g (e v)) (g c))))) by (apply (G c (fun y => 0 < y)); now apply open_gt).
        assert (O2 : locally x (fun v => e v < c)) by (apply (IH (fun y => y < c)); now apply open_lt).
        generalize (filter_and _ _ O1 O2). apply filter_imp. intros v [A B]. rewrite SS. assert (E1 := EP v). rewrite GE in A by lra.
        destruct (up_spec (Rmax 0 v) (e v) (EP v) (Rmax_l _ _)) as [U1 U2].
        apply Rnot_le_lt. intros [Q|Q]; [apply up_lt in Q; [lra|lra|apply Rmax_l|lra]|]. rewrite Q in U2. lra. }
    change (locally x (fun v => P (edge (Rmax 0 v) (S i)))). generalize (filter_and _ _ Hup Hlo). apply filter_imp. intros v [A B]. apply HP. change (Rabs (edge (Rmax 0 v) (S i) - t) < ep).
    apply Rabs_def1; lra.
  Qed.
  (** ** Existence *)
  Lemma exists_v n : exists v, 0 < v < total /\ base (edge v (S n)) = v.
  Proof.
    assert (TP := total_pos).
    assert (C : Ranalysis1.continuity (fun v => base (edge (Rmax 0 v) (S n)) - v)).
    { apply continuity_minus; [|apply derivable_continuous, derivable_id]. intros x. apply continuity_pt_filterlim.
      apply (filterlim_ext (fun v => base (Rmax 0 (edge (Rmax 0 v) (S n))))); [intros v; rewrite Rmax_right; [reflexivity|apply edge_nonneg, Rmax_l]|].
      replace (base (edge (Rmax 0 x) (S n))) with (base (Rmax 0 (edge (Rmax 0 x) (S n)))) by (rewrite Rmax_right; [reflexivity|apply edge_nonneg, Rmax_l]).
      apply (continuous_comp (fun v => edge (Rmax 0 v) (S n)) (fun t => base (Rmax 0 t))); [apply edge_cont|apply base_cont]. }
    assert (E0 : base (edge 0 (S n)) = total) by (rewrite edge_zero; apply base_0).
    assert (E1 : base (edge total (S n)) < total).
    { rewrite <- base_0 at 2. apply base_dec. split; [lra|]. apply Rle_lt_trans with (edge total n); [apply edge_nonneg; lra|apply edge_step_lt; lra]. }
    destruct (IVT_gen _ 0 total 0 C) as [v [Hv Ev]].
    { rewrite (Rmax_left 0 0), (Rmax_right 0 total), E0 by lra. rewrite Rmin_right, Rmax_left; lra. }
    rewrite (Rmin_left 0 total), (Rmax_right 0 total) in Hv by lra. rewrite (Rmax_right 0 v) in Ev by lra.
    exists v. split; [|lra]. split.
    - destruct (proj1 Hv) as [L|<-]; [exact L|]. rewrite E0 in Ev. lra.
    - destruct (proj2 Hv) as [L|L]; [exact L|]. rewrite L in Ev. lra.
  Qed.
  Lemma ziggurat_exists n : (2 <= n)%nat -> exists x v, ziggurat_of f n x v.
  Proof.
    intros Hn. destruct (exists_v (n - 2)) as [v [Hv Ev]]. exists (edge v), v.
    assert (S' : forall i, (0 < i < n)%nat -> i = S (i - 1)) by (intros; lia). split.
    - reflexivity.
    - intros i Hi. rewrite (S' i Hi) at 2. apply edge_step_lt. lra.
    - intros i Hi. destruct (edge_step v (i - 1)) as [_ E]; [lra|]. rewrite <- (S' i Hi) in E. exact E.
    - replace (n - 1)%nat with (S (n - 2)) by lia. exists (total - RInt f 0 (edge v (S (n - 2)))). split; [|exact Ev].
      apply tail_area. apply edge_nonneg. lra.
  Qed.
End Density.
