(** Area of the normal tail by Laplace's continued fraction for Mills' ratio, with proof. *)
From Coq Require Import Reals ZArith Lia Lra Psatz.
From Coquelicot Require Import Coquelicot.
From Verif Require Import Spec.Density.
Local Open Scope R_scope.

(** numerators and denominators of the convergents 0, 1/x, 1/(x+1/x), 1/(x+1/(x+2/x)), ... *)
Fixpoint conv (x p0 p1 : R) (n : nat) : R * R :=
  match n with O => (p0, p1) | S n' => let (a, b) := conv x p0 p1 n' in (b, x * b + INR n * a) end.
Definition Pn (n : nat) (x : R) : R := fst (conv x 0 1 n).
Definition Qn (n : nat) (x : R) : R := fst (conv x 1 x n).
Lemma conv_snd x p0 p1 n : snd (conv x p0 p1 n) = fst (conv x p0 p1 (S n)).
Proof. cbn [conv]. now destruct (conv x p0 p1 n). Qed.
Lemma conv_rec x p0 p1 n : fst (conv x p0 p1 (S (S n))) = x * fst (conv x p0 p1 (S n)) + INR (S n) * fst (conv x p0 p1 n).
Proof. rewrite <- conv_snd. rewrite <- (conv_snd x p0 p1 n). cbn [conv]. destruct (conv x p0 p1 n) as [a b]. reflexivity. Qed.
Lemma Pn_rec n x : Pn (S (S n)) x = x * Pn (S n) x + INR (S n) * Pn n x. Proof. apply conv_rec. Qed.
Lemma Qn_rec n x : Qn (S (S n)) x = x * Qn (S n) x + INR (S n) * Qn n x. Proof. apply conv_rec. Qed.
Lemma Pn_0 x : Pn 0 x = 0. Proof. reflexivity. Qed.
Lemma Pn_1 x : Pn 1 x = 1. Proof. reflexivity. Qed.
Lemma Qn_0 x : Qn 0 x = 1. Proof. reflexivity. Qed.
Lemma Qn_1 x : Qn 1 x = x. Proof. reflexivity. Qed.
Lemma two_step (Pr : nat -> Prop) : Pr 0%nat -> Pr 1%nat -> (forall n, Pr n -> Pr (S n) -> Pr (S (S n))) -> forall n, Pr n.
Proof. intros H0 H1 H n. assert (K : Pr n /\ Pr (S n)); [|tauto]. induction n as [|n [A B]]; auto. Qed.
Lemma Qn_pos x n : 0 < x -> 0 < Qn n x.
Proof.
  intros Hx. revert n. apply two_step; [rewrite Qn_0; lra|now rewrite Qn_1|]. intros n A B. rewrite Qn_rec. pose proof (pos_INR (S n)). nra.
Qed.
Lemma Pn_pos x n : 0 < x -> 0 <= Pn n x.
Proof.
  intros Hx. revert n. apply two_step; [rewrite Pn_0; lra|rewrite Pn_1; lra|]. intros n A B. rewrite Pn_rec. pose proof (pos_INR (S n)). nra.
Qed.
Lemma Pn_le_Qn x n : 1 <= x -> Pn n x <= Qn n x.
Proof.
  intros Hx. revert n. apply two_step; [rewrite Pn_0, Qn_0; lra|rewrite Pn_1, Qn_1; lra|]. intros n A B. rewrite Pn_rec, Qn_rec. pose proof (pos_INR (S n)). nra.
Qed.
Lemma Qn_derive n x : is_derive (Qn n) x (Qn (S n) x - x * Qn n x).
Proof.
  revert n. apply two_step.
  - apply (is_derive_ext (fun _ => 1)); [intros; now rewrite Qn_0|]. rewrite Qn_1, Qn_0. auto_derive; [trivial|ring].
  - apply (is_derive_ext (fun y => y)); [intros; now rewrite Qn_1|]. rewrite Qn_rec, Qn_1, Qn_0. cbn [INR]. auto_derive; [trivial|ring].
  - intros n A B. apply (is_derive_ext (fun y => y * Qn (S n) y + INR (S n) * Qn n y)); [intros; now rewrite Qn_rec|].
    replace (Qn (S (S (S n))) x - x * Qn (S (S n)) x) with (plus (plus (mult 1 (Qn (S n) x)) (mult x (Qn (S (S n)) x - x * Qn (S n) x))) (scal (INR (S n)) (Qn (S n) x - x * Qn n x))).
    + apply (is_derive_plus (fun y => y * Qn (S n) y) (fun y => INR (S n) * Qn n y)).
      * apply (is_derive_mult (fun y => y) (Qn (S n)) x); [apply (is_derive_id x)|exact B|intros; apply Rmult_comm].
      * apply (is_derive_scal (Qn n)). exact A.
    + unfold plus, mult, scal; cbn. unfold mult; cbn. change (match n with O => 1 | S _ => INR n + 1 end) with (INR (S n)). rewrite (Qn_rec (S n)), (Qn_rec n). rewrite !S_INR. ring.
Qed.
Lemma Pn_derive n x : is_derive (Pn n) x (Pn (S n) x - Qn n x).
Proof.
  revert n. apply two_step.
  - apply (is_derive_ext (fun _ => 0)); [intros; now rewrite Pn_0|]. rewrite Pn_1, Qn_0. auto_derive; [trivial|ring].
  - apply (is_derive_ext (fun _ => 1)); [intros; now rewrite Pn_1|]. rewrite Pn_rec, Pn_1, Pn_0, Qn_1. cbn [INR]. auto_derive; [trivial|ring].
  - intros n A B. apply (is_derive_ext (fun y => y * Pn (S n) y + INR (S n) * Pn n y)); [intros; now rewrite Pn_rec|].
    replace (Pn (S (S (S n))) x - Qn (S (S n)) x) with (plus (plus (mult 1 (Pn (S n) x)) (mult x (Pn (S (S n)) x - Qn (S n) x))) (scal (INR (S n)) (Pn (S n) x - Qn n x))).
    + apply (is_derive_plus (fun y => y * Pn (S n) y) (fun y => INR (S n) * Pn n y)).
      * apply (is_derive_mult (fun y => y) (Pn (S n)) x); [apply (is_derive_id x)|exact B|intros; apply Rmult_comm].
      * apply (is_derive_scal (Pn n)). exact A.
    + unfold plus, mult, scal; cbn. unfold mult; cbn. change (match n with O => 1 | S _ => INR n + 1 end) with (INR (S n)). rewrite (Pn_rec (S n)), (Pn_rec n), (Qn_rec n). rewrite !S_INR. ring.
Qed.
(** the determinant: (-1)^n n! *)
Lemma det n x : Pn (S n) x * Qn n x - Pn n x * Qn (S n) x = (-1) ^ n * INR (fact n).
Proof.
  induction n as [|n IH]; [rewrite Pn_1, Pn_0, Qn_0; cbn; ring|]. rewrite Pn_rec, Qn_rec, fact_simpl, mult_INR. cbn [pow].
  replace ((x * Pn (S n) x + INR (S n) * Pn n x) * Qn (S n) x - Pn (S n) x * (x * Qn (S n) x + INR (S n) * Qn n x)) with (- INR (S n) * (Pn (S n) x * Qn n x - Pn n x * Qn (S n) x)) by ring.
  rewrite IH. ring.
Qed.
Lemma normal_derive x : is_derive normal_density x (- x * normal_density x).
Proof.
  unfold normal_density. auto_derive; [trivial|]. replace (x * (x * 1) * / 2) with (x ^ 2 / 2) by (unfold Rdiv; cbn; ring). field.
Qed.
Lemma normal_pos x : 0 < normal_density x. Proof. apply exp_pos. Qed.
Lemma normal_continuous x : continuous normal_density x.
Proof. apply (ex_derive_continuous normal_density x). eexists. apply normal_derive. Qed.
Definition An (n : nat) (x : R) : R := Pn n x / Qn n x * normal_density x.
Lemma An_derive n x : 0 < x -> is_derive (An n) x (normal_density x * ((-1) ^ n * INR (fact n) / (Qn n x) ^ 2 - 1)).
Proof.
  intros Hx. pose proof (Qn_pos x n Hx) as Q. unfold An.
  pose proof (is_derive_div (Pn n) (Qn n) x _ _ (Pn_derive n x) (Qn_derive n x) ltac:(lra)) as D.
  pose proof (is_derive_mult (fun y => Pn n y / Qn n y) normal_density x _ _ D (normal_derive x) ltac:(intros; apply Rmult_comm)) as M.
  replace (normal_density x * ((-1) ^ n * INR (fact n) / (Qn n x) ^ 2 - 1)) with (plus (mult (((Pn (S n) x - Qn n x) * Qn n x - Pn n x * (Qn (S n) x - x * Qn n x)) / (Qn n x) ^ 2) (normal_density x)) (mult (Pn n x / Qn n x) (- x * normal_density x))); [exact M|].
  unfold plus, mult; cbn. change (Qn n x * (Qn n x * 1)) with ((Qn n x) ^ 2). rewrite <- (det n x). field. lra.
Qed.
Lemma An_integral n r T : 0 < r -> r <= T -> is_RInt (fun x => normal_density x * ((-1) ^ n * INR (fact n) / (Qn n x) ^ 2 - 1)) r T (An n T - An n r).
Proof.
  intros Hr HT. apply (is_RInt_derive (An n)); rewrite Rmin_left, Rmax_right by exact HT; intros x Hx.
  - apply An_derive. lra.
  - apply (ex_derive_continuous (fun x => normal_density x * ((-1) ^ n * INR (fact n) / (Qn n x) ^ 2 - 1)) x).
    pose proof (Qn_pos x n ltac:(lra)) as Q. auto_derive. repeat split.
    + eexists. apply normal_derive.
    + eexists. apply Qn_derive.
    + assert (0 < Qn n x * (Qn n x * 1)) by nra. lra.
Qed.
Lemma normal_ex_RInt r T : ex_RInt normal_density r T.
Proof. apply (ex_RInt_continuous normal_density). intros; apply normal_continuous. Qed.
Lemma An_pos n x : 0 < x -> 0 <= An n x.
Proof.
  intros Hx. unfold An. pose proof (Qn_pos x n Hx). pose proof (Pn_pos x n Hx). apply Rmult_le_pos; [|left; apply normal_pos]. apply Rmult_le_pos; [lra|left; now apply Rinv_0_lt_compat].
Qed.
Lemma even_sign n : (-1) ^ (2 * n) = 1. Proof. apply pow_1_even. Qed.
Lemma odd_sign n : (-1) ^ (S (2 * n)) = -1. Proof. apply pow_1_odd. Qed.
Lemma An_lower n r T : 0 < r -> r <= T -> An (2 * n) r - An (2 * n) T <= RInt normal_density r T.
Proof.
  intros Hr HT. pose proof (An_integral (2 * n) r T Hr HT) as I. apply is_RInt_opp in I.
  assert (E : An (2 * n) r - An (2 * n) T = opp (An (2 * n) T - An (2 * n) r)) by (change (opp (An (2 * n) T - An (2 * n) r)) with (- (An (2 * n) T - An (2 * n) r)); ring).
  rewrite E. refine (Rle_trans _ _ _ (Req_le _ _ (eq_sym (is_RInt_unique _ _ _ _ I))) _). apply RInt_le; [exact HT|eexists; exact I|apply normal_ex_RInt|]. intros x Hx.
  change (- (normal_density x * ((-1) ^ (2 * n) * INR (fact (2 * n)) / Qn (2 * n) x ^ 2 - 1)) <= normal_density x).
  rewrite even_sign, Rmult_1_l. pose proof (Qn_pos x (2 * n) ltac:(lra)) as Q. assert (0 <= INR (fact (2 * n)) / Qn (2 * n) x ^ 2) by (apply Rmult_le_pos; [apply pos_INR|left; apply Rinv_0_lt_compat, pow_lt, Q]).
  pose proof (normal_pos x). nra.
Qed.
Lemma An_upper n r T : 0 < r -> r <= T -> RInt normal_density r T <= An (S (2 * n)) r - An (S (2 * n)) T.
Proof.
  intros Hr HT. pose proof (An_integral (S (2 * n)) r T Hr HT) as I. apply is_RInt_opp in I.
  assert (E : An (S (2 * n)) r - An (S (2 * n)) T = opp (An (S (2 * n)) T - An (S (2 * n)) r)) by (change (opp (An (S (2 * n)) T - An (S (2 * n)) r)) with (- (An (S (2 * n)) T - An (S (2 * n)) r)); ring).
  rewrite E. refine (Rle_trans _ _ _ _ (Req_le _ _ (is_RInt_unique _ _ _ _ I))). apply RInt_le; [exact HT|apply normal_ex_RInt|eexists; exact I|]. intros x Hx.
  change (normal_density x <= - (normal_density x * ((-1) ^ (S (2 * n)) * INR (fact (S (2 * n))) / Qn (S (2 * n)) x ^ 2 - 1))).
  rewrite odd_sign. pose proof (Qn_pos x (S (2 * n)) ltac:(lra)) as Q. assert (H : 0 <= INR (fact (S (2 * n))) / Qn (S (2 * n)) x ^ 2) by (apply Rmult_le_pos; [apply pos_INR|left; apply Rinv_0_lt_compat, pow_lt, Q]).
  replace (-1 * INR (fact (S (2 * n))) / Qn (S (2 * n)) x ^ 2) with (- (INR (fact (S (2 * n))) / Qn (S (2 * n)) x ^ 2)) by (unfold Rdiv; ring).
  pose proof (normal_pos x). set (h := INR (fact (S (2 * n))) / Qn (S (2 * n)) x ^ 2) in *. clearbody h. nra.
Qed.
(** integrals over longer intervals are larger *)
Lemma int_mono r T T' : r <= T -> T <= T' -> RInt normal_density r T <= RInt normal_density r T'.
Proof.
  intros H1 H2. rewrite <- (RInt_Chasles normal_density r T T') by apply normal_ex_RInt. change (plus (RInt normal_density r T) (RInt normal_density T T')) with (RInt normal_density r T + RInt normal_density T T').
  assert (0 <= RInt normal_density T T') by (apply RInt_ge_0; [exact H2|apply normal_ex_RInt|intros; left; apply normal_pos]). lra.
Qed.
Lemma normal_small T : 1 <= T -> normal_density T <= 2 / T.
Proof.
  intros H. unfold normal_density. rewrite exp_Ropp. assert (E : T / 2 <= exp (T ^ 2 / 2)).
  { apply Rle_trans with (1 + T ^ 2 / 2); [nra|]. destruct (Req_dec (T ^ 2 / 2) 0) as [->|N]; [rewrite exp_0; lra|left; now apply exp_ineq1]. }
  replace (2 / T) with (/ (T / 2)) by (field; lra). apply Rinv_le_contravar; lra.
Qed.
Lemma An_small n T : 1 <= T -> An n T <= 2 / T.
Proof.
  intros H. apply Rle_trans with (2 := normal_small T H). unfold An. pose proof (Qn_pos T n ltac:(lra)) as Q. pose proof (Pn_le_Qn T n H) as L.
  assert (Pn n T / Qn n T <= 1) by (apply Rmult_le_reg_r with (Qn n T); [exact Q|]; unfold Rdiv; rewrite Rmult_assoc, Rinv_l by lra; lra).
  pose proof (normal_pos T). nra.
Qed.
(** The area exists and lies between consecutive convergents. *)
Theorem normal_area r : 0 < r -> exists A, area_beyond normal_density r A.
Proof.
  intros Hr. set (E := fun y => exists T, r <= T /\ y = RInt normal_density r T).
  destruct (completeness E) as [A [UB LUB]].
  - exists (An 1 r). intros y (T & HT & ->). pose proof (An_upper 0 r T Hr HT) as U. pose proof (An_pos 1 T ltac:(lra)). change (S (2 * 0)) with 1%nat in U. lra.
  - exists (RInt normal_density r r), r. split; [lra|reflexivity].
  - exists A. split; [intros; apply normal_ex_RInt|]. apply is_lim_spec. intros [eps He]. cbn [pos].
    assert (N : ~ is_upper_bound E (A - eps)) by (intros B; specialize (LUB _ B); lra).
    assert (X : exists T, r <= T /\ A - eps < RInt normal_density r T).
    { apply Classical_Prop.NNPP. intros C. apply N. intros y (T & HT & ->). apply Rnot_lt_le. intros C'. apply C. eauto. }
    destruct X as (T0 & HT0 & L). exists T0. intros T HT. change (Rabs (RInt normal_density r T - A) < eps). apply Rabs_def1.
    + assert (RInt normal_density r T <= A) by (apply UB; exists T; split; [lra|reflexivity]). lra.
    + pose proof (int_mono r T0 T HT0 ltac:(lra)). lra.
Qed.
Theorem normal_area_bounds n m r A : 0 < r -> area_beyond normal_density r A -> An (2 * n) r <= A <= An (S (2 * m)) r.
Proof.
  intros Hr [_ L]. apply is_lim_spec in L. unfold is_lim' in L. split; apply le_epsilon; intros eps He.
  - destruct (L (mkposreal (eps / 2) ltac:(lra))) as [T0 H0]. cbn [pos] in H0. set (T := Rmax (Rmax (T0 + 1) r) (Rmax 1 (4 / eps))).
    assert (HT : T0 < T /\ r <= T /\ 1 <= T /\ 4 / eps <= T) by (unfold T; pose proof (Rmax_l (Rmax (T0 + 1) r) (Rmax 1 (4 / eps))); pose proof (Rmax_r (Rmax (T0 + 1) r) (Rmax 1 (4 / eps))); pose proof (Rmax_l (T0 + 1) r); pose proof (Rmax_r (T0 + 1) r); pose proof (Rmax_l 1 (4 / eps)); pose proof (Rmax_r 1 (4 / eps)); lra).
    destruct HT as (T1 & T2 & T3 & T4). specialize (H0 T T1). apply Rabs_def2 in H0. pose proof (An_lower n r T Hr T2) as U. pose proof (An_small (2 * n) T T3) as S.
    assert (2 / T <= eps / 2). { apply Rmult_le_reg_r with T; [lra|]. unfold Rdiv at 1. rewrite Rmult_assoc, Rinv_l by lra. assert (4 / eps * eps <= T * eps) by (apply Rmult_le_compat_r; lra). replace (4 / eps * eps) with 4 in H by (field; lra). lra. }
    lra.
  - destruct (L (mkposreal eps He)) as [T0 H0]. cbn [pos] in H0. set (T := Rmax (T0 + 1) r). assert (HT : T0 < T /\ r <= T) by (unfold T; pose proof (Rmax_l (T0 + 1) r); pose proof (Rmax_r (T0 + 1) r); lra).
    destruct HT as [T1 T2]. specialize (H0 T T1). apply Rabs_def2 in H0. pose proof (An_upper m r T Hr T2) as U. pose proof (An_pos (S (2 * m)) T ltac:(lra)). lra.
Qed.
(** convergents at a rational point, on integers: numerators scaled by b^n *)
Fixpoint convZ (a b p0 p1 : Z) (n : nat) : Z * Z :=
  match n with O => (p0, p1) | S n' => let (x, y) := convZ a b p0 p1 n' in (y, a * y + Z.of_nat n * (b * b) * x)%Z end.
Lemma convZ_value a b p0 p1 r0 r1 n : (0 < b)%Z -> IZR p0 = r0 -> IZR p1 = IZR b * r1 ->
  IZR (fst (convZ a b p0 p1 n)) = IZR b ^ n * fst (conv (IZR a / IZR b) r0 r1 n) /\ IZR (snd (convZ a b p0 p1 n)) = IZR b ^ (S n) * snd (conv (IZR a / IZR b) r0 r1 n).
Proof.
  intros Hb H0 H1. apply IZR_lt in Hb. induction n as [|n [IH1 IH2]].
  - cbn [convZ conv fst snd pow]. rewrite H0, H1. split; ring.
  - cbn [convZ conv]. destruct (convZ a b p0 p1 n) as [x y], (conv (IZR a / IZR b) r0 r1 n) as [u v]. cbn [fst snd] in *. split; [exact IH2|].
    rewrite plus_IZR, !mult_IZR, IH1, IH2, <- INR_IZR_INZ. cbn [pow]. field. lra.
Qed.
Definition ratioZ (a b : Z) (n : nat) : Z * Z := (fst (convZ a b 0 b n), fst (convZ a b 1 a n)).
Lemma ratioZ_value a b n : (0 < a)%Z -> (0 < b)%Z -> let (p, q) := ratioZ a b n in (0 < q)%Z /\ Pn n (IZR a / IZR b) / Qn n (IZR a / IZR b) = IZR p / IZR q.
Proof.
  intros Ha Hb. unfold ratioZ. destruct (convZ_value a b 0 b 0 1 n Hb eq_refl ltac:(ring)) as [EP _].
  apply IZR_lt in Ha as Ha', Hb as Hb'. destruct (convZ_value a b 1 a 1 (IZR a / IZR b) n Hb eq_refl ltac:(field; lra)) as [EQ _].
  assert (X : 0 < IZR a / IZR b) by (apply Rdiv_lt_0_compat; lra). pose proof (Qn_pos _ n X) as Q. unfold Qn in Q. assert (B : 0 < IZR b ^ n) by (apply pow_lt; lra).
  split; [apply lt_IZR; rewrite EQ; nra|]. rewrite EP, EQ. unfold Pn, Qn. field. lra.
Qed.
