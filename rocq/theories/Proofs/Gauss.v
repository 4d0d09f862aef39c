(** The Gaussian integral. *)
From Coq Require Import Reals Lra Psatz.
From Coquelicot Require Import Coquelicot.
From Verif Require Import Spec.Density.
Local Open Scope R_scope.

Definition G (x : R) : R := RInt normal_density 0 x.
Lemma density_cont x : continuous normal_density x.
Proof. apply (ex_derive_continuous normal_density x). unfold normal_density. auto_derive. trivial. Qed.
Lemma density_int a b : ex_RInt normal_density a b.
Proof. apply (ex_RInt_continuous normal_density). intros z _. apply density_cont. Qed.
Lemma density_pos x : 0 < normal_density x. Proof. apply exp_pos. Qed.
Lemma G_0 : G 0 = 0. Proof. exact (RInt_point 0 normal_density). Qed.
Lemma G_deriv (x : R) : is_derive G x (normal_density x).
Proof.
  unfold G. apply (is_derive_RInt normal_density (fun x => RInt normal_density 0 x) 0 x).
  - exists (mkposreal 1 Rlt_0_1). intros y _. apply (RInt_correct normal_density). apply density_int.
  - apply density_cont.
Qed.
Lemma G_chasles a b : RInt normal_density a b = G b - G a.
Proof.
  unfold G. pose proof (RInt_Chasles normal_density 0 a b (density_int 0 a) (density_int a b)) as H. change (plus (RInt normal_density 0 a) (RInt normal_density a b)) with (RInt normal_density 0 a + RInt normal_density a b) in H. lra.
Qed.
Definition inner (x y : R) : R := exp (- (x ^ 2 * (1 + y ^ 2) / 2)) / (1 + y ^ 2).
Definition J (x : R) : R := RInt (inner x) 0 1.
Lemma one_sq y : 0 < 1 + y ^ 2. Proof. pose proof (pow2_ge_0 y). lra. Qed.
Lemma inner_deriv (x y : R) : is_derive (fun u => inner u y) x (- x * exp (- (x ^ 2 * (1 + y ^ 2) / 2))).
Proof. unfold inner. pose proof (one_sq y) as P. auto_derive; [trivial|]. replace (- (x * (x * 1) * (1 + y * (y * 1)) * / 2)) with (- (x ^ 2 * (1 + y ^ 2) / 2)) by field. set (e := exp _). clearbody e. simpl. field. simpl in P. lra. Qed.
Lemma inner_cont x y : continuous (inner x) y.
Proof. apply (ex_derive_continuous (inner x) y). unfold inner. pose proof (one_sq y) as P. auto_derive. lra. Qed.
Lemma J_deriv (x : R) : is_derive J x (- (normal_density x * G x)).
Proof.
  unfold J. assert (D : is_derive (fun x => RInt (fun t => inner x t) 0 1) x (RInt (fun t => Derive (fun u => inner u t) x) 0 1)).
  { apply is_derive_RInt_param.
    - exists (mkposreal 1 Rlt_0_1). intros u _ t _. eexists. apply inner_deriv.
    - intros t _. apply continuity_2d_pt_ext with (fun u v => (- u) * exp (- (u * u * (1 + v * v) / 2))).
      { intros u v. transitivity (- u * exp (- (u ^ 2 * (1 + v ^ 2) / 2))); [f_equal; f_equal; field|]. symmetry. exact (is_derive_unique _ _ _ (inner_deriv u v)). }
      apply continuity_2d_pt_mult; [apply continuity_2d_pt_opp, continuity_2d_pt_id1|].
      apply (continuity_1d_2d_pt_comp exp (fun u v => - (u * u * (1 + v * v) / 2))); [apply derivable_continuous_pt, derivable_pt_exp|].
      apply continuity_2d_pt_opp. unfold Rdiv. apply continuity_2d_pt_mult; [|apply continuity_2d_pt_const].
      apply continuity_2d_pt_mult; [apply continuity_2d_pt_mult; apply continuity_2d_pt_id1|]. apply continuity_2d_pt_plus; [apply continuity_2d_pt_const|]. apply continuity_2d_pt_mult; apply continuity_2d_pt_id2.
    - exists (mkposreal 1 Rlt_0_1). intros u _. apply (ex_RInt_continuous (inner u)). intros z _. apply inner_cont. }
  replace (- (normal_density x * G x)) with (RInt (fun t => Derive (fun u => inner u t) x) 0 1); [exact D|].
  rewrite (RInt_ext _ (fun t => scal (- normal_density x) (scal x (normal_density (x * t + 0))))).
  2: { intros t _. transitivity (- x * exp (- (x ^ 2 * (1 + t ^ 2) / 2))); [exact (is_derive_unique _ _ _ (inner_deriv x t))|]. change (scal (- normal_density x) (scal x (normal_density (x * t + 0)))) with (- normal_density x * (x * normal_density (x * t + 0))).
    unfold normal_density. replace (- (x ^ 2 * (1 + t ^ 2) / 2)) with (- (x ^ 2 / 2) + - ((x * t + 0) ^ 2 / 2)) by field. rewrite exp_plus. match goal with |- ?A = ?B => change (@eq R A B) end. ring. }
  assert (E : RInt (fun t => scal x (normal_density (x * t + 0))) 0 1 = G x).
  { pose proof (RInt_comp_lin normal_density x 0 0 1 (density_int _ _)) as H. unfold G. replace (x * 0 + 0) with 0 in H by ring. replace (x * 1 + 0) with x in H by ring. exact H. }
  etransitivity; [apply (RInt_scal (fun t => scal x (normal_density (x * t + 0))) 0 1 (- normal_density x)); apply (ex_RInt_comp_lin normal_density x 0 0 1); apply density_int|].
  etransitivity; [apply (f_equal (scal (- normal_density x))); exact E|]. change (- normal_density x * G x = - (normal_density x * G x)). ring.
Qed.
Lemma J_0 : J 0 = PI / 4.
Proof.
  unfold J. rewrite (RInt_ext _ (fun y => / (1 + y ^ 2))).
  - apply is_RInt_unique. replace (PI / 4) with (minus (atan 1) (atan 0)) by (rewrite atan_0, atan_1; unfold minus, plus, opp; cbn; ring).
    apply (is_RInt_derive atan (fun y => / (1 + y ^ 2))).
    + intros y _. pose proof (one_sq y) as P. auto_derive; [trivial|]. unfold Rsqr. field. simpl in P. lra.
    + intros y _. apply (ex_derive_continuous (fun y => / (1 + y ^ 2)) y). pose proof (one_sq y) as P. auto_derive. lra.
  - intros y _. unfold inner. replace (- (0 ^ 2 * (1 + y ^ 2) / 2)) with 0 by field. rewrite exp_0. pose proof (one_sq y). match goal with |- ?A = ?B => change (@eq R A B) end. field. lra.
Qed.
Lemma G_J x : G x ^ 2 / 2 + J x = PI / 4.
Proof.
  assert (D : forall t, is_derive (fun t => G t ^ 2 / 2 + J t) t 0).
  { intros t. pose proof (G_deriv t) as DG. pose proof (J_deriv t) as DJ. evar (l : R). replace 0 with l; [unfold l; apply (is_derive_plus (fun t => G t ^ 2 / 2) J)|]; [| exact DJ |].
    - unfold Rdiv. apply is_derive_ext with (fun t => scal (/ 2) (G t ^ 2)); [intros u; unfold scal; cbn; unfold mult; cbn; ring|]. apply (is_derive_scal (fun t => G t ^ 2)). apply (is_derive_pow G 2 t _ DG).
    - unfold l. unfold plus. cbn. field. }
  assert (E : G x ^ 2 / 2 + J x = G 0 ^ 2 / 2 + J 0).
  { destruct (MVT_gen (fun t => G t ^ 2 / 2 + J t) 0 x (fun _ => 0)) as (c & _ & E).
    - intros t _. apply D.
    - intros t _. apply continuity_pt_filterlim. apply (ex_derive_continuous (fun t => G t ^ 2 / 2 + J t) t). eexists. apply D.
    - lra. }
  rewrite E, G_0, J_0. field.
Qed.

(** comparing increments of functions by their derivatives *)
Lemma deriv_le (F H f h : R -> R) a b : a <= b -> (forall x, a <= x <= b -> is_derive F x (f x)) -> (forall x, a <= x <= b -> is_derive H x (h x)) -> (forall x, a <= x <= b -> f x <= h x) -> F b - F a <= H b - H a.
Proof.
  intros AB DF DH L. destruct (MVT_gen (fun x => H x - F x) a b (fun x => h x - f x)) as (c & C & E).
  - intros x Hx. rewrite Rmin_left, Rmax_right in Hx by exact AB. apply (is_derive_minus H F x); [apply DH|apply DF]; lra.
  - intros x Hx. rewrite Rmin_left, Rmax_right in Hx by exact AB. apply continuity_pt_filterlim. apply (ex_derive_continuous (fun x => H x - F x) x). exists (h x - f x). apply (is_derive_minus H F x); [apply DH|apply DF]; lra.
  - rewrite Rmin_left, Rmax_right in C by exact AB. specialize (L c C). assert (0 <= (h c - f c) * (b - a)) by (apply Rmult_le_pos; lra). lra.
Qed.
Lemma G_mono a b : a <= b -> G a <= G b.
Proof.
  intros H. pose proof (deriv_le (fun _ => 0) G (fun _ => 0) normal_density a b H) as D. assert (0 - 0 <= G b - G a); [|lra]. apply D; intros x _; [apply (is_derive_const 0)|apply G_deriv|left; apply density_pos].
Qed.
Lemma density_le_1 x : normal_density x <= 1.
Proof.
  unfold normal_density. rewrite <- exp_0. assert (0 <= x ^ 2 / 2) by (pose proof (pow2_ge_0 x); lra). destruct (Req_dec (x ^ 2 / 2) 0) as [->|N]; [rewrite Ropp_0; lra|]. left. apply exp_increasing. lra.
Qed.
Lemma G_lip a b : a <= b -> G b - G a <= b - a.
Proof. intros H. apply (deriv_le G (fun x => x) normal_density (fun _ => 1) a b H); intros x _; [apply G_deriv|apply (is_derive_id x)|apply density_le_1]. Qed.
Lemma G_odd x : G (- x) = - G x.
Proof.
  assert (D : forall t : R, is_derive (fun t => G (- t) + G t) t 0).
  { intros t. assert (O : is_derive (fun t : R => - t) t (-1)) by (auto_derive; [trivial|ring]).
    assert (C : is_derive (fun t => G (- t)) t (scal (-1) (normal_density (- t)))) by exact (is_derive_comp G (fun t => - t) t _ _ (G_deriv (- t)) O).
    pose proof (is_derive_plus (fun t => G (- t)) G t _ _ C (G_deriv t)) as S. replace 0 with (plus (scal (-1) (normal_density (- t))) (normal_density t)); [exact S|].
    change (-1 * normal_density (- t) + normal_density t = 0). unfold normal_density. replace ((- t) ^ 2) with (t ^ 2) by ring. ring. }
  destruct (MVT_gen (fun t => G (- t) + G t) 0 x (fun _ => 0)) as (c & _ & E).
  - intros t _. apply D.
  - intros t _. apply continuity_pt_filterlim. apply (ex_derive_continuous (fun t => G (- t) + G t) t). eexists. apply D.
  - rewrite Ropp_0, G_0 in E. lra.
Qed.
Lemma J_bound x : 0 <= J x <= normal_density x.
Proof.
  assert (B : forall y, 0 <= inner x y <= normal_density x).
  { intros y. unfold inner. pose proof (one_sq y) as P. pose proof (pow2_ge_0 y) as Y. pose proof (pow2_ge_0 x) as X. pose proof (exp_pos (- (x ^ 2 * (1 + y ^ 2) / 2))) as E. split; [apply Rlt_le, Rdiv_lt_0_compat; lra|].
    apply Rle_trans with (exp (- (x ^ 2 * (1 + y ^ 2) / 2))).
    - unfold Rdiv at 1. rewrite <- (Rmult_1_r (exp _)) at 2. apply Rmult_le_compat_l; [lra|]. rewrite <- Rinv_1. apply Rinv_le_contravar; lra.
    - unfold normal_density. assert (0 <= x ^ 2 * y ^ 2) by (apply Rmult_le_pos; assumption). destruct (Req_dec (x ^ 2 * y ^ 2) 0) as [Z|Z]; [right; f_equal; lra|left; apply exp_increasing; lra]. }
  unfold J. assert (EX : ex_RInt (inner x) 0 1) by (apply (ex_RInt_continuous (inner x)); intros z _; apply inner_cont).
  assert (L : 0 <= RInt (inner x) 0 1) by (apply RInt_ge_0; [lra|exact EX|intros y _; apply B]).
  split; [exact L|]. pose proof (RInt_le (inner x) (fun _ => normal_density x) 0 1 ltac:(lra) EX (ex_RInt_const _ _ _) ltac:(intros y _; apply B)) as H.
  rewrite RInt_const in H. change (scal (1 - 0) (normal_density x)) with ((1 - 0) * normal_density x) in H. set (q := RInt (inner x) 0 1) in *. change (q <= (1 - 0) * normal_density x) in H. lra.
Qed.
(** the total mass of half the bell curve *)
Definition Ginf : R := sqrt (PI / 2).
Lemma density_small x : 0 <= x -> normal_density x * (1 + x ^ 2 / 2) <= 1.
Proof.
  intros Hx. unfold normal_density. rewrite exp_Ropp. pose proof (exp_pos (x ^ 2 / 2)) as P. apply Rmult_le_reg_l with (exp (x ^ 2 / 2)); [exact P|]. rewrite <- Rmult_assoc, Rinv_r, Rmult_1_l, Rmult_1_r by lra.
  destruct (Req_dec (x ^ 2 / 2) 0) as [->|N]; [rewrite exp_0; lra|]. left. apply exp_ineq1. exact N.
Qed.
Lemma Ginf_pos : 1 < Ginf.
Proof.
  unfold Ginf. rewrite <- sqrt_1. apply sqrt_lt_1; [lra| |]; pose proof PI2_1; lra.
Qed.
Lemma G_pos x : 0 <= x -> 0 <= G x. Proof. intros H. rewrite <- G_0. now apply G_mono. Qed.
Lemma G_Ginf x : 0 <= x -> 0 <= Ginf - G x <= 2 * normal_density x.
Proof.
  intros Hx. pose proof (G_J x) as E. pose proof (J_bound x) as B. pose proof (G_pos x Hx) as P. pose proof Ginf_pos as P1.
  assert (S : Ginf * Ginf = PI / 2) by (unfold Ginf; apply sqrt_sqrt; pose proof PI_RGT_0; lra). assert (D : (Ginf - G x) * (Ginf + G x) = 2 * J x) by (replace ((Ginf - G x) * (Ginf + G x)) with (Ginf * Ginf - G x ^ 2) by ring; lra).
  split.
  - apply Rmult_le_reg_r with (Ginf + G x); [lra|]. lra.
  - apply Rmult_le_reg_r with (Ginf + G x); [lra|]. rewrite D. pose proof (density_pos x) as DP. assert (2 * normal_density x * 1 <= 2 * normal_density x * (Ginf + G x)) by (apply Rmult_le_compat_l; lra). lra.
Qed.
Lemma density_lim : is_lim normal_density p_infty 0.
Proof.
  apply is_lim_le_le_loc with (f := fun _ => 0) (g := fun x => / x).
  - exists 2. intros x Hx. split; [left; apply density_pos|]. pose proof (density_small x ltac:(lra)) as H. pose proof (density_pos x) as P. apply Rmult_le_reg_r with x; [lra|]. rewrite Rinv_l by lra.
    apply Rle_trans with (2 := H). apply Rmult_le_compat_l; [lra|]. pose proof (pow2_ge_0 (x - 1)). lra.
  - apply is_lim_const.
  - apply (is_lim_inv (fun x => x) p_infty p_infty); [apply is_lim_id|discriminate].
Qed.
Lemma G_lim : is_lim G p_infty Ginf.
Proof.
  apply is_lim_le_le_loc with (f := fun x => Ginf - 2 * normal_density x) (g := fun _ => Ginf).
  - exists 0. intros x Hx. pose proof (G_Ginf x ltac:(lra)). lra.
  - replace (Finite Ginf) with (Finite (Ginf - 2 * 0)) by (f_equal; ring). apply (is_lim_minus' (fun _ => Ginf)); [apply is_lim_const|]. apply (is_lim_scal_l normal_density 2 p_infty 0). exact density_lim.
  - apply is_lim_const.
Qed.
