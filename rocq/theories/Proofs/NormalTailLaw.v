(** The limit distribution of normalTail. *)
From Coq Require Import Reals Lia Lra Psatz ZifyN ZifyNat Bool.
From Coquelicot Require Import Coquelicot.
From Flocq Require Import Core BinarySingleNaN.
From Verif Require Import Model.Base Model.Rng Model.Float Model.Distr Model.Ziggurat Model.ExpoTable Model.NormalTable Model.ExpoNormal Spec.Common Spec.Floats Spec.Zig Spec.Tails Spec.Density Spec.Prob.
From Verif Require Import Proofs.FloatProofs Proofs.RelError Proofs.ZigTables Proofs.SumN Proofs.Riemann Proofs.ZigAccept Proofs.ZigBody Proofs.ZigStep Proofs.ZigFloat Proofs.ZigInst Proofs.ZigTape Proofs.ZigHit Proofs.ExpoLaw Proofs.Gauss Proofs.NormalTail Props.Uniform Props.Zig Props.ExpoNormal Props.Tails Props.Density.
Local Open Scope R_scope.

Notation r := (B2R normalR).
(** the area beyond r in units in which the tail accepts *)
Definition PsiInf : R := r * exp (r ^ 2 / 2) * (Ginf - G r).
Lemma exp_half : / 2 < exp (- (1 / 8)) * (1 - exp (- (2))).
Proof.
  pose proof (exp_ineq1 2 ltac:(lra)) as E2. assert (X2 : exp (- (2)) <= / 3). { rewrite exp_Ropp. apply Rinv_le_contravar; lra. }
  pose proof (exp_ineq1 (- (1 / 8)) ltac:(lra)) as E8. assert (7 / 8 * (2 / 3) <= exp (- (1 / 8)) * (1 - exp (- (2)))) by (apply Rmult_le_compat; lra). lra.
Qed.
Lemma Psi_below s : 0 <= s -> 0 <= PsiInf - Psi s <= 10 * exp (- (r * s)).
Proof.
  intros Hs. pose proof r_range as R. unfold PsiInf, Psi. destruct (G_Ginf (r + s) ltac:(lra)) as [A B]. pose proof (exp_pos (r ^ 2 / 2)) as P.
  replace (r * exp (r ^ 2 / 2) * (Ginf - G r) - r * exp (r ^ 2 / 2) * (G (r + s) - G r)) with (r * exp (r ^ 2 / 2) * (Ginf - G (r + s))) by ring. split.
  - apply Rmult_le_pos; [apply Rmult_le_pos; lra|lra].
  - apply Rle_trans with (r * exp (r ^ 2 / 2) * (2 * normal_density (r + s))); [apply Rmult_le_compat_l; [apply Rmult_le_pos; lra|lra]|].
    replace (r * exp (r ^ 2 / 2) * (2 * normal_density (r + s))) with (2 * r * (exp (- (r * s)) * exp (- (s ^ 2 / 2)))).
    + pose proof (sq_le_1 s) as S1. pose proof (exp_pos (- (r * s))) as E. assert (exp (- (r * s)) * exp (- (s ^ 2 / 2)) <= exp (- (r * s)) * 1) by (apply Rmult_le_compat_l; lra). pose proof (exp_pos (- (s ^ 2 / 2))) as E2.
      apply Rmult_le_compat; [lra|apply Rmult_le_pos; lra|lra|lra].
    + unfold normal_density. rewrite <- exp_plus. replace (r * exp (r ^ 2 / 2) * (2 * exp (- ((r + s) ^ 2 / 2)))) with (2 * r * (exp (r ^ 2 / 2) * exp (- ((r + s) ^ 2 / 2)))) by ring. rewrite <- exp_plus. f_equal. f_equal. field.
Qed.
Lemma PsiInf_big : / 2 < PsiInf.
Proof.
  pose proof r_range as R. pose proof (Psi_below (/ 2) ltac:(lra)) as [B _]. destruct (Psi_step 0 (/ 2) ltac:(lra)) as [S _]. rewrite Psi_0 in S. replace (- (r * 0)) with 0 in S by ring. rewrite exp_0 in S.
  pose proof exp_half as H. replace (- ((/ 2) ^ 2 / 2)) with (- (1 / 8)) in S by field. assert (E : exp (- (r * / 2)) <= exp (- (2))) by (apply exp_decr; lra).
  assert (exp (- (1 / 8)) * (1 - exp (- (2))) <= exp (- (1 / 8)) * (1 - exp (- (r * / 2)))) by (apply Rmult_le_compat_l; [left; apply exp_pos|lra]). lra.
Qed.
Lemma Psi_le_1 s : 0 <= s -> 0 <= Psi s <= 1.
Proof.
  intros H. rewrite <- Psi_0 at 1. split; [apply Psi_mono; lra|]. pose proof (Psi_gap 0 s ltac:(lra)) as P. rewrite Psi_0 in P. replace (- (r * 0)) with 0 in P by ring. rewrite exp_0 in P. pose proof (exp_pos (- (r * s))). lra.
Qed.
Lemma summand_le s k : 0 <= summand s k <= g k.
Proof. unfold summand, g. pose proof (exp_pos (- (q k ^ 2 / 2))). destruct (k =? 0)%N; [lra|]. destruct (Rle_bool (q k) s); cbn [ind]; lra. Qed.

Section Law.
  Variable math_log : float64 -> float64.
  Hypothesis AL : accurate_log math_log.
  Notation tval := (tval math_log).
  Notation tacc := (tacc math_log).
  Notation c := (c math_log).
  Definition accall : R := mean53 c.
  Lemma accall_range : 0 <= accall <= 1. Proof. apply mean53_range. apply c_range. Qed.
  Lemma accall_value : Rabs (accall - PsiInf) <= 3 / 10 ^ 13.
  Proof.
    pose proof small53 as S3. pose proof P53 as PP. destruct inv53 as [I3 _]. assert (Q1 : (0 < 1 <= M53)%N) by (rewrite M53_eq; lia). pose proof (q_pos 1 Q1) as Q0.
    pose proof (Psi_sum (q 1) Q0) as S. pose proof (Psi_below (q 1) Q0) as B. rewrite q_exp in B by lia. replace (uk 1) with (/ IZR (2 ^ 53)) in B by (unfold uk; change (NR 1) with 1; field; lra).
    assert (E : forall k, (0 < k < M53)%N -> summand (q 1) k = g k). { intros k Hk. unfold summand. replace (k =? 0)%N with false by (symmetry; apply N.eqb_neq; lia). rewrite Rle_bool_true by (apply q_mono; lia). cbn [ind]. ring. }
    assert (U : accall <= mean53 (fun k => summand (q 1) k + 21 / 10 ^ 14) + / IZR (2 ^ 53)).
    { apply mean53_first; [|pose proof (c_range math_log 0); pose proof (summand_le (q 1) 0); lra]. intros k Hk. rewrite (E k Hk). rewrite M53_eq in Hk. pose proof (c_value math_log AL k Hk) as C. apply Rabs_le_inv in C. lra. }
    assert (L : mean53 (summand (q 1)) <= mean53 (fun k => c k + 21 / 10 ^ 14) + / IZR (2 ^ 53)).
    { apply mean53_first; [|change (summand (q 1) 0) with 0; pose proof (c_range math_log 0); lra]. intros k Hk. rewrite (E k Hk). rewrite M53_eq in Hk. pose proof (c_value math_log AL k Hk) as C. apply Rabs_le_inv in C. lra. }
    rewrite mean53_plus, mean53_const in U, L. unfold accall in *. rewrite I3 in *. unfold Rdiv in S. rewrite I3 in S. apply Rabs_le_inv in S. apply Rabs_le. lra.
  Qed.
  Section Event.
  Variable p : float64 -> bool.
  Definition accp : R := mean53 (fun k => ind (p (tval k)) * c k).
  Lemma accp_range : 0 <= accp <= accall.
  Proof.
    unfold accp, accall. split.
    - apply mean53_range. intros k. pose proof (c_range math_log k). pose proof (ind_range (p (tval k))). split; [apply Rmult_le_pos; lra|]. apply Rle_trans with (1 * 1); [apply Rmult_le_compat; lra|lra].
    - apply mean53_le. intros k _. pose proof (c_range math_log k). pose proof (ind_range (p (tval k))). rewrite <- (Rmult_1_l (c k)) at 2. apply Rmult_le_compat_r; lra.
  Qed.
  Definition T (n : nat) : R := pr n (fun ws => evb p (normalTail tape math_log (S (length ws)) ws)).
  Lemma T_step n : T (S (S n)) = accp + (1 - accall) * T n.
  Proof.
    unfold T at 1. rewrite pr_S. set (psi := fun k => ind (p (tval k)) * c k + (1 - c k) * T n). rewrite (mean64_ext _ (fun u => psi (u mod 2 ^ 53)%N)).
    - rewrite (mean64_mod psi). unfold psi, accp, accall. rewrite mean53_plus. f_equal. rewrite (mean53_ext _ (fun k => T n * 1 + (- T n) * c k)) by (intros; ring). rewrite mean53_plus, !mean53_scal, mean53_const. ring.
    - intros u Hu. assert (Wu : w64 u) by (unfold w64; rewrite <- W64_eq; exact Hu). rewrite pr_S. set (k := (u mod 2 ^ 53)%N). set (phi := fun l => ind (p (tval k)) * ind (tacc k l) + T n * (1 - ind (tacc k l))). rewrite (mean64_ext _ (fun v => phi (v mod 2 ^ 53)%N)).
      + rewrite (mean64_mod phi). unfold phi, psi. rewrite mean53_plus, mean53_scal. fold (c k). f_equal. rewrite mean53_scal. rewrite (mean53_ext _ (fun l => 1 + (-1) * ind (tacc k l))) by (intros; ring). rewrite mean53_plus, mean53_scal, mean53_const. fold (c k). ring.
      + intros v Hv. assert (Wv : w64 v) by (unfold w64; rewrite <- W64_eq; exact Hv). unfold phi. destruct (tacc k (v mod 2 ^ 53)%N) eqn:EA; cbn [ind].
        * rewrite (pr_ext n _ (fun _ => p (tval k))); [rewrite pr_const; ring|]. intros ws _ _. rewrite tail_step by assumption. fold k. rewrite EA. reflexivity.
        * unfold T. rewrite (pr_ext n _ (fun ws => evb p (normalTail tape math_log (S (length ws)) ws))); [ring|]. intros ws _ _. rewrite tail_step by assumption. fold k. rewrite EA.
          change (length (u :: v :: ws)) with (S (S (length ws))). destruct (normalTail tape math_log (S (S (length ws))) ws) as [x| |] eqn:E1.
          -- now rewrite (tail_bound math_log _ _ _ E1).
          -- destruct (normalTail tape math_log (S (length ws)) ws) as [x| |] eqn:E2; try reflexivity. rewrite (tail_mono math_log (S (length ws)) (S (S (length ws))) _ _ ltac:(lia) E2) in E1. discriminate E1.
          -- destruct (normalTail tape math_log (S (length ws)) ws) as [x| |] eqn:E2; try reflexivity. rewrite (tail_mono math_log (S (length ws)) (S (S (length ws))) _ _ ltac:(lia) E2) in E1. discriminate E1.
  Qed.
  Lemma accall_big : 49 / 100 <= accall.
  Proof. pose proof PsiInf_big. pose proof accall_value as A. apply Rabs_le_inv in A. lra. Qed.
  Lemma T_limit : is_lim_seq T (accp / accall).
  Proof.
    pose proof accall_big. pose proof accall_range. replace (accp / accall) with (accp / (1 - (1 - accall))) by (f_equal; ring). apply (affine_limit T (fun _ => accp) (1 - accall) accp); [lra|exact T_step|apply is_lim_seq_const].
  Qed.
  Lemma T_limit_S : is_lim_seq (fun n => T (S n)) (accp / accall).
  Proof. apply (is_lim_seq_incr_1 T). apply T_limit. Qed.
  (** the share of the tail up to y *)
  Definition PsiP (y : R) : R := Psi (Rmax 0 (y - r)).
  Lemma accp_low y : (forall v a, fvalue v a -> a < y -> p v = true) -> PsiP y - 4 / 10 ^ 13 <= accp.
  Proof.
    intros P1. pose proof small53 as S3. destruct inv53 as [I3 _]. pose proof accp_range as A0. unfold PsiP. set (s := y - r - 2 / 10 ^ 14). destruct (Rle_or_lt 0 s) as [C|C].
    - assert (M : mean53 (summand s) <= mean53 (fun k => ind (p (tval k)) * c k + 21 / 10 ^ 14)).
      { apply mean53_le. intros k Hk. pose proof (c_range math_log k) as CR. pose proof (ind_range (p (tval k))) as IR. destruct (N.eq_dec k 0) as [->|K0]; [change (summand s 0) with 0; pose proof (Rmult_le_pos _ _ (proj1 IR) (proj1 CR)); lra|].
        rewrite M53_eq in Hk. pose proof (c_value math_log AL k ltac:(lia)) as CV. apply Rabs_le_inv in CV. unfold summand. replace (k =? 0)%N with false by (symmetry; apply N.eqb_neq; lia). case Rle_bool_spec; intros D.
        - destruct (tval_near math_log AL k ltac:(lia)) as (v & V & DV). apply Rabs_le_inv in DV. rewrite (P1 _ _ V) by (unfold s in D; lra). cbn [ind]. lra.
        - cbn [ind]. pose proof (Rmult_le_pos _ _ (proj1 IR) (proj1 CR)). lra. }
      rewrite mean53_plus, mean53_const in M. fold accp in M. pose proof (Psi_sum s C) as S. unfold Rdiv in S. rewrite I3 in S. apply Rabs_le_inv in S. assert (D : 0 <= s <= Rmax 0 (y - r)) by (split; [exact C|apply Rle_trans with (2 := Rmax_r _ _); unfold s; lra]).
      pose proof (Psi_lip s (Rmax 0 (y - r)) D) as L. rewrite (Rmax_right 0 (y - r)) in * by (unfold s in C; lra). replace (y - r - s) with (2 / 10 ^ 14) in L by (unfold s; ring). lra.
    - pose proof (Psi_lip 0 (Rmax 0 (y - r)) ltac:(split; [lra|apply Rmax_l])) as L. rewrite Psi_0 in L. assert (Rmax 0 (y - r) <= 2 / 10 ^ 14) by (apply Rmax_lub; unfold s in C; lra). lra.
  Qed.
  Lemma accp_high y : (forall v a, fvalue v a -> p v = true -> a <= y) -> accp <= PsiP y + 4 / 10 ^ 13.
  Proof.
    intros P2. pose proof small53 as S3. destruct inv53 as [I3 _]. unfold PsiP. set (s := Rmax 0 (y - r + 2 / 10 ^ 14)). assert (S0 : 0 <= s) by apply Rmax_l.
    assert (M : accp <= mean53 (fun k => summand s k + 21 / 10 ^ 14) + / IZR (2 ^ 53)).
    { apply mean53_first.
      - intros k Hk. pose proof (c_range math_log k) as CR. pose proof (summand_le s k) as SL. destruct (p (tval k)) eqn:Ep; cbn [ind]; [|lra]. rewrite M53_eq in Hk.
        destruct (tval_near math_log AL k Hk) as (v & V & DV). apply Rabs_le_inv in DV. pose proof (P2 _ _ V Ep) as B. pose proof (c_value math_log AL k Hk) as CV. apply Rabs_le_inv in CV.
        unfold summand. replace (k =? 0)%N with false by (symmetry; apply N.eqb_neq; lia). rewrite Rle_bool_true; [cbn [ind]; lra|]. unfold s. apply Rle_trans with (2 := Rmax_r _ _). lra.
      - change (summand s 0) with 0. pose proof (c_range math_log 0) as CR. pose proof (ind_range (p (tval 0))) as IR. assert (ind (p (tval 0)) * c 0 <= 1 * 1) by (apply Rmult_le_compat; lra). lra. }
    rewrite mean53_plus, mean53_const in M. pose proof (Psi_sum s S0) as S. unfold Rdiv in S. rewrite I3 in *. apply Rabs_le_inv in S.
    assert (D : 0 <= Rmax 0 (y - r) <= s) by (split; [apply Rmax_l|apply Rle_max_compat_l; lra]). pose proof (Psi_lip _ _ D) as L.
    assert (s - Rmax 0 (y - r) <= 2 / 10 ^ 14) by (unfold s, Rmax; repeat destruct Rle_dec; lra). lra.
  Qed.
  Lemma accp_full : (forall v a, fvalue v a -> 0 < a -> p v = true) -> accall - / IZR (2 ^ 53) <= accp.
  Proof.
    intros P. assert (accall <= accp + / IZR (2 ^ 53)); [|lra]. unfold accall, accp. apply mean53_first.
    - intros k Hk. rewrite M53_eq in Hk. destruct (tval_near math_log AL k Hk) as (v & V & DV). apply Rabs_le_inv in DV. pose proof r_range. pose proof (q_pos k ltac:(rewrite M53_eq; lia)). rewrite (P _ _ V) by lra. cbn [ind]. lra.
    - pose proof (c_range math_log 0) as CR. pose proof (ind_range (p (tval 0))) as IR. pose proof (Rmult_le_pos _ _ (proj1 IR) (proj1 CR)). lra.
  Qed.
  End Event.
  Lemma accp_negb p : accp (fun v => negb (p v)) = accall - accp p.
  Proof.
    unfold accp, accall. rewrite (mean53_ext (fun k => ind (negb (p (tval k))) * c k) (fun k => c k + (-1) * (ind (p (tval k)) * c k))) by (intros k _; destruct (p (tval k)); cbn; ring). rewrite mean53_plus, mean53_scal. ring.
  Qed.
  (** the limit in terms of the area *)
  Definition share (y : R) : R := (G (Rmax r y) - G r) / (Ginf - G r).
  Lemma area_pos : 0 < Ginf - G r.
  Proof. pose proof PsiInf_big as B. unfold PsiInf in B. pose proof r_range as R. pose proof (exp_pos (r ^ 2 / 2)) as P. assert (Q : 0 < r * exp (r ^ 2 / 2)) by (apply Rmult_lt_0_compat; lra). destruct (Rlt_or_le 0 (Ginf - G r)) as [C|C]; [exact C|exfalso]. assert (r * exp (r ^ 2 / 2) * (Ginf - G r) <= r * exp (r ^ 2 / 2) * 0) by (apply Rmult_le_compat_l; lra). lra. Qed.
  Lemma share_Psi y : share y = PsiP y / PsiInf.
  Proof.
    unfold share, PsiP, PsiInf, Psi. replace (r + Rmax 0 (y - r)) with (Rmax r y) by (unfold Rmax; repeat destruct Rle_dec; lra). pose proof area_pos as A. pose proof r_range as R. pose proof (exp_pos (r ^ 2 / 2)) as P. set (e := exp (r ^ 2 / 2)) in *. clearbody e. set (rr := r) in *. clearbody rr. field. repeat split; lra.
  Qed.
  Lemma share_range y : 0 <= share y <= 1.
  Proof.
    rewrite share_Psi. pose proof PsiInf_big as B. unfold PsiP. set (s := Rmax 0 (y - r)). assert (S0 : 0 <= s) by apply Rmax_l. pose proof (Psi_le_1 s S0). pose proof (Psi_below s S0). split.
    - apply Rmult_le_pos; [lra|left; apply Rinv_0_lt_compat; lra].
    - apply Rmult_le_reg_r with PsiInf; [lra|]. unfold Rdiv. rewrite Rmult_assoc, Rinv_l by lra. lra.
  Qed.
  Lemma ratio_close a b A B e : 0 < B -> 49 / 100 <= A -> Rabs (A - B) <= e -> 0 <= b <= B -> b - e <= a -> b / B - 5 * e <= a / A.
  Proof.
    intros HB HA D Hb H. apply Rabs_le_inv in D. assert (E0 : 0 <= e) by lra. apply Rmult_le_reg_r with (A * B); [apply Rmult_lt_0_compat; lra|]. replace ((b / B - 5 * e) * (A * B)) with (b * A - 5 * e * A * B) by (field; lra). replace (a / A * (A * B)) with (a * B) by (field; lra).
    assert (b * (A - B) <= b * e) by (apply Rmult_le_compat_l; lra). assert (b * e <= B * e) by (apply Rmult_le_compat_r; lra). assert ((b - e) * B <= a * B) by (apply Rmult_le_compat_r; lra).
    assert (2 * (e * B) <= 5 * A * (e * B)) by (apply Rmult_le_compat_r; [apply Rmult_le_pos; lra|lra]). lra.
  Qed.
  Lemma ratio_close' a b A B e : 0 < B -> 49 / 100 <= A -> Rabs (A - B) <= e -> 0 <= b <= B -> a <= b + e -> a / A <= b / B + 5 * e.
  Proof.
    intros HB HA D Hb H. apply Rabs_le_inv in D. assert (E0 : 0 <= e) by lra. apply Rmult_le_reg_r with (A * B); [apply Rmult_lt_0_compat; lra|]. replace ((b / B + 5 * e) * (A * B)) with (b * A + 5 * e * A * B) by (field; lra). replace (a / A * (A * B)) with (a * B) by (field; lra).
    assert (b * (B - A) <= b * e) by (apply Rmult_le_compat_l; lra). assert (b * e <= B * e) by (apply Rmult_le_compat_r; lra). assert (a * B <= (b + e) * B) by (apply Rmult_le_compat_r; lra).
    assert (2 * (e * B) <= 5 * A * (e * B)) by (apply Rmult_le_compat_r; [apply Rmult_le_pos; lra|lra]). lra.
  Qed.
  Lemma PsiP_range y : 0 <= PsiP y <= PsiInf.
  Proof. unfold PsiP. assert (S0 : 0 <= Rmax 0 (y - r)) by apply Rmax_l. pose proof (Psi_le_1 _ S0). pose proof (Psi_below _ S0). lra. Qed.
  Lemma T_low p y : (forall v a, fvalue v a -> a < y -> p v = true) -> share y - 2 / 10 ^ 12 <= accp p / accall.
  Proof.
    intros H. rewrite share_Psi. replace (2 / 10 ^ 12) with (5 * (4 / 10 ^ 13)) by field. apply ratio_close; [pose proof PsiInf_big; lra|apply accall_big| |apply PsiP_range|now apply accp_low]. pose proof accall_value. lra.
  Qed.
  Lemma T_high p y : (forall v a, fvalue v a -> p v = true -> a <= y) -> accp p / accall <= share y + 2 / 10 ^ 12.
  Proof.
    intros H. rewrite share_Psi. replace (2 / 10 ^ 12) with (5 * (4 / 10 ^ 13)) by field. apply ratio_close'; [pose proof PsiInf_big; lra|apply accall_big| |apply PsiP_range|now apply accp_high]. pose proof accall_value. lra.
  Qed.
  Lemma T_full p : (forall v a, fvalue v a -> 0 < a -> p v = true) -> 1 - 1 / 10 ^ 15 <= accp p / accall.
  Proof.
    intros H. pose proof (accp_full p H) as A. pose proof accall_big as B. pose proof small53 as S3. rewrite (proj1 inv53) in A. apply Rmult_le_reg_r with accall; [lra|]. unfold Rdiv at 2. rewrite Rmult_assoc, Rinv_l by lra. lra.
  Qed.
  Lemma T_range p : 0 <= accp p / accall <= 1.
  Proof.
    pose proof (accp_range p) as A. pose proof accall_big as B. split; [apply Rmult_le_pos; [lra|left; apply Rinv_0_lt_compat; lra]|]. apply Rmult_le_reg_r with accall; [lra|]. unfold Rdiv. rewrite Rmult_assoc, Rinv_l by lra. lra.
  Qed.
  Lemma T_negb p : accp (fun v => negb (p v)) / accall = 1 - accp p / accall.
  Proof. rewrite accp_negb. pose proof accall_big. field. lra. Qed.
End Law.
