(** Facts about the float64 operations, from Flocq's correctness theorems. *)
From Coq Require Import Reals Lia Lra Psatz.
From Flocq Require Import Core BinarySingleNaN.
From Verif Require Import Model.Base Model.Float Spec.Floats.
Local Open Scope R_scope.

Lemma fexp_eq : SpecFloat.fexp 53 1024 = FLT_exp (-1074) 53.
Proof. reflexivity. Qed.
#[global] Instance valid_exp64 : Valid_exp (FLT_exp (-1074) 53).
Proof. apply (FLT_exp_valid (-1074) 53). Qed.
Lemma rnd_id x : representable x -> rnd x = x.
Proof. intros H. apply round_generic; [apply valid_rnd_N|exact H]. Qed.
Lemma rnd_le x y : x <= y -> rnd x <= rnd y.
Proof. apply round_le; [exact valid_exp64|apply valid_rnd_N]. Qed.
Lemma rnd_opp x : rnd (- x) = - rnd x.
Proof. apply round_NE_opp. Qed.
Lemma representable_int m e : (Z.abs m < 2 ^ 53)%Z -> (-1074 <= e)%Z -> representable (IZR m * bpow radix2 e).
Proof.
  intros Hm He. apply generic_format_FLT. exists (Float radix2 m e); auto.
Qed.
Lemma representable_B2R (x : float64) : representable (B2R x).
Proof. apply (generic_format_B2R 53 1024 x). Qed.
Lemma representable_0 : representable 0.
Proof. apply generic_format_0. Qed.
Lemma representable_opp x : representable x -> representable (- x).
Proof. apply generic_format_opp. Qed.
Lemma rnd_0 : rnd 0 = 0. Proof. apply rnd_id, representable_0. Qed.
Lemma rnd_ge x y : representable x -> x <= y -> x <= rnd y.
Proof. intros Hx H. rewrite <- (rnd_id x Hx). now apply rnd_le. Qed.
Lemma rnd_le_rep x y : representable y -> x <= y -> rnd x <= y.
Proof. intros Hy H. rewrite <- (rnd_id y Hy). now apply rnd_le. Qed.
Lemma rnd_abs_le x y : representable y -> Rabs x <= y -> Rabs (rnd x) <= y.
Proof.
  intros Hy H. apply Rabs_le. apply Rabs_le_inv in H. split.
  - apply rnd_ge; [now apply representable_opp|lra].
  - apply rnd_le_rep; [exact Hy|lra].
Qed.

Lemma bpow_emax_lt e : (e < 1024)%Z -> bpow radix2 e < fmax.
Proof. intros H. now apply bpow_lt. Qed.

Lemma mkfloat_exact s m e : (Z.abs m < 2 ^ 53)%Z -> (-1074 <= e <= 971)%Z ->
  B2R (mkfloat s m e) = IZR m * bpow radix2 e /\ is_finite (mkfloat s m e) = true /\
  Bsign (mkfloat s m e) = match m with Z0 => s | Zpos _ => false | Zneg _ => true end.
Proof.
  intros Hm He. unfold mkfloat.
  pose proof (binary_normalize_correct 53 1024 fprec_gt_0 fprec_lt_emax mode_NE m e s) as H. cbv zeta in H.
  assert (EF : F2R (Float radix2 m e) = IZR m * bpow radix2 e) by reflexivity.
  assert (ER : round radix2 (SpecFloat.fexp 53 1024) (round_mode mode_NE) (F2R (Float radix2 m e)) = IZR m * bpow radix2 e).
  { rewrite EF. apply (rnd_id (IZR m * bpow radix2 e)). apply representable_int; [exact Hm|lia]. }
  rewrite ER in H. rewrite Rlt_bool_true in H.
  - destruct H as (H1 & H2 & H3). split; [exact H1|]. split; [exact H2|]. rewrite H3, EF.
    pose proof (bpow_gt_0 radix2 e) as Hb. destruct m as [|p|p].
    + rewrite Rcompare_Eq; [reflexivity|]. lra.
    + rewrite Rcompare_Gt; [reflexivity|]. apply Rmult_lt_0_compat; [now apply IZR_lt|exact Hb].
    + rewrite Rcompare_Lt; [reflexivity|]. assert (IZR (Zneg p) < 0) by now apply IZR_lt. nra.
  - rewrite Rabs_mult, <- abs_IZR, (Rabs_pos_eq (bpow radix2 e)) by apply bpow_ge_0.
    apply Rlt_le_trans with (IZR (2 ^ 53) * bpow radix2 e).
    + apply Rmult_lt_compat_r; [apply bpow_gt_0|now apply IZR_lt].
    + change (IZR (2 ^ 53)) with (bpow radix2 53). rewrite <- bpow_plus. apply bpow_le. lia.
Qed.
Lemma of_int_exact z : (Z.abs z < 2 ^ 53)%Z -> B2R (of_int z) = IZR z /\ is_finite (of_int z) = true /\ Bsign (of_int z) = (z <? 0)%Z.
Proof.
  intros H. destruct (mkfloat_exact false z 0 H) as (H1 & H2 & H3); [lia|]. unfold of_int. rewrite H1, H2, H3. cbn [bpow]. rewrite Rmult_1_r.
  split; [reflexivity|]. split; [reflexivity|]. now destruct z.
Qed.

(** results of operations whose exact value is below 2^1024 in magnitude after rounding *)
Lemma fmul_R x y : is_finite x = true -> is_finite y = true -> Rabs (rnd (B2R x * B2R y)) < fmax ->
  B2R (fmul x y) = rnd (B2R x * B2R y) /\ is_finite (fmul x y) = true /\ Bsign (fmul x y) = xorb (Bsign x) (Bsign y).
Proof.
  intros Fx Fy H. pose proof (Bmult_correct 53 1024 fprec_gt_0 fprec_lt_emax mode_NE x y) as K.
  change (round radix2 (SpecFloat.fexp 53 1024) (round_mode mode_NE) (B2R x * B2R y)) with (rnd (B2R x * B2R y)) in K.
  rewrite Rlt_bool_true in K by exact H. destruct K as (K1 & K2 & K3). rewrite Fx, Fy in K2. unfold fmul. split; [exact K1|]. split; [exact K2|].
  apply K3. destruct (Bmult mode_NE x y); try reflexivity. discriminate K2.
Qed.
Lemma fmul_overflow x y : is_finite x = true -> is_finite y = true -> fmax <= Rabs (rnd (B2R x * B2R y)) ->
  fmul x y = B754_infinity (xorb (Bsign x) (Bsign y)).
Proof.
  intros Fx Fy H. pose proof (Bmult_correct 53 1024 fprec_gt_0 fprec_lt_emax mode_NE x y) as K.
  change (round radix2 (SpecFloat.fexp 53 1024) (round_mode mode_NE) (B2R x * B2R y)) with (rnd (B2R x * B2R y)) in K.
  rewrite Rlt_bool_false in K by exact H. apply B2SF_inj. exact K.
Qed.
Lemma fadd_R x y : is_finite x = true -> is_finite y = true -> Rabs (rnd (B2R x + B2R y)) < fmax ->
  B2R (fadd x y) = rnd (B2R x + B2R y) /\ is_finite (fadd x y) = true.
Proof.
  intros Fx Fy H. pose proof (Bplus_correct 53 1024 fprec_gt_0 fprec_lt_emax mode_NE x y Fx Fy) as K.
  change (round radix2 (SpecFloat.fexp 53 1024) (round_mode mode_NE) (B2R x + B2R y)) with (rnd (B2R x + B2R y)) in K.
  rewrite Rlt_bool_true in K by exact H. destruct K as (K1 & K2 & _). auto.
Qed.
Lemma fadd_overflow x y : is_finite x = true -> is_finite y = true -> fmax <= Rabs (rnd (B2R x + B2R y)) ->
  fadd x y = B754_infinity (Bsign x) /\ Bsign x = Bsign y.
Proof.
  intros Fx Fy H. pose proof (Bplus_correct 53 1024 fprec_gt_0 fprec_lt_emax mode_NE x y Fx Fy) as K.
  change (round radix2 (SpecFloat.fexp 53 1024) (round_mode mode_NE) (B2R x + B2R y)) with (rnd (B2R x + B2R y)) in K.
  rewrite Rlt_bool_false in K by exact H. destruct K as [K1 K2]. split; [|exact K2]. apply B2SF_inj. exact K1.
Qed.
Lemma fsub_R x y : is_finite x = true -> is_finite y = true -> Rabs (rnd (B2R x - B2R y)) < fmax ->
  B2R (fsub x y) = rnd (B2R x - B2R y) /\ is_finite (fsub x y) = true.
Proof.
  intros Fx Fy H. pose proof (Bminus_correct 53 1024 fprec_gt_0 fprec_lt_emax mode_NE x y Fx Fy) as K.
  change (round radix2 (SpecFloat.fexp 53 1024) (round_mode mode_NE) (B2R x - B2R y)) with (rnd (B2R x - B2R y)) in K.
  rewrite Rlt_bool_true in K by exact H. destruct K as (K1 & K2 & _). auto.
Qed.
Lemma fdiv_R x y : is_finite x = true -> B2R y <> 0 -> Rabs (rnd (B2R x / B2R y)) < fmax ->
  B2R (fdiv x y) = rnd (B2R x / B2R y) /\ is_finite (fdiv x y) = true /\ Bsign (fdiv x y) = xorb (Bsign x) (Bsign y).
Proof.
  intros Fx Hy H. pose proof (Bdiv_correct 53 1024 fprec_gt_0 fprec_lt_emax mode_NE x y Hy) as K.
  change (round radix2 (SpecFloat.fexp 53 1024) (round_mode mode_NE) (B2R x / B2R y)) with (rnd (B2R x / B2R y)) in K.
  rewrite Rlt_bool_true in K by exact H. destruct K as (K1 & K2 & K3). rewrite Fx in K2. unfold fdiv. split; [exact K1|]. split; [exact K2|].
  apply K3. destruct (Bdiv mode_NE x y); try reflexivity. discriminate K2.
Qed.
Lemma fdiv_overflow x y : is_finite x = true -> B2R y <> 0 -> fmax <= Rabs (rnd (B2R x / B2R y)) ->
  fdiv x y = B754_infinity (xorb (Bsign x) (Bsign y)).
Proof.
  intros Fx Hy H. pose proof (Bdiv_correct 53 1024 fprec_gt_0 fprec_lt_emax mode_NE x y Hy) as K.
  change (round radix2 (SpecFloat.fexp 53 1024) (round_mode mode_NE) (B2R x / B2R y)) with (rnd (B2R x / B2R y)) in K.
  rewrite Rlt_bool_false in K by exact H. apply B2SF_inj. exact K.
Qed.
Lemma flt_R x y : is_finite x = true -> is_finite y = true -> flt x y = Rlt_bool (B2R x) (B2R y).
Proof. intros. now apply Bltb_correct. Qed.
Lemma fle_R x y : is_finite x = true -> is_finite y = true -> fle x y = Rle_bool (B2R x) (B2R y).
Proof. intros. now apply Bleb_correct. Qed.
Lemma sign_R (x : float64) : is_finite x = true -> Bsign x = true -> B2R x <= 0.
Proof.
  destruct x as [s| |  |s m e H]; cbn; try discriminate; intros _ E; subst; [lra|]. apply F2R_le_0. cbn. lia.
Qed.
Lemma sign_R' (x : float64) : is_finite x = true -> Bsign x = false -> 0 <= B2R x.
Proof.
  destruct x as [s| |  |s m e H]; cbn; try discriminate; intros _ E; subst; [lra|]. apply F2R_ge_0. cbn. lia.
Qed.

(** rounding of a negated operand *)
Lemma round_aux_opp s m e l : binary_round_aux 53 1024 mode_NE (negb s) m e l = SpecFloat.SFopp (binary_round_aux 53 1024 mode_NE s m e l).
Proof.
  unfold binary_round_aux. destruct (SpecFloat.shr_fexp 53 1024 m e l) as [mrs' e'].
  change (choice_mode mode_NE (negb s)) with (choice_mode mode_NE s).
  destruct (SpecFloat.shr_fexp 53 1024 _ e' SpecFloat.loc_Exact) as [mrs'' e''].
  destruct (SpecFloat.shr_m mrs''); [reflexivity| |reflexivity]. unfold binary_fit_aux. destruct (e'' <=? 1024 - 53)%Z; reflexivity.
Qed.
Lemma B2SF_opp (x : float64) : B2SF (Bopp x) = SpecFloat.SFopp (B2SF x).
Proof. now destruct x. Qed.
Lemma fmul_opp_l x y : fmul (fneg x) y = fneg (fmul x y).
Proof.
  apply B2SF_inj. unfold fmul, fneg. rewrite B2SF_opp.
  destruct x as [sx|sx| |sx mx ex Hx], y as [sy|sy| |sy my ey Hy]; cbn [Bopp Bmult B2SF SpecFloat.SFopp]; try (now rewrite <- negb_xorb_l); try reflexivity.
  rewrite !B2SF_SF2B, <- negb_xorb_l. apply round_aux_opp.
Qed.
Lemma fmul_opp_r x y : fmul x (fneg y) = fneg (fmul x y).
Proof.
  apply B2SF_inj. unfold fmul, fneg. rewrite B2SF_opp.
  destruct x as [sx|sx| |sx mx ex Hx], y as [sy|sy| |sy my ey Hy]; cbn [Bopp Bmult B2SF SpecFloat.SFopp]; try (now rewrite <- negb_xorb_r); try reflexivity.
  rewrite !B2SF_SF2B, <- negb_xorb_r. apply round_aux_opp.
Qed.
Lemma fneg_invol x : fneg (fneg x) = x. Proof. apply Bopp_involutive. Qed.
Lemma of_int_opp z : (Z.abs z < 2 ^ 53)%Z -> z <> 0%Z -> of_int (- z) = fneg (of_int z).
Proof.
  intros H Hz. destruct (of_int_exact z H) as (A1 & A2 & A3). destruct (of_int_exact (- z)) as (B1 & B2 & B3); [lia|].
  apply (B2R_Bsign_inj 53 1024); [exact B2|unfold fneg; now rewrite is_finite_Bopp| |].
  - rewrite B1. unfold fneg. rewrite B2R_Bopp, A1. apply opp_IZR.
  - rewrite B3. unfold fneg. rewrite Bsign_Bopp, A3. destruct z; [contradiction|reflexivity|reflexivity].
    destruct (of_int z); try reflexivity; discriminate A2.
Qed.
(** If an integer mantissa m of 53 bits is nearer to the scaled literal than half a unit, the literal rounds to m * 2^e. *)
Lemma literal_round m e D K : (2 ^ 52 < m <= 2 ^ 53)%Z -> (-1074 <= e < 0)%Z -> (0 <= K)%Z ->
  (2 * Z.abs (D * 2 ^ (- e) - m * 10 ^ K) < 10 ^ K)%Z -> (D * 2 ^ (- e) < 2 ^ 53 * 10 ^ K)%Z ->
  rnd (IZR D / IZR (10 ^ K)) = IZR m * bpow radix2 e.
Proof.
  intros Hm He HK H HU.
  set (P := (10 ^ K)%Z) in *. assert (HP : (0 < P)%Z) by (apply Z.pow_pos_nonneg; lia).
  assert (Hb : bpow radix2 e * IZR (2 ^ (- e)) = 1).
  { change (2 ^ (- e))%Z with (Zpower radix2 (- e)). rewrite IZR_Zpower by lia. rewrite <- bpow_plus. replace (e + - e)%Z with 0%Z by lia. reflexivity. }
  set (T := (2 ^ (- e))%Z) in *. pose proof (bpow_gt_0 radix2 e) as Hbp. set (b := bpow radix2 e) in *.
  assert (HPr : 0 < IZR P) by now apply IZR_lt.
  set (x := IZR D / IZR P).
  assert (ED : x = IZR (D * T) * b / IZR P).
  { unfold x. rewrite mult_IZR. replace (IZR D * IZR T * b) with (IZR D * (b * IZR T)) by ring. rewrite Hb. field. lra. }
  assert (Hx : Rabs (x - IZR m * b) < b / 2).
  { assert (E : x - IZR m * b = IZR (D * T - m * P) * (b / IZR P)).
    { rewrite ED, minus_IZR, (mult_IZR m). field. lra. }
    assert (0 < b / IZR P) by (apply Rdiv_lt_0_compat; lra).
    rewrite E, Rabs_mult, (Rabs_pos_eq (b / IZR P)) by lra.
    rewrite <- abs_IZR. apply IZR_lt in H. rewrite mult_IZR in H.
    replace (b / 2) with (IZR P / 2 * (b / IZR P)) by (field; lra). apply Rmult_lt_compat_r; lra. }
  assert (HU' : x < IZR (2 ^ 53) * b).
  { rewrite ED. apply IZR_lt in HU. rewrite (mult_IZR (2 ^ 53) P) in HU.
    replace (IZR (2 ^ 53) * b) with (IZR (2 ^ 53) * IZR P * (b / IZR P)) by (field; lra).
    replace (IZR (D * T) * b / IZR P) with (IZR (D * T) * (b / IZR P)) by (field; lra).
    apply Rmult_lt_compat_r; [|exact HU]. apply Rdiv_lt_0_compat; lra. }
  assert (HL : IZR (2 ^ 52) * b <= x).
  { assert (IZR (2 ^ 52) + 1 <= IZR m) by (rewrite <- plus_IZR; apply IZR_le; lia). apply Rabs_def2 in Hx.
    assert ((IZR (2 ^ 52) + 1) * b <= IZR m * b) by (apply Rmult_le_compat_r; lra). lra. }
  unfold rnd, round.
  assert (Ec : cexp radix2 (FLT_exp (-1074) 53) x = e).
  { unfold cexp. rewrite (mag_unique radix2 x (e + 53)).
    - unfold FLT_exp. lia.
    - rewrite Rabs_pos_eq by (assert (0 < IZR (2 ^ 52)) by (now apply IZR_lt); apply Rle_trans with (2 := HL); apply Rmult_le_pos; lra).
      replace (e + 53 - 1)%Z with (52 + e)%Z by lia. replace (e + 53)%Z with (53 + e)%Z by lia. rewrite !bpow_plus. split; [exact HL|exact HU']. }
  unfold scaled_mantissa. rewrite Ec. unfold F2R. cbn [Fnum Fexp]. fold b. f_equal. f_equal. apply Znearest_imp.
  rewrite bpow_opp. fold b. apply Rmult_lt_reg_r with b; [exact Hbp|].
  replace (Rabs (x * / b - IZR m) * b) with (Rabs (x - IZR m * b)); [lra|].
  rewrite <- (Rabs_pos_eq b) at 3 by lra. rewrite <- Rabs_mult. f_equal. field. lra.
Qed.
(** decidable form; m = 2^52 is accepted when the literal is exact *)
Definition literal_ok (m e D K : Z) : bool :=
  ((0 <=? K) && (-1074 <=? e) && (e <? 0) && (m <? 2 ^ 53) &&
   (((2 ^ 52 <? m) && (2 * Z.abs (D * 2 ^ (- e) - m * 10 ^ K) <? 10 ^ K) && (D * 2 ^ (- e) <? 2 ^ 53 * 10 ^ K))
    || ((m =? 2 ^ 52) && (D * 2 ^ (- e) =? m * 10 ^ K))))%Z%bool.
Lemma literal_check m e D K : literal_ok m e D K = true -> is_literal (mkfloat false m e) D K.
Proof.
  unfold literal_ok. rewrite !Bool.andb_true_iff, Bool.orb_true_iff, !Bool.andb_true_iff, !Z.leb_le, !Z.ltb_lt, !Z.eqb_eq.
  intros ((((HK & He1) & He2) & Hm) & Hc).
  assert (Hm0 : (2 ^ 52 <= m)%Z) by (destruct Hc as [((H & _) & _)|(H & _)]; revert H; clear; lia).
  destruct (mkfloat_exact false m e) as (A1 & A2 & _); [lia|lia|].
  split; [exact A2|]. rewrite A1. symmetry. destruct Hc as [((H1 & H2) & H3)|(H1 & H2)].
  - apply literal_round; auto; lia.
  - rewrite <- (rnd_id (IZR m * bpow radix2 e)) at 1; [|apply representable_int; lia]. rewrite (rnd_id (IZR m * _)) by (apply representable_int; lia).
    replace (IZR D / IZR (10 ^ K)) with (IZR m * bpow radix2 e); [apply rnd_id, representable_int; lia|].
    assert (Hb : bpow radix2 e * IZR (2 ^ (- e)) = 1).
    { change (2 ^ (- e))%Z with (Zpower radix2 (- e)). rewrite IZR_Zpower by lia. rewrite <- bpow_plus. replace (e + - e)%Z with 0%Z by lia. reflexivity. }
    assert (HP : 0 < IZR (10 ^ K)) by (apply IZR_lt, Z.pow_pos_nonneg; lia).
    apply (f_equal IZR) in H2. rewrite !mult_IZR in H2. apply Rmult_eq_reg_r with (IZR (10 ^ K)); [|lra].
    replace (IZR D / IZR (10 ^ K) * IZR (10 ^ K)) with (IZR D) by (field; lra).
    replace (IZR m * bpow radix2 e * IZR (10 ^ K)) with (IZR m * IZR (10 ^ K) * bpow radix2 e) by ring. rewrite <- H2.
    replace (IZR D * IZR (2 ^ (- e)) * bpow radix2 e) with (IZR D * (bpow radix2 e * IZR (2 ^ (- e)))) by ring. rewrite Hb. ring.
Qed.
