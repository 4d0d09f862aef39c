(** The distribution of the normal ziggurat. *)
From Coq Require Import Reals Lia Lra Psatz ZifyN ZifyNat Bool.
From Coquelicot Require Import Coquelicot.
From Flocq Require Import Core BinarySingleNaN.
From Verif Require Import Model.Base Model.Rng Model.Float Model.Distr Model.Ziggurat Model.ExpoTable Model.NormalTable Model.ExpoNormal Spec.Common Spec.Floats Spec.Zig Spec.Tails Spec.Density Spec.Prob.
From Verif Require Import Proofs.FloatProofs Proofs.RelError Proofs.ZigTables Proofs.SumN Proofs.Riemann Proofs.ZigAccept Proofs.ZigBody Proofs.ZigStep Proofs.ZigFloat Proofs.ZigInst Proofs.ZigTape Proofs.ZigHit Proofs.ZigMirror Proofs.ExpoLaw Proofs.Gauss Proofs.NormalInst Proofs.NormalTail Proofs.NormalTailLaw Props.Uniform Props.Zig Props.ExpoNormal Props.Tails Props.Density.
Local Open Scope R_scope.

(** for every choice of the compiler which x*y + z to fuse (Model/Fused.v) *)
Section Compiler.
Context {fpc : compiler}.

Lemma normal_strip : strip_ok (map (scale 112) normalW_bin) (map (scale 68) normalF_bin) 1250 1260 = true.
Proof. vm_cast_no_check (eq_refl true). Qed.

Section Law.
  Variables math_exp math_log : float64 -> float64.
  Hypothesis (AE : accurate_exp math_exp) (AL : accurate_log math_log).
  Definition zn (tf : nat) : Ziggurat (list N) := normalZig tape math_exp math_log tf.
  Notation z := (zn 0).
  Lemma ZF : zig_for z normal_density. Proof. now apply normal_zig_for. Qed.
  Lemma EVEN x : zPDF z (fneg x) = zPDF z x.
  Proof. change (normalPDF math_exp (fneg x) = normalPDF math_exp x). unfold normalPDF. now rewrite !fmul_opp_r, fmul_opp_l, fneg_invol. Qed.
  Notation R' := (edge z 1023).
  Notation V := (strip z).
  Lemma n_strip : 125 / 100 <= 1024 * V <= 126 / 100.
  Proof.
    assert (EH : forall i, (i < 1024)%nat -> edge z i = IZR (nz (map (scale 112) normalW_bin) i) / IZR (2 ^ 59) /\ height z i = IZR (nz (map (scale 68) normalF_bin) i) / IZR (2 ^ 68)).
    { intros i Hi. destruct (normal_edge tape math_exp math_log 0 i Hi) as (A & B & _). auto. }
    pose proof (strip_gen z _ _ 1250 1260 EH normal_strip). lra.
  Qed.
  Definition Cc : R := / (1024 * V).
  Lemma Cc_range : 79 / 100 <= Cc <= 81 / 100.
  Proof. pose proof n_strip as S. unfold Cc. split; (apply Rmult_le_reg_l with (1024 * V); [lra|]; rewrite Rinv_r by lra; lra). Qed.
  Lemma start : 0 <= R' - r <= 5 / 10 ^ 15. Proof. apply (C35_normal_tail_start tape math_exp math_log 0). Qed.
  Lemma n_body x : 0 <= x -> Rabs (zig_body z x - G (Rmin x R') * Cc) <= 35 / 10 ^ 13.
  Proof. intros Hx. exact (zig_body_prob z normal_density ZF x Hx). Qed.
  Notation o := (outside zn).
  Notation o' := (outside' zn).
  Lemma o_value : Rabs (o - (Ginf - G R') * Cc) <= 1 / 10 ^ 15.
  Proof.
    destruct (C60_normal_base tape math_exp math_log 0) as (A & [_ HA] & B0). change (normalZig tape math_exp math_log 0) with z in HA, B0.
    assert (EA : A = Ginf - G R').
    { apply is_lim_unique in HA. assert (L : is_lim (fun T => RInt normal_density R' T) p_infty (Ginf - G R')). { apply (is_lim_ext (fun T => G T - G R')); [intros T; now rewrite G_chasles|]. apply (is_lim_minus' G (fun _ => G R')); [apply G_lim|apply is_lim_const]. }
      apply is_lim_unique in L. rewrite HA in L. congruence. }
    rewrite <- EA. clear HA EA. destruct (zf_base z _ ZF) as [_ B]. pose proof (C60_normal_heights tape math_exp math_log 0 1023 ltac:(lia)) as H. change (normalZig tape math_exp math_log 0) with z in H.
    pose proof start as ST. pose proof r_range as RR. pose proof (zf_16 z _ ZF) as E16. destruct (edge_pos z _ ZF 1023 ltac:(lia)) as [PR PH]. unfold outside, Cc, strip.
    rewrite edge_small in B. pose proof P53 as PP. pose proof small53 as S3. replace (NR (tK z 0) / IZR (2 ^ 53)) with (NR (tK z 0) * / 2 ^ 53) by (unfold Rdiv; now rewrite (proj1 inv53)).
    pose proof (edge_le0 z _ ZF 1023 ltac:(lia)) as E01. pose proof (density_pos R') as DP.
    set (k := NR (tK z 0)) in *. set (d := normal_density R') in *. set (h := height z 1023) in *. set (x := edge z 0) in *. set (i3 := / 2 ^ 53) in *. set (R1 := R') in *. set (rr := r) in *. clearbody k d h x i3 R1 rr.
    assert (B' : Rabs (k * i3 - R1 / x) <= 3 * i3).
    { assert (E : k * i3 - R1 / x = (k * (x * i3) - R1) * / x) by (field; lra). rewrite E, Rabs_mult, (Rabs_pos_eq (/ x)) by (left; apply Rinv_0_lt_compat; lra). apply Rmult_le_reg_r with x; [lra|]. rewrite Rmult_assoc, Rinv_l by lra. lra. }
    apply Rabs_le_inv in B'. apply Rabs_le_inv in B0. apply Rabs_le_inv in H.
    assert (AH : Rabs ((x - R1) * h - A) <= 1 / 10 ^ 13 * h).
    { assert ((x - R1) * (h - d) <= 12 * (2 / 10 ^ 15 * d)) by (apply Rle_trans with ((x - R1) * (2 / 10 ^ 15 * d)); [apply Rmult_le_compat_l; lra|apply Rmult_le_compat_r; lra]).
      assert ((x - R1) * (d - h) <= 12 * (2 / 10 ^ 15 * d)) by (apply Rle_trans with ((x - R1) * (2 / 10 ^ 15 * d)); [apply Rmult_le_compat_l; lra|apply Rmult_le_compat_r; lra]). apply Rabs_le. lra. }
    assert (E : (1 - k * i3) / 1024 - A * / (1024 * (x * h)) = (R1 / x - k * i3) / 1024 + ((x - R1) * h - A) * (/ h * (/ x * / 1024))) by (field; lra).
    assert (IX : 0 < / x <= 1 / 3). { split; [apply Rinv_0_lt_compat; lra|]. replace (1 / 3) with (/ 3) by field. apply Rinv_le_contravar; lra. }
    assert (Q : Rabs (((x - R1) * h - A) * (/ h * (/ x * / 1024))) <= 1 / 10 ^ 13 * (1 / 3 * / 1024)).
    { rewrite Rabs_mult. pose proof (Rinv_0_lt_compat h PH) as IH. rewrite (Rabs_pos_eq (/ h * _)) by (apply Rmult_le_pos; lra). apply Rle_trans with (1 / 10 ^ 13 * h * (/ h * (1 / 3 * / 1024))); [|right; field; lra].
      apply Rmult_le_compat; [apply Rabs_pos|apply Rmult_le_pos; lra|exact AH|apply Rmult_le_compat_l; lra]. }
    rewrite E. apply Rabs_le_inv in Q. apply Rabs_le. lra.
  Qed.
  Lemma o_range : 0 <= o <= 1 / 1024 /\ o <= o' <= o + 1 / 10 ^ 18.
  Proof.
    split.
    - rewrite (outside_mean zn normal_density ZF). pose proof (mean53_range (fun m => 1 - ind (m <? tK z 0)%N) ltac:(intros; pose proof (ind_range (u <? tK z 0)%N); lra)). lra.
    - unfold outside'. pose proof small53. rewrite (proj1 inv53). lra.
  Qed.
  Definition den : R := 1 - miss (ins zn) tl (below zn).
  Lemma den_split : Rabs (den - (zig_body z 16 + (o + o') / 2)) <= / 2 ^ 53.
  Proof.
    pose proof (total (ins zn) tl (below zn)) as T. fold (tail_mass zn) in T. rewrite (tail_mass_mirrored zn normal_density ZF eq_refl) in T. rewrite <- (hit_all_mirrored zn) in T.
    pose proof (hit_mirrored zn normal_density ZF eq_refl EVEN (fun _ => true)) as H. change (qp zn (fun _ => true)) with (fun _ _ : N => true) in H. change (qm zn (fun _ => true)) with (fun _ _ : N => true) in H. rewrite (part_true zn normal_density ZF) in H.
    rewrite (proj1 inv53) in H. unfold den. apply Rabs_le_inv in H. apply Rabs_le. lra.
  Qed.
  Lemma R_16 : R' <= 16. Proof. pose proof (zf_16 z _ ZF). pose proof (edge_le0 z _ ZF 1023 ltac:(lia)). lra. Qed.
  Lemma R_4 : 4 <= R'. Proof. pose proof start. pose proof r_range. lra. Qed.
  Lemma den_value : Rabs (den - Ginf * Cc) <= 36 / 10 ^ 13.
  Proof.
    pose proof den_split as D. pose proof o_value as O. pose proof o_range as [O1 O2]. pose proof (n_body 16 ltac:(lra)) as B. rewrite Rmin_right in B by apply R_16. pose proof small53 as S3.
    apply Rabs_le_inv in D. apply Rabs_le_inv in O. apply Rabs_le_inv in B. apply Rabs_le. lra.
  Qed.
  Lemma den_big : 78 / 100 <= den.
  Proof. pose proof den_value as D. pose proof Ginf_pos as P. pose proof Cc_range as C. apply Rabs_le_inv in D. assert (1 * Cc <= Ginf * Cc) by (apply Rmult_le_compat_r; lra). lra. Qed.
  (** the probability of an event in terms of one round *)
  Notation hitp p := (hit (ins zn) tl (le zn p) (below zn)).
  Notation tlim p := (accp math_log p / accall math_log).
  Definition numer (p : float64 -> bool) : R := hitp p + (o * tlim p + o' * tlim (fun v => p (fneg v))) / 2.
  Definition Q (p : float64 -> bool) : R := numer p / den.
  Lemma tails_limit p : is_lim_seq (tails (ins zn) tl (TE zn p)) ((o * tlim p + o' * tlim (fun v => p (fneg v))) / 2).
  Proof.
    apply is_lim_seq_ext with (fun n => (o * T math_log p (S n) + o' * T math_log (fun v => p (fneg v)) (S n)) / 2).
    - intros n. rewrite (tails_mirrored zn normal_density ZF eq_refl p n). reflexivity.
    - unfold Rdiv. apply (is_lim_seq_scal_r _ (/ 2) (o * (accp math_log p * / accall math_log) + o' * (accp math_log (fun v => p (fneg v)) * / accall math_log))).
      apply is_lim_seq_plus'; [apply (is_lim_seq_scal_l (fun n => T math_log p (S n)) o (tlim p))|apply (is_lim_seq_scal_l (fun n => T math_log (fun v => p (fneg v)) (S n)) o' (tlim (fun v => p (fneg v))))]; apply T_limit_S; exact AL.
  Qed.
  Lemma normal_draw (p : float64 -> bool) (P : float64 -> Prop) : (forall v, p v = true <-> P v) -> draw_prob (fun fuel ws => GenNext tape (zn fuel) fuel ws) P (Q p).
  Proof.
    intros HP. apply (draw_limit zn).
    - apply (tables_full z (zf_tables z _ ZF)).
    - intros a. auto.
    - intros a b w x Hab. apply tail_mono. exact Hab.
    - intros a w x. apply tail_bound.
    - exact HP.
    - pose proof den_big. unfold den in *. lra.
    - apply tails_limit.
  Qed.
  (** values of the points *)
  Lemma point_val i m : (i < 1024)%N -> (m <= 2 ^ 53)%N -> exists v, fvalue (pointf z (N.to_nat i) m) v /\ 0 <= v <= 16 /\ pointv z i m = v.
  Proof. intros Hi Hm. destruct (pointf_value z _ ZF (N.to_nat i) m ltac:(lia) Hm) as (v & Vv & _ & B & _). exists v. split; [exact Vv|]. split; [exact B|]. unfold pointv. exact (proj2 Vv). Qed.
  Lemma fneg_val v a : fvalue v a -> fvalue (fneg v) (- a).
  Proof. intros [F <-]. split; [unfold fneg; now rewrite is_finite_Bopp|]. unfold fneg. apply B2R_Bopp. Qed.
  Lemma qp_low p x : 0 <= x -> (forall v a, fvalue v a -> a < x -> p v = true) -> G (Rmin x R') * Cc - 36 / 10 ^ 13 <= part zn (qp zn p).
  Proof.
    intros Hx P1. pose proof Cc_range as C. pose proof R_4 as R4. destruct (Rle_or_lt (1 / 10 ^ 15) x) as [D|D].
    - set (y := x - 1 / 10 ^ 15). assert (Hy : 0 <= y) by (unfold y; lra). pose proof (n_body y Hy) as B. rewrite (zig_body_part zn) in B. apply Rabs_le_inv in B.
      assert (L : part zn (fun i m => Rle_bool (pointv z i m) y) <= part zn (qp zn p)).
      { apply (part_le zn normal_density ZF). intros i m Hi Hm. destruct (point_val i m Hi Hm) as (v & Vv & _ & ->). case Rle_bool_spec; [|discriminate]. intros Hv _. apply (P1 _ _ Vv). unfold y in Hv. lra. }
      assert (LIP : G (Rmin x R') - G (Rmin y R') <= 1 / 10 ^ 15). { assert (M : 0 <= Rmin y R' <= Rmin x R') by (split; [apply Rmin_glb; lra|apply Rle_min_compat_r; unfold y; lra]). pose proof (G_lip _ _ (proj2 M)) as GL. assert (Rmin x R' - Rmin y R' <= 1 / 10 ^ 15) by (unfold y, Rmin; repeat destruct Rle_dec; unfold y in *; lra). lra. }
      assert ((G (Rmin x R') - G (Rmin y R')) * Cc <= 1 / 10 ^ 15 * Cc) by (apply Rmult_le_compat_r; lra). lra.
    - assert (0 <= part zn (qp zn p)). { apply Rle_trans with (part zn (fun _ _ => false)); [right|apply (part_le zn normal_density ZF); discriminate]. unfold part. cbn [ind]. rewrite (sumN_ext _ (fun _ => 0)) by (intros; rewrite (mean53_ext _ (fun _ => 0)) by (intros; ring); apply mean53_const). rewrite !sumN_const. unfold Rdiv. ring. }
      assert (M : 0 <= Rmin x R') by (apply Rmin_glb; lra). pose proof (G_lip _ _ M) as GL. rewrite G_0 in GL. pose proof (Rmin_l x R') as ML. assert (G (Rmin x R') * Cc <= 1 / 10 ^ 15 * Cc) by (apply Rmult_le_compat_r; lra). lra.
  Qed.
  Lemma qp_high p x : 0 <= x -> (forall v a, fvalue v a -> p v = true -> a <= x) -> part zn (qp zn p) <= G (Rmin x R') * Cc + 36 / 10 ^ 13.
  Proof.
    intros Hx P2. pose proof (n_body x Hx) as B. rewrite (zig_body_part zn) in B. apply Rabs_le_inv in B.
    assert (L : part zn (qp zn p) <= part zn (fun i m => Rle_bool (pointv z i m) x)).
    { apply (part_le zn normal_density ZF). intros i m Hi Hm E. destruct (point_val i m Hi Hm) as (v & Vv & _ & ->). apply Rle_bool_true. now apply (P2 _ _ Vv). }
    lra.
  Qed.
  Lemma qm_low p : (forall v a, fvalue v a -> a < 0 -> p v = true) -> G R' * Cc - 71 / 10 ^ 13 <= part zn (qm zn p).
  Proof.
    intros P1. pose proof R_4 as R4. pose proof (n_body 0 ltac:(lra)) as B. rewrite (zig_body_part zn), Rmin_left, G_0, Rmult_0_l in B by lra. pose proof (n_body 16 ltac:(lra)) as B16. rewrite <- (part_true zn normal_density ZF), Rmin_right in B16 by apply R_16.
    assert (L : part zn (fun i m => negb (Rle_bool (pointv z i m) 0)) <= part zn (qm zn p)).
    { apply (part_le zn normal_density ZF). intros i m Hi Hm. destruct (point_val i m Hi Hm) as (v & Vv & _ & ->). case Rle_bool_spec; [discriminate|]. intros Hv _. apply (P1 _ (- v)); [now apply fneg_val|lra]. }
    rewrite (part_negb zn normal_density ZF) in L. apply Rabs_le_inv in B. apply Rabs_le_inv in B16. lra.
  Qed.
  Lemma qm_high p : part zn (qm zn p) <= G R' * Cc + 36 / 10 ^ 13.
  Proof.
    pose proof (n_body 16 ltac:(lra)) as B16. rewrite <- (part_true zn normal_density ZF), Rmin_right in B16 by apply R_16. apply Rabs_le_inv in B16. assert (part zn (qm zn p) <= part zn (fun _ _ => true)) by (apply (part_le zn normal_density ZF); auto). lra.
  Qed.
  (** the area up to x is the body up to min x R and the tail beyond r *)
  Lemma area_split x : 0 <= x -> 0 <= G (Rmin x R') + (G (Rmax r x) - G r) - G x <= 5 / 10 ^ 15.
  Proof.
    intros Hx. pose proof start as ST. pose proof r_range as RR. unfold Rmin, Rmax. destruct (Rle_dec x R') as [c1|c1]; destruct (Rle_dec r x) as [c2|c2]; try lra.
    - pose proof (G_lip r x ltac:(lra)). pose proof (G_mono r x ltac:(lra)). lra.
    - pose proof (G_lip r R' ltac:(lra)). pose proof (G_mono r R' ltac:(lra)). lra.
  Qed.
  Lemma o_share x : Rabs (o * share x - (G (Rmax r x) - G r) * Cc) <= 1 / 10 ^ 14.
  Proof.
    pose proof o_value as O. pose proof (share_range x) as S. pose proof start as ST. pose proof r_range as RR. pose proof Cc_range as C. pose proof area_pos as AP. pose proof (G_lip r R' ltac:(lra)) as GL. pose proof (G_mono r R' ltac:(lra)) as GM.
    assert (E : G (Rmax r x) - G r = share x * (Ginf - G r)) by (unfold share; field; lra). rewrite E. apply Rabs_le_inv in O.
    replace (o * share x - share x * (Ginf - G r) * Cc) with (share x * ((o - (Ginf - G R') * Cc) - (G R' - G r) * Cc)) by ring. rewrite Rabs_mult, (Rabs_pos_eq (share x)) by lra.
    assert (0 <= (G R' - G r) * Cc <= 5 / 10 ^ 15 * 1) by (split; [apply Rmult_le_pos; lra|apply Rmult_le_compat; lra]).
    apply Rle_trans with (1 * (1 / 10 ^ 14)); [|lra]. apply Rmult_le_compat; [lra|apply Rabs_pos|lra|]. apply Rabs_le. lra.
  Qed.
  Definition PhiN (x : R) : R := / 2 + G x / (2 * Ginf).
  Lemma G_le_Ginf x : 0 <= x -> 0 <= G x <= Ginf.
  Proof. intros H. pose proof (G_pos x H). pose proof (G_Ginf x H). lra. Qed.
  Lemma PhiN_den x : 0 <= x -> Rabs (PhiN x * den - (G x + Ginf) * Cc / 2) <= 36 / 10 ^ 13.
  Proof.
    intros Hx. pose proof den_value as D. pose proof (G_le_Ginf x Hx) as GL. pose proof Ginf_pos as GP. assert (P : 0 <= PhiN x <= 1).
    { unfold PhiN. assert (0 <= G x / (2 * Ginf) <= / 2); [|lra]. split; [apply Rmult_le_pos; [lra|left; apply Rinv_0_lt_compat; lra]|]. apply Rmult_le_reg_r with (2 * Ginf); [lra|]. unfold Rdiv. rewrite Rmult_assoc, Rinv_l by lra. lra. }
    replace (PhiN x * den - (G x + Ginf) * Cc / 2) with (PhiN x * (den - Ginf * Cc)) by (unfold PhiN; field; lra). rewrite Rabs_mult, (Rabs_pos_eq (PhiN x)) by lra. apply Rle_trans with (1 * (36 / 10 ^ 13)); [|lra]. apply Rmult_le_compat; [lra|apply Rabs_pos|lra|exact D].
  Qed.
  Lemma lower_pos p x : 0 <= x -> (forall v a, fvalue v a -> a < x -> p v = true) -> PhiN x - 2 / 10 ^ 11 <= Q p.
  Proof.
    intros Hx P1. pose proof small53 as S3. pose proof (hit_mirrored zn normal_density ZF eq_refl EVEN p) as H. rewrite (proj1 inv53) in H. apply Rabs_le_inv in H.
    pose proof (qp_low p x Hx P1) as A1. pose proof (qm_low p ltac:(intros v a Vv Ha; apply (P1 _ _ Vv); lra)) as A2.
    pose proof (T_low math_log AL p x P1) as T1. pose proof (T_full math_log AL (fun v => p (fneg v)) ltac:(intros v a Vv Ha; apply (P1 _ _ (fneg_val _ _ Vv)); lra)) as T2.
    pose proof o_range as [O1 O2]. pose proof o_value as OV. apply Rabs_le_inv in OV. pose proof (o_share x) as OS. apply Rabs_le_inv in OS. pose proof (area_split x Hx) as AS. pose proof Cc_range as C. pose proof den_big as DB. pose proof (PhiN_den x Hx) as PD. apply Rabs_le_inv in PD.
    assert (B1 : o * (share x - 2 / 10 ^ 12) <= o * tlim p) by (apply Rmult_le_compat_l; lra). assert (B2 : o * (1 - 1 / 10 ^ 15) <= o' * tlim (fun v => p (fneg v))) by (apply Rmult_le_compat; lra).
    assert (B3 : o * (2 / 10 ^ 12) <= 1 * (2 / 10 ^ 12)) by (apply Rmult_le_compat_r; lra).
    assert (AC : G x * Cc <= (G (Rmin x R') + (G (Rmax r x) - G r)) * Cc) by (apply Rmult_le_compat_r; lra).
    assert (NU : (G x + Ginf) * Cc / 2 - 70 / 10 ^ 13 <= numer p) by (unfold numer; lra).
    unfold Q. apply Rmult_le_reg_r with den; [lra|]. unfold Rdiv at 2. rewrite Rmult_assoc, Rinv_l, Rmult_1_r by lra. lra.
  Qed.
  Lemma upper_pos p x : 0 <= x -> (forall v a, fvalue v a -> p v = true -> a <= x) -> Q p <= PhiN x + 2 / 10 ^ 11.
  Proof.
    intros Hx P2. pose proof small53 as S3. pose proof (hit_mirrored zn normal_density ZF eq_refl EVEN p) as H. rewrite (proj1 inv53) in H. apply Rabs_le_inv in H.
    pose proof (qp_high p x Hx P2) as A1. pose proof (qm_high p) as A2.
    pose proof (T_high math_log AL p x P2) as T1. pose proof (T_range math_log AL (fun v => p (fneg v))) as T2.
    pose proof o_range as [O1 O2]. pose proof o_value as OV. apply Rabs_le_inv in OV. pose proof (o_share x) as OS. apply Rabs_le_inv in OS. pose proof (area_split x Hx) as AS. pose proof Cc_range as C. pose proof den_big as DB. pose proof (PhiN_den x Hx) as PD. apply Rabs_le_inv in PD.
    assert (B1 : o * tlim p <= o * (share x + 2 / 10 ^ 12)) by (apply Rmult_le_compat_l; lra). assert (B2 : o' * tlim (fun v => p (fneg v)) <= o' * 1) by (apply Rmult_le_compat_l; lra).
    assert (B3 : o * (2 / 10 ^ 12) <= 1 * (2 / 10 ^ 12)) by (apply Rmult_le_compat_r; lra).
    assert (AC : (G (Rmin x R') + (G (Rmax r x) - G r)) * Cc <= (G x + 5 / 10 ^ 15) * Cc) by (apply Rmult_le_compat_r; lra).
    assert (NU : numer p <= (G x + Ginf) * Cc / 2 + 70 / 10 ^ 13) by (unfold numer; lra).
    unfold Q. apply Rmult_le_reg_r with den; [lra|]. unfold Rdiv at 1. rewrite Rmult_assoc, Rinv_l, Rmult_1_r by lra. lra.
  Qed.
  Lemma Q_mirror p : Rabs (Q p + Q (fun v => negb (p (fneg v))) - 1) <= 1 / 10 ^ 14.
  Proof.
    set (p' := fun v => negb (p (fneg v))). pose proof small53 as S3. pose proof (hit_mirrored zn normal_density ZF eq_refl EVEN p) as H. pose proof (hit_mirrored zn normal_density ZF eq_refl EVEN p') as H'.
    rewrite (part_ext zn (qp zn p') (fun i m => negb (qm zn p i m))) in H' by (intros; reflexivity). rewrite (part_ext zn (qm zn p') (fun i m => negb (qp zn p i m))) in H' by (intros; apply qm_neg). rewrite !(part_negb zn normal_density ZF) in H'.
    rewrite (proj1 inv53) in H, H'. apply Rabs_le_inv in H. apply Rabs_le_inv in H'. pose proof den_split as DS. rewrite <- (part_true zn normal_density ZF) in DS. apply Rabs_le_inv in DS. pose proof o_range as [O1 O2]. pose proof den_big as DB.
    assert (T1 : tlim p' = 1 - tlim (fun v => p (fneg v))) by (unfold p'; apply (T_negb math_log AL (fun v => p (fneg v)))).
    assert (T2 : tlim (fun v => p' (fneg v)) = 1 - tlim p). { rewrite <- (T_negb math_log AL p). f_equal. unfold accp. apply mean53_ext. intros k _. unfold p'. now rewrite fneg_invol. }
    pose proof (T_range math_log AL p) as R1. pose proof (T_range math_log AL (fun v => p (fneg v))) as R2.
    assert (E : numer p + numer p' - den = (hitp p + hitp p' - part zn (fun _ _ : N => true)) + (o' - o) * (tlim (fun v => p (fneg v)) - tlim p) / 2 - (den - (part zn (fun _ _ : N => true) + (o + o') / 2))).
    { unfold numer. rewrite T1, T2. field. pose proof (accall_big math_log AL). lra. }
    assert (BO : Rabs ((o' - o) * (tlim (fun v => p (fneg v)) - tlim p)) <= 1 / 10 ^ 18 * 1). { rewrite Rabs_mult. apply Rmult_le_compat; try apply Rabs_pos; apply Rabs_le; lra. } apply Rabs_le_inv in BO.
    assert (NE : Rabs (numer p + numer p' - den) <= 5 / 10 ^ 16) by (rewrite E; apply Rabs_le; lra).
    unfold Q. replace (numer p / den + numer p' / den - 1) with ((numer p + numer p' - den) * / den) by (field; lra). rewrite Rabs_mult, (Rabs_pos_eq (/ den)) by (left; apply Rinv_0_lt_compat; lra).
    apply Rmult_le_reg_r with den; [lra|]. rewrite Rmult_assoc, Rinv_l by lra. lra.
  Qed.
  Lemma PhiN_neg x : PhiN (- x) = 1 - PhiN x.
  Proof. unfold PhiN. rewrite G_odd. field. pose proof Ginf_pos. lra. Qed.
  Theorem normal_lower p x : (forall v a, fvalue v a -> a < x -> p v = true) -> PhiN x - 21 / 10 ^ 12 <= Q p.
  Proof.
    intros P1. destruct (Rle_or_lt 0 x) as [C|C]; [pose proof (lower_pos p x C P1); lra|]. pose proof (Q_mirror p) as M. apply Rabs_le_inv in M.
    pose proof (upper_pos (fun v => negb (p (fneg v))) (- x) ltac:(lra)) as U. rewrite PhiN_neg in U. cut (Q (fun v => negb (p (fneg v))) <= 1 - PhiN x + 2 / 10 ^ 11); [lra|]. apply U.
    intros v a Vv E. destruct (Rle_or_lt a (- x)) as [D|D]; [exact D|exfalso]. rewrite (P1 _ _ (fneg_val _ _ Vv)) in E by lra. discriminate E.
  Qed.
  Theorem normal_upper p x : (forall v a, fvalue v a -> p v = true -> a <= x) -> Q p <= PhiN x + 21 / 10 ^ 12.
  Proof.
    intros P2. destruct (Rle_or_lt 0 x) as [C|C]; [pose proof (upper_pos p x C P2); lra|]. pose proof (Q_mirror p) as M. apply Rabs_le_inv in M.
    pose proof (lower_pos (fun v => negb (p (fneg v))) (- x) ltac:(lra)) as U. rewrite PhiN_neg in U. cut (1 - PhiN x - 2 / 10 ^ 11 <= Q (fun v => negb (p (fneg v)))); [lra|]. apply U.
    intros v a Vv Ha. destruct (p (fneg v)) eqn:E; [exfalso|reflexivity]. pose proof (P2 _ _ (fneg_val _ _ Vv) E). lra.
  Qed.
End Law.
End Compiler.
