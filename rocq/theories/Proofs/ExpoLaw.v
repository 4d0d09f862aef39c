(** The distribution of the exponential ziggurat. *)
From Coq Require Import Reals Lia Lra Psatz ZifyN ZifyNat Bool.
From Coquelicot Require Import Coquelicot.
From Flocq Require Import Core BinarySingleNaN.
From Verif Require Import Model.Base Model.Rng Model.Float Model.Distr Model.Ziggurat Model.ExpoTable Model.ExpoNormal Spec.Common Spec.Floats Spec.Zig Spec.Tails Spec.Density Spec.Prob.
From Verif Require Import Proofs.FloatProofs Proofs.RelError Proofs.ZigTables Proofs.SumN Proofs.Riemann Proofs.ZigAccept Proofs.ZigBody Proofs.ZigStep Proofs.ZigFloat Proofs.ZigInst Proofs.ZigTape Proofs.ZigHit Props.Uniform Props.Zig Props.ExpoNormal Props.Tails Props.Density.
Local Open Scope R_scope.

(** for every choice of the compiler which x*y + z to fuse (Model/Fused.v) *)
Section Compiler.
Context {fpc : compiler}.

(** 1024 strips have about the area 1.003 *)
Definition strip_ok (w f : list Z) (a b : Z) : bool := (a * 2 ^ 127 <=? 1000 * (1024 * (nz w 0 * nz f 1023)))%Z && (1000 * (1024 * (nz w 0 * nz f 1023)) <=? b * 2 ^ 127)%Z.
Lemma expo_strip : strip_ok (map (scale 112) expoW_bin) (map (scale 68) expoF_bin) 990 1010 = true.
Proof. vm_cast_no_check (eq_refl true). Qed.
Lemma strip_gen {W} (z : Ziggurat W) w f a b : (forall i, (i < 1024)%nat -> edge z i = IZR (nz w i) / IZR (2 ^ 59) /\ height z i = IZR (nz f i) / IZR (2 ^ 68)) ->
  strip_ok w f a b = true -> IZR a / 1000 <= 1024 * strip z <= IZR b / 1000.
Proof.
  intros EH. unfold strip_ok. rewrite andb_true_iff, !Z.leb_le. intros [C1 C2]. unfold strip. destruct (EH 0%nat ltac:(lia)) as [-> _]. destruct (EH 1023%nat ltac:(lia)) as [_ ->]. clear EH.
  generalize dependent (nz w 0). generalize dependent (nz f 1023). intros c d C1 C2. apply IZR_le in C1, C2. rewrite !mult_IZR in C1, C2.
  replace (IZR d / IZR (2 ^ 59) * (IZR c / IZR (2 ^ 68))) with (IZR d * IZR c / IZR (2 ^ 127)) by (change (IZR (2 ^ 127)) with (IZR (2 ^ 59 * 2 ^ 68)); rewrite mult_IZR; field; split; apply not_0_IZR; discriminate).
  change (IZR (2 ^ 127)) with (170141183460469231731687303715884105728) in *. set (q := IZR d * IZR c) in *. clearbody q. lra.
Qed.

Lemma lt_exp x y : 0 < x -> ln x < y -> x < exp y.
Proof. intros P H. rewrite <- (exp_ln x P). now apply exp_increasing. Qed.
Lemma ln_of_lt x y : 0 < x -> x < exp y -> ln x < y.
Proof. intros P H. rewrite <- (ln_exp y). now apply ln_increasing. Qed.

(** the fraction of uniforms whose transform r - ln u is at most x (inversion), with errors *)
Lemma inversion_count (b : N -> bool) (r x eta : R) : 0 <= eta <= 1 / 10 -> b 0%N = false ->
  (forall k, (0 < k < M53)%N -> b k = true -> r - ln (NR k / IZR (2 ^ 53)) <= x + eta) ->
  (forall k, (0 < k < M53)%N -> b k = false -> x - eta <= r - ln (NR k / IZR (2 ^ 53))) ->
  Rabs (mean53 (fun k => ind (b k)) - (1 - Rmin 1 (exp (r - x)))) <= 2 * eta + / IZR (2 ^ 53).
Proof.
  intros He B0 H1 H2. pose proof P53 as PP. pose proof (Rinv_0_lt_compat _ PP) as IP. set (e := exp (r - x)). pose proof (exp_pos (r - x)) as EP. fold e in EP.
  assert (UK : forall k, (0 < k)%N -> 0 < NR k / IZR (2 ^ 53)) by (intros k Hk; apply Rmult_lt_0_compat; [apply IZR_lt; lia|exact IP]).
  set (nb := fun k => negb (b k)). 
  assert (EI : mean53 (fun k => ind (b k)) = 1 - mean53 (fun k => ind (nb k))).
  { unfold mean53. rewrite (sumN_ext _ (fun k => 1 - ind (nb k))) by (intros k _; unfold nb; destruct (b k); cbn; ring). rewrite sumN_minus, sumN_const, NR_M53. field. lra. }
  assert (E0 : e * (1 - eta) <= exp (r - x - eta)).
  { replace (r - x - eta) with ((r - x) + - eta) by ring. rewrite exp_plus. fold e. apply Rmult_le_compat_l; [lra|]. pose proof (exp_ge_1plus (- eta)). lra. }
  assert (E1 : exp (r - x + eta) * (1 - eta) <= e).
  { assert (E : e = exp (r - x + eta) * exp (- eta)) by (unfold e; rewrite <- exp_plus; f_equal; ring). rewrite E at 1. apply Rmult_le_compat_l; [left; apply exp_pos|]. pose proof (exp_ge_1plus (- eta)). lra. }
  set (a0 := exp (r - x - eta)) in *. set (a1 := exp (r - x + eta)) in *.
  assert (L : Rmin (NR M53) (IZR (2 ^ 53) * a0) <= sumN (fun k => ind (nb k)) M53).
  { apply sumN_count_low. intros k Hk Hlo. unfold nb. destruct (N.eq_dec k 0) as [->|K0]; [now rewrite B0|]. destruct (b k) eqn:Bk; [exfalso|reflexivity]. specialize (H1 k ltac:(lia) Bk).
    assert (Q : NR k / IZR (2 ^ 53) < a0). { apply Rmult_lt_reg_l with (IZR (2 ^ 53)); [exact PP|]. replace (IZR (2 ^ 53) * (NR k / IZR (2 ^ 53))) with (NR k) by (field; lra). exact Hlo. }
    apply ln_of_lt in Q; [|apply UK; lia]. lra. }
  assert (U : sumN (fun k => ind (nb k)) M53 <= Rmax 0 (Rmin (NR M53) (IZR (2 ^ 53) * a1 + 1))).
  { pose proof (exp_pos (r - x + eta)) as A1. fold a1 in A1. apply sumN_count_high. intros k Hk Hb. destruct (N.eq_dec k 0) as [->|K0]; [change (NR 0) with 0; apply Rmult_le_pos; lra|]. unfold nb in Hb. apply negb_true_iff in Hb. specialize (H2 k ltac:(lia) Hb).
    assert (Q : NR k / IZR (2 ^ 53) <= a1).
    { destruct (Rle_or_lt (NR k / IZR (2 ^ 53)) a1) as [G|G]; [exact G|exfalso]. apply ln_increasing in G; [|exact A1]. unfold a1 in G. rewrite ln_exp in G. lra. }
    apply (Rmult_le_compat_l (IZR (2 ^ 53))) in Q; [|lra]. replace (IZR (2 ^ 53) * (NR k / IZR (2 ^ 53))) with (NR k) in Q by (field; lra). exact Q. }
  rewrite EI. rewrite NR_M53 in L, U. assert (SE : sumN (fun k => ind (nb k)) M53 = IZR (2 ^ 53) * mean53 (fun k => ind (nb k))) by (unfold mean53; field; lra). set (t := mean53 (fun k => ind (nb k))) in *.
  rewrite SE in L, U. set (M := IZR (2 ^ 53)) in *.
  assert (L' : Rmin 1 a0 <= t). { apply Rmult_le_reg_l with M; [exact PP|]. rewrite Rmult_min_distr_l, Rmult_1_r by lra. exact L. }
  assert (U' : t <= Rmax 0 (Rmin 1 (a1 + / M))).
  { apply Rmult_le_reg_l with M; [exact PP|]. apply Rle_trans with (1 := U). right. rewrite <- RmaxRmult, Rmult_0_r by lra. f_equal. rewrite Rmult_min_distr_l, Rmult_1_r by lra. f_equal. field. lra. }
  assert (A1P : 0 < a1) by (unfold a1; apply exp_pos). assert (A0P : 0 < a0) by (unfold a0; apply exp_pos).
  assert (EE : 0 <= e * eta) by (apply Rmult_le_pos; lra). assert (AE : 0 <= a1 * eta) by (apply Rmult_le_pos; lra).
  clearbody t M e a0 a1. clear H1 H2 L U SE EI UK. apply Rabs_le. revert L' U'. unfold Rmin, Rmax. repeat destruct Rle_dec; intros; nra.
Qed.

Section Law.
  Variables math_exp math_log : float64 -> float64.
  Hypothesis (AE : accurate_exp math_exp) (AL : accurate_log math_log).
  Definition ze : Ziggurat (list N) := expoZig tape math_exp math_log.
  Lemma ze_for : zig_for ze expo_density. Proof. now apply expo_zig_for. Qed.
  Notation r := (edge ze 1023).
  Notation V := (strip ze).
  Definition tailf (k : N) : float64 := fsub expoR (math_log (unif k)).
  Lemma tailf_value k : (0 < k < M53)%N -> exists v, fvalue (tailf k) v /\ 0 <= v /\ Rabs (v - (r - ln (NR k / IZR (2 ^ 53)))) <= 25 / 10 ^ 15.
  Proof.
    intros Hk. rewrite M53_eq in Hk. assert (Wk : w64 k) by (unfold w64; lia). assert (Ek : expoTail tape math_log [k] = Ret (tailf k, [])).
    { unfold expoTail. rewrite tape_unif by exact Wk. cbn [bind]. rewrite N.mod_small by lia. reflexivity. }
    destruct (C59_expo_tail tape math_log tape_go [k] _ _ AL Ek) as (u & (g & Eg & Vg) & _ & NE). rewrite tape_unif in Eg by exact Wk. rewrite N.mod_small in Eg by lia. assert (g = unif k) as -> by congruence.
    destruct (scale_exact k ltac:(lia)) as [[_ VV] _]. fold (unif k) in VV. destruct Vg as [_ Vg]. rewrite VV in Vg. rewrite <- Vg in NE. 
    assert (UP : 0 < NR k / IZR (2 ^ 53) < 1).
    { pose proof P53. split; [apply Rdiv_lt_0_compat; [apply IZR_lt; lia|lra]|]. apply Rmult_lt_reg_r with (IZR (2 ^ 53)); [lra|]. unfold Rdiv. rewrite Rmult_assoc, Rinv_l by lra. rewrite Rmult_1_r, Rmult_1_l. apply IZR_lt. lia. }
    destruct (NE ltac:(lra)) as (v & Vv & D). destruct (C35_expo_tail_start tape math_exp math_log) as [_ TS]. change (expoZig tape math_exp math_log) with ze in TS. exists v. split; [exact Vv|]. apply Rabs_le_inv in D.
    destruct expoR_value as (_ & _ & BR). assert (LN : ln (NR k / IZR (2 ^ 53)) < 0) by (rewrite <- ln_1; apply ln_increasing; lra). split; [lra|]. apply Rabs_le. lra.
  Qed.
  Lemma tailf_0 : tailf 0 = finf.
  Proof. unfold tailf. change (unif 0) with (fmul (of_int (Z.of_N (0 mod 2 ^ 53))) lit_scale). rewrite uniform_zero. rewrite (proj1 AL). apply B2SF_inj. vm_compute. reflexivity. Qed.
  Lemma strip_bounds : 99 / 100 <= 1024 * V <= 101 / 100.
  Proof.
    assert (EH : forall i, (i < 1024)%nat -> edge ze i = IZR (nz (map (scale 112) expoW_bin) i) / IZR (2 ^ 59) /\ height ze i = IZR (nz (map (scale 68) expoF_bin) i) / IZR (2 ^ 68)).
    { intros i Hi. destruct (expo_edge tape math_exp math_log i Hi) as (A & B & _). auto. }
    pose proof (strip_gen ze _ _ 990 1010 EH expo_strip). lra.
  Qed.
  (** the probability of the tail *)
  Lemma outside_value : Rabs (outside (fun _ => ze) - expo_density r / (1024 * V)) <= 1 / 10 ^ 15.
  Proof.
    pose proof strip_bounds as SB. destruct (zf_base ze _ ze_for) as [_ B]. destruct (C60_expo_base tape math_exp math_log) as [E0 _]. change (expoZig tape math_exp math_log) with ze in E0.
    pose proof (C60_expo_heights tape math_exp math_log 1023 ltac:(lia)) as H. change (expoZig tape math_exp math_log) with ze in H. unfold outside. unfold strip in *. destruct (edge_pos ze _ ze_for 0 ltac:(lia)) as [P0 _]. destruct (edge_pos ze _ ze_for 1023 ltac:(lia)) as [PR PH].
    rewrite edge_small in B. pose proof P53 as PP. pose proof small53 as S3. replace (NR (tK ze 0) / IZR (2 ^ 53)) with (NR (tK ze 0) * / 2 ^ 53) by (unfold Rdiv; now rewrite (proj1 inv53)). set (k := NR (tK ze 0)) in *. set (d := expo_density r) in *. set (h := height ze 1023) in *. set (x := edge ze 0) in *. set (i3 := / 2 ^ 53) in *. clearbody k d h x i3.
    assert (B' : Rabs (k * i3 - r / x) <= 3 * i3).
    { assert (E : k * i3 - r / x = (k * (x * i3) - r) * / x) by (field; lra). rewrite E, Rabs_mult, (Rabs_pos_eq (/ x)) by (left; now apply Rinv_0_lt_compat). apply Rmult_le_reg_r with x; [exact P0|]. rewrite Rmult_assoc, Rinv_l by lra. lra. }
    assert (DP : 0 < d). { apply Rabs_le_inv in H. destruct (Rle_or_lt d 0); [exfalso; lra|assumption]. }
    assert (E1 : 1 - r / x = / x) by (rewrite E0; field; lra).
    assert (HD : Rabs (d / (1024 * (x * h)) - / x / 1024) <= 3 / 10 ^ 15 * (/ x / 1024)).
    { replace (d / (1024 * (x * h)) - / x / 1024) with ((d - h) * / h * (/ x / 1024)) by (field; lra). rewrite Rabs_mult, (Rabs_pos_eq (/ x / 1024)) by (pose proof (Rinv_0_lt_compat x P0); lra). apply Rmult_le_compat_r; [pose proof (Rinv_0_lt_compat x P0); lra|].
      rewrite Rabs_mult, (Rabs_pos_eq (/ h)) by (left; now apply Rinv_0_lt_compat). apply Rmult_le_reg_r with h; [exact PH|]. rewrite Rmult_assoc, Rinv_l, Rmult_1_r by lra. apply Rabs_le_inv in H. apply Rabs_le. lra. }
    assert (X1 : / x <= 1). { rewrite <- Rinv_1. apply Rinv_le_contravar; lra. } pose proof (Rinv_0_lt_compat x P0) as IX. set (y := / x) in *. set (q := d / (1024 * (x * h))) in *. set (s := r / x) in *. clearbody y q s.
    apply Rabs_le_inv in B'. apply Rabs_le_inv in HD. apply Rabs_le. lra.
  Qed.
  Lemma expo_int a : RInt expo_density 0 a = 1 - exp (- a).
  Proof.
    apply is_RInt_unique. replace (1 - exp (- a)) with (minus ((fun x => - exp (- x)) a) ((fun x => - exp (- x)) 0)) by (unfold minus, plus, opp; cbn; rewrite Ropp_0, exp_0; ring).
    apply (is_RInt_derive (fun x => - exp (- x)) expo_density).
    - intros x _. unfold expo_density. auto_derive; [trivial|ring].
    - intros x _. apply (ex_derive_continuous expo_density x). unfold expo_density. auto_derive. trivial.
  Qed.
  Lemma body_value x : 0 <= x -> Rabs (zig_body ze x - (1 - exp (- Rmin x r)) / (1024 * V)) <= 35 / 10 ^ 13.
  Proof. intros Hx. rewrite <- expo_int. apply zig_body_prob with (f := expo_density); [exact ze_for|exact Hx]. Qed.

  Lemma hit_all : mean64 (fun u => if ins (fun _ => ze) u then 1 else if tl u then 0 else frac (below (fun _ => ze)) u) = zig_body ze 16.
  Proof.
    rewrite (zig_body_part (fun _ => ze)). transitivity (hit (ins (fun _ => ze)) tl (le (fun _ => ze) (fun _ => true)) (below (fun _ => ze))).
    - unfold hit. apply mean64_ext. intros u _. unfold le. cbn [ind]. destruct (ins _ u); [reflexivity|]. destruct (tl u); ring.
    - rewrite (hit_unmirrored (fun _ => ze) expo_density ze_for (fun _ => true) eq_refl). unfold part. f_equal.
      assert (K0 : (tK ze 0 < 2 ^ 53)%N) by (apply (inside_bound ze (zf_tables ze _ ze_for)); lia).
      assert (LE : forall i m, (i < 1024)%N -> (m <= 2 ^ 53)%N -> Rle_bool (pointv ze i m) 16 = true).
      { intros i m Hi Hm. destruct (pointf_value ze _ ze_for (N.to_nat i) m ltac:(lia) Hm) as (v & Vv & _ & B & _). unfold pointv. rewrite (proj2 Vv). apply Rle_bool_true. lra. }
      f_equal.
      + apply sumN_ext. intros k Hk. apply mean53_ext. intros m Hm. now rewrite LE by lia.
      + f_equal. apply sumN_ext. intros m Hm. now rewrite LE by lia.
  Qed.
  Lemma miss_eq : 1 - miss (ins (fun _ => ze)) tl (below (fun _ => ze)) = zig_body ze 16 + outside (fun _ => ze).
  Proof.
    pose proof (total (ins (fun _ => ze)) tl (below (fun _ => ze))) as T. rewrite hit_all in T. fold (tail_mass (fun _ => ze)) in T. rewrite (tail_unmirrored (fun _ => ze) expo_density ze_for eq_refl) in T. lra.
  Qed.
  (** an event that holds up to x1 at least and up to x2 at most *)
  Variables (p : float64 -> bool) (x1 x2 : R).
  Hypothesis (X1 : 0 <= x1) (X12 : x1 <= x2).
  Hypothesis P1 : forall v a, fvalue v a -> 0 <= a <= x1 -> p v = true.
  Hypothesis P2 : forall v a, fvalue v a -> 0 <= a -> p v = true -> a <= x2.
  Hypothesis P3 : p finf = false.
  Lemma zt_same : forall a : nat, zPDF ze = zPDF ze /\ zMirrored ze = zMirrored ze /\ zK ze = zK ze /\ zW ze = zW ze /\ zF ze = zF ze. Proof. auto. Qed.
  Lemma hit_bounds : zig_body ze x1 <= hit (ins (fun _ => ze)) tl (le (fun _ => ze) p) (below (fun _ => ze)) <= zig_body ze x2.
  Proof.
    rewrite (hit_unmirrored (fun _ => ze) expo_density ze_for p eq_refl), !(zig_body_part (fun _ => ze)). unfold part.
    assert (K0 : (tK ze 0 < 2 ^ 53)%N) by (apply (inside_bound ze (zf_tables ze _ ze_for)); lia). pose proof P53 as PP. pose proof (Rinv_0_lt_compat _ PP) as IP.
    assert (LE : forall i m, (i < 1024)%N -> (m <= 2 ^ 53)%N -> ind (Rle_bool (pointv ze i m) x1) <= ind (p (pointf ze (N.to_nat i) m)) <= ind (Rle_bool (pointv ze i m) x2)).
    { intros i m Hi Hm. destruct (pointf_value ze _ ze_for (N.to_nat i) m ltac:(lia) Hm) as (v & Vv & _ & B & _). unfold pointv. rewrite (proj2 Vv). destruct (p (pointf ze (N.to_nat i) m)) eqn:Ep.
      - split; [apply ind_range|]. rewrite Rle_bool_true; [cbn; lra|]. apply (P2 _ _ Vv); [lra|exact Ep].
      - split; [|apply ind_range]. rewrite Rle_bool_false; [cbn; lra|]. destruct (Rle_or_lt v x1) as [G|G]; [|exact G]. rewrite (P1 _ _ Vv) in Ep by lra. discriminate Ep. }
    assert (MM : forall f g, (forall m, (m < M53)%N -> f m <= g m) -> mean53 f <= mean53 g) by (intros f g H; unfold mean53; apply Rmult_le_compat_r; [lra|]; apply sumN_le; exact H).
    split; apply Rmult_le_compat_r; try lra; apply Rplus_le_compat.
    - apply sumN_le. intros k Hk. apply MM. intros m Hm. rewrite M53_eq in Hm. apply Rmult_le_compat_r; [apply accept_range|]. apply LE; lia.
    - apply Rmult_le_compat_r; [lra|]. apply sumN_le. intros m Hm. apply (LE 0%N m); lia.
    - apply sumN_le. intros k Hk. apply MM. intros m Hm. rewrite M53_eq in Hm. apply Rmult_le_compat_r; [apply accept_range|]. apply LE; lia.
    - apply Rmult_le_compat_r; [lra|]. apply sumN_le. intros m Hm. apply (LE 0%N m); lia.
  Qed.
  Definition tp : R := mean53 (fun k => ind (p (tailf k))).
  Lemma tp_bounds : 1 - Rmin 1 (exp (r - x1)) - 6 / 10 ^ 14 <= tp <= 1 - Rmin 1 (exp (r - x2)) + 6 / 10 ^ 14.
  Proof.
    pose proof small53 as S3. destruct inv53 as [I3 _]. unfold tp.
    set (b1 := fun k => if (k =? 0)%N then false else Rle_bool (B2R (tailf k)) x1). set (b2 := fun k => if (k =? 0)%N then false else Rle_bool (B2R (tailf k)) x2).
    assert (C1 : Rabs (mean53 (fun k => ind (b1 k)) - (1 - Rmin 1 (exp (r - x1)))) <= 2 * (25 / 10 ^ 15) + / IZR (2 ^ 53)).
    { apply inversion_count; [lra|reflexivity| |]; intros k Hk; destruct (tailf_value k Hk) as (v & [_ Vv] & _ & D); unfold b1; replace (k =? 0)%N with false by (symmetry; apply N.eqb_neq; lia); rewrite Vv; apply Rabs_le_inv in D; case Rle_bool_spec; intros G Eb; try discriminate; lra. }
    assert (C2 : Rabs (mean53 (fun k => ind (b2 k)) - (1 - Rmin 1 (exp (r - x2)))) <= 2 * (25 / 10 ^ 15) + / IZR (2 ^ 53)).
    { apply inversion_count; [lra|reflexivity| |]; intros k Hk; destruct (tailf_value k Hk) as (v & [_ Vv] & _ & D); unfold b2; replace (k =? 0)%N with false by (symmetry; apply N.eqb_neq; lia); rewrite Vv; apply Rabs_le_inv in D; case Rle_bool_spec; intros G Eb; try discriminate; lra. }
    assert (MM : forall f g, (forall m, (m < M53)%N -> f m <= g m) -> mean53 f <= mean53 g) by (pose proof (Rinv_0_lt_compat _ P53) as IP; intros f g H; unfold mean53; apply Rmult_le_compat_r; [lra|]; apply sumN_le; exact H).
    assert (L : mean53 (fun k => ind (b1 k)) <= mean53 (fun k => ind (p (tailf k)))).
    { apply MM. intros k Hk. unfold b1. destruct (N.eqb_spec k 0) as [->|K0]; [apply ind_range|]. destruct (tailf_value k ltac:(lia)) as (v & Vv & V0 & _). rewrite (proj2 Vv). case Rle_bool_spec; intros G; [rewrite (P1 _ _ Vv) by lra; cbn; lra|apply ind_range]. }
    assert (U : mean53 (fun k => ind (p (tailf k))) <= mean53 (fun k => ind (b2 k))).
    { apply MM. intros k Hk. unfold b2. destruct (N.eqb_spec k 0) as [->|K0]; [rewrite tailf_0, P3; cbn; lra|]. destruct (tailf_value k ltac:(lia)) as (v & Vv & V0 & _). rewrite (proj2 Vv). destruct (p (tailf k)) eqn:Ep; [|apply ind_range]. rewrite Rle_bool_true; [cbn; lra|]. now apply (P2 _ _ Vv). }
    rewrite I3 in C1, C2. apply Rabs_le_inv in C1. apply Rabs_le_inv in C2. lra.
  Qed.
  Lemma tails_const n : tails (ins (fun _ => ze)) tl (TE (fun _ => ze) p) n = tail_mass (fun _ => ze) * tp.
  Proof.
    unfold tails, tail_mass. rewrite Rmult_comm, <- mean64_scal. apply mean64_ext. intros u Hu. destruct (ins (fun _ => ze) u); [ring|]. destruct (tl u); [|ring]. rewrite Rmult_1_r. rewrite pr_S. unfold tp.
    set (phi := fun k => ind (p (tailf k))). rewrite <- (mean64_mod phi). apply mean64_ext. intros v Hv. rewrite (pr_ext n _ (fun _ => p (tailf (v mod 2 ^ 53)))); [apply pr_const|].
    intros ws _ _. unfold TE. change (zTail ze (v :: ws)) with (expoTail tape math_log (v :: ws)). unfold expoTail. rewrite tape_unif by (unfold w64; rewrite <- W64_eq; exact Hv). cbn [bind evb].
    change (zMirrored ze) with false. replace (abscissa false u <? 0)%Z with false; [reflexivity|]. symmetry. apply Z.ltb_ge. unfold abscissa. apply Z.mod_pos_bound. reflexivity.
  Qed.
  Theorem expo_law (P : float64 -> Prop) : (forall v, p v = true <-> P v) -> exists q, draw_prob (fun fuel ws => GenNext tape ze fuel ws) P q /\
    (1 - exp (- x1)) - 1 / 10 ^ 11 <= q <= (1 - exp (- x2)) + 1 / 10 ^ 11.
  Proof.
    intros HP. pose proof strip_bounds as SB. pose proof miss_eq as ME. pose proof hit_bounds as HB. pose proof tp_bounds as TB. pose proof outside_value as OV.
    pose proof (body_value x1 X1) as B1. pose proof (body_value x2 ltac:(lra)) as B2. pose proof (body_value 16 ltac:(lra)) as B16.
    destruct (edge_pos ze _ ze_for 1023 ltac:(lia)) as [PR _]. assert (R16 : r <= 16) by (pose proof (zf_16 ze _ ze_for); pose proof (edge_le0 ze _ ze_for 1023 ltac:(lia)); lra).
    rewrite (Rmin_right 16) in B16 by exact R16. unfold expo_density in OV. set (c := / (1024 * V)). assert (C : 99 / 100 <= c <= 102 / 100).
    { unfold c. split; [apply Rmult_le_reg_l with (1024 * V); [lra|]; rewrite Rinv_r by lra; lra|apply Rmult_le_reg_l with (1024 * V); [lra|]; rewrite Rinv_r by lra; lra]. }
    unfold Rdiv in B1, B2, B16, OV. fold c in B1, B2, B16, OV. 
    set (D := zig_body ze 16 + outside (fun _ => ze)) in *. 
    assert (DC : Rabs (D - c) <= 36 / 10 ^ 13). { apply Rabs_le_inv in B16. apply Rabs_le_inv in OV. unfold D. apply Rabs_le. lra. }
    apply Rabs_le_inv in DC. set (N := hit (ins (fun _ => ze)) tl (le (fun _ => ze) p) (below (fun _ => ze))) in *. set (o := outside (fun _ => ze)) in *.
    exists ((N + o * tp) / D). split.
    - rewrite <- ME. apply (draw_limit (fun _ => ze)).
      + apply (tables_full ze (zf_tables ze _ ze_for)).
      + exact zt_same.
      + auto.
      + auto.
      + exact HP.
      + lra.
      + apply is_lim_seq_ext with (fun _ => o * tp); [|apply is_lim_seq_const]. intros n. rewrite tails_const. unfold o. now rewrite (tail_unmirrored (fun _ => ze) expo_density ze_for eq_refl).
    - (* the area under the curve up to x is the body up to min x r and the tail beyond *)
      assert (O : 0 <= o <= 1 / 1024).
      { unfold o. rewrite (outside_mean (fun _ => ze) expo_density ze_for). pose proof (mean53_range (fun m => 1 - ind (m <? tK ze 0)%N) ltac:(intros; pose proof (ind_range (u <? tK ze 0)%N); lra)). lra. }
      assert (EX : forall x, (1 - exp (- Rmin x r)) + exp (- r) * (1 - Rmin 1 (exp (r - x))) = 1 - exp (- x)).
      { intros x. destruct (Rle_or_lt x r) as [G|G].
        - rewrite (Rmin_left x r) by exact G. rewrite (Rmin_left 1); [ring|]. pose proof (exp_ge_1plus (r - x)). lra.
        - rewrite (Rmin_right x r) by lra. rewrite (Rmin_right 1); [|rewrite <- exp_0; left; apply exp_increasing; lra]. rewrite Rmult_minus_distr_l, <- exp_plus. replace (- r + (r - x)) with (- x) by ring. ring. }
      assert (MR : forall x, 0 <= 1 - Rmin 1 (exp (r - x)) <= 1). { intros x. pose proof (exp_pos (r - x)). split; [pose proof (Rmin_l 1 (exp (r - x))); lra|]. assert (0 <= Rmin 1 (exp (r - x))) by (apply Rmin_glb; lra). lra. }
      assert (NX1 : c * (1 - exp (- x1)) - 37 / 10 ^ 13 <= N + o * tp).
      { pose proof (EX x1) as Q. pose proof (MR x1) as Q2. set (m := 1 - Rmin 1 (exp (r - x1))) in *. apply Rabs_le_inv in B1. apply Rabs_le_inv in OV.
        assert (o * (m - 6 / 10 ^ 14) <= o * tp) by (apply Rmult_le_compat_l; lra). assert (o * (6 / 10 ^ 14) <= 1 / 1024 * (6 / 10 ^ 14)) by (apply Rmult_le_compat_r; lra).
        assert ((exp (- r) * c - 1 / 10 ^ 15) * m <= o * m) by (apply Rmult_le_compat_r; lra).
        replace (c * (1 - exp (- x1))) with ((1 - exp (- Rmin x1 r)) * c + exp (- r) * c * m) by (rewrite <- Q; ring). lra. }
      assert (NX2 : N + o * tp <= c * (1 - exp (- x2)) + 37 / 10 ^ 13).
      { pose proof (EX x2) as Q. pose proof (MR x2) as Q2. set (m := 1 - Rmin 1 (exp (r - x2))) in *. apply Rabs_le_inv in B2. apply Rabs_le_inv in OV.
        assert (o * tp <= o * (m + 6 / 10 ^ 14)) by (apply Rmult_le_compat_l; lra). assert (o * (6 / 10 ^ 14) <= 1 / 1024 * (6 / 10 ^ 14)) by (apply Rmult_le_compat_r; lra).
        assert (o * m <= (exp (- r) * c + 1 / 10 ^ 15) * m) by (apply Rmult_le_compat_r; lra).
        replace (c * (1 - exp (- x2))) with ((1 - exp (- Rmin x2 r)) * c + exp (- r) * c * m) by (rewrite <- Q; ring). lra. }
      pose proof (exp_pos (- x1)) as Y1. pose proof (exp_pos (- x2)) as Y2. assert (Z1 : exp (- x1) <= 1) by (rewrite <- exp_0; destruct X1 as [G| <-]; [left; apply exp_increasing; lra|rewrite Ropp_0; lra]). assert (Z2 : exp (- x2) <= 1) by (apply Rle_trans with (2 := Z1); apply exp_decr; exact X12).
      set (a := 1 - exp (- x1)) in *. set (b := 1 - exp (- x2)) in *. assert (A01 : 0 <= a <= 1) by (unfold a; lra). assert (B01 : 0 <= b <= 1) by (unfold b; lra).
      clearbody a b D N o c. assert (DP : 98 / 100 <= D) by lra.
      split.
      + apply Rmult_le_reg_r with D; [lra|]. unfold Rdiv at 2. rewrite Rmult_assoc, Rinv_l, Rmult_1_r by lra. assert (a * D <= a * (c + 36 / 10 ^ 13)) by (apply Rmult_le_compat_l; lra). lra.
      + apply Rmult_le_reg_r with D; [lra|]. unfold Rdiv at 1. rewrite Rmult_assoc, Rinv_l, Rmult_1_r by lra. assert (b * (c - 36 / 10 ^ 13) <= b * D) by (apply Rmult_le_compat_l; lra). lra.
  Qed.
End Law.
End Compiler.
