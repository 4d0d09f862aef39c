(** Property C80: ziggurat.py's tables in a crazy.Ziggurat draw from the density they were made for. *)
From Coq Require Import Reals Lia Lra Psatz List Arith ZArith NArith.
From Coquelicot Require Import Coquelicot.
From Flocq Require Import Core BinarySingleNaN.
From Verif Require Import Model.Base Model.Rng Model.Float Model.Distr Model.Ziggurat Model.ExpoTable Model.NormalTable Model.ExpoNormal Model.ZigScript.
From Verif Require Import Spec.Common Spec.Counting Spec.Floats Spec.Density Spec.Tails Spec.Prob Spec.ZigFit Spec.ZigBuild Spec.ZigUse.
From Verif Require Import Proofs.SumN Proofs.ZigTape Proofs.ZigGeneral Proofs.ZigUse Props.ZigScript Props.ZigLaw Props.ZigShipped Props.Density Props.ExpoNormal Props.ExpoLaw Props.Tails Proofs.ZigFloat Proofs.ZigAccept Proofs.FloatProofs Proofs.RelError Proofs.ExpoLaw Proofs.ZigTables Proofs.Mills Proofs.ZigInst Proofs.NormalInst.
From Verif Require Proofs.ZigSolve Proofs.ZigAnswer.
From Verif Require Import Spec.Zig.
Local Open Scope R_scope.

(** for every choice of the compiler which x*y + z to fuse (Model/Fused.v) *)
Section Compiler.
Context {fpc : compiler}.

Section Use.
  Context {W : Type} (z : Ziggurat W) (f : R -> R) (total tol r v : R) (xi : list R) (symmetric : bool).
  Hypothesis DD : decreasing_density f total.
  Hypothesis TOL : 0 <= tol <= 1 / 10 ^ 20.
  Hypothesis RP : 0 < r.
  Hypothesis SO : solve f tol 1024 r v xi.
  Hypothesis FB : fits_53_bits f r v (nth 1 xi 0).
  Hypothesis HT : holds_script_tables z f r v xi symmetric.
  Hypothesis AP : accurate_pdf (zPDF z) f r.
  Let X i := nth i xi 0.
  Lemma use_shape : X 0%nat = 0 /\ X 1023%nat = r /\ (forall i, (0 < i < 1024)%nat -> X (i - 1)%nat < X i) /\ v = ZigSolve.base f total r /\
    Rabs (X 1%nat * (f (X 0%nat) - f (X 1%nat)) - v) <= 3 / 10 ^ 20 * X 1%nat /\
    (forall i, (1 < i < 1024)%nat -> X i * (f (X (i - 1)%nat) - f (X i)) = v).
  Proof.
    destruct (ZigAnswer.solve_shape f total DD tol 1024 r v xi (proj1 TOL) RP SO) as (_ & _ & A & B & C & D & E & G).
    split; [exact A|]. split; [exact B|]. split; [exact D|]. split; [exact C|]. split; [|exact E].
    fold (X 0%nat) in A. fold (X 1%nat) in G. assert (D1 := D 1%nat ltac:(lia)). cbn [Nat.sub] in D1. fold (X 0%nat) (X 1%nat) in D1. rewrite A in *. rewrite (fb_top f r v _ FB) in *.
    set (x := X 1%nat) in *. assert (VP : 0 < v) by (rewrite C; apply (ZigSolve.base_pos f total DD); exact RP). assert (FP : 0 < f x) by (apply (ZigSolve.f_pos f total DD); lra).
    assert (SP : 0 < f x + v / x) by (assert (0 < v / x) by (apply Rdiv_lt_0_compat; lra); lra). set (s := f x + v / x) in *.
    assert (H : Rabs (s - 1) <= 2 * tol).
    { destruct G as [G|G]; [lra|]. rewrite (Rabs_pos_eq s), Rabs_R1 in G by lra. unfold Rmax in G. destruct Rle_dec; [lra|]. apply Rabs_le_between in G.
      assert (tol * s <= 1 / 2 * s) by (apply Rmult_le_compat_r; lra). assert (tol * s <= tol * 2) by (apply Rmult_le_compat_l; lra). apply Rabs_le. lra. }
    replace (x * (1 - f x) - v) with (x * (1 - s)) by (unfold s; field; lra). rewrite Rabs_mult, (Rabs_pos_eq x), Rabs_minus_sym by lra.
    rewrite Rmult_comm. apply Rmult_le_compat_r; lra.
  Qed.
  (** The tables fit the density in the sense of C68. *)
  Theorem use_core (P : Prop) : (X 0%nat = 0 -> X 1023%nat = r -> (forall i, (0 < i < 1024)%nat -> X (i - 1)%nat < X i) -> v = ZigSolve.base f total r ->
    Rabs (X 1%nat * (f (X 0%nat) - f (X 1%nat)) - v) <= 3 / 10 ^ 20 * X 1%nat ->
    (forall i, (1 < i < 1024)%nat -> X i * (f (X (i - 1)%nat) - f (X i)) = v) ->
    full_tables z -> Z.of_N (tK z 0) = Zfloor (2 ^ 53 * r * f r / v) ->
    (forall i, (0 < i < 1024)%nat -> Z.of_N (tK z i) = Zfloor (2 ^ 53 * X (i - 1)%nat / X i)) ->
    fvalue (tW z 0) (rnd (v / f r / 2 ^ 53)) -> (forall i, (0 < i < 1024)%nat -> fvalue (tW z i) (rnd (X i / 2 ^ 53))) ->
    (forall i, (i < 1024)%nat -> fvalue (tF z i) (rnd (f (X i)))) -> P) -> P.
  Proof.
    intros H. destruct use_shape as (A & B & C & D & E & F). destruct HT as [T1 T2 T3 T4]. rewrite C78_bits_1024 in *. apply H; auto.
    - exact (T2 0%nat ltac:(lia)).
    - intros i Hi. assert (Q := T2 i ltac:(lia)). destruct i as [|i]; [lia|]. replace (S i - 1)%nat with i by lia. exact Q.
    - exact (T3 0%nat ltac:(lia)).
    - intros i Hi. assert (Q := T3 i ltac:(lia)). destruct i as [|i]; [lia|]. exact Q.
  Qed.
  Theorem use_fits : zig_for z f.
  Proof. apply use_core. intros. now apply (script_fits z f total r v X). Qed.
  Lemma use_area t x : 0 <= t <= 1 ->
    Rabs ((body_area z f x + tail_area z * t) / (body_area z f (edge z 1023) + tail_area z) - (RInt f 0 (Rmax 0 (Rmin x r)) + (total - RInt f 0 r) * t) / total) <= 1 / 10 ^ 12.
  Proof. intros T. apply use_core. intros. now apply (area_is z f total r v X). Qed.
  Lemma use_area_mirrored t x : 0 <= t <= 2 ->
    Rabs ((body_area z f x + (body_area z f (edge z 1023) - body_area z f (- x)) + tail_area z * t) / (2 * (body_area z f (edge z 1023) + tail_area z))
      - (RInt f 0 (Rmax 0 (Rmin x r)) + (RInt f 0 r - RInt f 0 (Rmax 0 (Rmin (- x) r))) + (total - RInt f 0 r) * t) / (2 * total)) <= 1 / 10 ^ 12.
  Proof. intros T. apply use_core. intros. now apply (area_mirrored z f total r v X). Qed.
End Use.

Lemma prob_range (tail : list N -> outcome (float64 * list N)) P p t : (forall v, p v = true <-> P v) -> draw_prob (fun _ => tail) P t -> 0 <= t <= 1.
Proof. intros HP DT. exact (lim_range _ _ (fun n => pr_range n _) (draw_pr _ _ p t HP DT)). Qed.

(** r, v and xi are what ziggurat.py solves for 1024 layers of the density f, with mpmath's tolerance of 2^-69 or any other up
    to 1e-20; z holds the tables it prints and a good PDF. Then the tables fit f in the sense of C68. *)
Theorem C80_tables_fit {W} (z : Ziggurat W) f total tol r v xi symmetric :
  decreasing_density f total -> 0 <= tol <= 1 / 10 ^ 20 -> 0 < r -> solve f tol 1024 r v xi -> fits_53_bits f r v (nth 1 xi 0) ->
  holds_script_tables z f r v xi symmetric -> accurate_pdf (zPDF z) f r -> zig_for z f.
Proof. intros. now apply (use_fits z f total tol r v xi symmetric). Qed.
(** A tail function that yields a value at most x with probability t: GenNext yields one with the area under f up to x, as far
    as r, plus t times the area beyond r, over the whole area. *)
Theorem C80_law (z : Ziggurat (list N)) f total tol r v xi symmetric x t :
  decreasing_density f total -> 0 <= tol <= 1 / 10 ^ 20 -> 0 < r -> solve f tol 1024 r v xi -> fits_53_bits f r v (nth 1 xi 0) ->
  holds_script_tables z f r v xi symmetric -> accurate_pdf (zPDF z) f r ->
  zMirrored z = false -> draw_prob (fun _ ws => zTail z ws) (at_most x) t ->
  exists q, draw_prob (fun fuel ws => GenNext tape z fuel ws) (at_most x) q /\
    Rabs (q - (RInt f 0 (Rmax 0 (Rmin x r)) + (total - RInt f 0 r) * t) / total) <= 2 / 10 ^ 8.
Proof.
  intros DD TOL RP SO FB HT AP UM DT. assert (ZF := use_fits z f total tol r v xi symmetric DD TOL RP SO FB HT AP).
  assert (TR := prob_range (zTail z) _ (lefb x) t (fun v => lefb_spec x v) DT).
  destruct (C68_ziggurat_law z f x t ZF UM DT) as (q & D & E). exists q. split; [exact D|].
  assert (A := use_area z f total tol r v xi symmetric DD TOL RP SO FB HT t x TR). apply Rabs_le_between in A. apply Rabs_le_between in E. apply Rabs_le. lra.
Qed.
(** With a tail function for the right conditional law, up to an area of e, the whole has the density f. *)
Theorem C80_right_tail (z : Ziggurat (list N)) f total tol r v xi symmetric x t e :
  decreasing_density f total -> 0 <= tol <= 1 / 10 ^ 20 -> 0 < r -> solve f tol 1024 r v xi -> fits_53_bits f r v (nth 1 xi 0) ->
  holds_script_tables z f r v xi symmetric -> accurate_pdf (zPDF z) f r ->
  zMirrored z = false -> draw_prob (fun _ ws => zTail z ws) (at_most x) t ->
  Rabs (t * (total - RInt f 0 r) - (RInt f 0 (Rmax x r) - RInt f 0 r)) <= e ->
  exists q, draw_prob (fun fuel ws => GenNext tape z fuel ws) (at_most x) q /\
    Rabs (q - RInt f 0 (Rmax 0 x) / total) <= 2 / 10 ^ 8 + e / total.
Proof.
  intros DD TOL RP SO FB HT AP UM DT TT. destruct (C80_law z f total tol r v xi symmetric x t DD TOL RP SO FB HT AP UM DT) as (q & D & E). exists q. split; [exact D|].
  assert (TP := ZigSolve.total_pos f total DD).
  assert (EQ : RInt f 0 (Rmax 0 x) = RInt f 0 (Rmax 0 (Rmin x r)) + (RInt f 0 (Rmax x r) - RInt f 0 r)).
  { unfold Rmax, Rmin. repeat destruct Rle_dec; try lra; replace x with r by lra; lra. }
  rewrite EQ. set (a := RInt f 0 (Rmax 0 (Rmin x r))) in *. set (b := RInt f 0 (Rmax x r) - RInt f 0 r) in *. set (A := total - RInt f 0 r) in *.
  assert (K : Rabs ((a + A * t) / total - (a + b) / total) <= e / total).
  { replace ((a + A * t) / total - (a + b) / total) with ((t * A - b) * / total) by (field; lra). rewrite Rabs_mult, (Rabs_pos_eq (/ total)) by (left; now apply Rinv_0_lt_compat). unfold Rdiv. apply Rmult_le_compat_r; [left; now apply Rinv_0_lt_compat|exact TT]. }
  apply Rabs_le_between in K. apply Rabs_le_between in E. apply Rabs_le. lra.
Qed.
(** Mirrored, the density is reflected: both signs of what the tail function yields count. *)
Theorem C80_mirrored_law (z : Ziggurat (list N)) f total tol r v xi symmetric x t t' :
  decreasing_density f total -> 0 <= tol <= 1 / 10 ^ 20 -> 0 < r -> solve f tol 1024 r v xi -> fits_53_bits f r v (nth 1 xi 0) ->
  holds_script_tables z f r v xi symmetric -> accurate_pdf (zPDF z) f r ->
  zMirrored z = true -> (forall a, zPDF z (fneg a) = zPDF z a) ->
  draw_prob (fun _ ws => zTail z ws) (at_most x) t -> draw_prob (fun _ ws => zTail z ws) (fun a => at_most x (fneg a)) t' ->
  exists q, draw_prob (fun fuel ws => GenNext tape z fuel ws) (at_most x) q /\
    Rabs (q - (RInt f 0 (Rmax 0 (Rmin x r)) + (RInt f 0 r - RInt f 0 (Rmax 0 (Rmin (- x) r))) + (total - RInt f 0 r) * (t + t')) / (2 * total)) <= 2 / 10 ^ 8.
Proof.
  intros DD TOL RP SO FB HT AP MI EV DT DT'. assert (ZF := use_fits z f total tol r v xi symmetric DD TOL RP SO FB HT AP).
  assert (TR := prob_range (zTail z) _ (lefb x) t (fun v => lefb_spec x v) DT). assert (TR' := prob_range (zTail z) _ (fun a => lefb x (fneg a)) t' (fun v => lefb_spec x (fneg v)) DT').
  destruct (C68_mirrored_law z f x t t' ZF MI EV DT DT') as (q & D & E). exists q. split; [exact D|].
  assert (A := use_area_mirrored z f total tol r v xi symmetric DD TOL RP SO FB HT (t + t') x ltac:(lra)). apply Rabs_le_between in A. apply Rabs_le_between in E. apply Rabs_le. lra.
Qed.

(** *** Not vacuous: the exponential density *)
Lemma float_of x : representable x -> Rabs x < fmax -> exists a, fvalue a x.
Proof.
  intros G L. set (m := Ztrunc (scaled_mantissa radix2 (FLT_exp (-1074) 53) x)). set (e := cexp radix2 (FLT_exp (-1074) 53) x).
  assert (E : F2R (Float radix2 m e) = x) by (symmetry; exact G).
  pose proof (binary_normalize_correct 53 1024 fprec_gt_0 fprec_lt_emax mode_NE m e false) as H. cbv zeta in H. rewrite E in H.
  assert (ER : round radix2 (SpecFloat.fexp 53 1024) (round_mode mode_NE) x = x) by (apply (rnd_id x G)).
  rewrite ER in H. rewrite Rlt_bool_true in H by exact L. destruct H as (A & B & _). eexists. split; [exact B|exact A].
Qed.
Lemma floats_of (g : nat -> R) n : (forall i, (i < n)%nat -> Rabs (g i) < 2 ^ 60) -> exists l, length l = n /\ forall i, (i < n)%nat -> fvalue (nth i l B754_nan) (rnd (g i)).
Proof.
  induction n as [|n IH]; intros H; [exists nil; split; [reflexivity|lia]|]. destruct IH as (l & L & V); [intros i Hi; apply H; lia|].
  destruct (float_of (rnd (g n))) as (a & A).
  - apply generic_format_round; [apply FLT_exp_valid; reflexivity|apply valid_rnd_N].
  - apply Rle_lt_trans with (bpow radix2 60).
    + apply abs_round_le_generic; [apply FLT_exp_valid; reflexivity|apply valid_rnd_N|apply generic_format_FLT_bpow; [reflexivity|lia]|].
      left. specialize (H n ltac:(lia)). replace (bpow radix2 60) with (2 ^ 60) by (rewrite (pow_IZR 2 60); reflexivity). exact H.
    + unfold fmax. apply bpow_lt. lia.
  - exists (l ++ a :: nil). split; [rewrite app_length, L; cbn; lia|]. intros i Hi. destruct (Nat.eq_dec i n) as [->|N].
    + rewrite app_nth2, L, Nat.sub_diag by lia. exact A.
    + rewrite app_nth1 by lia. apply V. lia.
Qed.

Lemma expo_10th : exp (-1) <= 41 / 100.
Proof.
  assert (H : 1 + / 4 <= exp (/ 4)) by (left; apply exp_ineq1; lra). assert (E : exp 1 = exp (/ 4) * exp (/ 4) * (exp (/ 4) * exp (/ 4))) by (rewrite <- !exp_plus; f_equal; lra).
  set (q := exp (/ 4)) in *. assert (Q : (5 / 4) * (5 / 4) <= q * q) by (apply Rmult_le_compat; lra). assert (Q2 : (25 / 16) * (25 / 16) <= q * q * (q * q)) by (apply Rmult_le_compat; lra).
  assert (I : exp (-1) * exp 1 = 1) by (rewrite <- exp_plus; replace (-1 + 1) with 0 by lra; apply exp_0). rewrite E in I. assert (P := exp_pos (-1)). set (k := q * q * (q * q)) in *. clearbody k.
  assert (exp (-1) * (25 / 16 * (25 / 16)) <= exp (-1) * k) by (apply Rmult_le_compat_l; lra). lra.
Qed.
Lemma expo_base r : ZigSolve.base expo_density 1 r = (r + 1) * exp (- r).
Proof. unfold ZigSolve.base. rewrite expo_int. unfold expo_density. ring. Qed.
Lemma expo_fits x v : ziggurat_of expo_density 1024 x v -> fits_53_bits expo_density (x 1023%nat) v (x 1%nat) /\ 3 <= x 1023%nat <= 11 /\ 1 / 1024 < v <= 1.
Proof.
  intros ZO. assert (VL := C78_layers_cover expo_density 1 expo_decreasing 1024 x v ltac:(lia) ZO).
  replace (INR 1024) with 1024 in VL by (rewrite INR_IZR_INZ; reflexivity). assert (V1 : 1 / 1024 < v) by lra. clear VL.
  assert (XI := zo_edges _ _ _ _ ZO). assert (X0 := zo_zero _ _ _ _ ZO). assert (AR := zo_areas _ _ _ _ ZO).
  assert (XL : forall i, (i < 1024)%nat -> x 0%nat <= x i). { intros i Hi. destruct i as [|i]; [lra|]. left. apply (increasing_from x 0 1024); [|lia|lia]. intros k _ Hk. assert (Q := XI (S k) ltac:(lia)). replace (S k - 1)%nat with k in Q by lia. exact Q. }
  assert (XM : x 1%nat < x 1023%nat). { apply (increasing_from x 0 1024); [|lia|lia]. intros k _ Hk. assert (Q := XI (S k) ltac:(lia)). replace (S k - 1)%nat with k in Q by lia. exact Q. }
  assert (P1 := XI 1%nat ltac:(lia)). cbn [Nat.sub] in P1. rewrite X0 in *.
  assert (VB : v = (x 1023%nat + 1) * exp (- x 1023%nat)).
  { destruct (zo_base _ _ _ _ ZO) as (A & HA & E). change (1024 - 1)%nat with 1023%nat in *. rewrite <- expo_base. rewrite <- E. unfold ZigSolve.base. rewrite (ZigSolve.tail_unique expo_density 1 expo_decreasing (x 1023%nat) A ltac:(lra) HA). unfold ZigSolve.base. ring. }
  set (r := x 1023%nat) in *. set (a := x 1%nat) in *.
  assert (EX : forall t, 0 <= t -> exp (- t) <= 1) by (intros t Ht; rewrite <- exp_0; destruct Ht as [Ht|<-]; [left; apply exp_increasing; lra|rewrite Ropp_0; lra]).
  assert (LN : forall t, 1 - t <= exp (- t)) by (intros t; destruct (Req_dec t 0) as [->|N]; [rewrite Ropp_0, exp_0; lra|left; assert (Q := exp_ineq1 (- t) ltac:(lra)); lra]).
  assert (RU : 3 <= r <= 11).
  { destruct (C79_expo tape (fun a => a) (fun a => a) x v ZO) as (_ & _ & H). fold r in H. destruct expoR_value as (_ & _ & B). apply Rabs_def2 in H. lra. }
  assert (V2 : v <= 1).
  { rewrite VB. assert (P := exp_pos (- r)). assert (L := LN (- r)). rewrite Ropp_involutive in L. assert (I : exp r * exp (- r) = 1) by (rewrite <- exp_plus; replace (r + - r) with 0 by lra; apply exp_0). rewrite <- I. apply Rmult_le_compat_r; lra. }
  assert (A1 : 1 / 32 <= a).
  { assert (Q := AR 1%nat ltac:(lia)). cbn [Nat.sub] in Q. rewrite X0 in Q. fold a in Q. unfold expo_density in Q. rewrite Ropp_0, exp_0 in Q. assert (L := LN a). apply Rnot_lt_le. intros H. assert (a * (1 - exp (- a)) <= a * a) by (apply Rmult_le_compat_l; lra). assert (a * a <= 1 / 32 * (1 / 32)) by (apply Rmult_le_compat; lra). lra. }
  split; [|split; [exact RU|split; [exact V1|exact V2]]]. split.
  - intros t. apply (ex_derive_continuous expo_density t). unfold expo_density. auto_derive. trivial.
  - unfold expo_density. rewrite Ropp_0, exp_0. reflexivity.
  - intros t y H Y. unfold expo_density. assert (L := LN (y - t)). assert (S : exp (- y) = exp (- t) * exp (- (y - t))) by (rewrite <- exp_plus; f_equal; lra). rewrite S. assert (P := exp_pos (- t)). set (p := exp (- t)) in *. set (q := exp (- (y - t))) in *.
    assert (R1 : 1 <= 17 / r) by (apply Rmult_le_reg_r with r; [lra|]; unfold Rdiv; rewrite Rmult_assoc, Rinv_l by lra; lra).
    assert (p * (1 - q) <= p * (y - t)) by (apply Rmult_le_compat_l; lra). assert (1 * (p * (y - t)) <= 17 / r * (p * (y - t))) by (apply Rmult_le_compat_r; [apply Rmult_le_pos; lra|lra]). lra.
  - intros t y [H1 H2] HR Y. unfold expo_density. assert (D0 : 0 <= y - t <= 1 / 2) by lra. assert (S : exp (- t) = exp (- y) * exp (y - t)) by (rewrite <- exp_plus; f_equal; lra). assert (L : 1 + (y - t) <= exp (y - t)) by (destruct (Req_dec (y - t) 0) as [->|N]; [rewrite exp_0; lra|left; apply exp_ineq1; lra]).
    assert (P := exp_pos (- y)). assert (PT := exp_pos (- t)). assert (TT := LN (y - t)). assert (S2 : exp (- y) = exp (- t) * exp (- (y - t))) by (rewrite <- exp_plus; f_equal; lra). set (p := exp (- t)) in *. set (q := exp (- y)) in *. set (d := y - t) in *.
    assert (Q1 : q * d <= p - q). { rewrite S. assert (q * (1 + d) <= q * exp d) by (apply Rmult_le_compat_l; lra). lra. }
    assert (Q2 : p * (1 / 2) <= q) by (rewrite S2; apply Rmult_le_compat_l; lra). assert (Q3 : p * (1 / 2) * d <= q * d) by (apply Rmult_le_compat_r; lra).
    assert (Q4 : d / t <= 1000 * d). { unfold Rdiv. rewrite Rmult_comm. apply Rmult_le_compat_r; [lra|]. rewrite <- (Rinv_inv 1000). apply Rinv_le_contravar; lra. }
    assert (d / t * p <= 1000 * d * p) by (apply Rmult_le_compat_r; lra). lra.
  - intros t H. unfold expo_density. assert (L := LN (1 - t)). assert (S : exp (- t) * exp (- (1 - t)) = exp (-1)) by (rewrite <- exp_plus; f_equal; lra). assert (E1 := expo_10th). assert (P := exp_pos (- t)). set (q := exp (- (1 - t))) in *.
    assert (exp (- t) * t <= exp (- t) * q) by (apply Rmult_le_compat_l; lra). lra.
  - unfold expo_density. rewrite VB. assert (P := exp_pos (- r)). replace ((r + 1) * exp (- r) / exp (- r)) with (r + 1) by (field; lra). lra.
  - lra.
  - unfold expo_density. assert (P := exp_pos (- r)). assert ((r + 1) * exp (- r) <= 12 * exp (- r)) by (apply Rmult_le_compat_r; lra). split; [lra|]. apply Rmult_le_reg_r with r; [lra|]. unfold Rdiv. rewrite Rmult_assoc, Rinv_l by lra. lra.
Qed.

Lemma expo_pdf math_exp r : r <= 49 -> accurate_exp math_exp -> accurate_pdf (fun a => math_exp (fneg a)) expo_density r.
Proof.
  intros R49 AE a x Va _ Hx. assert (Vn := fneg_value a x Va). destruct (AE (fneg a) (- x) Vn ltac:(lra)) as [F E]. exists (B2R (math_exp (fneg a))). split; [split; [exact F|reflexivity]|].
  unfold expo_density. eapply Rle_trans; [exact E|]. apply Rmult_le_compat_r; [left; apply exp_pos|]. replace (2 ^ 52) with 4503599627370496 by (cbn; lra). lra.
Qed.

Lemma solve_exists f total : decreasing_density f total -> exists X v xi, ziggurat_of f 1024 X v /\ 0 < X 1023%nat /\ solve f 0 1024 (X 1023%nat) v xi /\ nth 1 xi 0 = X 1%nat.
Proof.
  intros DD. destruct (C78_ziggurat_exists f total DD 1024 ltac:(lia)) as (X & v & ZO). set (xi := map X (seq 0 1024)). assert (NX : forall i, (i < 1024)%nat -> nth i xi 0 = X i).
  { intros i Hi. unfold xi. rewrite (nth_indep _ 0 (X 0%nat)) by (rewrite map_length, seq_length; lia). rewrite map_nth, seq_nth by lia. reflexivity. }
  assert (XI := zo_edges _ _ _ _ ZO). assert (X0 := zo_zero _ _ _ _ ZO).
  assert (RP : 0 < X 1023%nat). { rewrite <- X0. apply (increasing_from X 0 1024); [|lia|lia]. intros m _ Hm. assert (Q := XI (S m) ltac:(lia)). replace (S m - 1)%nat with m in Q by lia. exact Q. }
  exists X, v, xi. split; [exact ZO|]. split; [exact RP|]. split; [|apply NX; lia].
  apply (C78_solve f total DD 1024 _ v xi ltac:(lia) RP). split; [unfold xi; now rewrite map_length, seq_length|]. split; [|rewrite NX by lia; reflexivity].
  destruct ZO as [Z0 Z1 Z2 Z3]. split.
  - rewrite NX by lia. exact Z0.
  - intros i Hi. rewrite !NX by lia. now apply Z1.
  - intros i Hi. rewrite !NX by lia. now apply Z2.
  - rewrite NX by lia. exact Z3.
Qed.
(** Such tables always exist: none of the numbers overflows. *)
Theorem C80_tables_exist {W} f total r v xi symmetric (pdf : float64 -> float64) (tail : W -> outcome (float64 * W)) mirrored :
  decreasing_density f total -> 0 < r -> solve f 0 1024 r v xi -> fits_53_bits f r v (nth 1 xi 0) ->
  exists z, holds_script_tables z f r v xi symmetric /\ zPDF z = pdf /\ zTail z = tail /\ zMirrored z = mirrored.
Proof.
  intros DD RP SO FB. destruct (ZigAnswer.solve_shape f total DD 0 1024 r v xi (Rle_refl 0) RP SO) as (_ & _ & X0 & XR & VB & XI & _).
  assert (FP : 0 < f r) by (apply (ZigSolve.f_pos f total DD); lra). assert (VP : 0 < v) by (rewrite VB; apply (ZigSolve.base_pos f total DD); exact RP). assert (WD := fb_wide _ _ _ _ FB).
  assert (WP : 0 < v / f r) by now apply Rdiv_lt_0_compat.
  assert (RW : r <= v / f r). { apply Rmult_le_reg_r with (f r); [exact FP|]. unfold Rdiv. rewrite Rmult_assoc, Rinv_l, Rmult_1_r by lra. rewrite VB. unfold ZigSolve.base. assert (I := ZigSolve.int_below f total DD r ltac:(lra)). lra. }
  assert (XB : forall i, (i < 1024)%nat -> 0 <= nth i xi 0 <= 16).
  { intros i Hi. assert (INC : forall i j, (i < j < 1024)%nat -> nth i xi 0 < nth j xi 0). { intros k j Hk. apply (increasing_from (fun i => nth i xi 0) 0 1024); [|lia|lia]. intros m _ Hm. assert (Q := XI (S m) ltac:(lia)). replace (S m - 1)%nat with m in Q by lia. exact Q. }
    change (1024 - 1)%nat with 1023%nat in XR.
    split; [destruct (Nat.eq_dec i 0) as [->|]; [lra|assert (Q := INC 0%nat i ltac:(lia)); lra]|destruct (Nat.eq_dec i 1023) as [->|]; [lra|assert (Q := INC i 1023%nat ltac:(lia)); lra]]. }
  assert (P60 : 2 ^ 60 = 1152921504606846976) by (cbn; lra). assert (P53 : 2 ^ 53 = 9007199254740992) by (cbn; lra).
  destruct (floats_of (script_W f r v xi (im symmetric true 1024)) 1024) as (Wl & WL & WV).
  { intros i Hi. rewrite C78_bits_1024. unfold script_W. rewrite P53, P60. destruct i as [|i].
    - apply Rabs_def1; lra.
    - assert (Q := XB (S i) Hi). apply Rabs_def1; lra. }
  destruct (floats_of (script_F f xi) 1024) as (Fl & FL & FV).
  { intros i Hi. unfold script_F. rewrite P60. assert (Q := XB i Hi). assert (P := ZigSolve.f_pos f total DD (nth i xi 0) ltac:(lra)). assert (D := ZigSolve.f_dec_le f total DD 0 (nth i xi 0) ltac:(lra)). rewrite (fb_top _ _ _ _ FB) in D. apply Rabs_def1; lra. }
  set (K i := Z.to_N (script_K f r v xi (im symmetric true 1024) i)). set (Kl := map K (seq 0 1024)).
  exists {| zPDF := pdf; zTail := tail; zMirrored := mirrored; zK := Kl; zW := Wl; zF := Fl |}. split; [|auto]. split.
  - split; [unfold Kl; cbn [zK]; now rewrite map_length, seq_length|]. split; assumption.
  - intros i Hi. unfold tK, Kl; cbn [zK]. rewrite (nth_indep _ 0%N (K 0%nat)) by (rewrite map_length, seq_length; lia). rewrite (map_nth K), seq_nth by lia. cbn [Nat.add]. unfold K.
    rewrite Z2N.id; [reflexivity|]. destruct (C78_tables f total DD symmetric true 1024 r v xi RP SO) as [_ H]. apply (H i Hi).
  - exact WV.
  - exact FV.
Qed.
(** The script has an answer for the exponential density, and the law of C80 applies to its tables: with this PDF, and a tail
    function that always returns +Inf, the exponential law up to 3. *)
Example C80_nonvacuous_expo math_exp : accurate_exp math_exp ->
  exists r v xi (z : Ziggurat (list N)),
    decreasing_density expo_density 1 /\ 0 < r /\ solve expo_density 0 1024 r v xi /\ fits_53_bits expo_density r v (nth 1 xi 0) /\
    holds_script_tables z expo_density r v xi true /\ accurate_pdf (zPDF z) expo_density r /\ zMirrored z = false /\
    forall x, 0 <= x <= 3 -> exists q, draw_prob (fun fuel ws => GenNext tape z fuel ws) (at_most x) q /\ Rabs (q - (1 - exp (- x))) <= 2 / 10 ^ 8.
Proof.
  intros AE. destruct (solve_exists expo_density 1 expo_decreasing) as (X & v & xi & ZO & RP & SO & N1). destruct (expo_fits X v ZO) as (FB & RR & VV). rewrite <- N1 in FB. set (r := X 1023%nat) in *.
  destruct (C80_tables_exist expo_density 1 r v xi true (fun a => math_exp (fneg a)) (fun ws : list N => Ret (finf, ws)) false expo_decreasing RP SO FB) as (z & HT & ZP & ZT & ZM).
  assert (AP : accurate_pdf (zPDF z) expo_density r) by (rewrite ZP; apply (expo_pdf math_exp r ltac:(lra) AE)).
  exists r, v, xi, z. split; [exact expo_decreasing|]. split; [exact RP|]. split; [exact SO|]. split; [exact FB|]. split; [exact HT|]. split; [exact AP|]. split; [exact ZM|].
  intros x Hx. destruct (C80_law z expo_density 1 0 r v xi true x 0 expo_decreasing ltac:(lra) RP SO FB HT AP ZM) as (q & D & E).
  { apply draw_prob_none. intros _ ws a ws' _ H (y & [Fy _] & _). rewrite ZT in H. injection H as <- <-. discriminate. }
  exists q. split; [exact D|]. rewrite Rmin_left, Rmax_right, expo_int in E by lra. replace ((1 - exp (- x) + (1 - RInt expo_density 0 r) * 0) / 1) with (1 - exp (- x)) in E by field. exact E.
Qed.

(** *** and the normal density *)
Lemma exp_pow_n x n : exp x ^ n = exp (INR n * x).
Proof. induction n as [|n IH]; [rewrite Rmult_0_l, exp_0; reflexivity|]. rewrite S_INR. cbn [pow]. rewrite IH, <- exp_plus. f_equal. ring. Qed.
Lemma exp_half : exp (- / 2) <= 608 / 1000.
Proof.
  assert (H : 1 + / 128 <= exp (/ 128)) by (left; apply exp_ineq1; lra). assert (Q : (129 / 128) ^ 64 <= exp (/ 128) ^ 64) by (apply pow_incr; lra).
  rewrite exp_pow_n in Q. replace (INR 64 * / 128) with (/ 2) in Q by (cbn; lra). assert (I : exp (- / 2) * exp (/ 2) = 1) by (rewrite <- exp_plus; replace (- / 2 + / 2) with 0 by lra; apply exp_0).
  assert (P := exp_pos (- / 2)). set (e := exp (- / 2)) in *. set (g := exp (/ 2)) in *. clearbody e g. assert (G : 1645 / 1000 <= g) by lra. assert (e * (1645 / 1000) <= e * g) by (apply Rmult_le_compat_l; lra). lra.
Qed.
Lemma normal_strip_ok : (1226 * 2 ^ 127 <=? 10 ^ 6 * (nz (map (scale 112) normalW_bin) 0 * nz (map (scale 68) normalF_bin) 1023))%Z = true.
Proof. vm_cast_no_check (eq_refl true). Qed.
Lemma normal_fits x v : ziggurat_of normal_density 1024 x v -> fits_53_bits normal_density (x 1023%nat) v (x 1%nat) /\ 4 <= x 1023%nat <= 405 / 100.
Proof.
  intros ZO. set (dum := fun a : float64 => a). destruct (C79_normal tape dum dum 0 x v ZO) as (CV & _ & CR).
  assert (RU : 4 <= x 1023%nat <= 405 / 100).
  { destruct (mkfloat_exact false 4547340665486032 (-50)) as (V & _ & _); [lia|lia|]. unfold normalR in CR. rewrite V in CR. change (bpow radix2 (-50)) with (/ IZR (2 ^ 50)) in CR. change (IZR (2 ^ 50)) with 1125899906842624 in CR. apply Rabs_def2 in CR. lra. }
  assert (V1 : 12259 / 10 ^ 7 <= v).
  { assert (O := normal_strip_ok). apply Z.leb_le in O. apply IZR_le in O. unfold strip in CV. destruct (normal_edge tape dum dum 0 1023) as (_ & -> & _) in CV; [lia|]. destruct (normal_edge tape dum dum 0 0) as (-> & _) in CV; [lia|].
    rewrite !mult_IZR in O. set (a := IZR (nz (map (scale 112) normalW_bin) 0)) in *. set (b := IZR (nz (map (scale 68) normalF_bin) 1023)) in *. clearbody a b.
    change (IZR (2 ^ 59)) with 576460752303423488 in *. change (IZR (2 ^ 68)) with 295147905179352825856 in *. change (IZR (2 ^ 127)) with 170141183460469231731687303715884105728 in *. change (IZR (10 ^ 6)) with 1000000 in *.
    replace (a / 576460752303423488 * (b / 295147905179352825856)) with (a * b / 170141183460469231731687303715884105728) in CV by field. set (c := a * b) in *. clearbody c. apply Rabs_le_between in CV. lra. }
  assert (XI := zo_edges _ _ _ _ ZO). assert (X0 := zo_zero _ _ _ _ ZO). assert (AR := zo_areas _ _ _ _ ZO).
  assert (P1 := XI 1%nat ltac:(lia)). cbn [Nat.sub] in P1. rewrite X0 in *.
  assert (VB : v = ZigSolve.base normal_density (sqrt (PI / 2)) (x 1023%nat)).
  { destruct (zo_base _ _ _ _ ZO) as (A & HA & E). change (1024 - 1)%nat with 1023%nat in *. rewrite <- E. unfold ZigSolve.base. rewrite (ZigSolve.tail_unique normal_density _ normal_decreasing (x 1023%nat) A ltac:(lra) HA). unfold ZigSolve.base. ring. }
  assert (VU : v <= (x 1023%nat + 1) * normal_density (x 1023%nat)).
  { destruct (zo_base _ _ _ _ ZO) as (A & HA & E). change (1024 - 1)%nat with 1023%nat in *. destruct (normal_area_bounds 0 0 (x 1023%nat) A ltac:(lra)) as [_ B]; [split; [intros; apply normal_ex_RInt|exact (proj2 HA)]|].
    unfold An in B. change (S (2 * 0)) with 1%nat in B. rewrite Pn_1, Qn_1 in B. assert (P := normal_pos (x 1023%nat)). assert (1 / x 1023%nat * normal_density (x 1023%nat) <= 1 * normal_density (x 1023%nat)). { apply Rmult_le_compat_r; [lra|]. unfold Rdiv. rewrite Rmult_1_l, <- Rinv_1. apply Rinv_le_contravar; lra. } lra. }
  set (r := x 1023%nat) in *. set (a := x 1%nat) in *.
  assert (LN : forall t, 1 - t <= exp (- t)) by (intros t; destruct (Req_dec t 0) as [->|N]; [rewrite Ropp_0, exp_0; lra|left; assert (Q := exp_ineq1 (- t) ltac:(lra)); lra]).
  assert (A1 : 1 / 10 <= a).
  { assert (Q := AR 1%nat ltac:(lia)). cbn [Nat.sub] in Q. rewrite X0 in Q. fold a in Q. unfold normal_density in Q. replace (- (0 ^ 2 / 2)) with 0 in Q by lra. rewrite exp_0 in Q. assert (L := LN (a ^ 2 / 2)). apply Rnot_lt_le. intros H. assert (AA : a ^ 2 <= 1 / 100) by nra. assert (a * (1 - exp (- (a ^ 2 / 2))) <= 1 / 10 * (1 / 200)) by (apply Rmult_le_compat; try lra; assert (exp (- (a ^ 2 / 2)) <= 1); [replace 1 with (exp (- 0)) by (rewrite Ropp_0; apply exp_0); apply exp_decr; nra|lra]). lra. }
  assert (RR : r * r <= 1641 / 100) by nra.
  split; [|exact RU]. split.
  - apply normal_continuous.
  - unfold normal_density. replace (- (0 ^ 2 / 2)) with 0 by lra. apply exp_0.
  - intros t y H Y. unfold normal_density. set (d := (y ^ 2 - t ^ 2) / 2). assert (L := LN d). assert (S : exp (- (y ^ 2 / 2)) = exp (- (t ^ 2 / 2)) * exp (- d)) by (rewrite <- exp_plus; f_equal; unfold d; lra). rewrite S. assert (P := exp_pos (- (t ^ 2 / 2))). set (p := exp (- (t ^ 2 / 2))) in *. set (q := exp (- d)) in *.
    assert (D : d <= 17 / r * (y - t)). { replace d with ((y + t) / 2 * (y - t)) by (unfold d; field). apply Rmult_le_compat_r; [lra|]. apply Rmult_le_reg_r with r; [lra|]. unfold Rdiv at 2. rewrite (Rmult_assoc 17), Rinv_l by lra. assert ((y + t) / 2 * r <= 10001 / 10000 * r * r) by (apply Rmult_le_compat_r; lra). lra. }
    assert (p * (1 - q) <= p * (17 / r * (y - t))) by (apply Rmult_le_compat_l; lra). lra.
  - intros t y [H1 H2] HR Y. unfold normal_density. set (s := (y ^ 2 - t ^ 2) / 2). set (d := y - t). assert (SD : s = (y + t) / 2 * d) by (unfold s, d; field). assert (D0 : 0 <= d <= 1 / 10 ^ 11) by (unfold d; lra). assert (SL : t * d <= s) by (rewrite SD; apply Rmult_le_compat_r; unfold d in *; lra). assert (SU : 0 <= s <= 1 / 2) by (rewrite SD; split; [apply Rmult_le_pos; lra|]; apply Rle_trans with (5 * (1 / 10 ^ 11)); [apply Rmult_le_compat; lra|lra]).
    assert (S : exp (- (t ^ 2 / 2)) = exp (- (y ^ 2 / 2)) * exp s) by (rewrite <- exp_plus; f_equal; unfold s; lra). assert (L : 1 + s <= exp s) by (destruct (Req_dec s 0) as [->|N]; [rewrite exp_0; lra|left; apply exp_ineq1; lra]).
    assert (P := exp_pos (- (y ^ 2 / 2))). assert (PT := exp_pos (- (t ^ 2 / 2))). assert (TT := LN s). assert (S2 : exp (- (y ^ 2 / 2)) = exp (- (t ^ 2 / 2)) * exp (- s)) by (rewrite <- exp_plus; f_equal; unfold s; lra). set (p := exp (- (t ^ 2 / 2))) in *. set (q := exp (- (y ^ 2 / 2))) in *. clearbody s d.
    assert (Q1 : q * s <= p - q). { rewrite S. assert (q * (1 + s) <= q * exp s) by (apply Rmult_le_compat_l; lra). lra. }
    assert (Q2 : p * (1 / 2) <= q) by (rewrite S2; apply Rmult_le_compat_l; lra). assert (Q3 : p * (1 / 2) * s <= q * s) by (apply Rmult_le_compat_r; lra).
    assert (Q4 : d / t <= 100 * (t * d)). { replace (100 * (t * d)) with (100 * (t * t) * (d / t)) by (field; lra). rewrite <- (Rmult_1_l (d / t)) at 1. apply Rmult_le_compat_r; [apply Rmult_le_pos; [lra|left; apply Rinv_0_lt_compat; lra]|nra]. }
    assert (d / t * p <= 100 * s * p) by (apply Rmult_le_compat_r; lra). assert (0 <= s * p) by (apply Rmult_le_pos; lra). lra.
  - intros t H. unfold normal_density. assert (L := LN ((1 - t ^ 2) / 2)). assert (S : exp (- (t ^ 2 / 2)) * exp (- ((1 - t ^ 2) / 2)) = exp (- / 2)) by (rewrite <- exp_plus; f_equal; lra). assert (E1 := exp_half). assert (P := exp_pos (- (t ^ 2 / 2))). set (q := exp (- ((1 - t ^ 2) / 2))) in *.
    assert (exp (- (t ^ 2 / 2)) * t <= exp (- (t ^ 2 / 2)) * q) by (apply Rmult_le_compat_l; [lra|assert (0 <= (t - 1) ^ 2) by apply pow2_ge_0; lra]). lra.
  - assert (P := normal_pos r). apply Rmult_le_reg_r with (normal_density r); [exact P|]. unfold Rdiv at 1. rewrite Rmult_assoc, Rinv_l by lra. assert ((r + 1) * normal_density r <= 159 / 10 * normal_density r) by (apply Rmult_le_compat_r; lra). lra.
  - lra.
  - assert (P := normal_pos r). assert ((r + 1) * normal_density r <= 6 * normal_density r) by (apply Rmult_le_compat_r; lra). split; [lra|]. apply Rmult_le_reg_r with r; [lra|]. unfold Rdiv. rewrite Rmult_assoc, Rinv_l by lra. lra.
Qed.
Lemma normal_pdf math_exp r : r <= 405 / 100 -> accurate_exp math_exp -> accurate_pdf (normalPDF math_exp) normal_density r.
Proof.
  intros R4 AE a x Va _ Hx. assert (U := uu_bound). fold uu in *. unfold normalPDF, normal_density.
  destruct (Rle_or_lt (/ 2 ^ 56) x) as [B|B].
  - destruct (normal_arg a x Va ltac:(lra) (or_intror B)) as (y & Vy & Ry). unfold rel in Ry. fold uu in Ry. assert (XX : 0 <= x * x <= 4051 / 1000 * (4051 / 1000)) by (split; [apply Rmult_le_pos|apply Rmult_le_compat]; lra).
    assert (D : 0 <= 21 / 10 * uu * (x * x / 2) <= 21 / 10 * (11103 / 10 ^ 20) * (821 / 100)) by (split; [apply Rmult_le_pos|apply Rmult_le_compat]; lra).
    assert (D1 : 21 / 10 * uu * (x * x / 2) <= 1 * (x * x / 2)) by (apply Rmult_le_compat_r; lra). destruct (exp_pdf math_exp _ y (x ^ 2 / 2) (20 / 10 ^ 16) AE Vy) as (p & VP & BP); [lra|lra|apply Rabs_le; lra|].
    exists p. split; [exact VP|]. eapply Rle_trans; [exact BP|]. apply Rmult_le_compat_r; [left; apply exp_pos|lra].
  - assert (P : exists y, fvalue (fmul (fmul (mkfloat false (-1) (-1)) a) a) (- y) /\ 0 <= y <= 1 / 10 ^ 16).
    { destruct Va as [Fa Ea]. destruct minus_half as [Fh Eh]. assert (FM := fmax_big).
      assert (RB : forall t e, (-1000 <= e)%Z -> 0 <= t <= bpow radix2 e -> 0 <= rnd t <= bpow radix2 e).
      { intros t e He Ht. assert (G : representable (bpow radix2 e)) by (apply generic_format_FLT_bpow; [reflexivity|lia]). split; [rewrite <- rnd_0; apply rnd_le; lra|rewrite <- (rnd_id _ G); apply rnd_le; lra]. }
      assert (B1 := RB (x / 2) (-10)%Z ltac:(lia)). change (bpow radix2 (-10)) with (/ 1024) in B1. specialize (B1 ltac:(lra)).
      assert (H1 : B2R (mkfloat false (-1) (-1)) * B2R a = - (x / 2)) by (rewrite Eh, Ea; field).
      destruct (fmul_R (mkfloat false (-1) (-1)) a Fh Fa) as (V1 & F1 & _); [rewrite H1, rnd_opp, Rabs_Ropp, Rabs_pos_eq; lra|]. rewrite H1, rnd_opp in V1. set (y := fmul (mkfloat false (-1) (-1)) a) in *. set (h := rnd (x / 2)) in *.
      assert (H2 : B2R y * B2R a = - (h * x)) by (rewrite V1, Ea; ring).
      assert (HX : 0 <= h * x <= / 1024 * / 2 ^ 56) by (split; [apply Rmult_le_pos|apply Rmult_le_compat]; lra).
      assert (B2 := RB (h * x) (-66)%Z ltac:(lia)). change (bpow radix2 (-66)) with (/ 73786976294838206464) in B2. specialize (B2 ltac:(lra)).
      destruct (fmul_R y a F1 Fa) as (V2 & F2 & _); [rewrite H2, rnd_opp, Rabs_Ropp, Rabs_pos_eq; lra|]. exists (rnd (h * x)). split; [split; [exact F2|rewrite V2, H2, rnd_opp; reflexivity]|lra]. }
    destruct P as (y & Vy & Ry). assert (XX : 0 <= x * x <= / 2 ^ 56 * / 2 ^ 56) by (split; [apply Rmult_le_pos|apply Rmult_le_compat]; lra).
    destruct (exp_pdf math_exp _ y (x ^ 2 / 2) (20 / 10 ^ 16) AE Vy) as (p & VP & BP); [lra|lra|apply Rabs_le; lra|].
    exists p. split; [exact VP|]. eapply Rle_trans; [exact BP|]. apply Rmult_le_compat_r; [left; apply exp_pos|lra].
Qed.
(** Likewise for the normal density, mirrored: with a tail function that always returns +Inf, the normal law from 0 to 3. *)
Example C80_nonvacuous_normal math_exp : accurate_exp math_exp ->
  exists r v xi (z : Ziggurat (list N)),
    decreasing_density normal_density (sqrt (PI / 2)) /\ 0 < r /\ solve normal_density 0 1024 r v xi /\ fits_53_bits normal_density r v (nth 1 xi 0) /\
    holds_script_tables z normal_density r v xi true /\ accurate_pdf (zPDF z) normal_density r /\ zMirrored z = true /\ (forall a, zPDF z (fneg a) = zPDF z a) /\
    forall x, 0 <= x <= 3 -> exists q, draw_prob (fun fuel ws => GenNext tape z fuel ws) (at_most x) q /\
      Rabs (q - (RInt normal_density 0 x + RInt normal_density 0 r) / (2 * sqrt (PI / 2))) <= 2 / 10 ^ 8.
Proof.
  intros AE. destruct (solve_exists normal_density _ normal_decreasing) as (X & v & xi & ZO & RP & SO & N1). destruct (normal_fits X v ZO) as (FB & RR). rewrite <- N1 in FB. set (r := X 1023%nat) in *.
  destruct (C80_tables_exist normal_density _ r v xi true (normalPDF math_exp) (fun ws : list N => Ret (finf, ws)) true normal_decreasing RP SO FB) as (z & HT & ZP & ZT & ZM).
  assert (AP : accurate_pdf (zPDF z) normal_density r) by (rewrite ZP; apply (normal_pdf math_exp r ltac:(lra) AE)).
  assert (EV : forall a, zPDF z (fneg a) = zPDF z a) by (intros a; rewrite ZP; unfold normalPDF; now rewrite !fmul_opp_r, fmul_opp_l, fneg_invol).
  exists r, v, xi, z. split; [exact normal_decreasing|]. split; [exact RP|]. split; [exact SO|]. split; [exact FB|]. split; [exact HT|]. split; [exact AP|]. split; [exact ZM|]. split; [exact EV|].
  intros x Hx. destruct (C80_mirrored_law z normal_density _ 0 r v xi true x 0 0 normal_decreasing ltac:(lra) RP SO FB HT AP ZM EV) as (q & D & E).
  { apply draw_prob_none. intros _ ws a ws' _ H (y & [Fy _] & _). rewrite ZT in H. injection H as <- <-. discriminate. }
  { apply (draw_prob_none _ (fun a => at_most x (fneg a))). intros _ ws a ws' _ H (y & [Fy _] & _). rewrite ZT in H. injection H as <- <-. discriminate. }
  exists q. split; [exact D|]. rewrite (Rmin_left x), (Rmax_right 0 x), (Rmin_left (- x)), (Rmax_left 0 (- x)), RInt_point in E by lra. change (zero : R) with 0 in E.
  replace (RInt normal_density 0 x + (RInt normal_density 0 r - 0) + (sqrt (PI / 2) - RInt normal_density 0 r) * (0 + 0)) with (RInt normal_density 0 x + RInt normal_density 0 r) in E by ring. exact E.
Qed.
End Compiler.
