(** The law of a ziggurat that fits a density, whatever the density and the tail. *)
From Coq Require Import Reals Lia Lra Psatz ZifyN ZifyNat Bool.
From Coquelicot Require Import Coquelicot.
From Flocq Require Import Core BinarySingleNaN.
From Verif Require Import Model.Base Model.Rng Model.Float Model.Distr Model.Ziggurat Spec.Common Spec.Counting Spec.Floats Spec.Zig Spec.Prob.
From Verif Require Import Proofs.FloatProofs Proofs.RelError Proofs.SumN Proofs.Riemann Proofs.ZigLayer Proofs.ZigAccept Proofs.ZigBody Proofs.ZigStep Proofs.ZigFloat Proofs.ZigTape Proofs.ZigHit Proofs.ZigMirror Props.Uniform Props.Zig Props.Tails.
Local Open Scope R_scope.

(** for every choice of the compiler which x*y + z to fuse (Model/Fused.v) *)
Section Compiler.
Context {fpc : compiler}.

(** a probability in terms of [pr] *)
Lemma draw_pr (tail : list N -> outcome (float64 * list N)) P p t : (forall v, p v = true <-> P v) -> draw_prob (fun _ => tail) P t ->
  is_lim_seq (fun n => pr n (fun ws => evb p (tail ws))) t.
Proof.
  intros HP (q & Q & L). revert L. apply is_lim_seq_ext. intros n. destruct (Q n) as (c & C & ->).
  destruct (prob_pr n (fun ws => evb p (tail ws)) (fun ws => exists (fuel : nat) f ws', tail ws = Ret (f, ws') /\ P f)) as (c' & C' & ->).
  { intros ws _ _. unfold evb. destruct (tail ws) as [[v w]| |].
    - split; [intros (_ & f & ws' & E & H); inversion E; subst; now apply HP|]. intros H. exists O, v, w. split; [reflexivity|now apply HP].
    - split; [intros (_ & f & ws' & E & H); discriminate|discriminate].
    - split; [intros (_ & f & ws' & E & H); discriminate|discriminate]. }
  now rewrite (Count.has_exactly_unique _ _ _ C C').
Qed.
Lemma lim_range (a : nat -> R) (l : R) : (forall n, 0 <= a n <= 1) -> is_lim_seq a l -> 0 <= l <= 1.
Proof.
  intros H L. split.
  - apply (is_lim_seq_le (fun _ => 0) a 0 l); [intros n; apply H|apply is_lim_seq_const|exact L].
  - apply (is_lim_seq_le a (fun _ => 1) l 1); [intros n; apply H|exact L|apply is_lim_seq_const].
Qed.
Lemma fneg_value v a : fvalue v a -> fvalue (fneg v) (- a).
Proof. intros [F <-]. split; [unfold fneg; now rewrite is_finite_Bopp|]. unfold fneg. apply B2R_Bopp. Qed.
Lemma lefb_value x v a : fvalue v a -> lefb x v = Rle_bool a x.
Proof. intros [F <-]. unfold lefb. now rewrite F. Qed.
(** the quotient of two close fractions *)
Lemma quotient_close n d n' d' e e' : 0 < d' -> / 1025 <= d -> 0 <= n' <= d' -> Rabs (n - n') <= e -> Rabs (d - d') <= e' -> Rabs (n / d - n' / d') <= 1025 * (e + e').
Proof.
  intros D' D N' E E'. assert (0 < d) by lra. replace (n / d - n' / d') with (((n - n') - (n' / d') * (d - d')) * / d) by (field; lra).
  assert (Q : 0 <= n' / d' <= 1).
  { split; [apply Rmult_le_pos; [lra|left; now apply Rinv_0_lt_compat]|]. apply Rmult_le_reg_r with d'; [exact D'|]. unfold Rdiv. rewrite Rmult_assoc, Rinv_l by lra. lra. }
  rewrite Rabs_mult, (Rabs_pos_eq (/ d)) by (left; now apply Rinv_0_lt_compat).
  assert (I : / d <= 1025) by (rewrite <- (Rinv_inv 1025); apply Rinv_le_contravar; lra).
  assert (B : Rabs (n - n' - n' / d' * (d - d')) <= e + e').
  { apply Rle_trans with (1 := Rabs_triang _ _). rewrite Rabs_Ropp, Rabs_mult, (Rabs_pos_eq (n' / d')) by lra.
    pose proof (Rabs_pos (d - d')). assert (n' / d' * Rabs (d - d') <= 1 * e') by (apply Rmult_le_compat; lra). lra. }
  rewrite Rmult_comm. apply Rmult_le_compat; [left; now apply Rinv_0_lt_compat|apply Rabs_pos|exact I|exact B].
Qed.

Section General.
  Variable z : Ziggurat (list N).
  Variable f : R -> R.
  Hypothesis ZF : zig_for z f.
  Notation zt := (fun _ : nat => z).
  Notation r := (edge z 1023).
  Notation V := (strip z).
  Notation T := (tail_area z).
  Notation area := (body_area z f).
  Lemma same : forall a : nat, zPDF (zt a) = zPDF z /\ zMirrored (zt a) = zMirrored z /\ zK (zt a) = zK z /\ zW (zt a) = zW z /\ zF (zt a) = zF z. Proof. auto. Qed.
  Lemma r_pos : 0 < r. Proof. apply (edge_pos z f ZF 1023 ltac:(lia)). Qed.
  Lemma r_16 : r <= 16. Proof. pose proof (zf_16 z f ZF). pose proof (edge_le0 z f ZF 1023 ltac:(lia)). lra. Qed.
  Lemma T_pos : 0 < T.
  Proof. unfold tail_area. apply Rmult_lt_0_compat; [pose proof (base_wider z (zf_tables z f ZF)); lra|]. apply (edge_pos z f ZF 1023 ltac:(lia)). Qed.
  Lemma V_pos : 0 < V.
  Proof. unfold strip. apply Rmult_lt_0_compat; [apply (edge_pos z f ZF 0 ltac:(lia))|apply (edge_pos z f ZF 1023 ltac:(lia))]. Qed.
  Lemma f_int a b : ex_RInt f a b. Proof. apply (h_int f (zf_cont z f ZF)). Qed.
  Lemma f_pos t : 0 <= t <= r -> 0 <= f t.
  Proof.
    intros Ht. apply Rle_trans with (f r); [|apply (zf_dec z f ZF); lra]. pose proof (zf_last z f ZF). destruct (edge_pos z f ZF 1023 ltac:(lia)) as [_ PH]. lra.
  Qed.
  Lemma area_mono x y : x <= y -> 0 <= area y - area x.
  Proof.
    intros H. pose proof r_pos. unfold body_area. set (a := Rmax 0 (Rmin x r)). set (b := Rmax 0 (Rmin y r)).
    assert (AB : 0 <= a <= b /\ b <= r) by (unfold a, b, Rmax, Rmin; repeat destruct Rle_dec; lra).
    assert (CH : RInt f 0 a + RInt f a b = RInt f 0 b) by exact (RInt_Chasles f 0 a b (f_int 0 a) (f_int a b)).
    replace (RInt f 0 b - RInt f 0 a) with (RInt f a b) by lra. apply RInt_ge_0; [lra|apply f_int|]. intros t Ht. apply f_pos. lra.
  Qed.
  Lemma area_lip x y : x <= y -> area y - area x <= y - x.
  Proof.
    intros H. pose proof r_pos. unfold body_area. set (a := Rmax 0 (Rmin x r)). set (b := Rmax 0 (Rmin y r)).
    assert (AB : 0 <= a <= b /\ b <= r /\ b - a <= y - x) by (unfold a, b, Rmax, Rmin; repeat destruct Rle_dec; lra).
    assert (CH : RInt f 0 a + RInt f a b = RInt f 0 b) by exact (RInt_Chasles f 0 a b (f_int 0 a) (f_int a b)).
    replace (RInt f 0 b - RInt f 0 a) with (RInt f a b) by lra.
    apply Rle_trans with (RInt (fun _ => 1) a b).
    - apply RInt_le; [lra|apply f_int|apply ex_RInt_const|]. intros t Ht. apply (f_le_1 z f ZF). lra.
    - rewrite RInt_const. change (scal (b - a) 1) with ((b - a) * 1). lra.
  Qed.
  Lemma area_0 x : x <= 0 -> area x = 0.
  Proof. intros H. pose proof r_pos. unfold body_area. replace (Rmax 0 (Rmin x r)) with 0; [exact (RInt_point (V := R_CompleteNormedModule) 0 f)|]. unfold Rmax, Rmin; repeat destruct Rle_dec; lra. Qed.
  Lemma area_pos x : 0 <= area x.
  Proof. destruct (Rle_or_lt x 0) as [H|H]; [rewrite area_0 by exact H; lra|]. pose proof (area_mono 0 x ltac:(lra)). rewrite (area_0 0) in * by lra. lra. Qed.
  Lemma area_top x : area x <= area r.
  Proof. destruct (Rle_or_lt x r) as [H|H]; [pose proof (area_mono x r H); lra|]. pose proof r_pos. unfold body_area. rewrite !Rmin_right by lra. lra. Qed.

  Definition upto (x : R) : R := part zt (fun i m => Rle_bool (pointv z i m) x).
  Definition c : R := / (1024 * V).
  Lemma c_pos : 0 < c. Proof. unfold c. apply Rinv_0_lt_compat. pose proof V_pos. lra. Qed.
  Lemma point_val i m : (i < 1024)%N -> (m <= 2 ^ 53)%N -> exists v, fvalue (pointf z (N.to_nat i) m) v /\ 0 <= v <= 16 /\ pointv z i m = v.
  Proof. intros Hi Hm. destruct (pointf_value z f ZF (N.to_nat i) m ltac:(lia) Hm) as (v & Vv & _ & B & _). exists v. split; [exact Vv|]. split; [exact B|]. unfold pointv. apply Vv. Qed.
  Lemma part_eq q q' : (forall i m, (i < 1024)%N -> (m <= 2 ^ 53)%N -> q i m = q' i m) -> part zt q = part zt q'.
  Proof. intros H. apply Rle_antisym; apply (part_le zt f ZF); intros i m Hi Hm; rewrite (H i m Hi Hm); auto. Qed.
  Lemma part_none : part zt (fun _ _ => false) = 0.
  Proof.
    pose proof (part_negb zt f ZF (fun _ _ => true)) as H. cbn [negb] in H. lra.
  Qed.
  Lemma upto_value x : Rabs (upto x - area x * c) <= 35 / 10 ^ 13.
  Proof.
    pose proof r_pos as RP. destruct (Rle_or_lt 0 x) as [H|H].
    - pose proof (zig_body_prob z f ZF x H) as B. rewrite (zig_body_part zt) in B. unfold body_area.
      replace (Rmax 0 (Rmin x r)) with (Rmin x r); [exact B|]. unfold Rmax, Rmin; repeat destruct Rle_dec; lra.
    - rewrite area_0 by lra. unfold upto. rewrite (part_eq _ (fun _ _ => false)), part_none; [rewrite Rmult_0_l, Rminus_0_r, Rabs_R0; lra|].
      intros i m Hi Hm. destruct (point_val i m Hi Hm) as (v & _ & B & ->). apply Rle_bool_false. lra.
  Qed.
  Definition before (x : R) : R := part zt (fun i m => negb (Rle_bool x (pointv z i m))).
  Lemma before_value x : Rabs (before x - area x * c) <= 36 / 10 ^ 13.
  Proof.
    pose proof (upto_value x) as U. apply Rabs_le_inv in U. pose proof c_pos as CP.
    assert (L1 : before x <= upto x).
    { apply (part_le zt f ZF). intros i m Hi Hm. destruct (point_val i m Hi Hm) as (v & _ & B & ->). case Rle_bool_spec; [discriminate|]. intros G _. apply Rle_bool_true. lra. }
    set (e := 1 / 10 ^ 13 / c). assert (EP : 0 < e) by (unfold e; apply Rdiv_lt_0_compat; lra).
    pose proof (upto_value (x - e)) as U'. apply Rabs_le_inv in U'.
    assert (L2 : upto (x - e) <= before x).
    { apply (part_le zt f ZF). intros i m Hi Hm. destruct (point_val i m Hi Hm) as (v & _ & B & ->). case Rle_bool_spec; [|discriminate]. intros G _. rewrite Rle_bool_false by lra. reflexivity. }
    pose proof (area_lip (x - e) x ltac:(lra)) as AL. assert (EC : e * c = 1 / 10 ^ 13) by (unfold e; field; lra).
    assert ((area x - area (x - e)) * c <= (x - (x - e)) * c) by (apply Rmult_le_compat_r; lra).
    replace ((x - (x - e)) * c) with (e * c) in H by ring. apply Rabs_le. lra.
  Qed.
  Lemma all_value : Rabs (part zt (fun _ _ => true) - area r * c) <= 35 / 10 ^ 13.
  Proof.
    rewrite (part_true zt f ZF), (zig_body_part zt). pose proof (upto_value 16) as U. unfold upto in U. replace (area r) with (area 16); [exact U|].
    unfold body_area. pose proof r_pos. pose proof r_16. f_equal. unfold Rmax, Rmin; repeat destruct Rle_dec; lra.
  Qed.
  Lemma outside_T : Rabs (outside zt - T * c) <= / 2 ^ 53.
  Proof.
    destruct (zf_base z f ZF) as [_ B]. destruct (edge_pos z f ZF 0 ltac:(lia)) as [P0 _]. destruct (edge_pos z f ZF 1023 ltac:(lia)) as [_ PH].
    unfold outside, tail_area, c, strip in *. cbv beta. rewrite edge_small in B. assert (KE : NR (tK z 0) / IZR (2 ^ 53) = NR (tK z 0) * / 2 ^ 53) by (unfold Rdiv; now rewrite (proj1 inv53)). rewrite KE.
    pose proof small53 as S3. set (k := NR (tK z 0)) in *. set (h := height z 1023) in *. set (x := edge z 0) in *. set (rr := r) in *. set (i3 := / 2 ^ 53) in *. clearbody k h x i3 rr.
    assert (B' : Rabs (k * i3 - rr / x) <= 3 * i3).
    { assert (E : k * i3 - rr / x = (k * (x * i3) - rr) * / x) by (field; lra). rewrite E, Rabs_mult, (Rabs_pos_eq (/ x)) by (left; now apply Rinv_0_lt_compat). apply Rmult_le_reg_r with x; [exact P0|]. rewrite Rmult_assoc, Rinv_l by lra. lra. }
    replace ((1 - k * i3) / 1024 - (x - rr) * h * / (1024 * (x * h))) with (- ((k * i3 - rr / x) / 1024)) by (field; lra).
    apply Rabs_le_inv in B'. apply Rabs_le. lra.
  Qed.
  Lemma all_big : / 1024 <= part zt (fun _ _ => true) + outside zt.
  Proof.
    pose proof P53 as PP. unfold part, outside.
    assert (A : 0 <= sumN (fun k => mean53 (fun m => ind true * accept z (N.succ k) m)) 1023).
    { apply sumN_nonneg. intros k _. apply mean53_range. intros m. cbn [ind]. pose proof (accept_range z (N.succ k) m). lra. }
    assert (E : sumN (fun _ => ind true) (tK z 0) = NR (tK z 0)) by (rewrite sumN_const; cbn; ring). rewrite E. lra.
  Qed.
  Lemma outside_pos : 0 <= outside zt.
  Proof. rewrite (outside_mean zt f ZF). pose proof (mean53_range (fun m => 1 - ind (m <? tK z 0)%N) ltac:(intros; pose proof (ind_range (u <? tK z 0)%N); lra)). lra. Qed.
  Lemma mix_close a b t k : 0 <= t <= 1 -> Rabs (a - b) <= k -> Rabs (a * t - b * t) <= k.
  Proof. intros Ht H. replace (a * t - b * t) with ((a - b) * t) by ring. rewrite Rabs_mult, (Rabs_pos_eq t) by lra. pose proof (Rabs_pos (a - b)). nra. Qed.

  Theorem general_unmirrored x t : zMirrored z = false -> draw_prob (fun _ => zTail z) (at_most x) t ->
    exists q, draw_prob (fun fuel ws => GenNext tape z fuel ws) (at_most x) q /\ Rabs (q - (area x + T * t) / (area r + T)) <= 1 / 10 ^ 8.
  Proof.
    intros UM DT. set (p := lefb x). assert (HP : forall v, p v = true <-> at_most x v) by (intros; apply lefb_spec).
    pose proof (draw_pr _ _ p t HP DT) as LT. pose proof (lim_range _ _ (fun n => pr_range n _) LT) as TR.
    assert (H1 : hit (ins zt) tl (le zt p) (below zt) = upto x).
    { rewrite (hit_unmirrored zt f ZF p UM). apply part_eq. intros i m Hi Hm. destruct (point_val i m Hi Hm) as (v & Vv & _ & ->). now apply lefb_value. }
    assert (TM : tail_mass zt = outside zt) by now apply (tail_unmirrored zt f ZF).
    assert (ME : 1 - miss (ins zt) tl (below zt) = part zt (fun _ _ => true) + outside zt).
    { pose proof (total (ins zt) tl (below zt)) as TO. fold (tail_mass zt) in TO. rewrite TM in TO.
      rewrite <- (hit_all_mirrored zt) in TO. rewrite (hit_unmirrored zt f ZF (fun _ => true) UM) in TO. lra. }
    pose proof all_big as AB. assert (DP : 0 < part zt (fun _ _ => true) + outside zt) by lra.
    exists ((upto x + outside zt * t) / (part zt (fun _ _ => true) + outside zt)). split.
    - rewrite <- ME, <- H1. apply (draw_limit zt).
      + apply (tables_full z (zf_tables z f ZF)).
      + exact same.
      + auto.
      + auto.
      + exact HP.
      + lra.
      + apply is_lim_seq_ext with (fun n => outside zt * pr (S n) (fun ws => evb p (zTail z ws))).
        * intros n. rewrite <- TM. unfold tails, tail_mass. rewrite Rmult_comm, <- mean64_scal. apply mean64_ext. intros u Hu. destruct (ins zt u); [ring|]. destruct (tl u); [|ring]. rewrite Rmult_1_r.
          apply pr_ext. intros ws _ _. unfold TE. rewrite UM. replace (abscissa false u <? 0)%Z with false; [reflexivity|]. symmetry. apply Z.ltb_ge. unfold abscissa. apply Z.mod_pos_bound. reflexivity.
        * apply (is_lim_seq_mult' (fun _ => outside zt) (fun n => pr (S n) (fun ws => evb p (zTail z ws))) (outside zt) t); [apply is_lim_seq_const|]. apply (is_lim_seq_incr_1 (fun n => pr n (fun ws => evb p (zTail z ws)))). exact LT.
    - pose proof small53 as S3. pose proof c_pos as CP. pose proof T_pos as TP. pose proof (area_pos r) as AR. pose proof (area_pos x) as A0. pose proof (area_top x) as A1.
      replace ((area x + T * t) / (area r + T)) with ((area x * c + T * c * t) / (area r * c + T * c)) by (field; split; [apply Rgt_not_eq; lra|rewrite <- Rmult_plus_distr_r; apply Rgt_not_eq, Rmult_lt_0_compat; lra]).
      pose proof (upto_value x) as U. pose proof all_value as AV. pose proof outside_T as OT. pose proof (mix_close _ _ t _ TR OT) as OM.
      apply Rle_trans with (1025 * (36 / 10 ^ 13 + 36 / 10 ^ 13)); [|lra]. apply quotient_close.
      + pose proof (Rmult_lt_0_compat _ _ TP CP). assert (0 <= area r * c) by (apply Rmult_le_pos; lra). lra.
      + lra.
      + assert (0 <= area x * c <= area r * c) by (split; [apply Rmult_le_pos; lra|apply Rmult_le_compat_r; lra]). pose proof (Rmult_lt_0_compat _ _ TP CP). assert (0 <= T * c * t <= T * c) by (split; [apply Rmult_le_pos; lra|]; rewrite <- (Rmult_1_r (T * c)) at 2; apply Rmult_le_compat_l; lra). lra.
      + apply Rabs_le_inv in U. apply Rabs_le_inv in OM. apply Rabs_le. lra.
      + apply Rabs_le_inv in AV. apply Rabs_le_inv in OT. apply Rabs_le. lra.
  Qed.
  Theorem general_mirrored x t t' : zMirrored z = true -> (forall v, zPDF z (fneg v) = zPDF z v) ->
    draw_prob (fun _ => zTail z) (at_most x) t -> draw_prob (fun _ => zTail z) (fun v => at_most x (fneg v)) t' ->
    exists q, draw_prob (fun fuel ws => GenNext tape z fuel ws) (at_most x) q /\
      Rabs (q - (area x + (area r - area (- x)) + T * (t + t')) / (2 * (area r + T))) <= 1 / 10 ^ 8.
  Proof.
    intros MI EV DT DT'. set (p := lefb x). assert (HP : forall v, p v = true <-> at_most x v) by (intros; apply lefb_spec).
    pose proof (draw_pr _ _ p t HP DT) as LT. pose proof (lim_range _ _ (fun n => pr_range n _) LT) as TR.
    pose proof (draw_pr _ _ (fun v => p (fneg v)) t' (fun v => HP (fneg v)) DT') as LT'. pose proof (lim_range _ _ (fun n => pr_range n _) LT') as TR'.
    pose proof (hit_mirrored zt f ZF MI EV p) as H1. pose proof (hit_mirrored zt f ZF MI EV (fun _ => true)) as HA.
    assert (Q1 : part zt (qp zt p) = upto x).
    { apply part_eq. intros i m Hi Hm. destruct (point_val i m Hi Hm) as (v & Vv & _ & ->). now apply lefb_value. }
    assert (Q2 : part zt (qm zt p) = part zt (fun _ _ => true) - before (- x)).
    { unfold before. rewrite <- (part_negb zt f ZF). apply part_eq. intros i m Hi Hm. destruct (point_val i m Hi Hm) as (v & Vv & _ & ->). rewrite negb_involutive.
      unfold qm, p. rewrite (lefb_value x _ _ (fneg_value _ _ Vv)). destruct (Rle_or_lt (- x) v); [rewrite !Rle_bool_true by lra; reflexivity|rewrite !Rle_bool_false by lra; reflexivity]. }
    rewrite Q1, Q2 in H1. set (A := part zt (fun _ _ => true)) in *.
    assert (QA : part zt (qp zt (fun _ => true)) = A /\ part zt (qm zt (fun _ => true)) = A) by (split; apply part_eq; reflexivity). destruct QA as [QA1 QA2]. rewrite QA1, QA2 in HA.
    rewrite (hit_all_mirrored zt) in HA.
    pose proof (tail_mass_mirrored zt f ZF MI) as TM.
    pose proof (total (ins zt) tl (below zt)) as TO. fold (tail_mass zt) in TO. rewrite TM in TO.
    set (HH := mean64 _) in TO, HA. pose proof small53 as S3. destruct inv53 as [I3 _]. unfold outside' in TM, TO. rewrite I3 in H1, HA, TM, TO.
    pose proof all_big as AB. fold A in AB. pose proof outside_pos as OP.
    apply Rabs_le_inv in HA. apply Rabs_le_inv in H1.
    assert (ME : 1 - miss (ins zt) tl (below zt) = HH + (outside zt + (outside zt + / 2 ^ 53 / 1024)) / 2) by lra.
    set (D := HH + (outside zt + (outside zt + / 2 ^ 53 / 1024)) / 2) in *. assert (DP : / 1025 <= D) by (unfold D; lra).
    set (o' := outside zt + / 2 ^ 53 / 1024) in *.
    exists ((hit (ins zt) tl (le zt p) (below zt) + (outside zt * t + o' * t') / 2) / D). split.
    - rewrite <- ME. apply (draw_limit zt).
      + apply (tables_full z (zf_tables z f ZF)).
      + exact same.
      + auto.
      + auto.
      + exact HP.
      + lra.
      + apply is_lim_seq_ext with (fun n => outside zt / 2 * pr (S n) (fun ws => evb p (zTail z ws)) + o' / 2 * pr (S n) (fun ws => evb (fun v => p (fneg v)) (zTail z ws))).
        * intros n. rewrite (tails_mirrored zt f ZF MI p n). unfold outside', Tp, Tm. rewrite I3. fold o'. field.
        * replace (Finite ((outside zt * t + o' * t') / 2)) with (Finite (outside zt / 2 * t + o' / 2 * t')) by (f_equal; field).
          apply (is_lim_seq_plus' (fun n => outside zt / 2 * pr (S n) (fun ws => evb p (zTail z ws))) (fun n => o' / 2 * pr (S n) (fun ws => evb (fun v => p (fneg v)) (zTail z ws))));
            (apply is_lim_seq_mult'; [apply is_lim_seq_const|]).
          -- apply (is_lim_seq_incr_1 (fun n => pr n (fun ws => evb p (zTail z ws)))). exact LT.
          -- apply (is_lim_seq_incr_1 (fun n => pr n (fun ws => evb (fun v => p (fneg v)) (zTail z ws)))). exact LT'.
    - pose proof c_pos as CP. pose proof T_pos as TP. pose proof (area_pos r) as AR. pose proof (area_pos x) as A0. pose proof (area_top x) as A1. pose proof (area_pos (- x)) as A0'. pose proof (area_top (- x)) as A1'.
      replace ((area x + (area r - area (- x)) + T * (t + t')) / (2 * (area r + T))) with
        (((area x * c + (area r * c - area (- x) * c)) / 2 + (T * c * t + T * c * t') / 2) / (area r * c + T * c)) by (field; split; [apply Rgt_not_eq; lra|rewrite <- Rmult_plus_distr_r; apply Rgt_not_eq, Rmult_lt_0_compat; lra]).
      pose proof (upto_value x) as U. pose proof (before_value (- x)) as B. pose proof all_value as AV. fold A in AV. pose proof outside_T as OT. pose proof (mix_close _ _ t _ TR OT) as OM. pose proof (mix_close _ _ t' _ TR' OT) as OM'.
      assert (OO : Rabs (o' * t' - outside zt * t') <= / 2 ^ 53) by (apply mix_close; [exact TR'|]; unfold o'; apply Rabs_le; lra).
      apply Rabs_le_inv in U. apply Rabs_le_inv in B. apply Rabs_le_inv in AV. apply Rabs_le_inv in OT. apply Rabs_le_inv in OM. apply Rabs_le_inv in OM'. apply Rabs_le_inv in OO.
      apply Rle_trans with (1025 * (55 / 10 ^ 13 + 36 / 10 ^ 13)); [|lra].
      assert (P1 : 0 <= area x * c <= area r * c) by (split; [apply Rmult_le_pos; lra|apply Rmult_le_compat_r; lra]).
      assert (P2 : 0 <= area (- x) * c <= area r * c) by (split; [apply Rmult_le_pos; lra|apply Rmult_le_compat_r; lra]).
      pose proof (Rmult_lt_0_compat _ _ TP CP) as P3.
      assert (P4 : 0 <= T * c * t <= T * c) by (split; [apply Rmult_le_pos; lra|]; rewrite <- (Rmult_1_r (T * c)) at 2; apply Rmult_le_compat_l; lra).
      assert (P5 : 0 <= T * c * t' <= T * c) by (split; [apply Rmult_le_pos; lra|]; rewrite <- (Rmult_1_r (T * c)) at 2; apply Rmult_le_compat_l; lra).
      apply quotient_close; [lra|exact DP|lra| |].
      + apply Rabs_le. lra.
      + unfold D. apply Rabs_le. unfold o'. lra.
  Qed.
End General.
End Compiler.
