(** Two compilations of the ziggurat on the same tape. *)
From Coq Require Import Reals Lia Lra Psatz ZifyN ZifyNat Bool.
From Flocq Require Import Core BinarySingleNaN.
From Verif Require Import Model.Base Model.Rng Model.Float Model.Fused Model.Distr Model.Ziggurat Model.ExpoNormal Spec.Common Spec.Counting Spec.Floats Spec.Zig Spec.Tails Spec.Prob Spec.ZigFit Spec.Words Spec.Portable.
From Verif Require Import Proofs.WordLemmas Proofs.FloatProofs Proofs.RelError Proofs.SumN Proofs.ZigAccept Proofs.ZigStep Proofs.ZigFloat Proofs.ZigTape Proofs.ZigHit Proofs.ZigMirror Proofs.NormalTail Proofs.NormalTailLaw Proofs.GenTape Proofs.GenLaw Proofs.Independent Props.Uniform Props.Zig Props.ExpoNormal Props.Tails.
Local Open Scope R_scope.

(** few k lie in an interval *)
Lemma sumN_between (b : N -> bool) lo hi n : 0 <= hi - lo -> (forall k, (k < n)%N -> b k = true -> lo <= NR k <= hi) -> sumN (fun k => ind (b k)) n <= hi - lo + 1.
Proof.
  intros W H. set (L := fun k => Rlt_bool (NR k) lo). set (U := fun k => Rle_bool (NR k) hi).
  assert (D : forall k, (k < n)%N -> ind (b k) <= ind (U k) - ind (L k)).
  { intros k Hk. unfold U, L. case Rle_bool_spec; case Rlt_bool_spec; intros A B; cbn [ind]; destruct (b k) eqn:E; cbn [ind]; try lra; specialize (H k Hk E); lra. }
  apply Rle_trans with (sumN (fun k => ind (U k) - ind (L k)) n); [now apply sumN_le|]. rewrite sumN_minus.
  assert (A1 : sumN (fun k => ind (U k)) n <= Rmax 0 (Rmin (NR n) (hi + 1))). { apply sumN_count_high. intros k _. unfold U. case Rle_bool_spec; [auto|discriminate]. }
  assert (A2 : Rmin (NR n) lo <= sumN (fun k => ind (L k)) n). { apply sumN_count_low. intros k _ Hk. unfold L. now apply Rlt_bool_true. }
  assert (A3 : 0 <= sumN (fun k => ind (L k)) n) by (apply sumN_nonneg; intros; apply ind_range).
  revert A1 A2. unfold Rmax, Rmin. repeat destruct Rle_dec; intros; lra.
Qed.
Section Accept2.
  Variables (Fi Fp : float64) (fi fp : R).
  Hypothesis (Vi : fvalue Fi fi) (Vp : fvalue Fp fp).
  Hypothesis (Hfi : / 2 ^ 20 <= fi) (Hg : / 2 ^ 20 <= fp - fi) (Hfp : fp <= 1) (ST : fp <= 500 * (fp - fi)).
  Notation eps := (/ 2 ^ 53).
  Lemma acc_where (c : compiler) P p k : fvalue P p -> (k < M53)%N -> let q := IZR (2 ^ 53) * ((p - fi) / (fp - fi)) in let d := IZR (2 ^ 53) * (4 * eps * fp / (fp - fi)) in
    (NR k < q - d -> acc (fpc := c) Fi Fp P k = true) /\ (q + d < NR k -> acc (fpc := c) Fi Fp P k = false).
  Proof.
    intros VP Hk q d. destruct (height_at (fpc := c) Fi Fp fi fp Vi Vp Hfi Hg Hfp k Hk) as (s & [FS ES] & B). destruct VP as [FP EP].
    assert (G0 : 0 < fp - fi) by lra. pose proof P53 as PP. unfold acc. rewrite flt_R by assumption. rewrite ES, EP. apply Rabs_le_inv in B.
    assert (Q : forall x, IZR (2 ^ 53) * (x / (fp - fi)) = x * (IZR (2 ^ 53) / (fp - fi))) by (intros; field; lra).
    assert (R0 : 0 < IZR (2 ^ 53) / (fp - fi)) by (apply Rdiv_lt_0_compat; lra). unfold q, d. rewrite !Q.
    set (r := IZR (2 ^ 53) / (fp - fi)) in *. assert (EK : NR k = NR k / IZR (2 ^ 53) * (fp - fi) * r) by (unfold r; field; lra). set (y := NR k / IZR (2 ^ 53) * (fp - fi)) in *. rewrite EK.
    split; intros H.
    - apply Rlt_bool_true. assert (y < p - fi - 4 * eps * fp) by (apply Rmult_lt_reg_r with r; [exact R0|]; lra). lra.
    - apply Rlt_bool_false. assert (p - fi + 4 * eps * fp < y) by (apply Rmult_lt_reg_r with r; [exact R0|]; lra). lra.
  Qed.
  Lemma acc_differ (c1 c2 : compiler) P1 P2 p1 p2 e : fvalue P1 p1 -> fvalue P2 p2 -> Rabs (p1 - p2) <= e * (fp - fi) ->
    mean53 (fun k => ind (xorb (acc (fpc := c1) Fi Fp P1 k) (acc (fpc := c2) Fi Fp P2 k))) <= 45 / 10 ^ 14 + e.
  Proof.
    intros V1 V2 HE. assert (G0 : 0 < fp - fi) by lra. assert (E0 : 0 <= e). { apply Rmult_le_reg_r with (fp - fi); [exact G0|]. rewrite Rmult_0_l. apply Rle_trans with (2 := HE). apply Rabs_pos. }
    set (q1 := IZR (2 ^ 53) * ((p1 - fi) / (fp - fi))). set (q2 := IZR (2 ^ 53) * ((p2 - fi) / (fp - fi))). set (d := IZR (2 ^ 53) * (4 * eps * fp / (fp - fi))). pose proof P53 as PP. pose proof (proj1 inv53) as I1.
    assert (D0 : 0 <= d <= 2000).
    { assert (T : d = 4 * fp / (fp - fi)) by (unfold d; rewrite <- I1; field; lra). rewrite T. split; [apply Rmult_le_pos; [|left; now apply Rinv_0_lt_compat]; lra|].
      apply Rmult_le_reg_r with (fp - fi); [exact G0|]. unfold Rdiv. rewrite Rmult_assoc, Rinv_l by lra. lra. }
    assert (Q12 : Rabs (q1 - q2) <= IZR (2 ^ 53) * e).
    { assert (T : q1 - q2 = IZR (2 ^ 53) * ((p1 - p2) * / (fp - fi))) by (unfold q1, q2; field; lra). rewrite T, Rabs_mult, (Rabs_pos_eq (IZR (2 ^ 53))) by lra. apply Rmult_le_compat_l; [lra|].
      rewrite Rabs_mult, (Rabs_pos_eq (/ (fp - fi))) by (left; now apply Rinv_0_lt_compat). apply Rmult_le_reg_r with (fp - fi); [exact G0|]. rewrite Rmult_assoc, Rinv_l by lra. lra. }
    set (lo := Rmin q1 q2 - d). set (hi := Rmax q1 q2 + d). assert (HL : hi - lo <= IZR (2 ^ 53) * e + 4000 /\ 0 <= hi - lo).
    { apply Rabs_le_inv in Q12. unfold hi, lo, Rmax, Rmin. split; repeat destruct Rle_dec; lra. }
    assert (S : sumN (fun k => ind (xorb (acc (fpc := c1) Fi Fp P1 k) (acc (fpc := c2) Fi Fp P2 k))) M53 <= hi - lo + 1).
    { apply sumN_between; [lra|]. intros k Hk E. destruct (acc_where c1 P1 p1 k V1 Hk) as [A1 B1]. destruct (acc_where c2 P2 p2 k V2 Hk) as [A2 B2]. fold q1 d in A1, B1. fold q2 d in A2, B2. split.
      - destruct (Rlt_or_le (NR k) lo) as [L|L]; [|exact L]. unfold lo in L. pose proof (Rmin_l q1 q2). pose proof (Rmin_r q1 q2). rewrite A1, A2 in E by lra. discriminate E.
      - destruct (Rlt_or_le hi (NR k)) as [L|L]; [|exact L]. unfold hi in L. pose proof (Rmax_l q1 q2). pose proof (Rmax_r q1 q2). rewrite B1, B2 in E by lra. discriminate E. }
    unfold mean53. apply Rmult_le_reg_r with (IZR (2 ^ 53)); [exact PP|]. unfold Rdiv at 1. rewrite Rmult_assoc, Rinv_l, Rmult_1_r by lra.
    apply Rle_trans with (1 := S). rewrite Rmult_plus_distr_r, (Rmult_comm e). enough (4001 <= 45 / 10 ^ 14 * IZR (2 ^ 53)) by lra. change (IZR (2 ^ 53)) with 9007199254740992. lra.
  Qed.
End Accept2.

(** one ziggurat *)
Section Zig1.
  Context (z : Ziggurat (list N)) (f : R -> R).
  Hypothesis ZF : zig_for z f.
  Hypothesis EVEN : zMirrored z = true -> forall x, zPDF z (fneg x) = zPDF z x.
  Notation t u := (NR (Z.to_N (Z.abs (abscissa (zMirrored z) u))) * (edge z (layer u) / IZR (2 ^ 53))).
  Lemma pdf_at u : w64 u -> layer u <> 0%nat -> exists p, fvalue (zPDF z (point z u)) p /\ Rabs (p - f (t u)) <= 5 / 10 ^ 15 * f (t u).
  Proof.
    intros Wu L0. destruct (layer_bits u Wu) as (_ & L & _). set (j := abscissa (zMirrored z) u). assert (R : (Z.abs j <= 2 ^ 53)%Z /\ (zMirrored z = false -> 0 <= j)%Z).
    { split; [pose proof (abscissa_range (zMirrored z) u); lia|]. intros M. unfold j. rewrite M. unfold abscissa. apply Z.mod_pos_bound. reflexivity. }
    destruct R as [R RM]. set (m := Z.to_N (Z.abs j)). assert (Hm : (m <= 2 ^ 53)%N) by lia.
    destruct (zf_pdf z f ZF (layer u) m ltac:(lia) Hm) as (p & V & B). exists p. split; [|exact B]. replace (zPDF z (point z u)) with (zPDF z (pointf z (layer u) m)); [exact V|].
    unfold point, pointf. fold j. destruct (Z_lt_le_dec j 0) as [N|P0].
    - assert (M : zMirrored z = true) by (destruct (zMirrored z); [reflexivity|specialize (RM eq_refl); lia]). replace j with (- Z.of_N m)%Z by lia. rewrite of_int_neg by lia. rewrite fmul_opp_l. now rewrite EVEN.
    - replace j with (Z.of_N m) by lia. reflexivity.
  Qed.
  Lemma f_outside u : w64 u -> layer u <> 0%nat -> ~ inside z u -> f (t u) <= 101 / 100 * height z (layer u - 1).
  Proof.
    intros Wu L0 HI. destruct (layer_bits u Wu) as (_ & L & _). pose proof (zf_tables z f ZF) as T. unfold inside in HI. set (j := abscissa (zMirrored z) u) in *. set (m := Z.to_N (Z.abs j)). set (n := layer u) in *. clearbody n.
    destruct (tables_finite z T n ltac:(lia)) as (_ & _ & PE & _). pose proof P53 as PP. set (w := edge z n / IZR (2 ^ 53)). assert (W0 : 0 < w) by (apply Rdiv_lt_0_compat; lra). assert (T0 : 0 <= NR m * w) by (apply Rmult_le_pos; [apply NR_pos|lra]).
    destruct (Nat.eq_dec n 1) as [->|N1].
    - change (1 - 1)%nat with 0%nat. rewrite (height_top z T). pose proof (f_le_1 z f ZF (NR m * w) T0). lra.
    - apply (zf_outer z f ZF n); [lia|exact T0|]. fold w. destruct (ratio_bounds z f ZF n ltac:(lia)) as [_ RB]. fold w in RB. assert (NR (tK z n) <= NR m) by (apply IZR_le; lia).
      assert (NR (tK z n) * w <= NR m * w) by (apply Rmult_le_compat_r; lra). lra.
  Qed.
End Zig1.
(** two ziggurats with the same tables *)
Definition same_tables (z1 z2 : Ziggurat (list N)) : Prop := zMirrored z1 = zMirrored z2 /\ zK z1 = zK z2 /\ zW z1 = zW z2 /\ zF z1 = zF z2.
Section Zig2.
  Context (z1 z2 : Ziggurat (list N)) (f : R -> R).
  Hypothesis (ZF1 : zig_for z1 f) (ZF2 : zig_for z2 f).
  Hypothesis EVEN1 : zMirrored z1 = true -> forall x, zPDF z1 (fneg x) = zPDF z1 x.
  Hypothesis EVEN2 : zMirrored z2 = true -> forall x, zPDF z2 (fneg x) = zPDF z2 x.
  Hypothesis TAB : same_tables z1 z2.
  Variables c1 c2 : compiler.
  Lemma two_point u : point z2 u = point z1 u.
  Proof. destruct TAB as (M & _ & EW & _). unfold point, tW. now rewrite M, EW. Qed.
  Lemma two_inside u : inside z2 u <-> inside z1 u.
  Proof. destruct TAB as (M & EK & _ & _). unfold inside, tK. now rewrite M, EK. Qed.
  Definition below_c (c : compiler) (z : Ziggurat (list N)) (u k : N) : bool := below_curve (fpc := c) z u (unif k).
  Lemma below_acc (c : compiler) z u k : below_c c z u k = acc (fpc := c) (tF z (layer u)) (tF z (layer u - 1)) (zPDF z (point z u)) k.
  Proof. reflexivity. Qed.
  Lemma below_differ_gen u e p1 p2 : w64 u -> layer u <> 0%nat -> fvalue (zPDF z1 (point z1 u)) p1 -> fvalue (zPDF z2 (point z2 u)) p2 -> Rabs (p1 - p2) <= e * (height z1 (layer u - 1) - height z1 (layer u)) ->
    mean53 (fun k => ind (xorb (below_c c1 z1 u k) (below_c c2 z2 u k))) <= 45 / 10 ^ 14 + e.
  Proof.
    intros Wu L0 V1 V2 HE. destruct (layer_bits u Wu) as (_ & L & _). set (n := layer u) in *. pose proof (zf_tables z1 f ZF1) as T.
    destruct (zf_steep z1 f ZF1 n ltac:(lia)) as (S1 & S2 & S3). destruct (tables_finite z1 T n ltac:(lia)) as (_ & FF & _ & PH). destruct (tables_finite z1 T (n - 1)%nat ltac:(lia)) as (_ & FF' & _ & PH').
    assert (H1 : height z1 (n - 1) <= 1).
    { destruct (Nat.eq_dec n 1) as [->|N1]; [change (1 - 1)%nat with 0%nat; rewrite (height_top z1 T); lra|]. rewrite <- (height_top z1 T). left. apply (heights_decrease z1 T). lia. }
    assert (EF : forall i, tF z2 i = tF z1 i) by (intros i; destruct TAB as (_ & _ & _ & EF); unfold tF; now rewrite EF).
    pose proof (acc_differ (tF z1 n) (tF z1 (n - 1)) (height z1 n) (height z1 (n - 1)) (conj FF eq_refl) (conj FF' eq_refl) S2 S3 H1 S1 c1 c2 _ _ p1 p2 e V1 V2 HE) as A.
    apply Rle_trans with (2 := A). right. unfold mean53. f_equal. apply sumN_ext. intros k _. rewrite !below_acc. fold n. now rewrite !EF.
  Qed.
  Lemma below_differ_same u : zPDF z1 = zPDF z2 -> w64 u -> layer u <> 0%nat -> mean53 (fun k => ind (xorb (below_c c1 z1 u k) (below_c c2 z2 u k))) <= 45 / 10 ^ 14.
  Proof.
    intros EP Wu L0. destruct (pdf_at z1 f ZF1 EVEN1 u Wu L0) as (p & V & _). rewrite <- (Rplus_0_r (45 / 10 ^ 14)). apply (below_differ_gen u 0 p p Wu L0 V).
    - now rewrite two_point, <- EP.
    - rewrite Rminus_diag_eq, Rabs_R0 by reflexivity. lra.
  Qed.
  Lemma below_differ u : w64 u -> layer u <> 0%nat -> ~ inside z1 u -> mean53 (fun k => ind (xorb (below_c c1 z1 u k) (below_c c2 z2 u k))) <= 55 / 10 ^ 13.
  Proof.
    intros Wu L0 HI. destruct (pdf_at z1 f ZF1 EVEN1 u Wu L0) as (p1 & V1 & B1). destruct (pdf_at z2 f ZF2 EVEN2 u Wu L0) as (p2 & V2 & B2).
    assert (ET : forall i, edge z2 i = edge z1 i) by (intros i; destruct TAB as (_ & _ & EW & _); unfold edge, tW; now rewrite EW). rewrite ET, <- (proj1 TAB) in B2.
    pose proof (f_outside z1 f ZF1 u Wu L0 HI) as FO. destruct (layer_bits u Wu) as (_ & L & _). destruct (zf_steep z1 f ZF1 (layer u) ltac:(lia)) as (S1 & _ & _).
    set (ft := f _) in *. clearbody ft. apply Rle_trans with (45 / 10 ^ 14 + 505 / 10 ^ 14); [|lra]. apply (below_differ_gen u _ p1 p2 Wu L0 V1 V2). replace (p1 - p2) with ((p1 - ft) - (p2 - ft)) by ring. unfold Rminus at 1.
    eapply Rle_trans; [apply Rabs_triang|]. rewrite Rabs_Ropp. lra.
  Qed.
End Zig2.

Lemma mean64_mono g h : (forall u, (u < W64)%N -> g u <= h u) -> mean64 g <= mean64 h.
Proof. intros H. unfold mean64. apply Rmult_le_compat_l; [left; apply Rinv_0_lt_compat, P64|]. now apply sumN_le. Qed.
Lemma mean53_plus g h : mean53 (fun u => g u + h u) = mean53 g + mean53 h.
Proof. unfold mean53. rewrite sumN_plus. pose proof P53. field. lra. Qed.
Lemma mean53_scal c g : mean53 (fun u => c * g u) = c * mean53 g.
Proof. unfold mean53. rewrite sumN_scal. pose proof P53. field. lra. Qed.
Lemma prob_ev n Q : prob n Q (pr n (fun ws => ev (Q ws))).
Proof. apply prob_pr. intros ws _ _. symmetry. apply ev_iff. Qed.
Lemma pr_false n (b : list N -> bool) : (forall ws, b ws = false) -> pr n b = 0.
Proof. intros Hb. rewrite (pr_ext n b (fun _ => false)) by (intros; apply Hb). apply pr_const. Qed.
Lemma alike_eq {A W} (r1 r2 : outcome (A * W)) : alike eq r1 r2 -> r1 = r2.
Proof. destruct r1 as [[a w]| |], r2 as [[b w']| |]; cbn; try tauto. intros [-> ->]. reflexivity. Qed.
Lemma alike_refl {A W} (like : A -> A -> Prop) (r : outcome (A * W)) : (forall x, like x x) -> alike like r r.
Proof. intros H. destruct r as [[a w]| |]; cbn; auto. Qed.

Section Couple.
  (** two compilations of two ziggurats with the same tables, whose tail functions are bounded by fuel *)
  Variables zt1 zt2 : nat -> Ziggurat (list N).
  Notation z1 := (zt1 0%nat).
  Notation z2 := (zt2 0%nat).
  Variable f : R -> R.
  Hypothesis ZF1 : zig_for z1 f.
  Hypothesis TAB : same_tables z1 z2.
  Hypothesis SAME1 : forall a, zPDF (zt1 a) = zPDF z1 /\ zMirrored (zt1 a) = zMirrored z1 /\ zK (zt1 a) = zK z1 /\ zW (zt1 a) = zW z1 /\ zF (zt1 a) = zF z1.
  Hypothesis SAME2 : forall a, zPDF (zt2 a) = zPDF z2 /\ zMirrored (zt2 a) = zMirrored z2 /\ zK (zt2 a) = zK z2 /\ zW (zt2 a) = zW z2 /\ zF (zt2 a) = zF z2.
  Variables c1 c2 : compiler.
  Notation b1 := (below_c c1 z1).
  Notation b2 := (below_c c2 z2).
  Variable like : float64 -> float64 -> Prop.
  Hypothesis LREFL : forall x, like x x.
  Hypothesis LNEG : forall x y, like x y -> like (fneg x) (fneg y).
  (** the tapes on which the tails may differ, and how likely either kind of difference is *)
  Variable tb : list N -> bool.
  Hypothesis TB : forall a ws, Forall w64 ws -> tb ws = false -> alike like (zTail (zt1 a) ws) (zTail (zt2 a) ws).
  Variable D : R.
  Hypothesis D0 : 0 <= D.
  Hypothesis TBP : forall n, pr n tb <= D.
  Hypothesis HD : forall u, w64 u -> layer u <> 0%nat -> ~ inside z1 u -> mean53 (fun k => ind (xorb (b1 u k) (b2 u k))) <= D.
  Fixpoint differ (k : nat) (ws : list N) : bool :=
    match k, ws with
    | S k, u :: ws => if ins zt1 u then false else if tl u then tb ws else
        match ws with
        | v :: ws => if xorb (b1 u (v mod 2 ^ 53)%N) (b2 u (v mod 2 ^ 53)%N) then true else if b1 u (v mod 2 ^ 53)%N then false else differ k ws
        | [] => false
        end
    | _, _ => false
    end.
  Lemma full1 : full_tables z1. Proof. exact (tables_full z1 (zf_tables z1 f ZF1)). Qed.
  Lemma full2 : full_tables z2. Proof. destruct TAB as (_ & EK & EW & EF). pose proof full1 as FT. unfold full_tables in *. now rewrite <- EK, <- EW, <- EF. Qed.
  Lemma same_unless k : forall ws a fuel, (length ws <= k)%nat -> Forall w64 ws -> differ k ws = false -> alike like (GenNext (fpc := c1) tape (zt1 a) fuel ws) (GenNext (fpc := c2) tape (zt2 a) fuel ws).
  Proof.
    induction k as [|k IH]; intros ws a fuel L F X.
    - destruct ws; [|cbn in L; lia]. destruct fuel; [exact I|]. rewrite (gennext_step (fpc := c1) tape _ tape_go (same_full zt1 full1 SAME1 a)), (gennext_step (fpc := c2) tape _ tape_go (same_full zt2 full2 SAME2 a)). exact I.
    - destruct fuel; [exact I|]. rewrite (gennext_step (fpc := c1) tape _ tape_go (same_full zt1 full1 SAME1 a)), (gennext_step (fpc := c2) tape _ tape_go (same_full zt2 full2 SAME2 a)).
      destruct ws as [|u ws]; [exact I|]. inversion F as [|? ? Wu F1]; subst. rewrite tape_draw by exact Wu. cbn [bind]. cbn [differ] in X. unfold ins, tl in X.
      assert (IN : inside (zt2 a) u <-> inside (zt1 a) u) by (rewrite (same_inside zt1 SAME1), (same_inside zt2 SAME2); apply (two_inside z1 z2 TAB)).
      assert (PT : point (zt2 a) u = point (zt1 a) u) by (rewrite (same_point zt1 SAME1), (same_point zt2 SAME2); apply (two_point z1 z2 TAB)).
      assert (MI : zMirrored (zt2 a) = zMirrored (zt1 a)) by (destruct (SAME1 a) as (_ & -> & _); destruct (SAME2 a) as (_ & -> & _); symmetry; apply TAB). rewrite PT, MI.
      destruct (inside_dec (zt1 a) u) as [H1|H1]; [destruct (inside_dec (zt2 a) u) as [H2|H2]; [split; [apply LREFL|reflexivity]|exfalso; apply H2; now apply IN]|].
      destruct (inside_dec (zt2 a) u) as [H2|H2]; [exfalso; apply H1; now apply IN|].
      destruct (inside_dec z1 u) as [H3|H3]; [exfalso; apply H1; now apply (same_inside zt1 SAME1)|]. destruct (Nat.eqb_spec (layer u) 0) as [E0|E0].
      + pose proof (TB a ws F1 X) as A. destruct (zTail (zt1 a) ws) as [[x w]| |], (zTail (zt2 a) ws) as [[y w']| |]; cbn [alike bind] in *; try tauto. destruct A as [A ->]. split; [|reflexivity]. destruct (_ <? 0)%Z; [now apply LNEG|exact A].
      + destruct ws as [|v ws]; [exact I|]. inversion F1 as [|? ? Wv F2]; subst. rewrite tape_unif by exact Wv. cbn [bind]. rewrite (same_below (fpc := c1) zt1 SAME1), (same_below (fpc := c2) zt2 SAME2).
        unfold below_c in X. destruct (below_curve (fpc := c1) z1 u (unif (v mod 2 ^ 53))), (below_curve (fpc := c2) z2 u (unif (v mod 2 ^ 53))); cbn [xorb] in X; try discriminate X; [split; [apply LREFL|reflexivity]|].
        apply IH; [cbn in L; lia|exact F2|exact X].
  Qed.
  Notation m1 := (miss (ins zt1) tl (below (fpc := c1) zt1)).
  Lemma differ_step k n : pr (S (S n)) (differ (S k)) <= D + m1 * pr n (differ k).
  Proof.
    rewrite pr_S. pose proof (pr_range n (differ k)) as PR.
    apply Rle_trans with (mean64 (fun u => D + pr n (differ k) * (if ins zt1 u then 0 else if tl u then 0 else 1 - frac (below (fpc := c1) zt1) u))).
    2:{ rewrite mean64_plus, mean64_const, mean64_scal. unfold miss. lra. }
    apply mean64_mono. intros u Hu. assert (Wu : w64 u) by (unfold w64; rewrite <- W64_eq; exact Hu).
    cbn [differ]. destruct (ins zt1 u) eqn:EI; [rewrite pr_false by reflexivity; lra|].
    destruct (tl u) eqn:ET; [specialize (TBP (S n)); change (fun ws => tb ws) with tb; lra|]. rewrite pr_S.
    set (psi := fun j => ind (xorb (b1 u j) (b2 u j)) + pr n (differ k) * (1 - ind (b1 u j))).
    apply Rle_trans with (mean64 (fun v => psi (v mod 2 ^ 53)%N)).
    - apply mean64_mono. intros v _. unfold psi. destruct (xorb (b1 u (v mod 2 ^ 53)) (b2 u (v mod 2 ^ 53))) eqn:EX; cbn [ind].
      + rewrite pr_const. cbn [ind]. destruct (b1 u (v mod 2 ^ 53)); cbn [ind]; lra.
      + destruct (b1 u (v mod 2 ^ 53)); cbn [ind]; [rewrite pr_false by reflexivity; lra|]. change (fun ws : list N => differ k ws) with (differ k). lra.
    - rewrite (mean64_mod psi). unfold psi. rewrite mean53_plus, mean53_scal. apply Rplus_le_compat.
      + apply HD; [exact Wu|unfold tl in ET; now apply Nat.eqb_neq|]. unfold ins in EI. destruct (inside_dec z1 u) as [H|H]; [discriminate EI|exact H].
      + apply Rmult_le_compat_l; [lra|]. unfold frac. change (fun k0 : N => ind (below (fpc := c1) zt1 u k0)) with (fun k0 : N => ind (b1 u k0)). right. unfold mean53. rewrite sumN_minus, sumN_const, NR_M53. pose proof P53. field. lra.
  Qed.
  Lemma differ_bound B : 0 <= B -> D + m1 * B <= B -> forall k n, pr n (differ k) <= B.
  Proof.
    intros B0 HB. assert (M0 : 0 <= m1). { unfold miss. apply mean64_range. intros u. destruct (ins zt1 u); [lra|]. destruct (tl u); [lra|]. pose proof (frac_range (below (fpc := c1) zt1) u). lra. }
    assert (DB : D <= B) by (pose proof (Rmult_le_pos _ _ M0 B0); lra).
    induction k as [|k IH]; intros n.
    - rewrite pr_false by reflexivity. exact B0.
    - destruct n as [|[|n]].
      + cbn. exact B0.
      + rewrite pr_S. apply Rle_trans with (mean64 (fun _ => D)); [|rewrite mean64_const; exact DB]. apply mean64_mono. intros u _. cbn [differ]. destruct (ins zt1 u); [rewrite pr_false by reflexivity; exact D0|]. destruct (tl u); [apply (TBP 0)|]. cbn. exact D0.
      + apply Rle_trans with (1 := differ_step k n). specialize (IH n). assert (m1 * pr n (differ k) <= m1 * B) by (apply Rmult_le_compat_l; lra). lra.
  Qed.
  (** two programs related wherever the two ziggurats return like results *)
  Lemma couple {A} (like' : A -> A -> Prop) (n1 n2 : nat -> list N -> outcome (A * list N)) B : 0 <= B -> D + m1 * B <= B ->
    (forall fuel ws, alike like (GenNext (fpc := c1) tape (zt1 fuel) fuel ws) (GenNext (fpc := c2) tape (zt2 fuel) fuel ws) -> alike like' (n1 fuel ws) (n2 fuel ws)) -> unlike_at_most like' n1 n2 B.
  Proof.
    intros B0 HB H n. eexists. split; [apply prob_ev|]. apply Rle_trans with (2 := differ_bound B B0 HB n n). apply pr_le. intros ws L F E. apply (proj1 (ev_iff _)) in E. destruct E as (fuel & E).
    destruct (differ n ws) eqn:X; [reflexivity|]. exfalso. apply E, H. apply (same_unless n); auto. lia.
  Qed.
End Couple.
Lemma unlike_eq {A} (n1 n2 : nat -> list N -> outcome (A * list N)) B : unlike_at_most eq n1 n2 B -> differ_at_most n1 n2 B.
Proof.
  intros U n. destruct (U n) as (q & Hq & L). exists q. split; [|exact L]. destruct Hq as (c & C & E). exists c. split; [|exact E]. revert C. apply Count.has_exactly_ext. intros ws. apply and_iff_compat_l.
  split; intros (fuel & X); exists fuel; intros Y; apply X; [rewrite Y; now apply alike_refl|now apply alike_eq].
Qed.

(** *** samples *)
Lemma pr_union n : forall P Q R, (forall ws, length ws = n -> Forall w64 ws -> P ws = true -> Q ws = true \/ R ws = true) -> pr n P <= pr n Q + pr n R.
Proof.
  induction n as [|n IH]; intros P Q R H.
  - cbn [pr]. specialize (H [] eq_refl (Forall_nil _)). destruct (P []); cbn [ind]; [|pose proof (ind_range (Q [])); pose proof (ind_range (R [])); lra].
    destruct (H eq_refl) as [-> | ->]; [pose proof (ind_range (R []))|pose proof (ind_range (Q []))]; cbn [ind]; lra.
  - rewrite !pr_S, <- mean64_plus. apply mean64_mono. intros u Hu. apply IH. intros ws L F E. apply H; [cbn; now rewrite L| |exact E]. constructor; [unfold w64; rewrite <- W64_eq; exact Hu|exact F].
Qed.
Section Rest.
  Context {A : Type} (n1 : nat -> list N -> outcome (A * list N)).
  Hypothesis (M1 : steady n1) (O1 : forall n, draws_only tape (n1 n) (n1 n)).
  (** what is left after a draw is as random as a fresh tape *)
  Lemma rest_bound (X : list N -> Prop) C : 0 <= C -> (forall n, pr n (fun ws => ev (X ws)) <= C) -> forall n, pr n (fun ws => ev (exists fuel a ws', n1 fuel ws = Ret (a, ws') /\ X ws')) <= C.
  Proof.
    intros C0 HC n. set (g := fun (_ : nat) (ws : list N) => if ev (X ws) then Ret (tt, ws) else OutOfFuel).
    assert (MG : fuel_mono g) by (intros a b w r _ E; exact E).
    pose proof (q12_sum n1 g M1 MG O1 (fun _ => True) (fun _ => True) n) as S. pose proof (q1_sum n1 M1 O1 (fun _ => True) n) as S1.
    assert (EG : forall ws, ends g (fun _ => True) ws <-> X ws).
    { intros ws. unfold ends, g. split; [intros (fu & a & ws' & E & _)|intros HX; exists 0%nat, tt, ws]; destruct (ev (X ws)) eqn:EX; try discriminate; [now apply ev_iff|auto|]. apply ev_iff in HX. congruence. }
    apply Rle_trans with (pr n (fun ws => ev (ends (both n1 g) (fun ab => True /\ True) ws))).
    - apply pr_le. intros ws _ _ E. apply ev_iff. apply (proj1 (ev_iff _)) in E. destruct E as (fuel & a & ws' & E & HX). exists fuel, (a, tt), ws'. split; [|auto]. unfold both. rewrite E. cbn [bind]. unfold g. apply ev_iff in HX. now rewrite HX.
    - cbn beta in S. rewrite S. apply Rle_trans with (C * sum_f_R0 (am n1 (fun _ => True)) n).
      + rewrite scal_sum. apply sum_Rle. intros m _. apply Rmult_le_compat_l; [apply pr_range|]. rewrite (pr_ext _ _ (fun ws => ev (X ws))); [apply HC|].
        intros ws _ _. apply eq_true_iff_eq. rewrite !ev_iff. apply EG.
      + rewrite <- S1. pose proof (pr_range n (fun ws => ev (ends n1 (fun _ => True) ws))) as R. rewrite <- (Rmult_1_r C) at 2. apply Rmult_le_compat_l; lra.
  Qed.
  Lemma sample_unlike (like : A -> A -> Prop) (n2 : nat -> list N -> outcome (A * list N)) p k : unlike_at_most like n1 n2 p -> unlike_at_most (Forall2 like) (draw_many k n1) (draw_many k n2) (INR k * p).
  Proof.
    intros D. assert (P0 : 0 <= p). { destruct (D 0%nat) as (q & Hq & L). rewrite (prob_unique _ _ _ _ Hq (prob_ev 0 _)) in L. pose proof (pr_range 0 (fun ws => ev (exists fuel, ~ alike like (n1 fuel ws) (n2 fuel ws)))). lra. }
    enough (G : forall n, pr n (fun ws => ev (exists fuel, ~ alike (Forall2 like) (draw_many k n1 fuel ws) (draw_many k n2 fuel ws))) <= INR k * p) by (intros n; eexists; split; [apply prob_ev|apply G]).
    induction k as [|k IH]; intros n.
    - rewrite pr_false; [cbn; lra|]. intros ws. apply not_true_iff_false. rewrite ev_iff. intros (fuel & E). apply E. cbn. auto.
    - rewrite S_INR. replace ((INR k + 1) * p) with (p + INR k * p) by ring. set (X := fun ws => exists fuel, ~ alike (Forall2 like) (draw_many k n1 fuel ws) (draw_many k n2 fuel ws)) in *.
      apply Rle_trans with (pr n (fun ws => ev (exists fuel, ~ alike like (n1 fuel ws) (n2 fuel ws))) + pr n (fun ws => ev (exists fuel a ws', n1 fuel ws = Ret (a, ws') /\ X ws'))).
      + apply pr_union. intros ws L F E. apply (proj1 (ev_iff _)) in E. destruct E as (fuel & E). rewrite !ev_iff. cbn [draw_many] in E. destruct (ev (alike like (n1 fuel ws) (n2 fuel ws))) eqn:EQ.
        * apply (proj1 (ev_iff _)) in EQ. right. destruct (n1 fuel ws) as [[a w']| |] eqn:E1, (n2 fuel ws) as [[b w'']| |] eqn:E2; cbn [bind alike] in *; try tauto. destruct EQ as [LK <-]. exists fuel, a, w'. split; [exact E1|]. exists fuel. intros E3. apply E.
          destruct (draw_many k n1 fuel w') as [[x u]| |], (draw_many k n2 fuel w') as [[y v]| |]; cbn [bind alike] in *; try tauto. destruct E3. split; [now constructor|assumption].
        * left. exists fuel. intros E2. apply ev_iff in E2. congruence.
      + apply Rplus_le_compat.
        * destruct (D n) as (q & Hq & L). now rewrite (prob_unique _ _ _ _ Hq (prob_ev n _)) in L.
        * apply rest_bound; [apply Rmult_le_pos; [apply pos_INR|exact P0]|exact IH].
  Qed.
  Lemma sample_differ (n2 : nat -> list N -> outcome (A * list N)) p k : differ_at_most n1 n2 p -> differ_at_most (draw_many k n1) (draw_many k n2) (INR k * p).
  Proof.
    intros D. assert (U : unlike_at_most eq n1 n2 p).
    { intros n. destruct (D n) as (q & Hq & L). exists q. split; [|exact L]. destruct Hq as (c & C & E). exists c. split; [|exact E]. revert C. apply Count.has_exactly_ext. intros ws. apply and_iff_compat_l.
      split; intros (fuel & X); exists fuel; intros Y; apply X; [now apply alike_eq|rewrite Y; now apply alike_refl]. }
    apply (sample_unlike eq n2 p k) in U. intros n. destruct (U n) as (q & Hq & L). exists q. split; [|exact L]. destruct Hq as (c & C & E). exists c. split; [|exact E]. revert C. apply Count.has_exactly_ext. intros ws. apply and_iff_compat_l.
    assert (FE : forall l l' : list A, Forall2 eq l l' <-> l = l'). { intros l l'. split; [induction 1; congruence|intros ->; induction l'; constructor; auto]. }
    split; intros (fuel & X); exists fuel; intros Y; apply X; [rewrite Y; apply alike_refl; intros; now apply FE|].
    destruct (draw_many k n1 fuel ws) as [[x u]| |], (draw_many k n2 fuel ws) as [[y v]| |]; cbn in Y; try tauto. destruct Y as [Y ->]. apply FE in Y. now rewrite Y.
  Qed.
End Rest.

(** *** the tail of the normal distribution with two logarithms *)
Lemma close_neg tol x y : close tol x y -> close tol (fneg x) (fneg y).
Proof.
  intros [->|(a & b & [Fa Va] & [Fb Vb] & B)]; [now left|]. right. exists (- a), (- b). unfold fvalue, fneg. rewrite !is_finite_Bopp, !B2R_Bopp, Va, Vb. repeat split; auto. replace (- a - - b) with (- (a - b)) by ring. now rewrite Rabs_Ropp.
Qed.
Lemma near_close tol f g y : near tol f y -> near tol g y -> close (2 * tol) f g.
Proof.
  intros (a & Va & Ba) (b & Vb & Bb). right. exists a, b. split; [exact Va|]. split; [exact Vb|]. replace (a - b) with ((a - y) - (b - y)) by ring. unfold Rminus at 1. eapply Rle_trans; [apply Rabs_triang|]. rewrite Rabs_Ropp. lra.
Qed.
Section Tail2.
  Variables l1 l2 : float64 -> float64.
  Hypothesis (A1 : accurate_log l1) (A2 : accurate_log l2).
  Notation t1 := (tacc l1).
  Notation t2 := (tacc l2).
  Fixpoint tdiffer (k : nat) (ws : list N) : bool :=
    match k, ws with
    | S k, u :: v :: ws => if xorb (t1 (u mod 2 ^ 53)%N (v mod 2 ^ 53)%N) (t2 (u mod 2 ^ 53)%N (v mod 2 ^ 53)%N) then true else if t1 (u mod 2 ^ 53)%N (v mod 2 ^ 53)%N then false else tdiffer k ws
    | _, _ => false
    end.
  Lemma tval_close k : (k < 2 ^ 53)%N -> close (2 / 10 ^ 14) (tval l1 k) (tval l2 k).
  Proof.
    intros Hk. destruct (N.eq_dec k 0) as [->|K0].
    - left. unfold tval, tx. change (unif 0) with (fmul (of_int (Z.of_N (0 mod 2 ^ 53))) lit_scale). rewrite uniform_zero. now rewrite (proj1 A1), (proj1 A2).
    - replace (2 / 10 ^ 14) with (2 * (1 / 10 ^ 14)) by lra. apply near_close with (B2R normalR + q k); apply tval_near; auto; lia.
  Qed.
  Lemma tail_same k : forall ws a, (length ws <= k)%nat -> Forall w64 ws -> tdiffer k ws = false -> alike (close (2 / 10 ^ 14)) (normalTail tape l1 a ws) (normalTail tape l2 a ws).
  Proof.
    induction k as [|k IH]; intros ws a L F X.
    - destruct ws; [|cbn in L; lia]. destruct a; exact I.
    - destruct a; [exact I|]. destruct ws as [|u [|v ws]]; [exact I| |].
      + cbn [normalTail]. inversion F; subst. rewrite tape_unif by assumption. exact I.
      + inversion F as [|? ? Wu F1]; subst. inversion F1 as [|? ? Wv F2]; subst. rewrite !tail_step by assumption. cbn [tdiffer] in X.
        destruct (t1 (u mod 2 ^ 53)%N (v mod 2 ^ 53)%N), (t2 (u mod 2 ^ 53)%N (v mod 2 ^ 53)%N); cbn [xorb] in X; try discriminate X.
        * split; [|reflexivity]. apply tval_close. apply N.mod_lt. discriminate.
        * apply IH; [cbn in L; lia|exact F2|exact X].
  Qed.
  Lemma tacc_differ k : (0 < k < 2 ^ 53)%N -> mean53 (fun l => ind (xorb (t1 k l) (t2 k l))) <= 22 / 10 ^ 14.
  Proof.
    intros Hk. set (a := - (q k ^ 2 / 2)). assert (Ha : a <= 0) by (unfold a; pose proof (pow2_ge_0 (q k)); lra). pose proof P53 as PP. set (d := 1 / 10 ^ 13).
    assert (W : exp (a + d) - exp (a - d) <= 21 / 10 ^ 14 /\ 0 <= exp (a + d) - exp (a - d)).
    { assert (exp a <= 1) by (rewrite <- exp_0; destruct (Req_dec a 0) as [->|N]; [lra|left; apply exp_increasing; lra]). unfold Rminus. rewrite !exp_plus. fold (Rminus (exp a * exp d) (exp a * exp (- d))). rewrite <- Rmult_minus_distr_l. pose proof (exp_pos a) as E0.
      assert (DD : 0 <= exp d - exp (- d) <= 21 / 10 ^ 14).
      { pose proof (exp_ineq1_le d) as I1. pose proof (exp_ineq1_le (- d)) as I2. assert (E : exp d * exp (- d) = 1) by (rewrite <- exp_plus, Rplus_opp_r; apply exp_0). pose proof (exp_pos d).
        assert (D1 : exp d * (1 - d) <= 1) by (rewrite <- E; apply Rmult_le_compat_l; lra). assert (D2 : 1 * exp (- d) <= 1) by (rewrite <- E at 2; apply Rmult_le_compat_r; [left; apply exp_pos|unfold d in *; lra]). clear E. set (e := exp d) in *. set (e' := exp (- d)) in *. clearbody e e'. unfold d in *. lra. }
      split; [|apply Rmult_le_pos; lra]. apply Rle_trans with (1 * (21 / 10 ^ 14)); [apply Rmult_le_compat; lra|lra]. }
    assert (S : sumN (fun l => ind (xorb (t1 k l) (t2 k l))) M53 <= IZR (2 ^ 53) * exp (a + d) - IZR (2 ^ 53) * exp (a - d) + 1).
    { apply sumN_between; [rewrite <- Rmult_minus_distr_l; apply Rmult_le_pos; lra|]. intros l Hl E. rewrite M53_eq in Hl.
      assert (K : (0 < l)%N /\ a - d <= ln (uk l) <= a + d).
      { pose proof (attempt l1 A1 k l Hk Hl) as B1. pose proof (attempt l2 A2 k l Hk Hl) as B2. unfold a, d. destruct (t1 k l), (t2 k l); cbn [xorb] in E; try discriminate E.
        - destruct B1 as [[B1|B1] _]; [lia|]. destruct B2 as [L2 B2]. split; [exact L2|]. lra.
        - destruct B2 as [[B2|B2] _]; [lia|]. destruct B1 as [L1 B1]. split; [exact L1|]. lra. }
      destruct K as [K0 [K1 K2]]. assert (U : 0 < uk l) by (apply Rdiv_lt_0_compat; [apply IZR_lt; lia|exact PP]). assert (EL : NR l = IZR (2 ^ 53) * exp (ln (uk l))) by (rewrite exp_ln by exact U; unfold uk; field; lra).
      rewrite EL. split; (apply Rmult_le_compat_l; [lra|]); [destruct K1 as [K1|K1]|destruct K2 as [K2|K2]]; try (left; apply exp_increasing; assumption); rewrite K1 || rewrite K2; lra. }
    rewrite <- Rmult_minus_distr_l in S. unfold mean53. apply Rmult_le_reg_r with (IZR (2 ^ 53)); [exact PP|]. unfold Rdiv at 1. rewrite Rmult_assoc, Rinv_l, Rmult_1_r by lra. apply Rle_trans with (1 := S).
    assert (IZR (2 ^ 53) * (exp (a + d) - exp (a - d)) <= IZR (2 ^ 53) * (21 / 10 ^ 14)) by (apply Rmult_le_compat_l; lra). assert (1 <= 1 / 10 ^ 14 * IZR (2 ^ 53)) by (change (IZR (2 ^ 53)) with 9007199254740992; lra). lra.
  Qed.
  Lemma tdiffer_step k n : pr (S (S n)) (tdiffer (S k)) <= 23 / 10 ^ 14 + (1 - accall l1) * pr n (tdiffer k).
  Proof.
    rewrite pr_S. pose proof (pr_range n (tdiffer k)) as PR. set (p := pr n (tdiffer k)) in *.
    set (chi := fun j => mean53 (fun l => ind (xorb (t1 j l) (t2 j l))) + p * (1 - NormalTail.c l1 j)).
    apply Rle_trans with (mean64 (fun u => chi (u mod 2 ^ 53)%N)).
    - apply mean64_mono. intros u _. rewrite pr_S. set (j := (u mod 2 ^ 53)%N). set (psi := fun l => ind (xorb (t1 j l) (t2 j l)) + p * (1 - ind (t1 j l))). apply Rle_trans with (mean64 (fun v => psi (v mod 2 ^ 53)%N)).
      + apply mean64_mono. intros v _. unfold psi. cbn [tdiffer]. fold j. destruct (xorb (t1 j (v mod 2 ^ 53)) (t2 j (v mod 2 ^ 53))) eqn:EX; cbn [ind].
        * rewrite pr_const. cbn [ind]. destruct (t1 j (v mod 2 ^ 53)); cbn [ind]; lra.
        * destruct (t1 j (v mod 2 ^ 53)); cbn [ind]; [rewrite pr_false by reflexivity; lra|]. change (fun ws : list N => tdiffer k ws) with (tdiffer k). fold p. lra.
      + rewrite (mean64_mod psi). unfold psi, chi. rewrite mean53_plus, mean53_scal. apply Rplus_le_compat_l. apply Rmult_le_compat_l; [lra|]. unfold NormalTail.c. right. unfold mean53. rewrite sumN_minus, sumN_const, NR_M53. pose proof P53. field. lra.
    - rewrite (mean64_mod chi). unfold chi. rewrite mean53_plus, mean53_scal. apply Rplus_le_compat.
      + apply Rle_trans with (mean53 (fun _ => 22 / 10 ^ 14) + / IZR (2 ^ 53)).
        * apply mean53_first; [intros j Hj; rewrite M53_eq in Hj; now apply tacc_differ|]. pose proof (mean53_range (fun l => ind (xorb (t1 0 l) (t2 0 l))) ltac:(intros; apply ind_range)). lra.
        * rewrite mean53_const, (proj1 inv53). pose proof small53. lra.
      + rewrite Rmult_comm. apply Rmult_le_compat_r; [lra|]. unfold accall. right. unfold mean53. rewrite sumN_minus, sumN_const, NR_M53. pose proof P53. field. lra.
  Qed.
  Lemma tdiffer_bound k : forall n, pr n (tdiffer k) <= 5 / 10 ^ 13.
  Proof.
    pose proof (accall_big l1 A1) as AB. pose proof (accall_range l1) as AR. induction k as [|k IH]; intros n; [rewrite pr_false by reflexivity; lra|]. destruct n as [|[|n]]; [cbn; lra| |].
    - rewrite (pr_ext 1 _ (fun _ => false)); [rewrite pr_const; cbn; lra|]. intros [|u [|v ws]] L _; try reflexivity. discriminate L.
    - apply Rle_trans with (1 := tdiffer_step k n). specialize (IH n). assert ((1 - accall l1) * pr n (tdiffer k) <= (1 - accall l1) * (5 / 10 ^ 13)) by (apply Rmult_le_compat_l; lra). assert ((1 - accall l1) * (5 / 10 ^ 13) <= 51 / 100 * (5 / 10 ^ 13)) by (apply Rmult_le_compat_r; lra). lra.
  Qed.
End Tail2.
