(** How many words one draw uses. *)
From Coq Require Import Reals Lia Lra Psatz ZifyN ZifyNat Bool.
From Coquelicot Require Import Coquelicot.
From Flocq Require Import Core BinarySingleNaN.
From Verif Require Import Model.Base Model.Rng Model.Float Model.Distr Model.Ziggurat Model.ExpoTable Model.NormalTable Model.ExpoNormal Spec.Common Spec.Counting Spec.Floats Spec.Zig Spec.Tails Spec.Density Spec.Prob Spec.ZigFit Spec.Cost.
From Verif Require Import Proofs.FloatProofs Proofs.RelError Proofs.ZigTables Proofs.SumN Proofs.ZigAccept Proofs.ZigBody Proofs.ZigStep Proofs.ZigFloat Proofs.ZigInst Proofs.ZigTape Proofs.ZigHit Proofs.ZigMirror Proofs.ExpoLaw.
From Verif Require Import Proofs.Gauss Proofs.NormalInst Proofs.NormalTail Proofs.NormalTailLaw Proofs.NormalLaw Proofs.GenReturns Proofs.UintnLaw.
From Verif Require Proofs.PortableProofs.
From Verif Require Import Props.Zig Props.Tails Props.Density Props.ExpoLaw Props.NormalLaw.
Local Open Scope R_scope.

(** *** series *)
(** D (n + 2) <= b n + m D n, with the sums of b bounded *)
Lemma sum_two_step (D b : nat -> R) (m B : R) : 0 <= m < 1 -> (forall n, 0 <= D n) -> (forall n, D (S (S n)) <= b n + m * D n) -> (forall N, sum_n b N <= B) ->
  forall N, sum_n D N <= (D 0%nat + D 1%nat + B) / (1 - m).
Proof.
  intros Hm D0 St HB N.
  assert (R2 : forall N, sum_n D (S (S N)) = D 0%nat + D 1%nat + sum_n (fun n => D (S (S n))) N).
  { intros M. induction M as [|M IH].
    - rewrite !sum_Sn, !sum_O. unfold plus. cbn. ring.
    - rewrite sum_Sn, IH, (sum_Sn _ M). unfold plus. cbn. ring. }
  assert (L : sum_n (fun n => D (S (S n))) N <= B + m * sum_n D N).
  { apply Rle_trans with (sum_n b N + m * sum_n D N); [|specialize (HB N); lra].
    clear - St. induction N as [|M IH]; [rewrite !sum_O; apply St|]. rewrite !sum_Sn. unfold plus. cbn -[sum_n]. specialize (St (S M)). lra. }
  assert (G : sum_n D N <= sum_n D (S (S N))). { rewrite !sum_Sn. unfold plus. cbn. pose proof (D0 (S N)). pose proof (D0 (S (S N))). lra. }
  rewrite R2 in G. apply Rmult_le_reg_r with (1 - m); [lra|]. unfold Rdiv. rewrite Rmult_assoc, Rinv_l by lra. lra.
Qed.
(** a series of nonnegative terms with bounded sums *)
Lemma series_bounded (D : nat -> R) (c : R) : (forall n, 0 <= D n) -> (forall N, sum_n D N <= c) -> exists l, is_series D l /\ D 0%nat + D 1%nat <= l <= c.
Proof.
  intros D0 B. assert (I : forall n, sum_n D n <= sum_n D (S n)) by (intros n; rewrite sum_Sn; unfold plus; cbn; pose proof (D0 (S n)); lra).
  destruct (ex_finite_lim_seq_incr (sum_n D) c I B) as [l Hl]. exists l. split; [exact Hl|]. split.
  - pose proof (is_lim_seq_incr_compare (sum_n D) l Hl I 1) as H. rewrite sum_Sn, sum_O in H. unfold plus in H. cbn in H. exact H.
  - pose proof (is_lim_seq_le (sum_n D) (fun _ => c) l c B Hl (is_lim_seq_const c)) as H. exact H.
Qed.

Section Not.
  Context {A : Type} (next : nat -> list N -> outcome (A * list N)).
  Lemma needs_more_pr n (P : list N -> bool) : (forall ws, length ws = n -> Forall w64 ws -> ((exists fuel f ws', next fuel ws = Ret (f, ws')) <-> P ws = true)) -> needs_more next n (1 - pr n P).
  Proof.
    intros H. replace (1 - pr n P) with (pr n (fun ws => negb (P ws))).
    - apply prob_pr. intros ws L F. rewrite (H ws L F). now destruct (P ws).
    - revert P H. assert (Q : forall P, pr n (fun ws => negb (P ws)) = 1 - pr n P); [|intros; apply Q]. induction n as [|k IH]; intros P.
      + cbn. destruct (P []); cbn; lra.
      + rewrite !pr_S. rewrite (mean64_ext _ (fun u => 1 + (-1) * pr k (fun ws => P (u :: ws)))).
        * rewrite mean64_plus, mean64_scal, mean64_const. ring.
        * intros u _. rewrite (IH (fun ws => P (u :: ws))). ring.
  Qed.
End Not.

(** *** Uintn *)
Section Uintn.
  Variable ub max : N.
  Hypothesis Hub : (ub <= 64)%N.
  Hypothesis Hmax : (0 < max < 2 ^ ub)%N.
  Notation rho := (rho ub max).
  Lemma uintn_more n : needs_more (fun fuel ws => RNG_Uintn tape fuel ub max ws) n (rho ^ n).
  Proof.
    replace (rho ^ n) with (1 - pr n (fun ws => seqE ub max ws 1 (fun _ => true))) by (rewrite (enough1 ub max Hub Hmax n); ring).
    apply needs_more_pr. intros ws _ F. rewrite (seqE_iff ub max Hub Hmax ws F). split.
    - intros (fuel & f & ws' & E). exists fuel, [f], ws'. repeat split. econstructor; [exact E|constructor].
    - intros (fuel & js & ws' & R & L & _). inversion R as [|? j s1 js' ? E R']; subst; [discriminate L|]. eauto.
  Qed.
  Lemma uintn_mean : mean_words (fun fuel ws => RNG_Uintn tape fuel ub max ws) (IZR (Z.of_N (2 ^ ub)) / IZR (Z.of_N ((2 ^ ub - 1) / max * max + 1))) /\ IZR (Z.of_N (2 ^ ub)) / IZR (Z.of_N ((2 ^ ub - 1) / max * max + 1)) <= 2.
  Proof.
    pose proof (rho_range ub max Hub Hmax) as [[R0 R1] _]. pose proof (split_range ub max Hmax) as SR. fold (q ub max).
    assert (PB : 0 < IZR (Z.of_N (2 ^ ub))) by (apply IZR_lt; lia). assert (PQ : 0 < IZR (Z.of_N (q ub max * max + 1))) by (apply IZR_lt; lia).
    assert (E : IZR (Z.of_N (2 ^ ub)) / IZR (Z.of_N (q ub max * max + 1)) = / (1 - rho)).
    { unfold UintnLaw.rho. assert (EB : IZR (Z.of_N (2 ^ ub)) = IZR (Z.of_N (q ub max * max + 1)) + IZR (Z.of_N (rest ub max))) by (rewrite <- plus_IZR; f_equal; lia). rewrite EB in *. field. lra. }
    rewrite E. split.
    - exists (fun n => rho ^ n). split; [exact uintn_more|]. apply is_series_geom. rewrite Rabs_pos_eq; lra.
    - apply Rmult_le_reg_l with (1 - rho); [lra|]. rewrite Rinv_r by lra. lra.
  Qed.
End Uintn.

(** for every choice of the compiler which x*y + z to fuse (Model/Fused.v) *)
Section Compiler.
Context {fpc : compiler}.

(** *** the chance that the first word lies inside its layer *)
Lemma NR_plus a b : NR (a + b) = NR a + NR b. Proof. now rewrite N2Z.inj_add, plus_IZR. Qed.
Section Inside.
  Variable zt : nat -> Ziggurat (list N).
  Notation z := (zt 0%nat).
  Definition pin : R := mean64 (fun u => ind (ins zt u)).
  Lemma ins_abs u i m : layer u = N.to_nat i -> Z.abs (abscissa (zMirrored z) u) = Z.of_N m -> ind (ins zt u) = ind (m <? tK z (N.to_nat i))%N.
  Proof.
    intros HL HA. unfold ins. destruct (inside_dec z u) as [H|H]; unfold inside in H; rewrite HA, HL in H; destruct (N.ltb_spec m (tK z (N.to_nat i))); try reflexivity; lia.
  Qed.
  Lemma mean53_below k : (k <= 2 ^ 53)%N -> mean53 (fun m => ind (m <? k)%N) = NR k / IZR (2 ^ 53).
  Proof.
    intros H. unfold mean53. f_equal. rewrite (sumN_ext _ (fun m => if (m <? k)%N then 1 else 0)) by reflexivity. rewrite (sumN_below (fun _ => 1)) by (rewrite M53_eq; lia). rewrite sumN_const. ring.
  Qed.
  Lemma mean53_above k : (k <= 2 ^ 53)%N -> mean53 (fun m => ind (2 ^ 53 - m <? k)%N) = NR (k - 1) / IZR (2 ^ 53).
  Proof.
    intros H. rewrite (mean53_rev (fun m => ind (m <? k)%N)), mean53_below by exact H. pose proof P53. replace (2 ^ 53 <? k)%N with false by (symmetry; apply N.ltb_ge; lia).
    destruct (N.ltb_spec 0 k) as [K|K]; cbn [ind].
    - replace k with (N.succ (k - 1)) at 1 by lia. rewrite NR_succ. field. lra.
    - replace k with 0%N by lia. change (NR (0 - 1)) with (NR 0). field. lra.
  Qed.
  Hypothesis KB : forall i, (i < 1024)%N -> (tK z (N.to_nat i) <= 2 ^ 53)%N.
  Lemma pin_unmirrored : zMirrored z = false -> pin = sumN (fun i => NR (2 * tK z (N.to_nat i))) 1024 / IZR (2 ^ 64).
  Proof.
    intros UM. unfold pin. rewrite mean64_split. rewrite (sumN_ext _ (fun i => / IZR (2 ^ 54) * NR (2 * tK z (N.to_nat i)))).
    - rewrite sumN_scal. cbn [Z.pow Z.pow_pos Pos.iter Z.mul Pos.mul]. field.
    - intros i Hi. assert (S : forall b m, (m < 2 ^ 53)%N -> (b = 0 \/ b = 2 ^ 53)%N -> ind (ins zt (i * 2 ^ 54 + b + m)) = ind (m <? tK z (N.to_nat i))%N).
      { intros b m Hm Hb. apply ins_abs; [replace (i * 2 ^ 54 + b + m)%N with (i * 2 ^ 54 + (b + m))%N by lia; apply layer_split; lia|]. rewrite UM, absc_false by assumption. lia. }
      rewrite (mean53_ext (fun m => ind (ins zt (i * 2 ^ 54 + m))) (fun m => ind (m <? tK z (N.to_nat i))%N)) by (intros m Hm; rewrite <- (N.add_0_r (i * 2 ^ 54)); apply S; auto).
      rewrite (mean53_ext (fun m => ind (ins zt (i * 2 ^ 54 + 2 ^ 53 + m))) (fun m => ind (m <? tK z (N.to_nat i))%N)) by (intros m Hm; apply S; auto).
      rewrite mean53_below by (apply KB; exact Hi). replace (2 * tK z (N.to_nat i))%N with (tK z (N.to_nat i) + tK z (N.to_nat i))%N by lia. rewrite NR_plus. cbn [Z.pow Z.pow_pos Pos.iter Z.mul Pos.mul]. field.
  Qed.
  Lemma pin_mirrored : zMirrored z = true -> pin = sumN (fun i => NR (tK z (N.to_nat i) + (tK z (N.to_nat i) - 1))) 1024 / IZR (2 ^ 64).
  Proof.
    intros MI. unfold pin. rewrite mean64_split. rewrite (sumN_ext _ (fun i => / IZR (2 ^ 54) * NR (tK z (N.to_nat i) + (tK z (N.to_nat i) - 1)))).
    - rewrite sumN_scal. cbn [Z.pow Z.pow_pos Pos.iter Z.mul Pos.mul]. field.
    - intros i Hi.
      rewrite (mean53_ext (fun m => ind (ins zt (i * 2 ^ 54 + m))) (fun m => ind (m <? tK z (N.to_nat i))%N)).
      2:{ intros m Hm. apply ins_abs; [apply layer_split; lia|]. rewrite MI. replace (i * 2 ^ 54 + m)%N with (i * 2 ^ 54 + 0 + m)%N by lia. rewrite absc_true by auto. lia. }
      rewrite (mean53_ext (fun m => ind (ins zt (i * 2 ^ 54 + 2 ^ 53 + m))) (fun m => ind (2 ^ 53 - m <? tK z (N.to_nat i))%N)).
      2:{ intros m Hm. apply ins_abs; [replace (i * 2 ^ 54 + 2 ^ 53 + m)%N with (i * 2 ^ 54 + (2 ^ 53 + m))%N by lia; apply layer_split; lia|]. rewrite MI, absc_true by auto. lia. }
      rewrite mean53_below, mean53_above by (apply KB; exact Hi). rewrite NR_plus. cbn [Z.pow Z.pow_pos Pos.iter Z.mul Pos.mul]. field.
  Qed.
  Lemma pin_range : 0 <= pin <= 1. Proof. apply mean64_range. intros. apply ind_range. Qed.
  Lemma miss_pin : miss (ins zt) tl (below zt) + tail_mass zt <= 1 - pin.
  Proof.
    unfold miss, tail_mass, pin. rewrite <- mean64_plus. apply Rle_trans with (mean64 (fun u => 1 + (-1) * ind (ins zt u))).
    - apply PortableProofs.mean64_mono. intros u _. destruct (ins zt u); cbn [ind]; [lra|]. destruct (tl u); [lra|]. pose proof (frac_range (below zt) u). lra.
    - rewrite mean64_plus, mean64_scal, mean64_const. lra.
  Qed.
  (** on one word *)
  Hypothesis FT : full_tables z.
  Hypothesis SAME : forall a, zPDF (zt a) = zPDF z /\ zMirrored (zt a) = zMirrored z /\ zK (zt a) = zK z /\ zW (zt a) = zW z /\ zF (zt a) = zF z.
  Hypothesis TNIL : forall a r, zTail (zt a) [] <> Ret r.
  Lemma E_nil : E zt (fun _ => true) [] = false.
  Proof. unfold E, ZigTape.next. rewrite (gennext_step tape _ tape_go (same_full zt FT SAME _)). reflexivity. Qed.
  Lemma E_one u : w64 u -> E zt (fun _ => true) [u] = ins zt u.
  Proof.
    intros Hu. unfold E, ZigTape.next. rewrite (gennext_step tape _ tape_go (same_full zt FT SAME _)). rewrite tape_draw by exact Hu. cbn [bind]. unfold ins.
    destruct (inside_dec (zt (S (length [u]))) u) as [H1|H1]; destruct (inside_dec z u) as [H2|H2]; try (exfalso; apply (same_inside zt SAME) in H1; contradiction); try (exfalso; apply H1; now apply (same_inside zt SAME)).
    - reflexivity.
    - destruct (layer u =? 0)%nat; [|reflexivity]. destruct (zTail _ []) as [[y w2]| |] eqn:Et; try reflexivity. exfalso. exact (TNIL _ _ Et).
  Qed.
  Lemma pr_one : pr 1 (E zt (fun _ => true)) = pin.
  Proof.
    rewrite pr_S. unfold pin. apply mean64_ext. intros u Hu. assert (w64 u) by (unfold w64; rewrite <- W64_eq; exact Hu). cbn [pr]. rewrite E_one by assumption. reflexivity.
  Qed.
End Inside.

(** *** sums of table entries *)
Lemma sumN_NR (f : N -> N) n : sumN (fun i => NR (f i)) n = NR (sumNN f n).
Proof. induction n as [|n IH] using N.peano_ind; [rewrite sumN_0, sumNN_0; reflexivity|]. rewrite sumN_S, sumNN_S, IH. now rewrite NR_plus. Qed.

Definition expo_one : N := 18328255573580884944.
Definition normal_one : N := 18367855343147684327.
Lemma expo_sum : sumNN (fun i => 2 * nth (N.to_nat i) expoK 0)%N 1024 = expo_one. Proof. vm_compute. reflexivity. Qed.
Lemma normal_sum : sumNN (fun i => nth (N.to_nat i) normalK 0 + (nth (N.to_nat i) normalK 0 - 1))%N 1024 = normal_one. Proof. vm_compute. reflexivity. Qed.
Lemma expoK_small : forallb (fun k => (k <=? 2 ^ 53)%N) expoK = true. Proof. vm_compute. reflexivity. Qed.
Lemma normalK_small : forallb (fun k => (k <=? 2 ^ 53)%N) normalK = true. Proof. vm_compute. reflexivity. Qed.
Lemma nth_small K i : forallb (fun k => (k <=? 2 ^ 53)%N) K = true -> (nth i K 0 <= 2 ^ 53)%N.
Proof.
  intros H. destruct (Nat.lt_ge_cases i (length K)) as [L|L].
  - rewrite forallb_forall in H. specialize (H (nth i K 0%N) (nth_In _ _ L)). now apply N.leb_le in H.
  - rewrite nth_overflow by exact L. lia.
Qed.

Section Draws.
  Variables math_exp math_log : float64 -> float64.
  Notation z := (ze math_exp math_log).
  Notation zz := (fun _ : nat => z).
  Lemma ze_full : full_tables z.
  Proof. unfold full_tables. change (zK z) with expoK. change (zW z) with (floats expoW_bin). change (zF z) with (floats expoF_bin). unfold floats. rewrite !map_length. repeat split; vm_compute; reflexivity. Qed.
  Lemma expo_pin : pin zz = NR expo_one / IZR (2 ^ 64).
  Proof.
    rewrite pin_unmirrored; [|intros i _; apply (nth_small expoK (N.to_nat i) expoK_small)|reflexivity]. rewrite sumN_NR. rewrite <- expo_sum. reflexivity.
  Qed.
  Lemma expo_needs rate n : needs_more (Exponential_Next tape math_exp math_log rate) n (1 - pr n (E zz (fun _ => true))).
  Proof.
    apply needs_more_pr. intros ws _ F. unfold E, evb. split.
    - intros (fuel & f & ws' & Ef). unfold Exponential_Next in Ef. change (expoZig tape math_exp math_log) with z in Ef. destruct (GenNext tape z fuel ws) as [[g wg]| |] eqn:Eg; cbn [bind] in Ef; try discriminate Ef.
      unfold ZigTape.next. rewrite (next_fuel zz ze_full ltac:(repeat split) ltac:(auto) ltac:(auto) 0 fuel (S (length ws)) (S (length ws)) ws _ Eg) by lia. reflexivity.
    - unfold ZigTape.next. destruct (GenNext tape z (S (length ws)) ws) as [[g wg]| |] eqn:Eg; try discriminate. intros _. exists (S (length ws)), (fdiv g rate), wg. unfold Exponential_Next. change (expoZig tape math_exp math_log) with z. now rewrite Eg.
  Qed.
  Definition De (n : nat) : R := 1 - pr n (E zz (fun _ => true)).
  Lemma expo_0 : De 0%nat = 1. Proof. unfold De. cbn [pr]. rewrite (E_nil zz ze_full ltac:(repeat split)). cbn. ring. Qed.
  Lemma expo_1 : De 1%nat = 1 - NR expo_one / IZR (2 ^ 64).
  Proof. unfold De. rewrite (pr_one zz ze_full ltac:(repeat split)); [now rewrite expo_pin|]. intros a r0. discriminate. Qed.
  Lemma expo_2 n : De (S (S n)) = miss (ins zz) tl (below zz) * De n.
  Proof.
    unfold De. rewrite (round (ins zz) tl (le zz (fun _ => true)) (below zz) (TE zz (fun _ => true))).
    2:{ intros u v ws Hu Hv. apply (E_step zz); auto. exact ze_full. }
    rewrite (tails_const math_exp math_log (fun _ => true)). unfold tp. cbn [ind]. rewrite mean53_const, hit_true.
    pose proof (total (ins zz) tl (below zz)) as T. fold (tail_mass zz) in T. lra.
  Qed.
  Lemma tail_mass_pos (zt : nat -> Ziggurat (list N)) : 0 <= tail_mass zt.
  Proof. unfold tail_mass. apply mean64_range. intros u. destruct (ins zt u); [lra|]. destruct (tl u); lra. Qed.
  Lemma expo_miss_one : 0 <= miss (ins zz) tl (below zz) <= De 1%nat.
  Proof. split; [apply miss_range|]. rewrite expo_1, <- expo_pin. pose proof (miss_pin zz) as M. pose proof (tail_mass_pos zz). lra. Qed.
  Lemma expo_r : De 1%nat = 118488500128666672 / IZR (2 ^ 64).
  Proof. rewrite expo_1. unfold expo_one. cbn [Z.pow Z.pow_pos Pos.iter Z.mul Pos.mul Z.of_N]. field. Qed.
  Lemma De_range n : 0 <= De n <= 1. Proof. pose proof (pr_range n (E zz (fun _ => true))). unfold De. lra. Qed.
  Lemma expo_geom k : De (2 * k)%nat <= De 1%nat ^ k /\ De (2 * k + 1)%nat <= De 1%nat ^ (k + 1).
  Proof.
    pose proof expo_miss_one as [M0 M1]. pose proof (De_range 1) as [R0 R1]. set (r := De 1%nat) in *.
    induction k as [|k [I1 I2]].
    - cbn [Nat.mul Nat.add pow]. rewrite expo_0. fold r. split; lra.
    - replace (2 * S k)%nat with (S (S (2 * k))) by lia. replace (S (S (2 * k)) + 1)%nat with (S (S (2 * k + 1))) by lia. replace (S k + 1)%nat with (S (k + 1)) by lia.
      pose proof (expo_2 (2 * k)) as Q1. pose proof (expo_2 (2 * k + 1)) as Q2. rewrite Q1, Q2. cbn [pow].
      pose proof (De_range (2 * k)). pose proof (De_range (2 * k + 1)). split; apply Rmult_le_compat; lra.
  Qed.
  Lemma expo_mean rate : exists c, mean_words (Exponential_Next tape math_exp math_log rate) c /\ 1.0064 <= c <= 1.013.
  Proof.
    pose proof expo_miss_one as [M0 M1]. pose proof expo_r as R. pose proof expo_0 as E0.
    destruct (series_bounded De 1.013) as (l & L & B).
    - intros n. apply De_range.
    - intros N. eapply Rle_trans; [apply (sum_two_step De (fun _ => 0) (miss (ins zz) tl (below zz)) 0)|].
      + split; [exact M0|]. rewrite R in M1. cbn [Z.pow Z.pow_pos Pos.iter Z.mul Pos.mul] in M1. lra.
      + intros n. apply De_range.
      + intros n. pose proof (expo_2 n) as Q. lra.
      + intros M. induction M as [|M IH]; [rewrite sum_O; lra|]. rewrite sum_Sn. unfold plus. cbn -[sum_n]. lra.
      + rewrite E0, R in *. cbn [Z.pow Z.pow_pos Pos.iter Z.mul Pos.mul] in *. set (m := miss (ins zz) tl (below zz)) in *. clearbody m. apply Rmult_le_reg_r with (1 - m); [lra|]. unfold Rdiv at 1. rewrite Rmult_assoc, Rinv_l by lra. lra.
    - exists l. split; [exists De; split; [intros n; apply expo_needs|exact L]|]. rewrite E0, R in B. cbn [Z.pow Z.pow_pos Pos.iter Z.mul Pos.mul] in B. lra.
  Qed.

  (** *** Normal *)
  Hypothesis AE : accurate_exp math_exp.
  Hypothesis AL : accurate_log math_log.
  Notation zn' := (zn math_exp math_log).
  Lemma zn_full : full_tables (zn' 0%nat).
  Proof. exact (tables_full _ (zf_tables _ _ (ZF math_exp math_log AE))). Qed.
  Lemma zn_same : forall a, zPDF (zn' a) = zPDF (zn' 0%nat) /\ zMirrored (zn' a) = zMirrored (zn' 0%nat) /\ zK (zn' a) = zK (zn' 0%nat) /\ zW (zn' a) = zW (zn' 0%nat) /\ zF (zn' a) = zF (zn' 0%nat).
  Proof. auto. Qed.
  Lemma zn_nil a r0 : zTail (zn' a) [] <> Ret r0.
  Proof. destruct a; discriminate. Qed.
  Lemma normal_pin : pin zn' = NR normal_one / IZR (2 ^ 64).
  Proof.
    rewrite pin_mirrored; [|intros i _; apply (nth_small normalK (N.to_nat i) normalK_small)|reflexivity]. rewrite sumN_NR. rewrite <- normal_sum. reflexivity.
  Qed.
  Lemma normal_needs mean sd n : needs_more (normal_draws math_exp math_log mean sd) n (1 - pr n (E zn' (fun _ => true))).
  Proof.
    assert (S2 : forall a b w r, (a <= b)%nat -> zTail (zn' a) w = Ret r -> zTail (zn' b) w = Ret r) by (intros a b w x Hab; apply tail_mono; exact Hab).
    assert (S3 : forall a w r, zTail (zn' a) w = Ret r -> zTail (zn' (S (length w))) w = Ret r) by (intros a w x; apply tail_bound).
    apply needs_more_pr. intros ws _ F. unfold E, evb, normal_draws, Normal_Next. split.
    - intros (fuel & f & ws' & Ef). change (normalZig tape math_exp math_log fuel) with (zn' fuel) in Ef. destruct (GenNext tape (zn' fuel) fuel ws) as [[g wg]| |] eqn:Eg; cbn [bind] in Ef; try discriminate Ef.
      unfold ZigTape.next. rewrite (next_fuel zn' zn_full zn_same S2 S3 fuel fuel (S (length ws)) (S (length ws)) ws _ Eg) by lia. reflexivity.
    - unfold ZigTape.next. destruct (GenNext tape (zn' (S (length ws))) (S (length ws)) ws) as [[g wg]| |] eqn:Eg; try discriminate. intros _. exists (S (length ws)), (add_mul NormalSite mean g sd), wg. change (normalZig tape math_exp math_log (S (length ws))) with (zn' (S (length ws))). now rewrite Eg.
  Qed.
  Definition Dn (n : nat) : R := 1 - pr n (E zn' (fun _ => true)).
  Definition Un (n : nat) : R := 1 - T math_log (fun _ => true) (S n).
  Lemma normal_0 : Dn 0%nat = 1. Proof. unfold Dn. cbn [pr]. rewrite (E_nil zn' zn_full zn_same). cbn. ring. Qed.
  Lemma normal_1 : Dn 1%nat = 1 - NR normal_one / IZR (2 ^ 64).
  Proof. unfold Dn. rewrite (pr_one zn' zn_full zn_same); [now rewrite normal_pin|]. exact zn_nil. Qed.
  Lemma normal_2 n : Dn (S (S n)) = tail_mass zn' * Un n + miss (ins zn') tl (below zn') * Dn n.
  Proof.
    pose proof (ZF math_exp math_log AE) as ZF.
    assert (S2 : forall a b w r, (a <= b)%nat -> zTail (zn' a) w = Ret r -> zTail (zn' b) w = Ret r) by (intros a b w x Hab; apply tail_mono; exact Hab).
    assert (S3 : forall a w r, zTail (zn' a) w = Ret r -> zTail (zn' (S (length w))) w = Ret r) by (intros a w x; apply tail_bound).
    unfold Dn, Un. rewrite (round (ins zn') tl (le zn' (fun _ => true)) (below zn') (TE zn' (fun _ => true))).
    2:{ intros u v ws Hu Hv. apply (E_step zn'); auto. exact zn_full. }
    rewrite (tails_mirrored zn' normal_density ZF eq_refl (fun _ => true) n), hit_true.
    pose proof (total (ins zn') tl (below zn')) as T. fold (tail_mass zn') in T. rewrite (tail_mass_mirrored zn' normal_density ZF eq_refl) in *.
    change (Tp zn' (fun _ => true) n) with (NormalTailLaw.T math_log (fun _ => true) (S n)). change (Tm zn' (fun _ => true) n) with (NormalTailLaw.T math_log (fun _ => true) (S n)). lra.
  Qed.
  Lemma Un_range n : 0 <= Un n <= 1.
  Proof. unfold Un, T. pose proof (pr_range (S n) (fun ws => evb (fun _ => true) (normalTail tape math_log (S (length ws)) ws))). lra. Qed.
  Lemma tail_sum N : sum_n Un N <= 4.1.
  Proof.
    assert (A1 : accp math_log (fun _ => true) = accall math_log) by (unfold accp, accall; apply mean53_ext; intros i _; apply Rmult_1_l).
    pose proof (accall_big math_log AL) as AB. pose proof (accall_range math_log) as AR.
    eapply Rle_trans; [apply (sum_two_step Un (fun _ => 0) (51 / 100) 0)|].
    - lra.
    - intros n. apply Un_range.
    - intros n. pose proof (Un_range n) as U. unfold Un in *. rewrite T_step, A1. nra.
    - intros M. induction M as [|M IH]; [rewrite sum_O; lra|]. rewrite sum_Sn. unfold plus. cbn -[sum_n]. lra.
    - pose proof (Un_range 0). pose proof (Un_range 1). lra.
  Qed.
  Lemma normal_r : Dn 1%nat = 78888730561867289 / IZR (2 ^ 64).
  Proof. rewrite normal_1. unfold normal_one. cbn [Z.pow Z.pow_pos Pos.iter Z.mul Pos.mul Z.of_N]. field. Qed.
  Lemma normal_tail_small : tail_mass zn' <= 6 / 100000.
  Proof.
    rewrite (tail_mass_mirrored zn' normal_density (ZF math_exp math_log AE) eq_refl). unfold outside', outside.
    change (tK (zn' 0%nat) 0) with 8512739193715049%N. cbn [Z.pow Z.pow_pos Pos.iter Z.mul Pos.mul Z.of_N]. lra.
  Qed.
  Lemma Dn_range n : 0 <= Dn n <= 1. Proof. pose proof (pr_range n (E zn' (fun _ => true))). unfold Dn. lra. Qed.
  Lemma normal_mean mean sd : exists c, mean_words (normal_draws math_exp math_log mean sd) c /\ 1.0042 <= c <= 1.009.
  Proof.
    pose proof normal_r as R. pose proof normal_0 as E0. pose proof normal_1 as N1. pose proof (miss_pin zn') as MP. pose proof (tail_mass_pos zn') as T0. pose proof normal_tail_small as T1. pose proof (miss_range (ins zn') tl (below zn')) as [M0 _]. rewrite normal_pin in MP.
    rewrite <- N1, R in MP.
    destruct (series_bounded Dn 1.009) as (l & L & B).
    - intros n. apply Dn_range.
    - intros N. eapply Rle_trans; [apply (sum_two_step Dn (fun n => tail_mass zn' * Un n) (miss (ins zn') tl (below zn')) (tail_mass zn' * 4.1))|].
      + split; [exact M0|]. cbn [Z.pow Z.pow_pos Pos.iter Z.mul Pos.mul] in MP. lra.
      + intros n. apply Dn_range.
      + intros n. pose proof (normal_2 n) as Q. lra.
      + intros M. replace (sum_n (fun n => tail_mass zn' * Un n) M) with (tail_mass zn' * sum_n Un M); [apply Rmult_le_compat_l; [exact T0|apply tail_sum]|].
        induction M as [|M IH]; [now rewrite !sum_O|]. rewrite !sum_Sn, <- IH. unfold plus. cbn -[sum_n]. ring.
      + rewrite E0, R in *. cbn [Z.pow Z.pow_pos Pos.iter Z.mul Pos.mul] in *. set (m := miss (ins zn') tl (below zn')) in *. set (t := tail_mass zn') in *. clearbody m t. apply Rmult_le_reg_r with (1 - m); [lra|]. unfold Rdiv at 1. rewrite Rmult_assoc, Rinv_l by lra. lra.
    - exists l. split; [exists Dn; split; [intros n; apply normal_needs|exact L]|]. rewrite E0, R in B. cbn [Z.pow Z.pow_pos Pos.iter Z.mul Pos.mul] in B. lra.
  Qed.
End Draws.
End Compiler.
