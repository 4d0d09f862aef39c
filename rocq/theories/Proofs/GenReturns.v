(** How likely n words suffice for one exponential or normal variate. *)
From Coq Require Import Reals Lia Lra Psatz ZifyN ZifyNat Bool.
From Coquelicot Require Import Coquelicot.
From Flocq Require Import Core BinarySingleNaN.
From Verif Require Import Model.Base Model.Rng Model.Float Model.Distr Model.Ziggurat Model.ExpoNormal Spec.Common Spec.Counting Spec.Floats Spec.Zig Spec.Tails Spec.Density Spec.Prob Spec.ZigFit.
From Verif Require Import Proofs.FloatProofs Proofs.RelError Proofs.ZigTables Proofs.SumN Proofs.ZigAccept Proofs.ZigBody Proofs.ZigStep Proofs.ZigFloat Proofs.ZigInst Proofs.ZigTape Proofs.ZigHit Proofs.ZigMirror Proofs.ExpoLaw.
From Verif Require Import Proofs.Gauss Proofs.NormalInst Proofs.NormalTail Proofs.NormalTailLaw Proofs.NormalLaw.
From Verif Require Import Props.Tails Props.Density Props.ExpoLaw Props.NormalLaw.
Local Open Scope R_scope.

(** for every choice of the compiler which x*y + z to fuse (Model/Fused.v) *)
Section Compiler.
Context {fpc : compiler}.

(** D (n + 2) = a n + m D n with a (2 k) <= t c^k, m + t <= c *)
Lemma two_step (D a : nat -> R) (m t c : R) : 0 <= m -> D 0%nat <= 1 -> m + t <= c -> (forall n, D (S (S n)) = a n + m * D n) -> (forall k, a (2 * k)%nat <= t * c ^ k) ->
  0 <= c -> forall k, D (2 * k)%nat <= c ^ k.
Proof.
  intros Hm D0 Hc St Ha C0. induction k as [|k IH]; [exact D0|]. replace (2 * S k)%nat with (S (S (2 * k))) by lia. rewrite St. specialize (Ha k).
  pose proof (pow_le c k C0) as PC. cbn [pow]. assert (m * D (2 * k)%nat <= m * c ^ k) by (apply Rmult_le_compat_l; lra).
  assert ((m + t) * c ^ k <= c * c ^ k) by (apply Rmult_le_compat_r; lra). lra.
Qed.
Section Returns.
  Variables math_exp math_log : float64 -> float64.
  Hypothesis AE : accurate_exp math_exp.
  Notation z := (ze math_exp math_log).
  Notation zz := (fun _ : nat => z).
  Lemma miss_range ins tl below : 0 <= miss ins tl below <= 1.
  Proof. unfold miss. apply mean64_range. intros u. destruct (ins u); [lra|]. destruct (tl u); [lra|]. pose proof (frac_range below u). lra. Qed.
  Lemma expo_miss : miss (ins zz) tl (below zz) <= 3 / 100.
  Proof.
    pose proof (ze_for math_exp math_log AE) as ZF. pose proof (miss_eq math_exp math_log AE) as ME.
    pose proof (body_value math_exp math_log AE 16 ltac:(lra)) as B. pose proof (strip_bounds math_exp math_log) as SB.
    assert (R16 : edge z 1023 <= 16) by (pose proof (zf_16 z _ ZF); pose proof (edge_le0 z _ ZF 1023 ltac:(lia)); lra). rewrite (Rmin_right 16) in B by exact R16. destruct (edge_pos z _ ZF 1023 ltac:(lia)) as [PR _].
    pose proof (outside_value math_exp math_log AE) as OV. unfold expo_density in OV. pose proof (exp_le_1 (edge z 1023) ltac:(lra)) as E1. pose proof (exp_pos (- edge z 1023)) as E0.
    assert (C : 98 / 100 <= / (1024 * strip z)). { apply Rmult_le_reg_l with (1024 * strip z); [lra|]. rewrite Rinv_r by lra. lra. } unfold Rdiv in B, OV. apply Rabs_le_inv in B. apply Rabs_le_inv in OV. set (c := / (1024 * strip z)) in *. set (e := exp (- edge z 1023)) in *. clearbody c e. lra.
  Qed.
  Lemma hit_true (zt : nat -> Ziggurat (list N)) : hit (ins zt) tl (le zt (fun _ => true)) (below zt) = mean64 (fun u => if ins zt u then 1 else if tl u then 0 else frac (below zt) u).
  Proof. unfold hit. apply mean64_ext. intros u _. unfold le. cbn [ind]. destruct (ins _ u); [reflexivity|]. destruct (tl u); ring. Qed.
  Lemma expo_returns rate n : exists r, prob (2 * n) (fun ws => exists fuel f ws', Exponential_Next tape math_exp math_log rate fuel ws = Ret (f, ws') /\ True) r /\ 1 - (3 / 100) ^ n <= r.
  Proof.
    pose proof (ze_for math_exp math_log AE) as ZF. set (q := fun k => pr k (E zz (fun _ => true))). exists (q (2 * n)%nat). split.
    - assert (D : prob (2 * n) (fun ws => exists fuel f ws', ZigTape.next zz fuel ws = Ret (f, ws') /\ True) (q (2 * n)%nat)).
      { apply (draw_at zz); auto; [exact (tables_full z (zf_tables z _ ZF))|repeat split|..]; tauto. }
      destruct D as (c & C & Ec). exists c. split; [|exact Ec]. revert C. apply Count.has_exactly_ext. intros ws. unfold ZigTape.next, Exponential_Next. change (expoZig tape math_exp math_log) with z. apply and_iff_compat_l. split.
      + intros (fuel & f & ws' & Ef & _). exists fuel, (fdiv f rate), ws'. split; [now rewrite Ef|trivial].
      + intros (fuel & f & ws' & Ef & _). destruct (GenNext tape z fuel ws) as [[g wg]| |] eqn:Eg; cbn [bind] in Ef; try discriminate Ef. exists fuel, g, wg. split; [exact Eg|trivial].
    - enough (1 - q (2 * n)%nat <= (3 / 100) ^ n) by lra.
      apply (two_step (fun k => 1 - q k) (fun _ => 0) (miss (ins zz) tl (below zz)) 0 (3 / 100)); try lra.
      + apply miss_range.
      + unfold q. pose proof (pr_range 0 (E zz (fun _ => true))). lra.
      + pose proof expo_miss. lra.
      + intros k. unfold q. rewrite (round (ins zz) tl (le zz (fun _ => true)) (below zz) (TE zz (fun _ => true))).
        2:{ intros u v ws Hu Hv. apply (E_step zz); auto. exact (tables_full z (zf_tables z _ ZF)). }
        rewrite (tails_const math_exp math_log (fun _ => true)). unfold tp. cbn [ind]. rewrite mean53_const, hit_true.
        pose proof (total (ins zz) tl (below zz)) as T. fold (tail_mass zz) in T. lra.
      + intros k. lra.
  Qed.
  Hypothesis AL : accurate_log math_log.
  Notation zn' := (zn math_exp math_log).
  Lemma tail_true k : 1 - T math_log (fun _ => true) (S (2 * k)) <= (51 / 100) ^ k.
  Proof.
    assert (A1 : accp math_log (fun _ => true) = accall math_log) by (unfold accp, accall; apply mean53_ext; intros i _; apply Rmult_1_l).
    pose proof (accall_big math_log AL) as AB. pose proof (accall_range math_log) as AR.
    apply (two_step (fun k => 1 - T math_log (fun _ => true) (S k)) (fun _ => 0) (1 - accall math_log) 0 (51 / 100)); try lra.
    - unfold T. pose proof (pr_range 1 (fun ws => evb (fun _ => true) (normalTail tape math_log (S (length ws)) ws))). lra.
    - intros n. rewrite T_step, A1. ring.
    - intros n. lra.
  Qed.
  Lemma normal_returns mean sd n : exists r, prob (2 * n) (fun ws => exists fuel f ws', normal_draws math_exp math_log mean sd fuel ws = Ret (f, ws') /\ True) r /\ 1 - (51 / 100) ^ n <= r.
  Proof.
    pose proof (ZF math_exp math_log AE) as ZF. set (q := fun k => pr k (E zn' (fun _ => true))). exists (q (2 * n)%nat).
    assert (S1 : forall a, zPDF (zn' a) = zPDF (zn' 0%nat) /\ zMirrored (zn' a) = zMirrored (zn' 0%nat) /\ zK (zn' a) = zK (zn' 0%nat) /\ zW (zn' a) = zW (zn' 0%nat) /\ zF (zn' a) = zF (zn' 0%nat)) by (intros a; auto).
    assert (S2 : forall a b w r, (a <= b)%nat -> zTail (zn' a) w = Ret r -> zTail (zn' b) w = Ret r) by (intros a b w x Hab; apply tail_mono; exact Hab).
    assert (S3 : forall a w r, zTail (zn' a) w = Ret r -> zTail (zn' (S (length w))) w = Ret r) by (intros a w x; apply tail_bound).
    split.
    - assert (D : prob (2 * n) (fun ws => exists fuel f ws', ZigTape.next zn' fuel ws = Ret (f, ws') /\ True) (q (2 * n)%nat)).
      { apply (draw_at zn'); auto; [exact (tables_full _ (zf_tables _ _ ZF))|..]; tauto. }
      destruct D as (c & C & Ec). exists c. split; [|exact Ec]. revert C. apply Count.has_exactly_ext. intros ws. unfold ZigTape.next, normal_draws, Normal_Next. apply and_iff_compat_l. split.
      + intros (fuel & f & ws' & Ef & _). exists fuel, (add_mul NormalSite mean f sd), ws'. split; [|trivial]. change (normalZig tape math_exp math_log fuel) with (zn' fuel). now rewrite Ef.
      + intros (fuel & f & ws' & Ef & _). change (normalZig tape math_exp math_log fuel) with (zn' fuel) in Ef. destruct (GenNext tape (zn' fuel) fuel ws) as [[g wg]| |] eqn:Eg; cbn [bind] in Ef; try discriminate Ef. exists fuel, g, wg. split; [exact Eg|trivial].
    - enough (1 - q (2 * n)%nat <= (51 / 100) ^ n) by lra. pose proof (den_big math_exp math_log AE) as DB. unfold den in DB. pose proof (o_range math_exp math_log AE) as [O1 O2].
      set (o := outside zn') in *. set (o' := outside' zn') in *.
      apply (two_step (fun k => 1 - q k) (fun k => (o + o') / 2 * (1 - T math_log (fun _ => true) (S k))) (miss (ins zn') tl (below zn')) ((o + o') / 2) (51 / 100)); try lra.
      + apply miss_range.
      + unfold q. pose proof (pr_range 0 (E zn' (fun _ => true))). lra.
      + intros k. unfold q. rewrite (round (ins zn') tl (le zn' (fun _ => true)) (below zn') (TE zn' (fun _ => true))).
        2:{ intros u v ws Hu Hv. apply (E_step zn'); auto. exact (tables_full _ (zf_tables _ _ ZF)). }
        rewrite (tails_mirrored zn' normal_density ZF eq_refl (fun _ => true) k), hit_true. fold o o'.
        pose proof (total (ins zn') tl (below zn')) as T. fold (tail_mass zn') in T. rewrite (tail_mass_mirrored zn' normal_density ZF eq_refl) in T. fold o o' in T.
        change (Tp zn' (fun _ => true) k) with (NormalTailLaw.T math_log (fun _ => true) (S k)). change (Tm zn' (fun _ => true) k) with (NormalTailLaw.T math_log (fun _ => true) (S k)). lra.
      + intros k. apply Rmult_le_compat_l; [lra|]. apply tail_true.
  Qed.
End Returns.
End Compiler.
