(** C77: the same program, compiled for two machines, on the same source. *)
From Coq Require Import Reals Lia Lra Bool.
From Coquelicot Require Import Coquelicot.
From Flocq Require Import Core BinarySingleNaN.
From Verif Require Import Model.Base Model.Rng Model.Float Model.Fused Model.Distr Model.Ziggurat Model.ExpoNormal Spec.Common Spec.Counting Spec.Floats Spec.Zig Spec.Tails Spec.Density Spec.Prob Spec.ZigFit Spec.Words Spec.Portable.
From Verif Require Import Proofs.WordLemmas Proofs.SumN Proofs.FloatProofs Proofs.FusedProofs Proofs.ZigAccept Proofs.ZigBody Proofs.ZigStep Proofs.ZigFloat Proofs.ZigInst Proofs.ZigTape Proofs.ZigHit Proofs.ZigMirror Proofs.ExpoLaw Proofs.NormalTail Proofs.NormalTailLaw Proofs.NormalLaw Proofs.GenReturns Proofs.PortableProofs.
From Verif Require Import Props.Rng Props.Uniform Props.Zig Props.ExpoNormal Props.Tails Props.Density Props.ExpoLaw Props.NormalLaw Props.Independence Props.UniformLaw.
Local Open Scope R_scope.

(** *** one source of exp and log, two compilers *)
Section Compilers.
  Variables c1 c2 : compiler.
  Variables math_exp math_log : float64 -> float64.
  Hypothesis AE : accurate_exp math_exp.
  Notation e1 := (Exponential_Next (fpc := c1) tape math_exp math_log).
  Notation e2 := (Exponential_Next (fpc := c2) tape math_exp math_log).
  Lemma no_tails n : pr n (fun _ => false) <= 45 / 10 ^ 14. Proof. rewrite pr_const. cbn. lra. Qed.
  (** Compiled by two compilers that fuse different x*y + z, Exponential behaves differently on at most 6 of 10^13 tapes ... *)
  Theorem C77_exponential rate : differ_at_most (e1 rate) (e2 rate) (6 / 10 ^ 13).
  Proof.
    pose proof (ze_for math_exp math_log AE) as ZF. set (zz := fun _ : nat => ze math_exp math_log). apply unlike_eq.
    apply (couple zz zz expo_density ZF) with (c1 := c1) (c2 := c2) (like := eq) (tb := fun _ => false) (D := 45 / 10 ^ 14); try (repeat split; fail); try congruence; try lra.
    - intros a ws _ _. apply alike_refl. reflexivity.
    - apply no_tails.
    - intros u Wu L0 _. apply (below_differ_same _ _ expo_density); auto; [discriminate|repeat split].
    - pose proof (expo_miss (fpc := c1) math_exp math_log AE). unfold zz. lra.
    - intros fuel ws E. apply alike_eq in E. unfold zz in E. unfold Exponential_Next. change (expoZig tape math_exp math_log) with (ze math_exp math_log). rewrite E. apply alike_refl. reflexivity.
  Qed.
  (** ... and a sample of k exponential variates on at most k times as many. *)
  Theorem C77_exponential_sample rate k : differ_at_most (draw_many k (e1 rate)) (draw_many k (e2 rate)) (INR k * (6 / 10 ^ 13)).
  Proof. destruct (expo_ok (fpc := c1) math_exp math_log rate) as [S O]. apply sample_differ; [exact S|exact O|]. apply C77_exponential. Qed.
  Notation n1 := (normal_draws (fpc := c1) math_exp math_log).
  Notation n2 := (normal_draws (fpc := c2) math_exp math_log).
  Lemma normal_couple {A} (like : A -> A -> Prop) (p1 p2 : nat -> list N -> outcome (A * list N)) :
    (forall fuel ws, GenNext (fpc := c1) tape (zn math_exp math_log fuel) fuel ws = GenNext (fpc := c2) tape (zn math_exp math_log fuel) fuel ws -> alike like (p1 fuel ws) (p2 fuel ws)) -> unlike_at_most like p1 p2 (6 / 10 ^ 13).
  Proof.
    intros H. pose proof (NormalLaw.ZF math_exp math_log AE) as ZF.
    apply (couple (zn math_exp math_log) (zn math_exp math_log) normal_density ZF) with (c1 := c1) (c2 := c2) (like := eq) (tb := fun _ => false) (D := 45 / 10 ^ 14); try (repeat split; fail); try congruence; try lra.
    - intros a ws _ _. apply alike_refl. reflexivity.
    - apply no_tails.
    - intros u Wu L0 _. apply (below_differ_same _ _ normal_density); auto; [intros _; apply NormalLaw.EVEN|repeat split].
    - pose proof (den_big (fpc := c1) math_exp math_log AE) as DB. unfold den in DB. lra.
    - intros fuel ws E. apply alike_eq in E. now apply H.
  Qed.
  (** So do standard normal variates ... *)
  Theorem C77_standard_normal : log_like math_log -> differ_at_most (n1 (B754_zero false) (of_int 1)) (n2 (B754_zero false) (of_int 1)) (6 / 10 ^ 13).
  Proof.
    intros LL. apply unlike_eq, normal_couple. intros fuel ws E. unfold normal_draws, Normal_Next. change (normalZig tape math_exp math_log fuel) with (zn math_exp math_log fuel). rewrite <- E.
    destruct (GenNext (fpc := c1) tape (zn math_exp math_log fuel) fuel ws) as [[x ws']| |] eqn:E1; cbn [bind alike]; auto. split; [|reflexivity].
    apply (C33_gennext_is_ziggurat (fpc := c1) tape (zn math_exp math_log fuel) tape_go (tables_full _ (C35_normal_tables _ _ _ _))) in E1. destruct E1 as (n & u & _ & H).
    pose proof (normal_not_negzero (fpc := c1) tape math_exp math_log tape_go fuel n u ws x ws' LL H) as NZ. now rewrite !add_mul_0_1.
  Qed.
  Theorem C77_standard_normal_sample k : log_like math_log -> differ_at_most (draw_many k (n1 (B754_zero false) (of_int 1))) (draw_many k (n2 (B754_zero false) (of_int 1))) (INR k * (6 / 10 ^ 13)).
  Proof. intros LL. destruct (normal_ok (fpc := c1) math_exp math_log (B754_zero false) (of_int 1)) as [S O]. apply sample_differ; [exact S|exact O|]. now apply C77_standard_normal. Qed.
  (** ... and normal variates of any mean and standard deviation, if the compilers agree on the last line of Normal.Next *)
  Theorem C77_normal_sample mean sd k : c1 NormalSite = c2 NormalSite -> differ_at_most (draw_many k (n1 mean sd)) (draw_many k (n2 mean sd)) (INR k * (6 / 10 ^ 13)).
  Proof.
    intros EC. destruct (normal_ok (fpc := c1) math_exp math_log mean sd) as [S O]. apply sample_differ; [exact S|exact O|]. apply unlike_eq, normal_couple.
    intros fuel ws E. unfold normal_draws, Normal_Next. change (normalZig tape math_exp math_log fuel) with (zn math_exp math_log fuel). rewrite E. unfold add_mul, fuses. rewrite EC. apply alike_refl. reflexivity.
  Qed.
End Compilers.

(** *** two machines: two compilers, and two implementations of math.Exp and math.Log *)
Section Machines.
  Variables c1 c2 : compiler.
  Variables exp1 exp2 log1 log2 : float64 -> float64.
  Hypothesis (AE1 : accurate_exp exp1) (AE2 : accurate_exp exp2) (AL1 : accurate_log log1) (AL2 : accurate_log log2).
  (** results computed from two variates of rate 1 that are the same double or within 4*10^-14 *)
  Definition exponentials (rate a b : float64) : Prop := exists x y, close (4 / 10 ^ 14) x y /\ a = fdiv x rate /\ b = fdiv y rate.
  Notation e1 := (Exponential_Next (fpc := c1) tape exp1 log1).
  Notation e2 := (Exponential_Next (fpc := c2) tape exp2 log2).
  Theorem C77_exponential_machines rate : unlike_at_most (exponentials rate) (e1 rate) (e2 rate) (8 / 10 ^ 12).
  Proof.
    apply (couple (fun _ => ze exp1 log1) (fun _ => ze exp2 log2) expo_density (ze_for exp1 log1 AE1)) with (c1 := c1) (c2 := c2) (like := close (4 / 10 ^ 14)) (tb := fun _ => false) (D := 55 / 10 ^ 13); try (repeat split; fail); try lra.
    - intros x. now left.
    - apply close_neg.
    - intros _ ws _ _. cbn [zTail ze expoZig]. change (zTail (ze exp1 log1) ws) with (expoTail tape log1 ws). change (zTail (ze exp2 log2) ws) with (expoTail tape log2 ws).
      destruct (expoTail tape log1 ws) as [[x w1]| |] eqn:E1, (expoTail tape log2 ws) as [[y w2]| |] eqn:E2; cbn [alike]; try exact I; try (unfold expoTail in E1, E2; destruct (Uniform0_1_Next tape ws) as [[u w]| |]; cbn [bind] in E1, E2; discriminate).
      destruct (C59_expo_tail tape log1 tape_go ws x w1 AL1 E1) as (u & (g & G & Vg) & Z1 & N1). destruct (C59_expo_tail tape log2 tape_go ws y w2 AL2 E2) as (u' & (g' & G' & Vg') & Z2 & N2).
      rewrite G in G'. injection G' as <- <-. assert (u' = u) by (rewrite <- (proj2 Vg), <- (proj2 Vg'); reflexivity). subst u'. split; [|reflexivity].
      destruct (C31_uniform0_1_range tape ws g w1 tape_go G) as (u0 & V0 & U0). assert (u0 = u) by (rewrite <- (proj2 Vg), <- (proj2 V0); reflexivity). subst u0. destruct (Req_dec u 0) as [E0|N0]; [left; now rewrite Z1, Z2|].
      replace (4 / 10 ^ 14) with (2 * (2 / 10 ^ 14)) by lra. apply near_close with (B2R expoR - ln u); [apply N1|apply N2]; lra.
    - intros n. rewrite pr_const. cbn. lra.
    - intros u Wu L0 HI. apply (below_differ _ _ expo_density); auto; [now apply ze_for|now apply ze_for|discriminate|discriminate|repeat split].
    - pose proof (expo_miss (fpc := c1) exp1 log1 AE1). lra.
    - intros fuel ws E. unfold Exponential_Next. change (expoZig tape exp1 log1) with (ze exp1 log1). change (expoZig tape exp2 log2) with (ze exp2 log2).
      destruct (GenNext (fpc := c1) tape (ze exp1 log1) fuel ws) as [[x w]| |], (GenNext (fpc := c2) tape (ze exp2 log2) fuel ws) as [[y w']| |]; cbn [bind alike] in *; try tauto. destruct E as [E ->]. split; [|reflexivity]. now exists x, y.
  Qed.
  Theorem C77_exponential_machines_sample rate k : unlike_at_most (Forall2 (exponentials rate)) (draw_many k (e1 rate)) (draw_many k (e2 rate)) (INR k * (8 / 10 ^ 12)).
  Proof. destruct (expo_ok (fpc := c1) exp1 log1 rate) as [S O]. apply sample_unlike; [exact S|exact O|]. apply C77_exponential_machines. Qed.
  (** results computed by the last line of Normal.Next from two standard normal variates that are the same double or within 2*10^-14 *)
  Definition normals (mean sd a b : float64) : Prop :=
    exists x y, close (2 / 10 ^ 14) x y /\ a = add_mul (fpc := c1) NormalSite mean x sd /\ b = add_mul (fpc := c2) NormalSite mean y sd.
  Notation n1 := (normal_draws (fpc := c1) exp1 log1).
  Notation n2 := (normal_draws (fpc := c2) exp2 log2).
  Theorem C77_normal_machines mean sd : unlike_at_most (normals mean sd) (n1 mean sd) (n2 mean sd) (8 / 10 ^ 12).
  Proof.
    apply (couple (zn exp1 log1) (zn exp2 log2) normal_density (NormalLaw.ZF exp1 log1 AE1)) with (c1 := c1) (c2 := c2) (like := close (2 / 10 ^ 14)) (tb := fun ws => tdiffer log1 log2 (length ws) ws) (D := 55 / 10 ^ 13); try (repeat split; fail); try lra.
    - intros x. now left.
    - apply close_neg.
    - intros a ws F T. change (zTail (zn exp1 log1 a) ws) with (normalTail tape log1 a ws). change (zTail (zn exp2 log2 a) ws) with (normalTail tape log2 a ws). apply (tail_same log1 log2 AL1 AL2 (length ws)); auto.
    - intros n. rewrite (pr_ext n _ (tdiffer log1 log2 n)) by (intros ws <- _; reflexivity). pose proof (tdiffer_bound log1 log2 AL1 AL2 n n). lra.
    - intros u Wu L0 HI. apply (below_differ _ _ normal_density); auto; [now apply NormalLaw.ZF|now apply NormalLaw.ZF|intros _; apply NormalLaw.EVEN|intros _; apply NormalLaw.EVEN|repeat split].
    - pose proof (den_big (fpc := c1) exp1 log1 AE1) as DB. unfold den in DB. lra.
    - intros fuel ws E. unfold normal_draws, Normal_Next. change (normalZig tape exp1 log1 fuel) with (zn exp1 log1 fuel). change (normalZig tape exp2 log2 fuel) with (zn exp2 log2 fuel).
      destruct (GenNext (fpc := c1) tape (zn exp1 log1 fuel) fuel ws) as [[x w]| |], (GenNext (fpc := c2) tape (zn exp2 log2 fuel) fuel ws) as [[y w']| |]; cbn [bind alike] in *; try tauto. destruct E as [E ->]. split; [|reflexivity]. now exists x, y.
  Qed.
  Theorem C77_normal_machines_sample mean sd k : unlike_at_most (Forall2 (normals mean sd)) (draw_many k (n1 mean sd)) (draw_many k (n2 mean sd)) (INR k * (8 / 10 ^ 12)).
  Proof. destruct (normal_ok (fpc := c1) exp1 log1 mean sd) as [S O]. apply sample_unlike; [exact S|exact O|]. apply C77_normal_machines. Qed.
End Machines.

(** *** how far fusing moves z + x*y *)
Section Rounding.
  Variable c : compiler.
  Definition slack (z p : R) : R := / 2 ^ 51 * (Rabs z + Rabs p) + bpow radix2 (-1072).
  Lemma slack_fin zv p v : Rabs p <= bpow radix2 1022 -> Rabs zv <= bpow radix2 1022 -> Rabs (v - (zv + p)) <= slack zv p -> Rabs v < fmax.
  Proof.
    intros Hp Hz H. assert (B2 : bpow radix2 1022 * 4 = fmax) by (unfold fmax; change 1024%Z with (1022 + 2)%Z; rewrite bpow_plus; reflexivity). assert (1 <= bpow radix2 1022) by (change 1 with (bpow radix2 0); apply bpow_le; lia).
    assert (bpow radix2 (-1072) <= 1) by (change 1 with (bpow radix2 0); apply bpow_le; lia). pose proof (Rabs_triang zv p) as T. unfold slack in H.
    apply Rle_lt_trans with (Rabs (v - (zv + p)) + Rabs (zv + p)); [replace v with ((v - (zv + p)) + (zv + p)) at 1 by ring; apply Rabs_triang|].
    set (bb := bpow radix2 1022) in *. set (cc := bpow radix2 (-1072)) in *. clearbody bb cc. lra.
  Qed.
  Lemma E1075 : bpow radix2 (-1075) = bpow radix2 (-1072) / 8.
  Proof. change (bpow radix2 (-1075)) with (bpow radix2 (-1072 + -3)). rewrite bpow_plus. reflexivity. Qed.
  Lemma fused_err zv p : Rabs (rnd (p + zv) - (zv + p)) <= slack zv p.
  Proof.
    rewrite (Rplus_comm zv p). pose proof (UniformLaw.rnd_err (p + zv)) as R. rewrite E1075 in R. apply Rle_trans with (1 := R). unfold slack. pose proof (Rabs_triang p zv) as T.
    assert (/ 2 ^ 53 * Rabs (p + zv) <= / 2 ^ 53 * (Rabs p + Rabs zv)) by (apply Rmult_le_compat_l; [left; apply Rinv_0_lt_compat, pow_lt; lra|exact T]).
    pose proof (bpow_gt_0 radix2 (-1072)). pose proof (Rabs_pos p). pose proof (Rabs_pos zv). lra.
  Qed.
  Lemma rounded_err zv p : Rabs (rnd p - p) <= / 2 * Rabs p + bpow radix2 (-1072) /\ Rabs (rnd (zv + rnd p) - (zv + p)) <= slack zv p.
  Proof.
    pose proof (UniformLaw.rnd_err p) as R1. pose proof (UniformLaw.rnd_err (zv + rnd p)) as R2. rewrite E1075 in R1, R2. pose proof (bpow_gt_0 radix2 (-1072)) as E0. pose proof (Rabs_pos p). pose proof (Rabs_pos zv). unfold slack.
    set (y := rnd p) in *. set (v := rnd (zv + y)) in *. set (cc := bpow radix2 (-1072)) in *. clearbody y v cc. split; [lra|].
    assert (Y : Rabs (zv + y) <= Rabs zv + Rabs p + / 2 ^ 53 * Rabs p + cc / 8). { replace (zv + y) with (zv + p + (y - p)) by ring. eapply Rle_trans; [apply Rabs_triang|]. pose proof (Rabs_triang zv p). lra. }
    replace (v - (zv + p)) with ((v - (zv + y)) + (y - p)) by ring. eapply Rle_trans; [apply Rabs_triang|]. eapply Rle_trans; [apply Rplus_le_compat; [exact R2|exact R1]|].
    assert (/ 2 ^ 53 * Rabs (zv + y) <= / 2 ^ 53 * (Rabs zv + Rabs p + / 2 ^ 53 * Rabs p + cc / 8)) by (apply Rmult_le_compat_l; [left; apply Rinv_0_lt_compat, pow_lt; lra|exact Y]). lra.
  Qed.
  Lemma product_fin p : Rabs p <= bpow radix2 1022 -> Rabs (rnd p) < fmax.
  Proof.
    intros Hp. apply (slack_fin 0 p); [exact Hp|rewrite Rabs_R0; apply bpow_ge_0|]. pose proof (fused_err 0 p) as F. now rewrite Rplus_0_r in F.
  Qed.
  Lemma add_mul_err i z x y zv xv yv : fvalue z zv -> fvalue x xv -> fvalue y yv -> Rabs (xv * yv) <= bpow radix2 1022 -> Rabs zv <= bpow radix2 1022 ->
    exists v, fvalue (add_mul (fpc := c) i z x y) v /\ Rabs (v - (zv + xv * yv)) <= slack zv (xv * yv).
  Proof.
    intros [Fz <-] [Fx <-] [Fy <-] Hp Hz. unfold add_mul, fuses. destruct (c i).
    - pose proof (fused_err (B2R z) (B2R x * B2R y)) as E. exists (rnd (B2R x * B2R y + B2R z)). split; [|exact E].
      destruct (ffma_R x y z Fx Fy Fz) as [V F]; [now apply (slack_fin (B2R z) (B2R x * B2R y))|]. now split.
    - destruct (rounded_err (B2R z) (B2R x * B2R y)) as [_ E]. destruct (fmul_R x y Fx Fy (product_fin _ Hp)) as (V1 & F1 & _).
      exists (rnd (B2R z + rnd (B2R x * B2R y))). split; [|exact E]. destruct (fadd_R z (fmul x y) Fz F1) as [V F]; [rewrite V1; now apply (slack_fin (B2R z) (B2R x * B2R y))|]. rewrite V1 in V. now split.
  Qed.
  Lemma mul_add_err i z x y zv xv yv : fvalue z zv -> fvalue x xv -> fvalue y yv -> Rabs (xv * yv) <= bpow radix2 1022 -> Rabs zv <= bpow radix2 1022 ->
    exists v, fvalue (mul_add (fpc := c) i x y z) v /\ Rabs (v - (zv + xv * yv)) <= slack zv (xv * yv).
  Proof.
    intros [Fz <-] [Fx <-] [Fy <-] Hp Hz. unfold mul_add, fuses. destruct (c i).
    - pose proof (fused_err (B2R z) (B2R x * B2R y)) as E. exists (rnd (B2R x * B2R y + B2R z)). split; [|exact E].
      destruct (ffma_R x y z Fx Fy Fz) as [V F]; [now apply (slack_fin (B2R z) (B2R x * B2R y))|]. now split.
    - destruct (rounded_err (B2R z) (B2R x * B2R y)) as [_ E]. destruct (fmul_R x y Fx Fy (product_fin _ Hp)) as (V1 & F1 & _).
      exists (rnd (B2R z + rnd (B2R x * B2R y))). split; [|exact E]. rewrite Rplus_comm in E |- *. destruct (fadd_R (fmul x y) z F1 Fz) as [V F]; [rewrite V1; apply (slack_fin (B2R z) (B2R x * B2R y)); auto; now rewrite (Rplus_comm (B2R z))|]. rewrite V1 in V. now split.
  Qed.
End Rounding.
(** Normal variates from the same standard normal variate x are, on every machine, within 2^-51 (|mean| + |x sd|) of mean + x sd *)
Theorem C77_normal_rounding c mean sd x m s v : fvalue mean m -> fvalue sd s -> fvalue x v -> Rabs (v * s) <= bpow radix2 1022 -> Rabs m <= bpow radix2 1022 ->
  exists y, fvalue (add_mul (fpc := c) NormalSite mean x sd) y /\ Rabs (y - (m + v * s)) <= / 2 ^ 51 * (Rabs m + Rabs (v * s)) + bpow radix2 (-1072).
Proof. intros Vm Vs Vx Hp Hm. exact (add_mul_err c NormalSite mean x sd m v s Vm Vx Vs Hp Hm). Qed.

(** *** Uniform *)
Section Uniform.
  Context {W : Type} (read : reader W).
  Hypothesis G : go_reader read.
  Variables c1 c2 : compiler.
  Lemma sub1_value x w w' : Uniform1_2_Next read w = Ret (x, w') -> exists v, fvalue (fsub x (of_int 1)) v /\ 0 <= v <= 1.
  Proof.
    intros E. destruct (read w (zeros 7)) as [[[[p n] e] w1]| |] eqn:ER; unfold Uniform1_2_Next in E; rewrite ER in E; try discriminate E.
    destruct (uniform12_eq read w p n e w1 G ER) as [U B]. unfold Uniform1_2_Next in U. rewrite ER in U. rewrite U in E. rewrite frombits_1_2 in E by exact B. injection E as <- <-.
    assert (M : (le_val p mod 2 ^ 52 < 2 ^ 52)%N) by (apply N.mod_lt; discriminate). eexists. split; [apply (sub1_exact _ M)|]. pose proof (u52_bounds _ M). assert (0 < / IZR (2 ^ 52)) by (apply Rinv_0_lt_compat; now apply IZR_lt). lra.
  Qed.
  (** On every machine Uniform.Next reads the same bytes, and its results differ by rounding only ... *)
  Theorem C77_uniform low high l h w f1 w' : fvalue low l -> fvalue high h -> Rabs l <= bpow radix2 1022 -> Rabs h <= bpow radix2 1022 ->
    Uniform_Next (fpc := c1) read low high w = Ret (f1, w') ->
    exists f2 x1 x2, Uniform_Next (fpc := c2) read low high w = Ret (f2, w') /\ fvalue f1 x1 /\ fvalue f2 x2 /\
      Rabs (x1 - x2) <= / 2 ^ 50 * (Rabs l + Rabs h) + bpow radix2 (-1071).
  Proof.
    intros Vl Vh Hl Hh E. unfold Uniform_Next in *. destruct (Uniform1_2_Next read w) as [[x w1]| |] eqn:EU; try discriminate E. cbn [bind] in *. injection E as <- <-.
    destruct (sub1_value x w w1 EU) as (v & V & R). assert (HP : Rabs (h * v) <= Rabs h). { rewrite Rabs_mult, (Rabs_pos_eq v) by lra. rewrite <- (Rmult_1_r (Rabs h)) at 2. apply Rmult_le_compat_l; [apply Rabs_pos|lra]. }
    destruct (mul_add_err c1 UniformSite low high (fsub x (of_int 1)) l h v Vl Vh V ltac:(lra) Hl) as (x1 & V1 & B1). destruct (mul_add_err c2 UniformSite low high (fsub x (of_int 1)) l h v Vl Vh V ltac:(lra) Hl) as (x2 & V2 & B2).
    eexists. exists x1, x2. split; [reflexivity|]. split; [exact V1|]. split; [exact V2|]. unfold slack in B1, B2.
    assert (E2 : bpow radix2 (-1071) = 2 * bpow radix2 (-1072)) by (change (-1071)%Z with (1 + -1072)%Z; rewrite bpow_plus; reflexivity). rewrite E2.
    replace (x1 - x2) with ((x1 - (l + h * v)) - (x2 - (l + h * v))) by ring. unfold Rminus at 1. eapply Rle_trans; [apply Rabs_triang|]. rewrite Rabs_Ropp.
    pose proof (bpow_gt_0 radix2 (-1072)). set (cc := bpow radix2 (-1072)) in *. clearbody cc. lra.
  Qed.
  (** ... and are the same if Low is 0 (and High is not negative) *)
  Theorem C77_uniform_from_zero high h w : fvalue high h -> 0 <= h -> Uniform_Next (fpc := c1) read (B754_zero false) high w = Uniform_Next (fpc := c2) read (B754_zero false) high w.
  Proof.
    intros Vh Hh. unfold Uniform_Next. destruct (Uniform1_2_Next read w) as [[x w1]| |] eqn:EU; [|reflexivity|reflexivity]. cbn [bind]. f_equal. f_equal.
    destruct (sub1_value x w w1 EU) as (v & [Fu Vu] & R). destruct Vh as [Fh <-]. set (u := fsub x (of_int 1)) in *. subst v.
    enough (EQ : ffma high u (B754_zero false) = fadd (fmul high u) (B754_zero false)) by (unfold mul_add; destruct (@fuses c1 UniformSite), (@fuses c2 UniformSite); congruence).
    set (p := B2R high * B2R u). assert (P0 : 0 <= p) by (apply Rmult_le_pos; lra).
    assert (PF : Rabs (rnd p) < fmax). { pose proof (finite_lt_fmax high Fh) as L. rewrite Rabs_pos_eq in L by lra. rewrite Rabs_pos_eq by (apply rnd_ge; [apply representable_0|exact P0]). apply Rle_lt_trans with (2 := L). apply rnd_le_rep; [apply representable_B2R|]. unfold p. rewrite <- (Rmult_1_r (B2R high)) at 2. apply Rmult_le_compat_l; lra. }
    destruct (fmul_R high u Fh Fu PF) as (V1 & F1 & _). fold p in V1.
    pose proof (Bfma_correct 53 1024 fprec_gt_0 fprec_lt_emax mode_NE high u (B754_zero false) Fh Fu eq_refl) as K. cbv zeta in K. change (B2R (B754_zero false)) with 0 in K. rewrite Rplus_0_r in K. fold p in K.
    change (Generic_fmt.round radix2 (SpecFloat.fexp 53 1024) (round_mode mode_NE) p) with (rnd p) in K. rewrite Rlt_bool_true in K by exact PF. destruct K as (K1 & K2 & K3).
    pose proof (Bplus_correct 53 1024 fprec_gt_0 fprec_lt_emax mode_NE (fmul high u) (B754_zero false) F1 eq_refl) as J. change (B2R (B754_zero false)) with 0 in J. rewrite Rplus_0_r, V1 in J.
    change (Generic_fmt.round radix2 (SpecFloat.fexp 53 1024) (round_mode mode_NE) (rnd p)) with (rnd (rnd p)) in J. assert (RR : rnd (rnd p) = rnd p) by (apply rnd_id; rewrite <- V1; apply representable_B2R). rewrite RR, Rlt_bool_true in J by exact PF. destruct J as (J1 & J2 & J3).
    apply (B2R_Bsign_inj 53 1024); [exact K2|exact J2|exact (eq_trans K1 (eq_sym J1))|]. transitivity false.
    - eapply eq_trans; [exact K3|]. case Rcompare_spec; intros C; [lra| |reflexivity]. unfold Bfma_szero. cbn [Bsign]. now destruct (xorb _ _).
    - symmetry. eapply eq_trans; [exact J3|]. assert (0 <= rnd p) by (apply rnd_ge; [apply representable_0|exact P0]). case Rcompare_spec; intros C; [lra| |reflexivity]. cbn [Bsign]. now rewrite andb_false_r.
  Qed.
End Uniform.
(** Otherwise they can differ: Uniform{Low: 4, High: 5} on a source whose bytes are all 0xff *)
Theorem C77_uniform_can_differ : exists f1 f2,
  Uniform_Next (fpc := amd64) tape (of_int 4) (of_int 5) [0xffffffffffffffff%N] = Ret (f1, []) /\ fvalue f1 9 /\
  Uniform_Next (fpc := arm64) tape (of_int 4) (of_int 5) [0xffffffffffffffff%N] = Ret (f2, []) /\ fvalue f2 (9 - / IZR (2 ^ 49)).
Proof.
  exists (mkfloat false 9 0), (mkfloat false (9 * 2 ^ 49 - 1) (-49)). split; [|split; [|split]].
  - assert (E : mul_add (fpc := amd64) UniformSite (of_int 5) (fsub (Float64frombits (N.lor (le_val (le_bytes 7 0xffffffffffffffff)) 0x3ff0000000000000)) (of_int 1)) (of_int 4) = mkfloat false 9 0) by (apply B2SF_inj; vm_compute; reflexivity).
    rewrite <- E. reflexivity.
  - destruct (mkfloat_exact false 9 0) as (V & F & _); [lia|lia|]. split; [exact F|]. rewrite V. change (bpow radix2 0) with 1. lra.
  - assert (E : mul_add (fpc := arm64) UniformSite (of_int 5) (fsub (Float64frombits (N.lor (le_val (le_bytes 7 0xffffffffffffffff)) 0x3ff0000000000000)) (of_int 1)) (of_int 4) = mkfloat false (9 * 2 ^ 49 - 1) (-49)) by (apply B2SF_inj; vm_compute; reflexivity).
    rewrite <- E. reflexivity.
  - destruct (mkfloat_exact false (9 * 2 ^ 49 - 1) (-49)) as (V & F & _); [lia|lia|]. split; [exact F|]. rewrite V. change (bpow radix2 (-49)) with (/ IZR (2 ^ 49)). rewrite minus_IZR, mult_IZR. assert (0 < IZR (2 ^ 49)) by now apply IZR_lt. field. lra.
Qed.
Lemma accurate_log_like log : accurate_log log -> log_like log.
Proof.
  intros [A B]. split; [exact A|]. intros u x V X. destruct (B u x V X) as [F E]. exists (B2R (log u)). split; [now split|]. assert (L : ln x < 0) by (rewrite <- ln_1; apply ln_increasing; lra).
  rewrite (Rabs_left (ln x)) in E by exact L. apply Rabs_le_inv in E. assert (/ 2 ^ 52 * - ln x <= 1 * - ln x) by (apply Rmult_le_compat_r; lra). lra.
Qed.
(** the hypotheses hold of the correctly rounded functions, on the two machines *)
Example C77_nonvacuous : accurate_exp exact_exp /\ log_like exact_log /\ (forall i, amd64 i <> arm64 i) /\
  differ_at_most (Exponential_Next (fpc := amd64) tape exact_exp exact_log (of_int 3)) (Exponential_Next (fpc := arm64) tape exact_exp exact_log (of_int 3)) (6 / 10 ^ 13) /\
  differ_at_most (draw_many 1000 (normal_draws (fpc := amd64) exact_exp exact_log (B754_zero false) (of_int 1))) (draw_many 1000 (normal_draws (fpc := arm64) exact_exp exact_log (B754_zero false) (of_int 1))) (INR 1000 * (6 / 10 ^ 13)).
Proof.
  split; [exact exact_exp_accurate|]. split; [exact (accurate_log_like _ exact_log_accurate)|]. split; [intros i; discriminate|]. split.
  - apply C77_exponential, exact_exp_accurate.
  - apply C77_standard_normal_sample; [exact exact_exp_accurate|exact (accurate_log_like _ exact_log_accurate)].
Qed.
