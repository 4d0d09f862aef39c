(** Riemann sums of monotone functions, and clamped layers of a decreasing curve. *)
From Coq Require Import Reals Lia Lra Psatz ZifyN.
From Coquelicot Require Import Coquelicot.
From Verif Require Import Proofs.SumN.
Local Open Scope R_scope.

Definition clamp (a x : R) : R := Rmin a (Rmax 0 x).
Lemma clamp_range a x : 0 <= a -> 0 <= clamp a x <= a.
Proof. intros H. unfold clamp. split; [apply Rmin_glb; [exact H|apply Rmax_l]|apply Rmin_l]. Qed.
Lemma clamp_mono a x y : x <= y -> clamp a x <= clamp a y.
Proof. intros H. unfold clamp. apply Rle_min_compat_l. now apply Rle_max_compat_l. Qed.
Lemma clamp_lip a x y : Rabs (clamp a x - clamp a y) <= Rabs (x - y).
Proof. unfold clamp, Rmin, Rmax. repeat destruct Rle_dec; unfold Rabs; repeat destruct Rcase_abs; lra. Qed.
Lemma clamp_id a x : 0 <= x <= a -> clamp a x = x.
Proof. intros H. unfold clamp. rewrite Rmax_right, Rmin_right; lra. Qed.
Lemma clamp_zero a x : 0 <= a -> x <= 0 -> clamp a x = 0.
Proof. intros Ha H. unfold clamp. rewrite Rmax_left, Rmin_right; lra. Qed.
Lemma clamp_full a x : 0 <= a -> a <= x -> clamp a x = a.
Proof. intros Ha H. unfold clamp. rewrite Rmax_right, Rmin_left; lra. Qed.
Lemma clamp_continuous a (f : R -> R) x : continuous f x -> continuous (fun t => clamp a (f t)) x.
Proof.
  intros H. apply (continuous_comp f (clamp a) x H). intros P [e He]. exists e. intros y Hy. apply He.
  change (Rabs (y - f x) < e) in Hy. change (Rabs (clamp a y - clamp a (f x)) < e). apply Rle_lt_trans with (2 := Hy). apply clamp_lip.
Qed.

Section Decreasing.
  Variable h : R -> R.
  Hypothesis C : forall x, continuous h x.
  Hypothesis D : forall x y, 0 <= x <= y -> h y <= h x.
  Lemma h_int a b : ex_RInt h a b.
  Proof. apply (ex_RInt_continuous h). intros. apply C. Qed.
  Lemma int_between a b : 0 <= a <= b -> (b - a) * h b <= RInt h a b <= (b - a) * h a.
  Proof.
    intros H. replace ((b - a) * h b) with (RInt (fun _ => h b) a b) by (rewrite RInt_const; reflexivity). replace ((b - a) * h a) with (RInt (fun _ => h a) a b) by (rewrite RInt_const; reflexivity). split; (apply RInt_le; [lra|apply ex_RInt_const || apply h_int|apply ex_RInt_const || apply h_int|]); intros x Hx; apply D; lra.
  Qed.
  Lemma int_chasles a b c : RInt h a b + RInt h b c = RInt h a c.
  Proof. apply (RInt_Chasles h); apply h_int. Qed.
  (** left sums of a decreasing function exceed the integral by at most one step times the first value *)
  Lemma left_sum w (Hw : 0 <= w) n : RInt h 0 (NR n * w) <= w * sumN (fun j => h (NR j * w)) n <= RInt h 0 (NR n * w) + w * (h 0 - h (NR n * w)).
  Proof.
    induction n as [|n IH] using N.peano_ind.
    - rewrite sumN_0. change (NR 0) with 0. rewrite Rmult_0_l. rewrite RInt_point. change zero with 0. lra.
    - rewrite sumN_S, NR_succ. pose proof (NR_pos n) as P. assert (0 <= NR n * w) by now apply Rmult_le_pos.
      rewrite <- (int_chasles 0 (NR n * w) ((NR n + 1) * w)). pose proof (int_between (NR n * w) ((NR n + 1) * w) ltac:(lra)) as B.
      replace ((NR n + 1) * w - NR n * w) with w in B by ring. lra.
  Qed.
End Decreasing.

(** layers of a curve between decreasing heights F 0 = 1 > F 1 > ... telescope *)
Section Layers.
  Variable F : N -> R.
  Hypothesis FD : forall i, F (N.succ i) <= F i.
  Lemma layers_sum v n : v <= F 0%N -> sumN (fun i => clamp (F i - F (N.succ i)) (v - F (N.succ i))) n = Rmax 0 (v - F n).
  Proof.
    intros Hv. induction n as [|n IH] using N.peano_ind.
    - rewrite sumN_0, Rmax_left by lra. reflexivity.
    - rewrite sumN_S, IH. specialize (FD n). unfold clamp, Rmin, Rmax. repeat destruct Rle_dec; lra.
  Qed.
End Layers.
