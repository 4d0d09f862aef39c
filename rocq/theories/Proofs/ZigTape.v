(** GenNext on a tape of uniform words, as rounds of rejection sampling. *)
From Coq Require Import Reals Lia Lra Psatz ZifyN ZifyNat Bool.
From Coquelicot Require Import Coquelicot.
From Flocq Require Import Core BinarySingleNaN.
From Verif Require Import Model.Base Model.Rng Model.Float Model.Distr Model.Ziggurat Spec.Common Spec.Counting Spec.Floats Spec.Zig Spec.Prob.
From Verif Require Import Proofs.WordLemmas Proofs.SaveProofs Proofs.IvWords Proofs.FloatProofs Proofs.SumN Proofs.ZigAccept Proofs.ZigStep Proofs.ZigFloat Props.Rng Props.Uniform Props.Zig Props.ExpoNormal.
Local Open Scope R_scope.

(** for every choice of the compiler which x*y + z to fuse (Model/Fused.v) *)
Section Compiler.
Context {fpc : compiler}.

Definition lefb (x : R) (v : float64) : bool := is_finite v && Rle_bool (B2R v) x.
Lemma lefb_spec x v : lefb x v = true <-> at_most x v.
Proof.
  unfold lefb, at_most, fvalue. rewrite andb_true_iff. split.
  - intros [F L]. exists (B2R v). split; [auto|]. revert L. now case Rle_bool_spec.
  - intros (y & [F <-] & L). split; [exact F|]. now apply Rle_bool_true.
Qed.
Definition evb {A} (p : float64 -> bool) (o : outcome (float64 * A)) : bool := match o with Ret (v, _) => p v | _ => false end.

Lemma tape_draw_inv ws u ws' : RNG_Uint64 tape ws = Ret (u, ws') -> exists v, ws = v :: ws'.
Proof.
  unfold RNG_Uint64. destruct ws as [|v ws]; [discriminate|]. cbn [tape bind]. rewrite zeros_length, get64_8 by apply le_bytes_length. cbn [bind]. intros E. injection E as _ <-. eauto.
Qed.
Lemma tape_draw u ws : w64 u -> RNG_Uint64 tape (u :: ws) = Ret (u, ws).
Proof.
  intros H. unfold RNG_Uint64. cbn [tape bind]. rewrite zeros_length, get64_8 by apply le_bytes_length. cbn [bind]. rewrite le_val_bytes8 by exact H. reflexivity.
Qed.
Lemma tape_unif_inv ws y ws' : Uniform0_1_Next tape ws = Ret (y, ws') -> exists v, ws = v :: ws'.
Proof.
  unfold Uniform0_1_Next. destruct ws as [|v ws]; [discriminate|]. cbn [tape bind]. rewrite zeros_length, get64_8 by apply le_bytes_length. cbn [bind]. intros E. injection E as _ <-. eauto.
Qed.
Lemma tape_unif v ws : w64 v -> Uniform0_1_Next tape (v :: ws) = Ret (unif (v mod 2 ^ 53), ws).
Proof. intros H. rewrite tape_uniform by exact H. reflexivity. Qed.

Section Tape.
  (** a ziggurat whose tail function is given a bound on its loop *)
  Variable zt : nat -> Ziggurat (list N).
  Notation z := (zt 0%nat).
  Hypothesis FT : full_tables z.
  Hypothesis SAME : forall a, zPDF (zt a) = zPDF z /\ zMirrored (zt a) = zMirrored z /\ zK (zt a) = zK z /\ zW (zt a) = zW z /\ zF (zt a) = zF z.
  Hypothesis TMONO : forall a b w r, (a <= b)%nat -> zTail (zt a) w = Ret r -> zTail (zt b) w = Ret r.
  Hypothesis TBOUND : forall a w r, zTail (zt a) w = Ret r -> zTail (zt (S (length w))) w = Ret r.
  Definition next (fuel : nat) (ws : list N) : outcome (float64 * list N) := GenNext tape (zt fuel) fuel ws.
  Lemma same_point a u : point (zt a) u = point z u.
  Proof. destruct (SAME a) as (_ & M & _ & EW & _). unfold point, tW. now rewrite M, EW. Qed.
  Lemma same_inside a u : inside (zt a) u <-> inside z u.
  Proof. destruct (SAME a) as (_ & M & EK & _ & _). unfold inside, tK. now rewrite M, EK. Qed.
  Lemma same_below a u y : below_curve (zt a) u y = below_curve z u y.
  Proof. destruct (SAME a) as (EP & _ & _ & _ & EF). unfold below_curve, tF. now rewrite same_point, EP, EF. Qed.
  Lemma same_full a : full_tables (zt a).
  Proof. destruct (SAME a) as (_ & _ & EK & EW & EF). unfold full_tables. now rewrite EK, EW, EF. Qed.
  Lemma zig_fuel a b n u w x w' : zig tape (zt a) n u w x w' -> (length w < b)%nat -> zig tape (zt b) n u w x w' /\ (n < length w)%nat.
  Proof.
    intros H. revert b. assert (ML : zMirrored (zt a) = zMirrored z) by apply SAME.
    induction H as [w u w1 Eu Hi|w u w1 y w2 Eu Hi Hl Ey Eb|w u w1 x w2 Eu Hi Hl Et|w u w1 y w2 n u' x w' Eu Hi Hl Ey Eb H IH]; intros b Hb;
      pose proof (tape_draw_inv _ _ _ Eu) as [u0 ->]; cbn [length] in *.
    - split; [|lia]. rewrite same_point, <- (same_point b). apply zig_inside; [exact Eu|]. now apply same_inside, (same_inside a).
    - split; [|lia]. rewrite same_point, <- (same_point b). apply zig_wedge with w1 y; auto; [now rewrite same_inside, <- (same_inside a)|now rewrite same_below, <- (same_below a)].
    - split; [|lia]. rewrite ML. assert (MB : zMirrored (zt b) = zMirrored z) by apply SAME. rewrite <- MB. apply zig_tail with w1; auto; [now rewrite same_inside, <- (same_inside a)|].
      apply TMONO with (S (length w1)); [lia|]. now apply TBOUND with a.
    - pose proof (tape_unif_inv _ _ _ Ey) as [v ->]. cbn [length] in *. destruct (IH b ltac:(lia)) as [I1 I2]. split; [|lia].
      apply zig_reject with u (v :: w2) y w2; auto; [now rewrite same_inside, <- (same_inside a)|now rewrite same_below, <- (same_below a)].
  Qed.
  Lemma next_fuel a f b c w r : GenNext tape (zt a) f w = Ret r -> (length w < b)%nat -> (length w <= c)%nat -> GenNext tape (zt b) c w = Ret r.
  Proof.
    destruct r as [x w']. intros E Hb Hc. apply (C33_gennext_is_ziggurat tape (zt a) tape_go (same_full a)) in E. destruct E as (n & u & Hn & Z). destruct (zig_fuel a b n u w x w' Z Hb) as [Z2 L].
    apply (C33_gennext_is_ziggurat tape (zt b) tape_go (same_full b)). exists n, u. split; [lia|exact Z2].
  Qed.
  Lemma evb_fuel p a f w : (length w < a)%nat -> (length w <= f)%nat -> evb p (GenNext tape (zt a) f w) = evb p (next (S (length w)) w).
  Proof.
    intros Ha Hf. unfold next. destruct (GenNext tape (zt a) f w) as [r| |] eqn:E1.
    - now rewrite (next_fuel _ _ (S (length w)) (S (length w)) _ _ E1) by lia.
    - destruct (GenNext tape (zt (S (length w))) (S (length w)) w) as [r| |] eqn:E2; [|reflexivity|reflexivity]. rewrite (next_fuel _ _ a f _ _ E2) in E1 by lia. discriminate E1.
    - destruct (GenNext tape (zt (S (length w))) (S (length w)) w) as [r| |] eqn:E2; [|reflexivity|reflexivity]. rewrite (next_fuel _ _ a f _ _ E2) in E1 by lia. discriminate E1.
  Qed.
  Lemma evb_tail p a w : (length w < a)%nat -> evb p (zTail (zt a) w) = evb p (zTail (zt (S (length w))) w).
  Proof.
    intros Ha. destruct (zTail (zt a) w) as [r| |] eqn:E1.
    - now rewrite (TBOUND _ _ _ E1).
    - destruct (zTail (zt (S (length w))) w) as [r| |] eqn:E2; [|reflexivity|reflexivity]. rewrite (TMONO (S (length w)) a _ _ ltac:(lia) E2) in E1. discriminate E1.
    - destruct (zTail (zt (S (length w))) w) as [r| |] eqn:E2; [|reflexivity|reflexivity]. rewrite (TMONO (S (length w)) a _ _ ltac:(lia) E2) in E1. discriminate E1.
  Qed.
  Variable p : float64 -> bool.
  Definition ins (u : N) : bool := if inside_dec z u then true else false.
  Definition tl (u : N) : bool := (layer u =? 0)%nat.
  Definition le (u : N) : bool := p (point z u).
  Definition below (u k : N) : bool := below_curve z u (unif k).
  Definition TE (u : N) (ws : list N) : bool :=
    evb (fun v => p (if (abscissa (zMirrored z) u <? 0)%Z then fneg v else v)) (zTail (zt (S (length ws))) ws).
  Definition E (ws : list N) : bool := evb p (next (S (length ws)) ws).
  Lemma E_step u v ws : w64 u -> w64 v -> E (u :: v :: ws) =
    if ins u then le u else if tl u then TE u (v :: ws) else if below u (v mod 2 ^ 53)%N then le u else E ws.
  Proof.
    intros Hu Hv. unfold E at 1, next. rewrite (gennext_step tape _ tape_go (same_full _)). rewrite tape_draw by exact Hu. cbn [bind]. unfold ins.
    destruct (inside_dec (zt (S (length (u :: v :: ws)))) u) as [H1|H1]; destruct (inside_dec z u) as [H2|H2]; try (exfalso; apply same_inside in H1; contradiction); try (exfalso; apply H1; now apply same_inside).
    - unfold evb, le. now rewrite same_point.
    - unfold tl. destruct (layer u =? 0)%nat.
      + unfold TE. rewrite <- (evb_tail _ (S (length (u :: v :: ws)))) by (cbn; lia). destruct (SAME (S (length (u :: v :: ws)))) as (_ & -> & _). destruct (zTail _ (v :: ws)) as [[y w2]| |]; reflexivity.
      + rewrite tape_unif by exact Hv. cbn [bind]. rewrite same_below. unfold below. destruct (below_curve z u (unif (v mod 2 ^ 53))).
        * unfold evb, le. now rewrite same_point.
        * unfold E. apply evb_fuel; cbn; lia.
  Qed.
  Lemma draw_at (P : float64 -> Prop) n : (forall v, p v = true <-> P v) -> prob n (fun ws => exists fuel f ws', next fuel ws = Ret (f, ws') /\ P f) (pr n E).
  Proof.
    intros HP. apply prob_pr. intros ws _ _. unfold E. split.
    - intros (fuel & f & ws' & Ef & Hf). unfold next in Ef. unfold next at 1. rewrite (next_fuel _ _ (S (length ws)) (S (length ws)) _ _ Ef) by lia. unfold evb. now apply HP.
    - unfold evb. destruct (next (S (length ws)) ws) as [[f ws']| |] eqn:En; try discriminate. intros H. exists (S (length ws)), f, ws'. split; [exact En|]. now apply HP.
  Qed.
  Theorem draw_limit (P : float64 -> Prop) (t : R) : (forall v, p v = true <-> P v) -> miss ins tl below < 1 -> is_lim_seq (tails ins tl TE) t ->
    draw_prob next P ((hit ins tl le below + t) / (1 - miss ins tl below)).
  Proof.
    intros HP M T. exists (fun n => pr n E). split; [|exact (rounds_limit ins tl le below TE E E_step t M T)].
    intros n. now apply draw_at.
  Qed.
End Tape.
End Compiler.
