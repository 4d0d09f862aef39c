(** Property C68: the law of any ziggurat whose tables fit a curve (ziggurat.go). *)
From Coq Require Import Reals Lia Lra.
From Coquelicot Require Import Coquelicot.
From Flocq Require Import Core BinarySingleNaN.
From Verif Require Import Model.Base Model.Rng Model.Float Model.Distr Model.Ziggurat Model.ExpoNormal Spec.Common Spec.Counting Spec.Floats Spec.Zig Spec.Density Spec.Tails Spec.Prob Spec.ZigFit.
From Verif Require Import Proofs.SumN Proofs.ZigFloat Proofs.ZigInst Proofs.NormalInst Proofs.ZigTape Proofs.ZigGeneral Props.Zig Props.ExpoLaw.
Local Open Scope R_scope.

(** for every choice of the compiler which x*y + z to fuse (Model/Fused.v) *)
Section Compiler.
Context {fpc : compiler}.

(** Tables that fit the curve f, a tail function that yields a value at most x with probability t: GenNext yields one with
    the area under f up to x plus t times the weight of the tail, over the total, up to 1e-8. *)
Theorem C68_ziggurat_law (z : Ziggurat (list N)) f x t : zig_for z f -> zMirrored z = false ->
  draw_prob (fun _ ws => zTail z ws) (at_most x) t ->
  exists q, draw_prob (fun fuel ws => GenNext tape z fuel ws) (at_most x) q /\
    Rabs (q - (body_area z f x + tail_area z * t) / (body_area z f (edge z 1023) + tail_area z)) <= 1 / 10 ^ 8.
Proof. intros ZF UM DT. exact (general_unmirrored z f ZF x t UM DT). Qed.
(** Mirrored: the curve is reflected; both signs of the tail's value count. *)
Theorem C68_mirrored_law (z : Ziggurat (list N)) f x t t' : zig_for z f -> zMirrored z = true -> (forall v, zPDF z (fneg v) = zPDF z v) ->
  draw_prob (fun _ ws => zTail z ws) (at_most x) t -> draw_prob (fun _ ws => zTail z ws) (fun v => at_most x (fneg v)) t' ->
  exists q, draw_prob (fun fuel ws => GenNext tape z fuel ws) (at_most x) q /\
    Rabs (q - (body_area z f x + (body_area z f (edge z 1023) - body_area z f (- x)) + tail_area z * (t + t')) / (2 * (body_area z f (edge z 1023) + tail_area z))) <= 1 / 10 ^ 8.
Proof. intros ZF MI EV DT DT'. exact (general_mirrored z f ZF x t t' MI EV DT DT'). Qed.
(** With a tail that only returns values beyond x the tail plays no part. *)
Theorem C68_before_the_tail (z : Ziggurat (list N)) f x : zig_for z f -> zMirrored z = false ->
  (forall ws v ws', Forall w64 ws -> zTail z ws = Ret (v, ws') -> ~ at_most x v) ->
  exists q, draw_prob (fun fuel ws => GenNext tape z fuel ws) (at_most x) q /\
    Rabs (q - body_area z f x / (body_area z f (edge z 1023) + tail_area z)) <= 1 / 10 ^ 8.
Proof.
  intros ZF UM H. destruct (C68_ziggurat_law z f x 0 ZF UM) as (q & D & E).
  - apply draw_prob_none. intros _ ws v ws' F E. exact (H ws v ws' F E).
  - exists q. split; [exact D|]. now rewrite Rmult_0_r, Rplus_0_r in E.
Qed.
(** Not vacuous: the shipped tables fit their curves. *)
Example C68_nonvacuous_expo math_exp math_log : accurate_exp math_exp -> zig_for (expoZig tape math_exp math_log) (fun x => exp (- x)).
Proof. intros AE. exact (expo_zig_for tape math_exp math_log AE). Qed.
Example C68_nonvacuous_normal math_exp math_log fuel : accurate_exp math_exp -> zig_for (normalZig tape math_exp math_log fuel) (fun x => exp (- (x ^ 2 / 2))).
Proof. intros AE. exact (normal_zig_for tape math_exp math_log AE fuel). Qed.
End Compiler.
