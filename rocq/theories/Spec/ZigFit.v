(** When the tables of a ziggurat fit a density: what a user who supplies his own tables has to make sure of. *)
From Coq Require Import Reals.
From Coquelicot Require Import Coquelicot.
From Flocq Require Import Core BinarySingleNaN.
From Verif Require Import Model.Base Model.Float Model.Ziggurat Spec.Floats Spec.Zig.
Local Open Scope R_scope.

(** the point with abscissa m in layer i, as the code computes it *)
Definition pointf {W} (z : Ziggurat W) (i : nat) (m : N) : float64 := fmul (of_int (Z.of_N m)) (tW z i).
(** The tables fit the curve f (scaled to f(0) = 1). The tolerances are met by the shipped tables. *)
Record zig_for {W} (z : Ziggurat W) (f : R -> R) : Prop := {
  zf_tables : ziggurat_tables z;
  (** the ziggurat is neither huge nor tiny *)
  zf_16 : edge z 0 <= 16;
  zf_wide : / 2 ^ 20 <= edge z 1;
  (** f is continuous and decreasing *)
  zf_cont : forall x, continuous f x;
  zf_dec : forall x y, 0 <= x <= y -> f y <= f x;
  zf_0 : f 0 = 1;
  (** the heights fall noticeably from layer to layer *)
  zf_steep : forall i, (1 <= i < 1024)%nat -> height z (i - 1) <= 500 * (height z (i - 1) - height z i) /\ / 2 ^ 20 <= height z i /\ / 2 ^ 20 <= height z (i - 1) - height z i;
  (** the height table is the curve at the edges: just inside the edge of layer i-1 the curve is not below height i-1, just
      outside not above it, and beyond the edge of layer i not above height i *)
  zf_inner : forall i t, (2 <= i < 1024)%nat -> 0 <= t <= edge z (i - 1) + edge z i / IZR (2 ^ 53) -> (1 - 4 / 10 ^ 15) * height z (i - 1) <= f t;
  zf_outer : forall i t, (2 <= i < 1024)%nat -> 0 <= t -> edge z (i - 1) - 3 * (edge z i / IZR (2 ^ 53)) <= t -> f t <= 101 / 100 * height z (i - 1);
  zf_cut : forall i t, (1 <= i < 1024)%nat -> edge z i * (1 + 3 / 10 ^ 13) <= t -> f t <= height z i;
  zf_last : height z 1023 - f (edge z 1023) <= 2 / 10 ^ 15 * height z 1023;
  (** K[0] cuts the base strip at the edge of the last layer *)
  zf_base : (1 < tK z 0)%N /\ Rabs (IZR (Z.of_N (tK z 0)) * (edge z 0 / IZR (2 ^ 53)) - edge z 1023) <= 3 * (edge z 0 / IZR (2 ^ 53));
  (** PDF computes f accurately at the points that can come up *)
  zf_pdf : forall i m, (1 <= i < 1024)%nat -> (m <= 2 ^ 53)%N -> exists p, fvalue (zPDF z (pointf z i m)) p /\
    Rabs (p - f (IZR (Z.of_N m) * (edge z i / IZR (2 ^ 53)))) <= 5 / 10 ^ 15 * f (IZR (Z.of_N m) * (edge z i / IZR (2 ^ 53)))
}.
(** area under f from 0 to x, counting nothing beyond the edge of the last layer *)
Definition body_area {W} (z : Ziggurat W) (f : R -> R) (x : R) : R := RInt f 0 (Rmax 0 (Rmin x (edge z 1023))).
(** area of the base strip beyond that edge: the weight of the tail *)
Definition tail_area {W} (z : Ziggurat W) : R := (edge z 0 - edge z 1023) * height z 1023.
