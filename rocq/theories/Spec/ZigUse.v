(** Using ziggurat.py's output in a crazy.Ziggurat: what the Go table literals hold, and for which densities the 53-bit
    arithmetic of crazy.Ziggurat is up to it. *)
From Coq Require Import Reals List.
From Coquelicot Require Import Coquelicot.
From Flocq Require Import Core BinarySingleNaN.
From Verif Require Import Model.Base Model.Float Model.Ziggurat Model.ZigScript Spec.Floats Spec.Zig.
Local Open Scope R_scope.

(** The tables of z are the 1024-entry 64-bit tables that the script prints for r, v and xi: the integers K, and W and F rounded
    to float64. *)
Record holds_script_tables {W} (z : Ziggurat W) (f : R -> R) (r v : R) (xi : list R) (symmetric : bool) : Prop := {
  hs_full : full_tables z;
  hs_K : forall i, (i < 1024)%nat -> Z.of_N (tK z i) = script_K f r v xi (im symmetric true 1024) i;
  hs_W : forall i, (i < 1024)%nat -> fvalue (tW z i) (rnd (script_W f r v xi (im symmetric true 1024) i));
  hs_F : forall i, (i < 1024)%nat -> fvalue (tF z i) (rnd (script_F f xi i)) }.

(** PDF computes f to within 2.5e-15 (about twenty units in the last place) on the float64 numbers from 0 to just beyond r *)
Definition accurate_pdf (pdf : float64 -> float64) (f : R -> R) (r : R) : Prop :=
  forall a x, fvalue a x -> Bsign a = false -> 0 <= x <= 10001 / 10000 * r ->
    exists p, fvalue (pdf a) p /\ Rabs (p - f x) <= 25 / 10 ^ 16 * f x.

(** f is neither too steep, too flat nor too large for 1024 layers and 53 bits; r, v and x1 are the base edge, the layer area
    and the edge of the top layer. *)
Record fits_53_bits (f : R -> R) (r v x1 : R) : Prop := {
  fb_continuous : forall x, continuous f x;
  fb_top : f 0 = 1;
  (** not too steep: up to just beyond r it falls by no more than the fraction 17/r of itself per unit *)
  fb_steep : forall x y, 0 <= x <= y -> y <= 10001 / 10000 * r -> f x - f y <= 17 / r * (y - x) * f x;
  (** not too flat: from the top layer's edge on, moving by a small fraction makes it fall by at least 1/2000 of that fraction *)
  fb_flat : forall x y, x1 <= x <= y -> x <= r -> y <= (1 + 1 / 10 ^ 12) * x -> (y - x) / x * f x <= 2000 * (f x - f y);
  (** no rectangle under f is larger than 497 layers *)
  fb_rect : forall x, 0 <= x <= r -> x * f x <= 497 * v;
  (** the scale: the base strip is no longer than 159/10, and no layer is narrower or lower than 2^-19 *)
  fb_wide : v / f r <= 159 / 10;
  fb_narrow : / 2 ^ 19 <= x1;
  fb_low : / 2 ^ 19 <= f r /\ / 2 ^ 19 <= v / r }.
