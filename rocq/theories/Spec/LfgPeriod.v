(** The period of LFG, and the cycle of six values it can fall into. *)
From Coq Require Import NArith List.
From Verif Require Import Model.Base Spec.Common.
Import ListNotations.
Local Open Scope N_scope.

(** lfg.go:16 says 2^670 - 2^63; this is about 2^352 *)
Definition lfg_period : N := (2 ^ 187 - 1) * ((2 ^ 108 - 1) / 65) * 2 ^ 63.
(** a, b, b - a, -a, -b, a - b modulo 2^64, over and over *)
Definition six_cycle (a b : N) (n : nat) : N :=
  let m := 2 ^ 64 in nth (n mod 6) [a; b; (b + (m - a)) mod m; (m - a) mod m; (m - b) mod m; (a + (m - b)) mod m] 0.
