(** float64: IEEE-754 binary64 from Flocq, round to nearest even, one rounding per Go operation.
    This models the Go language and math.Float64frombits, not a file of /repo. *)
From Coq Require Import Reals.
From Flocq Require Import Core BinarySingleNaN.
From Verif Require Import Model.Base.

(** side conditions of Flocq for binary64; no counterpart in /repo *)
Definition fprec_gt_0 : FLX.Prec_gt_0 53 := eq_refl.
(** the same *)
Definition fprec_lt_emax : Prec_lt_emax 53 1024 := eq_refl.
#[global] Existing Instance fprec_gt_0.
#[global] Existing Instance fprec_lt_emax.

(** the type float64 (distr.go:10 and everywhere). NaN payloads are not modelled: all NaNs are one value *)
Definition float64 : Type := binary_float 53 1024.
(** the float64 m * 2^e, for |m| < 2^53 and e in range: exact. [s] is the sign of a zero. For the
    literals of distr.go:37, expo.go:44, normal.go:29, 52 and the tables. *)
Definition mkfloat (s : bool) (m e : Z) : float64 := binary_normalize 53 1024 fprec_gt_0 fprec_lt_emax mode_NE m e s.
(** +, -, *, /, unary -, <, <=, >= on float64 (distr.go:37, 48; ziggurat.go:38, 42, 47; expo.go:24-33; normal.go:25-38).
    Here: a + b *)
Definition fadd : float64 -> float64 -> float64 := Bplus mode_NE.
(** a - b (distr.go:48, ziggurat.go:42, expo.go:32) *)
Definition fsub : float64 -> float64 -> float64 := Bminus mode_NE.
(** a * b (distr.go:37, 48, ziggurat.go:38, 42, normal.go:25, 29) *)
Definition fmul : float64 -> float64 -> float64 := Bmult mode_NE.
(** a / b (expo.go:24, normal.go:35) *)
Definition fdiv : float64 -> float64 -> float64 := Bdiv mode_NE.
(** -a (ziggurat.go:47, expo.go:28, normal.go:35-36) *)
Definition fneg : float64 -> float64 := Bopp.
(** a < b (ziggurat.go:42) *)
Definition flt : float64 -> float64 -> bool := Bltb.
(** a <= b (Go specification; used for fge) *)
Definition fle : float64 -> float64 -> bool := Bleb.
(** a >= b (normal.go:37) *)
Definition fge (a b : float64) : bool := fle b a.
(** float64(z) for an integer z: nearest float; 0 gives +0 (distr.go:37, ziggurat.go:38, 41) *)
Definition of_int (z : Z) : float64 := mkfloat false z 0.
(** +Inf, what -math.Log(0) is (expo.go:32, normal.go:35) *)
Definition finf : float64 := B754_infinity false.
(** -Inf, what math.Log(0) is *)
Definition fninf : float64 := B754_infinity true.

(** math.Float64frombits (distr.go:23) *)
Definition Float64frombits (x : N) : float64 :=
  let s := N.testbit x 63 in
  let e := Z.of_N (N.land (N.shiftr x 52) 0x7ff) in
  let m := Z.of_N (N.land x 0xfffffffffffff) in
  if (e =? 2047)%Z then (if (m =? 0)%Z then B754_infinity s else B754_nan)
  else if (e =? 0)%Z then mkfloat s (cond_Zopp s m) (-1074)
  else mkfloat s (cond_Zopp s (m + 2 ^ 52)) (e - 1075).
