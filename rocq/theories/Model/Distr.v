(** distr.go: uniform distributions. *)
From Verif Require Import Model.Base Model.Rng Model.Float.
From Verif Require Export Model.Fused.
Local Open Scope N_scope.

Section Distr.
  Context {W : Type}.
  Context {fpc : compiler}.     (* which x*y + z the Go compiler fuses *)
  Variable read : reader W.

  (** distr.go:20-24: 7 bytes are read into b[:7]; n and err are ignored. [bind] on the slice b[:7] of the
      8-byte array: the eighth byte stays 0. *)
  Definition Uniform1_2_Next (w : W) : outcome (float64 * W) :=
    let! ((p, _, _), w) := read w (zeros 7) in
    let! x := get64 (p ++ zeros 1) 0 in
    Ret (Float64frombits (N.lor x 0x3ff0000000000000), w).

  (** distr.go:36: the literal 1.11022302462515654042e-16, whose float64 value is 2^-53
      (checked in Proofs/FloatProofs.v: lit_2_53) *)
  Definition lit_scale : float64 := mkfloat false 1 (-53).
  (** distr.go:33-37 *)
  Definition Uniform0_1_Next (w : W) : outcome (float64 * W) :=
    let! ((p, _, _), w) := read w (zeros 8) in
    let! x := get64 p 0 in
    Ret (fmul (of_int (Z.of_N (N.land x 0x1fffffffffffff))) lit_scale, w).

  (** distr.go:46-48: u.High*(Uniform1_2{u.Source}.Next()-1) + u.Low *)
  Definition Uniform_Next (low high : float64) (w : W) : outcome (float64 * W) :=
    let! (x, w) := Uniform1_2_Next w in
    Ret (mul_add UniformSite high (fsub x (of_int 1)) low, w).
End Distr.
