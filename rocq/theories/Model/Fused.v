(** x*y + z in Go. "An implementation may combine multiple floating-point operations into a single fused
    operation, possibly across statements, and produce a result that differs from the value obtained by
    executing and rounding the instructions individually" (Go specification, "Floating-point operators").
    The compiler fuses on arm64, ppc64, riscv64 and s390x, not on amd64. So whether it does is a parameter of the
    model; the package has three such expressions. This models the Go language, not a file of /repo. *)
From Flocq Require Import Core BinarySingleNaN.
From Verif Require Import Model.Base Model.Float.

(** the expressions x*y + z of the package *)
Inductive site : Type :=
| WedgeSite      (* ziggurat.go:42: z.F[i]+(Uniform0_1{src}.Next())*(z.F[i-1]-z.F[i]) *)
| NormalSite     (* normal.go:25: n.Mean + x*n.StdDev *)
| UniformSite.   (* distr.go:48: u.High*(Uniform1_2{u.Source}.Next()-1) + u.Low *)
(** which of them the compiler fuses: the choice the Go specification leaves for ziggurat.go:42, normal.go:25, distr.go:48 *)
Class compiler : Type := fuses : site -> bool.

(** x*y + z with one rounding: math.FMA, or the instruction the compiler emits for ziggurat.go:42, normal.go:25, distr.go:48 *)
Definition ffma : float64 -> float64 -> float64 -> float64 := Bfma mode_NE.
(** x*y + z (distr.go:48) *)
Definition mul_add {fpc : compiler} (at_ : site) (x y z : float64) : float64 :=
  if fuses at_ then ffma x y z else fadd (fmul x y) z.
(** z + x*y (ziggurat.go:42, normal.go:25) *)
Definition add_mul {fpc : compiler} (at_ : site) (z x y : float64) : float64 :=
  if fuses at_ then ffma x y z else fadd z (fmul x y).
