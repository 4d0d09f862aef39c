(** expo.go, normal.go. math.Exp and math.Log are parameters: float64 -> float64. One rounding per operation,
    except that x*y + z may be fused (Model/Fused.v). *)
From Verif Require Import Model.Base Model.Rng Model.Float Model.Fused Model.Distr Model.Ziggurat Model.ExpoTable Model.NormalTable.
Local Open Scope Z_scope.

(** float64 tables (expo.go:305-821, normal.go:313-829) from their binary form *)
Definition to_float (p : Z * Z) : float64 := mkfloat false (fst p) (snd p).
(** a whole table *)
Definition floats (l : list (Z * Z)) : list float64 := map to_float l.
(** expo.go:44: 9.25616454426554; the literal is checked in Proofs/ZigTables.v *)
Definition expoR : float64 := mkfloat false 5210757399054285 (-49).
(** normal.go:52: 4.0388498461095 *)
Definition normalR : float64 := mkfloat false 4547340665486032 (-50).

Section ExpoNormal.
  Context {W : Type}.
  Context {fpc : compiler}.     (* which x*y + z the Go compiler fuses *)
  Variable read : reader W.
  Variables math_exp math_log : float64 -> float64.

  (** expo.go:27-29 *)
  Definition expoPDF (x : float64) : float64 := math_exp (fneg x).
  (** expo.go:31-33 *)
  Definition expoTail (w : W) : outcome (float64 * W) :=
    let! (u, w) := Uniform0_1_Next read w in
    Ret (fsub expoR (math_log u), w).
  (** expo.go:35-42 *)
  Definition expoZig : Ziggurat W :=
    {| zPDF := expoPDF; zTail := expoTail; zMirrored := false; zK := expoK; zW := floats expoW_bin; zF := floats expoF_bin |}.
  (** expo.go:22-25 *)
  Definition Exponential_Next (rate : float64) (fuel : nat) (w : W) : outcome (float64 * W) :=
    let! (x, w) := GenNext read expoZig fuel w in
    Ret (fdiv x rate, w).

  (** normal.go:28-30: -0.5 * x * x is ((-0.5) * x) * x *)
  Definition normalPDF (x : float64) : float64 := math_exp (fmul (fmul (mkfloat false (-1) (-1)) x) x).
  (** normal.go:32-41; one iteration per unit of fuel. -math.Log(u) / normalR is (-(math.Log(u))) / normalR *)
  Fixpoint normalTail (fuel : nat) (w : W) : outcome (float64 * W) :=
    match fuel with
    | O => OutOfFuel
    | S fuel' =>
        let! (u, w) := Uniform0_1_Next read w in
        let x := fdiv (fneg (math_log u)) normalR in
        let! (v, w) := Uniform0_1_Next read w in
        let y := fneg (math_log v) in
        if fge (fadd y y) (fmul x x) then Ret (fadd x normalR, w) else normalTail fuel' w
    end.
  (** normal.go:43-50; [tf] bounds the iterations of one call of normalTail *)
  Definition normalZig (tf : nat) : Ziggurat W :=
    {| zPDF := normalPDF; zTail := normalTail tf; zMirrored := true; zK := normalK; zW := floats normalW_bin; zF := floats normalF_bin |}.
  (** normal.go:23-26 *)
  Definition Normal_Next (mean stddev : float64) (tf fuel : nat) (w : W) : outcome (float64 * W) :=
    let! (x, w) := GenNext read (normalZig tf) fuel w in
    Ret (add_mul NormalSite mean x stddev, w).
End ExpoNormal.
