(** The ziggurat algorithm, as a relation (Marsaglia and Tsang, "The Ziggurat Method for Generating Random Variables",
    J. Stat. Soft. 5(8), with 1024 layers and 53-bit abscissae). Arithmetic on the draw is plain integer arithmetic. *)
From Coq Require Import Reals.
From Flocq Require Import Core BinarySingleNaN.
From Verif Require Import Model.Base Model.Rng Model.Float Model.Distr Model.Ziggurat Spec.Common.

(** for every choice of the compiler which x*y + z to fuse (Model/Fused.v) *)
Section Compiler.
Context {fpc : compiler}.

(** the layer: the top 10 bits of the draw *)
Definition layer (u : N) : nat := N.to_nat (u / 2 ^ 54).
(** the abscissa: the low 54 bits as a two's complement number if mirrored, else the low 53 bits *)
Definition abscissa (mirrored : bool) (u : N) : Z :=
  if mirrored then
    let r := (Z.of_N u mod 2 ^ 54)%Z in (if r <? 2 ^ 53 then r else r - 2 ^ 54)%Z
  else (Z.of_N u mod 2 ^ 53)%Z.

(** the three tables have 1024 entries, as the Go array types force *)
Definition full_tables {W} (z : Ziggurat W) : Prop :=
  length (zK z) = 1024 /\ length (zW z) = 1024 /\ length (zF z) = 1024.

Section Zig.
  Context {W : Type} (read : reader W) (z : Ziggurat W).
  Definition tK (i : nat) : N := nth i (zK z) 0%N.
  Definition tW (i : nat) : float64 := nth i (zW z) B754_nan.
  Definition tF (i : nat) : float64 := nth i (zF z) B754_nan.
  (** the point on the x axis belonging to a draw *)
  Definition point (u : N) : float64 := fmul (of_int (abscissa (zMirrored z) u)) (tW (layer u)).
  (** inside the part of the layer that lies entirely below the curve *)
  Definition inside (u : N) : Prop := (Z.abs (abscissa (zMirrored z) u) < Z.of_N (tK (layer u)))%Z.
  (** with the second uniform y, the point of the wedge is below the curve *)
  Definition below_curve (u : N) (y : float64) : bool :=
    flt (add_mul WedgeSite (tF (layer u)) y (fsub (tF (layer u - 1)) (tF (layer u)))) (zPDF z (point u)).
  (** [zig n u w x w']: after n rejected attempts the attempt with first draw u returns x *)
  Inductive zig : nat -> N -> W -> float64 -> W -> Prop :=
  | zig_inside w u w1 : RNG_Uint64 read w = Ret (u, w1) -> inside u -> zig 0 u w (point u) w1
  | zig_wedge w u w1 y w2 : RNG_Uint64 read w = Ret (u, w1) -> ~ inside u -> layer u <> 0 ->
      Uniform0_1_Next read w1 = Ret (y, w2) -> below_curve u y = true -> zig 0 u w (point u) w2
  | zig_tail w u w1 x w2 : RNG_Uint64 read w = Ret (u, w1) -> ~ inside u -> layer u = 0 ->
      zTail z w1 = Ret (x, w2) -> zig 0 u w (if (abscissa (zMirrored z) u <? 0)%Z then fneg x else x) w2
  | zig_reject w u w1 y w2 n u' x w' : RNG_Uint64 read w = Ret (u, w1) -> ~ inside u -> layer u <> 0 ->
      Uniform0_1_Next read w1 = Ret (y, w2) -> below_curve u y = false -> zig n u' w2 x w' -> zig (S n) u' w x w'.
End Zig.

(** a source that delivers the given 64-bit words, one per Read of 8 bytes, and does not return when they are used up:
    a run that ends with [] used exactly these words *)
Definition tape : reader (list N) := fun w p =>
  match w with
  | [] => OutOfFuel
  | x :: w' => Ret ((le_bytes (length p) x, length p, None), w')
  end.
(** a run on the tape that uses exactly the words ws and returns x; the deciding draw u satisfies P *)
Definition tape_result (z : Ziggurat (list N)) (P : N -> Prop) (ws : list N) (x : float64) : Prop :=
  Forall w64 ws /\ exists n u, zig tape z n u ws x [] /\ P u.

(** What the tables of a 1024-layer ziggurat must satisfy; x_i stands for the right edge 2^53 * W[i] of layer i.
    The tolerances are those the shipped tables meet. *)
Section Tables.
  Context {W : Type} (z : Ziggurat W).
  Local Open Scope R_scope.
  (** right edge of layer i (for i = 0: width of the base strip including the tail's share) *)
  Definition edge (i : nat) : R := IZR (2 ^ 53) * B2R (tW z i).
  Definition height (i : nat) : R := B2R (tF z i).
  (** area of the base strip *)
  Definition strip : R := edge 0 * height 1023.
  Record ziggurat_tables : Prop := {
    tables_full : full_tables z;
    tables_finite : forall i, (i < 1024)%nat -> is_finite (tW z i) = true /\ is_finite (tF z i) = true /\ 0 < edge i /\ 0 < height i;
    (** layers widen from the top (layer 1) to the bottom (layer 1023); the base strip is wider still *)
    edges_increase : forall i j, (1 <= i)%nat -> (i < j < 1024)%nat -> edge i < edge j;
    base_wider : edge 1023 < edge 0;
    (** the curve's heights decrease from 1 *)
    height_top : height 0 = 1;
    heights_decrease : forall i j, (i < j < 1024)%nat -> height j < height i;
    (** K[i] = floor(2^53 * x_(i-1) / x_i), up to 2; the top layer has no inside *)
    inside_bound : forall i, (i < 1024)%nat -> (tK z i < 2 ^ 53)%N;
    top_has_no_inside : tK z 1 = 0%N;
    inside_ratio : forall i, (2 <= i < 1024)%nat -> (Z.abs (Z.of_N (tK z i) - Zfloor (IZR (2 ^ 53) * edge (i - 1) / edge i)) <= 2)%Z;
    (** all layers have the same area *)
    equal_areas : forall i, (1 <= i < 1024)%nat -> Rabs (edge i * (height (i - 1) - height i) - strip) <= 12 / 10 ^ 14 * strip
  }.
End Tables.
End Compiler.
