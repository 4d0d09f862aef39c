(** ziggurat.go *)
From Verif Require Import Model.Base Model.Rng Model.Util Model.Float Model.Distr.
From Verif Require Export Model.Fused.
Local Open Scope Z_scope.

(** int64 arithmetic wraps: the int64 congruent to z modulo 2^64 (ziggurat.go:33, 37) *)
Definition wrap64 (z : Z) : Z := (z + 2 ^ 63) mod 2 ^ 64 - 2 ^ 63.

Section Zig.
  Context {W : Type}.
  Context {fpc : compiler}.     (* which x*y + z the Go compiler fuses *)
  Variable read : reader W.

  (** ziggurat.go:6-26. PDF and Tail are Go functions; Tail takes the source. *)
  Record Ziggurat := {
    zPDF : float64 -> float64;
    zTail : W -> outcome (float64 * W);
    zMirrored : bool;
    zK : list N;
    zW : list float64;
    zF : list float64
  }.

  (** ziggurat.go:29-54; one iteration of the loop per unit of fuel *)
  Fixpoint GenNext (z : Ziggurat) (fuel : nat) (w : W) : outcome (float64 * W) :=
    match fuel with
    | O => OutOfFuel
    | S fuel' =>
        let! (u, w) := RNG_Uint64 read w in
        let j := to_int64 u in
        (* j >> 54 & 0x3ff: in Go both operators have the same precedence and associate to the left *)
        let i := Z.land (Z.shiftr j 54) 0x3ff in
        let j := if zMirrored z then Z.shiftr (wrap64 (Z.shiftl j 10)) 10
                 else Z.land j 0x001fffffffffffff in
        (* j+j>>63^j>>63 is (j+(j>>63))^(j>>63) *)
        let m := Z.lxor (wrap64 (j + Z.shiftr j 63)) (Z.shiftr j 63) in
        let! k := aget (zK z) (Z.to_nat i) in
        if (to_uint64 m <? k)%N then
          let! wi := aget (zW z) (Z.to_nat i) in
          Ret (fmul (of_int j) wi, w)
        else if negb (i =? 0) then
          let! wi := aget (zW z) (Z.to_nat i) in
          let x := fmul (of_int j) wi in
          let! fi := aget (zF z) (Z.to_nat i) in
          let! (y, w) := Uniform0_1_Next read w in
          let! fp := aget (zF z) (Z.to_nat (i - 1)) in
          if flt (add_mul WedgeSite fi y (fsub fp fi)) (zPDF z x) then Ret (x, w)
          else GenNext z fuel' w
        else
          let! (x, w) := zTail z w in
          if j <? 0 then Ret (fneg x, w) else Ret (x, w)
    end.
End Zig.
Arguments Ziggurat : clear implicits.
