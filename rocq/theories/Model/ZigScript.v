(** /repo/ziggurat/ziggurat.py: the script that computes the numbers of a ziggurat ("Calculate the parameters of the n-segment
    ziggurat for any monotonically decreasing probability distribution").

    Simplification: mpmath's arbitrary-precision numbers (80 bits by default, -prec for more) are taken to be real numbers, its
    quadrature to be the integral, and its root finder to find a root exactly: what is modelled is the calculation, not its
    rounding.  The exception is mpmath.almosteq, whose tolerance is the parameter tol.  A function that can fail or loop is a
    relation between its arguments and its result. *)
From Coq Require Import Reals List String Ascii ZArith NArith.
From Coquelicot Require Import Coquelicot.
From Flocq Require Import Core.
Import ListNotations.
Local Open Scope R_scope.

(** mpmath.quad(f, [r, mpmath.inf]): ziggurat.py lines 56, 57, 68 *)
Definition quad_inf (f : R -> R) (r A : R) : Prop :=
  (forall T, r <= T -> ex_RInt f r T) /\ is_lim (fun T => RInt f r T) p_infty A.
(** mpmath.almosteq(s, t, abs_eps=tol): the relative tolerance defaults to the absolute one. Lines 75, 82. *)
Definition almosteq (tol s t : R) : Prop := Rabs (s - t) <= tol \/ Rabs (s - t) <= tol * Rmax (Rabs s) (Rabs t).
(** line 75: the condition that ends the loop *)
Definition breaks (tol maximum y : R) : Prop := maximum <= y \/ almosteq tol y maximum.

(** The loop of mini, lines 71 to 80: from the list xi found so far and y to the final xi, y and h.  The lists are kept in the
    reverse of the script's order, so that xi[i] (the last element) is the head; the final list is therefore xi[::-1] of line 83.
    findroot (line 78) is taken to return a root that is not negative. *)
Inductive loop (f : R -> R) (tol maximum v : R) : list R -> R -> list R -> R -> R -> Prop :=
| loop_break xm1 xi y : (* lines 72 to 76, then 80 *)
    breaks tol maximum (y + v / xm1) ->
    loop f tol maximum v (xm1 :: xi) y (0 :: xm1 :: xi) (y + v / xm1) (v / xm1)
| loop_append xm1 xi y x xi' y' h' : (* lines 72 to 79 *)
    ~ breaks tol maximum (y + v / xm1) ->
    0 <= x -> f x = y + v / xm1 ->
    loop f tol maximum v (x :: xm1 :: xi) (y + v / xm1) xi' y' h' ->
    loop f tol maximum v (xm1 :: xi) y xi' y' h'.

(** mini(r), lines 64 to 89: the value returned, and the xi and v that txi and tv are set to when it is 0 (line 83). *)
Inductive mini (f : R -> R) (tol : R) (nseg : nat) (r : R) : R -> list R -> R -> Prop :=
| mini_exact A v xi y h : (* lines 81 to 84 *)
    quad_inf f r A -> v = r * f r + A -> loop f tol (f 0) v [r] (f r) xi y h ->
    List.length xi = nseg -> almosteq tol y (f 0) -> mini f tol nseg r 0 xi v
| mini_miss A v xi y h : (* lines 85 to 88 *)
    quad_inf f r A -> v = r * f r + A -> loop f tol (f 0) v [r] (f r) xi y h ->
    List.length xi = nseg -> ~ almosteq tol y (f 0) -> mini f tol nseg r (f 0 - y) xi v
| mini_other A v xi y h : (* line 89 *)
    quad_inf f r A -> v = r * f r + A -> loop f tol (f 0) v [r] (f r) xi y h ->
    List.length xi <> nseg -> mini f tol nseg r (INR (List.length xi) - INR nseg + h * sign (INR (List.length xi) - INR nseg)) xi v.

(** lines 56 and 57: the initial guess for r *)
Definition guess (f : R -> R) (nseg : nat) (r : R) : Prop :=
  exists total A, quad_inf f 0 total /\ 0 <= r /\ quad_inf f r A /\ r * f r + A - total / INR nseg = 0.
(** lines 48 to 94: solve returns r, tv and txi after mini has returned 0 (the assertion of line 91 fails if it never has) *)
Definition solve (f : R -> R) (tol : R) (nseg : nat) (r v : R) (xi : list R) : Prop := mini f tol nseg r 0 xi v.

(** lines 101 to 108: im, for a table of len entries *)
Definition im (symmetric is64 : bool) (len : nat) : R :=
  if is64 then bpow radix2 (63 - Z.of_N (N.size (N.of_nat (len - 1)))) else if symmetric then 2 ^ 31 else 2 ^ 32.
(** lines 113, 116: K[i] *)
Definition script_K (f : R -> R) (r v : R) (xi : list R) (im : R) (i : nat) : Z :=
  match i with
  | O => Zfloor (im * r * f r / v)
  | S j => Zfloor (im * nth j xi 0 / nth i xi 0)
  end.
(** lines 114, 117: W[i] *)
Definition script_W (f : R -> R) (r v : R) (xi : list R) (im : R) (i : nat) : R :=
  match i with O => v / f r / im | S _ => nth i xi 0 / im end.
(** line 118: F[i] *)
Definition script_F (f : R -> R) (xi : list R) (i : nat) : R := f (nth i xi 0).

(** The command line, lines 177 to 213.  Reading a number is mpmath.mpf or int: parameters here, that may raise an exception
    (None).  The fields of the record are the arguments of main in order. *)
Record options (mpf : Type) := {
  o_fn : option string; o_symmetric : bool; o_x0 : option mpf; o_nseg : Z; o_is64 : bool; o_prefix : string; o_prec : Z;
  o_verbose : bool; o_helped : bool }.
Arguments Build_options {_}. Arguments o_fn {_}. Arguments o_symmetric {_}. Arguments o_x0 {_}. Arguments o_nseg {_}. Arguments o_is64 {_}.
Arguments o_prefix {_}. Arguments o_prec {_}. Arguments o_verbose {_}. Arguments o_helped {_}.
Section Command.
  Variable mpf : Type.
  Variable to_mpf : string -> option mpf.
  Variable to_int : string -> option Z.
  Local Open Scope string_scope.
  (** lines 178 to 180 *)
  Definition initial_options : options mpf :=
    {| o_fn := None; o_symmetric := true; o_x0 := None; o_nseg := 128; o_is64 := true; o_prefix := ""; o_prec := 80;
       o_verbose := true; o_helped := false |}.
  (** lines 181 to 211; args[1] of a list that is too short raises IndexError *)
  Fixpoint parse_loop (args : list string) (o : options mpf) {struct args} : option (options mpf) :=
    match args with
    | [] => Some o
    | a :: rest =>
      let '(Build_options fn sy x0 ns i64 pf pc vb he) := o in
      if existsb (String.eqb a) ["-h"; "-?"; "-help"; "--help"] then parse_loop rest (Build_options fn sy x0 ns i64 pf pc vb true)
      else if String.eqb a "-symmetric" then parse_loop rest (Build_options fn true x0 ns i64 pf pc vb he)
      else if String.eqb a "-x0" then
        match rest with [] => None | b :: rest' => match to_mpf b with None => None | Some z => parse_loop rest' (Build_options fn sy (Some z) ns i64 pf pc vb he) end end
      else if String.eqb a "-nseg" then
        match rest with [] => None | b :: rest' => match to_int b with None => None | Some z => parse_loop rest' (Build_options fn sy x0 z i64 pf pc vb he) end end
      else if String.eqb a "-32" then parse_loop rest (Build_options fn sy x0 ns false pf pc vb he)
      else if String.eqb a "-prefix" then
        match rest with [] => None | b :: rest' => parse_loop rest' (Build_options fn sy x0 ns i64 b pc vb he) end
      else if String.eqb a "-prec" then
        match rest with [] => None | b :: rest' => match to_int b with None => None | Some z => parse_loop rest' (Build_options fn sy x0 ns i64 pf z vb he) end end
      else if existsb (String.eqb a) ["-q"; "-quiet"] then parse_loop rest (Build_options fn sy x0 ns i64 pf pc false he)
      else match fn with None => parse_loop rest (Build_options (Some a) sy x0 ns i64 pf pc vb he) | Some _ => None end
    end.
  (** lines 177 to 213; the assertion of line 212 *)
  Definition parseargs (args : list string) : option (options mpf) :=
    match parse_loop args initial_options with
    | Some o => match o_fn o with None => if o_helped o then Some o else None | Some _ => Some o end
    | None => None
    end.
End Command.

(** format(k, '#016x') for an integer k >= 0 (line 157): "0x" and at least fourteen hexadecimal digits, most significant first;
    '#08x' for the 32-bit tables has at least six.  A digit is 0 to 15. *)
Fixpoint hex_digits_fuel (fuel : nat) (k : N) (acc : list N) : list N :=
  match fuel with
  | O => acc
  | S g => if (k =? 0)%N then acc else hex_digits_fuel g (k / 16) ((k mod 16)%N :: acc)
  end.
Definition hex_digits (width : nat) (k : N) : list N :=
  let ds := hex_digits_fuel (N.to_nat (N.size k)) k [] in repeat 0%N (width - List.length ds) ++ ds.

(** format(x, '.17e') for a float64 x (line 159): d is the nearest decimal number with one digit before and seventeen after the
    point.  Python rounds correctly; which of two equally near decimals it takes is left open. *)
Definition prints (x d : R) : Prop :=
  x = 0 /\ d = 0 \/
  exists (e q : Z), powerRZ 10 e <= Rabs x < powerRZ 10 (e + 1) /\ d = IZR q * powerRZ 10 (e - 17) /\ Rabs (d - x) <= powerRZ 10 (e - 17) / 2.
