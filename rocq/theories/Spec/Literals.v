(** What number literals in Go source mean. *)
From Coq Require Import Reals List NArith.
From Flocq Require Import Core.
(** the integer that a hexadecimal literal with these digits, most significant first, denotes *)
Definition hex_value (digits : list N) : N := fold_left (fun a d => (16 * a + d)%N) digits 0%N.
(** the float64 numbers, and the one that a constant d (exact, as Go's constants are) becomes *)
Definition is_float64 (x : R) : Prop := generic_format radix2 (FLT_exp (-1074) 53) x.
Definition to_float64 (d : R) : R := round radix2 (FLT_exp (-1074) 53) ZnearestE d.
