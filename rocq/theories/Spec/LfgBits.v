(** The periods of what a program sees of an LFG through its various methods. *)
From Verif Require Import Model.Base Model.Rng Model.Lfg Model.Api Spec.Common Spec.Kinds Spec.Blocks Spec.LfgPeriod.
Local Open Scope N_scope.

(** the periods of the results of successive calls are the multiples of P *)
Definition period_is {S A} (u : S -> outcome (A * S)) (s : S) (P : N) : Prop := forall p, repeats_after u s p <-> (P | p).
(** the low j bits of the next value *)
Definition low_bits (j : N) (g : lfg) : outcome (N * lfg) := let! (x, g') := LFG_Uint64 g in Ret (x mod 2 ^ j, g').
(** their period; lfg_low_period 64 = lfg_period *)
Definition lfg_low_period (j : N) : N := (2 ^ 187 - 1) * ((2 ^ 108 - 1) / 65) * 2 ^ (j - 1).

(** - the low j bits of the values have period lfg_low_period j;
    - a Read of fewer than 8 bytes shows the low bits of one value;
    - Reads of n >= 8 bytes show everything, whether or not the last value is cut off: they have the period of the values,
      divided by its greatest common divisor with the number of values per Read;
    - RNG.Uint64 and Int63 have the full period, RNG.Uint32 and RNG.Uint16 much shorter ones. *)
Definition lfg_periods (g : lfg) : Prop :=
  (forall j, 1 <= j <= 64 -> period_is (low_bits j) g (lfg_low_period j)) /\
  (forall n, (1 <= n < 8)%nat -> period_is (read_block gLFG n) g (lfg_low_period (8 * N.of_nat n))) /\
  (forall n, (8 <= n)%nat -> period_is (read_block gLFG n) g (lfg_period / N.gcd (N.of_nat (ceil8 n)) lfg_period)) /\
  period_is (RNG_Uint64 LFG_Read) g lfg_period /\
  period_is (RNG_Uint32 LFG_Read) g (lfg_low_period 32) /\
  period_is (RNG_Uint16 LFG_Read) g (lfg_low_period 16) /\
  period_is LFG_Int63 g lfg_period.
