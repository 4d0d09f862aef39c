(** What MT64.SeedIV computes, as one sequence of words (no array, no index). *)
From Verif Require Import Model.Base Spec.Common Spec.MtRef.
Local Open Scope N_scope.

(** number of words of the IV and number of steps of the first pass: the code compares 312 with the padded
    length in BYTES *)
Definition siv_words (iv : list N) : nat := ceil8 (length iv).
Definition siv_steps (iv : list N) : nat := Nat.max 312 (8 * siv_words iv).
Definition siv_mix (c prev old : N) : N := N.lxor (N.lxor old prev) (prev / 2 ^ 62) * c.
(** X 0 .. X 311 are init_genrand64(19650218); step t makes X (312+t) from the word made just before
    (for t = 0: X 0) and the word made 311 steps before *)
Definition is_seediv_sequence (iv : list N) (X : nat -> N) : Prop :=
  is_init_genrand64 19650218 (map X (seq 0 312)) /\
  forall t, let prev := X (if (t =? 0)%nat then 0%nat else (311 + t)%nat) in
            let old := X (t + 1)%nat in
            X (312 + t)%nat =
              if (t <? siv_steps iv)%nat
              then (siv_mix 3935559000370003845 prev old + iv_word iv (t mod siv_words iv) + N.of_nat (t mod siv_words iv)) mod 2 ^ 64
              else (siv_mix 2862933555777941757 prev old + (2 ^ 64 - N.of_nat (1 + t mod 311))) mod 2 ^ 64.
(** the state words: word 1 + (j-1) mod 311 is the last X j made for it in [siv_steps + 311] steps, word 0
    repeats word 311 *)
Definition seediv_window (iv : list N) (X u : nat -> N) : Prop :=
  u 0%nat = u 311%nat /\
  forall j, (siv_steps iv + 312 <= j < siv_steps iv + 623)%nat -> u (1 + (j - 1) mod 311)%nat = X j.
