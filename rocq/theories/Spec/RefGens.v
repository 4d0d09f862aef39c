(** The published generators, in plain arithmetic on natural numbers (no helper of the model), and the
    portable byte format of a list of words. *)
From Verif Require Import Model.Base Spec.Common.
Local Open Scope N_scope.

(** rotate a 64-bit word left by k *)
Definition ref_rotl (x k : N) : N := (x * 2 ^ k) mod 2 ^ 64 + x / 2 ^ (64 - k).

(** xoshiro256** 1.0 (Blackman and Vigna, public domain):
<<
    const uint64_t result = rotl(s[1] * 5, 7) * 9;
    const uint64_t t = s[1] << 17;
    s[2] ^= s[0]; s[3] ^= s[1]; s[1] ^= s[2]; s[0] ^= s[3];
    s[2] ^= t;
    s[3] = rotl(s[3], 45);
    return result;
>> *)
Definition xoshiro256ss (s : N * N * N * N) : N * (N * N * N * N) :=
  let '(s0, s1, s2, s3) := s in
  let result := (ref_rotl ((s1 * 5) mod 2 ^ 64) 7 * 9) mod 2 ^ 64 in
  let t := (s1 * 2 ^ 17) mod 2 ^ 64 in
  let s2 := N.lxor s2 s0 in
  let s3 := N.lxor s3 s1 in
  let s1 := N.lxor s1 s2 in
  let s0 := N.lxor s0 s3 in
  let s2 := N.lxor s2 t in
  let s3 := ref_rotl s3 45 in
  (result, (s0, s1, s2, s3)).

(** xoroshiro128+ (2016 version, shifts 55, 14, 36):
<<
    const uint64_t s0 = s[0]; uint64_t s1 = s[1];
    const uint64_t result = s0 + s1;
    s1 ^= s0;
    s[0] = rotl(s0, 55) ^ s1 ^ (s1 << 14);
    s[1] = rotl(s1, 36);
    return result;
>> *)
Definition xoroshiro128p (s : N * N) : N * (N * N) :=
  let '(s0, s1) := s in
  let result := (s0 + s1) mod 2 ^ 64 in
  let s1 := N.lxor s1 s0 in
  (result, (N.lxor (N.lxor (ref_rotl s0 55) s1) ((s1 * 2 ^ 14) mod 2 ^ 64), ref_rotl s1 36)).

(** the first n outputs, and the state after them *)
Fixpoint ref_outputs {S} (next : S -> N * S) (n : nat) (s : S) : list N :=
  match n with O => [] | S n => fst (next s) :: ref_outputs next n (snd (next s)) end.
Fixpoint ref_after {S} (next : S -> N * S) (n : nat) (s : S) : S :=
  match n with O => s | S n => ref_after next n (snd (next s)) end.

(** words in little-endian byte order, one after the other *)
Definition words_le (ws : list N) : list N := flat_map (fun w => map (byte_of w) (seq 0 8)) ws.
(** the word whose bytes are those of x in the opposite order *)
Definition ref_bswap (x : N) : N :=
  fold_right N.add 0 (map (fun i => byte_of x i * 256 ^ N.of_nat (7 - i)) (seq 0 8)).
