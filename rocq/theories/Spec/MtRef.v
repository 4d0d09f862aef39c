(** MT19937-64 as published (Nishimura and Matsumoto), in plain arithmetic. *)
From Verif Require Import Model.Base Spec.Common.
Local Open Scope N_scope.

Definition mtA : N := 0xB5026F5AA96619E9.
(** upper 33 bits of [a] joined to the lower 31 bits of [b], times the twist matrix *)
Definition ref_twist (a b : N) : N :=
  let x := (a / 2 ^ 31) * 2 ^ 31 + b mod 2 ^ 31 in
  N.lxor (x / 2) (if N.odd x then mtA else 0).
(** the recurrence u(n+312) = u(n+156) xor twist(u(n), u(n+1)) *)
Definition mt_recurrence (u : nat -> N) : Prop :=
  forall n, u (n + 312)%nat = N.lxor (u (n + 156)%nat) (ref_twist (u n) (u (n + 1)%nat)).
(** tempering *)
Definition ref_temper (x : N) : N :=
  let x := N.lxor x (N.land (x / 2 ^ 29) 0x5555555555555555) in
  let x := N.lxor x (N.land (x * 2 ^ 17) 0x71D67FFFEDA60000) in
  let x := N.lxor x (N.land (x * 2 ^ 37) 0xFFF7EEE000000000) in
  N.lxor x (x / 2 ^ 43).

(** init_genrand64(seed): words mt[0..311] *)
Definition is_init_genrand64 (seed : N) (mt : list N) : Prop :=
  length mt = 312%nat /\ nth 0 mt 0 = seed /\
  forall i, (1 <= i < 312)%nat ->
    nth i mt 0 = (6364136223846793005 * N.lxor (nth (i - 1) mt 0) (nth (i - 1) mt 0 / 2 ^ 62) + N.of_nat i) mod 2 ^ 64.

(** init_by_array64(key, length) of the reference implementation mt19937-64.c, transcribed:
<<
    init_genrand64(19650218ULL);
    i=1; j=0;
    k = (NN>key_length ? NN : key_length);
    for (; k; k--) {
        mt[i] = (mt[i] ^ ((mt[i-1] ^ (mt[i-1] >> 62)) * 3935559000370003845ULL)) + init_key[j] + j;
        i++; j++;
        if (i>=NN) { mt[0] = mt[NN-1]; i=1; }
        if (j>=key_length) j=0;
    }
    for (k=NN-1; k; k--) {
        mt[i] = (mt[i] ^ ((mt[i-1] ^ (mt[i-1] >> 62)) * 2862933555777941757ULL)) - i;
        i++;
        if (i>=NN) { mt[0] = mt[NN-1]; i=1; }
    }
    mt[0] = 1ULL << 63;
>> *)
Definition ref_get (mt : list N) (i : nat) : N := nth i mt 0.
Definition ref_set (mt : list N) (i : nat) (v : N) : list N := firstn i mt ++ [v] ++ skipn (i + 1) mt.
Definition ref_next (i : nat) (mt : list N) : nat * list N :=
  if (312 <=? i + 1)%nat then (1%nat, ref_set mt 0 (ref_get mt 311)) else ((i + 1)%nat, mt).
Fixpoint ref_loop1 (k i j : nat) (key mt : list N) : nat * list N :=
  match k with
  | O => (i, mt)
  | S k =>
      let b := ref_get mt (i - 1) in
      let v := (N.lxor (ref_get mt i) ((N.lxor b (b / 2 ^ 62) * 3935559000370003845) mod 2 ^ 64)
                + nth j key 0 + N.of_nat j) mod 2 ^ 64 in
      let '(i, mt) := ref_next i (ref_set mt i v) in
      ref_loop1 k i (if (length key <=? j + 1)%nat then O else (j + 1)%nat) key mt
  end.
Fixpoint ref_loop2 (k i : nat) (mt : list N) : list N :=
  match k with
  | O => mt
  | S k =>
      let b := ref_get mt (i - 1) in
      let v := (N.lxor (ref_get mt i) ((N.lxor b (b / 2 ^ 62) * 2862933555777941757) mod 2 ^ 64)
                + (2 ^ 64 - N.of_nat i)) mod 2 ^ 64 in
      let '(i, mt) := ref_next i (ref_set mt i v) in
      ref_loop2 k i mt
  end.
Fixpoint ref_genrand (k i : nat) (mt : list N) : list N :=
  match k with
  | O => mt
  | S k => let b := ref_get mt (i - 1) in
           ref_genrand k (i + 1) (ref_set mt i ((6364136223846793005 * N.lxor b (b / 2 ^ 62) + N.of_nat i) mod 2 ^ 64))
  end.
Definition ref_init_genrand64 (seed : N) : list N := ref_genrand 311 1 (seed :: repeat 0 311).
Definition ref_init_by_array64 (key : list N) : list N :=
  let '(i, mt) := ref_loop1 (Nat.max 312 (length key)) 1 0 key (ref_init_genrand64 19650218) in
  ref_set (ref_loop2 311 i mt) 0 (2 ^ 63).
(** first value of genrand64_int64 after initialisation *)
Definition ref_first_output (mt : list N) : N :=
  ref_temper (N.lxor (ref_get mt 156) (ref_twist (ref_get mt 0) (ref_get mt 1))).
