(** Reference descriptions of the seeding procedures, in plain arithmetic. *)
From Verif Require Import Model.Base Spec.Common Model.Xoroshiro Model.Xoshiro.
Local Open Scope N_scope.

(** SplitMix64 (Steele, Lea, Flood 2014): output function and k-th output from state 0 *)
Definition splitmix_gamma : N := 0x9e3779b97f4a7c15.
Definition splitmix_out (s : N) : N :=
  let z := (N.lxor s (s / 2 ^ 30) * 0xbf58476d1ce4e5b9) mod 2 ^ 64 in
  let z := (N.lxor z (z / 2 ^ 27) * 0x94d049bb133111eb) mod 2 ^ 64 in
  N.lxor z (z / 2 ^ 31).
Definition splitmix64 (k : N) : N := splitmix_out ((k * splitmix_gamma) mod 2 ^ 64).

(** state of a Xoshiro after n Uint64 calls *)
Definition xoshi_after (n : N) (s : xoshi) : xoshi := times n (fun s => snd (Xoshiro_next s)) s.

(** absorb one chunk of m words (absent words are 0) into state s, k SplitMix64 outputs having been
    used so far *)
Definition absorb_chunk (k m : N) (s : xoshi) (a b c d : N) : xoshi :=
  let t := xoshi_after m s in
  mkXoshi (N.lxor (N.lxor (xw t) a) (splitmix64 (k + 1)))
          (N.lxor (N.lxor (xx t) b) (splitmix64 (k + 2)))
          (N.lxor (N.lxor (xy t) c) (splitmix64 (k + 3)))
          (N.lxor (N.lxor (xz t) d) (splitmix64 (k + 4))).
(** the words are absorbed four at a time; the last chunk may have one, two or three *)
Fixpoint absorb_words (k : N) (s : xoshi) (ws : list N) : xoshi :=
  match ws with
  | [] => s
  | [a] => absorb_chunk k 1 s a 0 0 0
  | [a; b] => absorb_chunk k 2 s a b 0 0
  | [a; b; c] => absorb_chunk k 3 s a b c 0
  | a :: b :: c :: d :: ws' => absorb_words (k + 4) (absorb_chunk k 4 s a b c d) ws'
  end.
Definition xoshiro_seeded (iv : list N) : xoshi :=
  absorb_words 4 (mkXoshi (splitmix64 1) (splitmix64 2) (splitmix64 3) (splitmix64 4)) (iv_words iv).

(** Xoroshiro.SeedIV *)
Definition xoroshiro_seeded (iv : list N) : xoro :=
  match iv with
  | [] => mkXoro (splitmix64 1) (splitmix64 2)
  | _ =>
      let ws := iv_words iv in
      let a := (sum64 (map (N.lxor splitmix_gamma) (removelast ws)) + splitmix_gamma) mod 2 ^ 64 in
      mkXoro (splitmix_out ((N.lxor a (last ws 0) + splitmix_gamma) mod 2 ^ 64)) (splitmix_out a)
  end.
