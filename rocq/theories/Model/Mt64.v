(** mt64-19937.go *)
From Verif Require Import Model.Base Model.GenRead Model.Lfg.
Local Open Scope N_scope.

(** mt64-19937.go:8-12 *)
Definition mt64N : nat := 312.
(** mt64-19937.go:8-12 *)
Definition mt64M : nat := 156.
(** mt64-19937.go:8-12 *)
Definition mt64A : N := 0xB5026F5AA96619E9.

(** mt64-19937.go:20-23. [mi] is the int field i; it is never negative (NewMT64, Seed, Uint64 and
    Restore only store values >= 0). *)
Record mt64 := mkMT { mi : N; ms : list N }.

(** mt64-19937.go:27-29 *)
Definition NewMT64 : mt64 := mkMT 0 (zeros mt64N).

(** mt64-19937.go:35-37: [k] iterations of the loop, the next index being i *)
Fixpoint mt_seed_loop (k i : nat) (s : list N) : outcome (list N) :=
  match k with
  | O => Ret s
  | S k' =>
      let! a := aget s (i - 1) in
      let! s := aset s i (add64 (mul64 6364136223846793005 (N.lxor a (shr64 a 62))) (N.of_nat i)) in
      mt_seed_loop k' (S i) s
  end.
(** mt64-19937.go:33-39; [seed] is uint64(seed) *)
Definition MT64_Seed (old : mt64) (seed : N) : outcome mt64 :=
  let! s := aset (ms old) 0 seed in
  let! s := mt_seed_loop (mt64N - 1) 1 s in
  Ret (mkMT (N.of_nat mt64N) s).

(** mt64-19937.go:62-65 and 72-75: [if i++; i >= N { s[0] = s[N-1]; i = 1 }] *)
Definition mt_bump (i : nat) (s : list N) : outcome (nat * list N) :=
  let i := S i in
  if (mt64N <=? i)%nat then
    let! a := aget s (mt64N - 1) in
    let! s := aset s 0 a in
    Ret (1%nat, s)
  else Ret (i, s).

(** mt64-19937.go:60-69, k iterations left; iv is already padded to a multiple of 8 bytes *)
Fixpoint mt_iv_loop (k i j : nat) (iv s : list N) : outcome (nat * list N) :=
  match k with
  | O => Ret (i, s)
  | S k' =>
      let! a := aget s i in
      let! b := aget s (i - 1) in
      let! w := get64 iv (j * 8) in
      let v := add64 (add64 (mul64 (N.lxor (N.lxor a b) (shr64 b 62)) 3935559000370003845) w)
                     (N.of_nat j) in
      let! s := aset s i v in
      let! (i, s) := mt_bump i s in
      let j := S j in
      let j := if (length iv <=? j * 8)%nat then O else j in
      mt_iv_loop k' i j iv s
  end.
(** mt64-19937.go:70-76 *)
Fixpoint mt_fin_loop (k i : nat) (s : list N) : outcome (list N) :=
  match k with
  | O => Ret s
  | S k' =>
      let! a := aget s i in
      let! b := aget s (i - 1) in
      let v := sub64 (mul64 (N.lxor (N.lxor a b) (shr64 b 62)) 2862933555777941757) (N.of_nat i) in
      let! s := aset s i v in
      let! (i, s) := mt_bump i s in
      mt_fin_loop k' i s
  end.
(** mt64-19937.go:43-77 *)
Definition MT64_SeedIV (old : mt64) (iv : list N) : outcome mt64 :=
  let! g := MT64_Seed old 19650218 in
  if (length iv =? 0)%nat then Ret g
  else
    let iv :=
      if negb (Nat.land (length iv) 7 =? 0)%nat
      then go_copy (zeros (length iv + 8 - Nat.land (length iv) 7)) iv
      else iv in
    let k := if (mt64N <? length iv)%nat then length iv else mt64N in
    let! (i, s) := mt_iv_loop k 1 0 iv (ms g) in
    let! s := mt_fin_loop (mt64N - 1) i s in
    Ret (mkMT (mi g) s).

(** mt64-19937.go:84-85, 90-91, 95-96: [x := a&UM | b&LM; x>>1 ^ mt64A*(x&1)] *)
Definition mt_twist (a b : N) : N :=
  let x := N.lor (N.land a 0xffffffff80000000) (N.land b 0x000000007fffffff) in
  N.lxor (shr64 x 1) (mul64 mt64A (N.land x 1)).

(** mt64-19937.go:83-88 *)
Fixpoint mt_loop1 (k i : nat) (s : list N) : outcome (list N) :=
  match k with
  | O => Ret s
  | S k' =>
      let! a := aget s i in
      let! b := aget s (i + 1) in
      let! c := aget s (i + mt64M) in
      let! s := aset s i (N.lxor c (mt_twist a b)) in
      mt_loop1 k' (S i) s
  end.
(** mt64-19937.go:89-94 *)
Fixpoint mt_loop2 (k i : nat) (s : list N) : outcome (list N) :=
  match k with
  | O => Ret s
  | S k' =>
      let! a := aget s i in
      let! b := aget s (i + 1) in
      let! c := aget s (i - (mt64N - mt64M)) in
      let! s := aset s i (N.lxor c (mt_twist a b)) in
      mt_loop2 k' (S i) s
  end.
(** mt64-19937.go:82-98 *)
Definition mt_regen (s : list N) : outcome (list N) :=
  let! s := mt_loop1 (mt64N - mt64M) 0 s in
  let! s := mt_loop2 (mt64N - 1 - (mt64N - mt64M)) (mt64N - mt64M) s in
  let! a := aget s (mt64N - 1) in
  let! b := aget s 0 in
  let! c := aget s (mt64M - 1) in
  aset s (mt64N - 1) (N.lxor c (mt_twist a b)).

(** mt64-19937.go:103-107 *)
Definition mt_temper (x : N) : N :=
  let x := N.lxor x (N.land (shr64 x 29) 0x5555555555555555) in
  let x := N.lxor x (N.land (shl64 x 17) 0x71D67FFFEDA60000) in
  let x := N.lxor x (N.land (shl64 x 37) 0xFFF7EEE000000000) in
  N.lxor x (shr64 x 43).

(** mt64-19937.go:80-108 *)
Definition MT64_Uint64 (g : mt64) : outcome (N * mt64) :=
  let! g :=
    (if N.of_nat mt64N <=? mi g then
       let! s := mt_regen (ms g) in
       Ret (mkMT 0 s)
     else Ret g) in
  let! x := aget (ms g) (N.to_nat (mi g)) in
  Ret (mt_temper x, mkMT (mi g + 1) (ms g)).

(** mt64-19937.go:112-122 *)
Definition MT64_Read : reader mt64 := read_gt8 MT64_Uint64.

(** mt64-19937.go:126-128 *)
Definition MT64_Int63 (g : mt64) : outcome (N * mt64) :=
  let! (x, g) := MT64_Uint64 g in
  Ret (shr64 x 1, g).

(** mt64-19937.go:133-148 *)
Definition MT64_Save {W} (write : writer W) (g : mt64) (w : W) : outcome ((nat * option goerr) * W) :=
  let p := zeros (2 + mt64N * 8) in
  let! p := put_words p 0 (ms g) in
  let! p := aset p (length p - 2) (N.land (N.shiftr (mi g) 8) 255) in
  let! p := aset p (length p - 1) (N.land (mi g) 255) in
  write w p.

(** mt64-19937.go:152-162. The number of bytes read is not compared with the state size. *)
Definition MT64_Restore {W} (read : reader W) (g : mt64) (w : W)
  : outcome ((nat * option goerr) * mt64 * W) :=
  let! ((p, n, err), w) := read w (zeros (2 + mt64N * 8)) in
  match err with
  | Some e => Ret ((n, Some e), g, w)
  | None =>
      let! s := get_words p 0 mt64N in
      let! a := aget p (length p - 2) in
      let! b := aget p (length p - 1) in
      Ret ((n, None), mkMT (N.lor (N.shiftl a 8) b) s, w)
  end.
