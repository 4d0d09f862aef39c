(** xoroshiro.go *)
From Verif Require Import Model.Base Model.GenRead.
Local Open Scope N_scope.

(** SplitMix64, written inline many times in xoroshiro.go and xoshiro.go:
    [sm += 0x9e3779b97f4a7c15; z := sm; z = (z ^ (z >> 30)) * 0xbf58476d1ce4e5b9;
     z = (z ^ (z >> 27)) * 0x94d049bb133111eb; z ^= z >> 31].
    [sm_gamma], [sm_mix] name the constant and the part from [z := sm] on
    (xoroshiro.go:37-41, 43-47, 59-63, 67-71, 76-80; xoshiro.go:41-45 and so on). *)
Definition sm_gamma : N := 0x9e3779b97f4a7c15.
(** see above: xoroshiro.go:37-41 from [z := sm] on *)
Definition sm_mix (sm : N) : N :=
  let z := sm in
  let z := mul64 (N.lxor z (shr64 z 30)) 0xbf58476d1ce4e5b9 in
  let z := mul64 (N.lxor z (shr64 z 27)) 0x94d049bb133111eb in
  N.lxor z (shr64 z 31).

(** xoroshiro.go:15  type Xoroshiro [2]uint64 *)
Record xoro := mkXoro { xo0 : N; xo1 : N }.

(** xoroshiro.go:19-21 *)
Definition NewXoroshiro : xoro := mkXoro 0 0.

(** xoroshiro.go:51-55: while len(iv) > 8, take 8 bytes off iv and
    [sm += 0x9e3779b97f4a7c15 ^ LE(p)]. Returns sm and the rest of iv. *)
Fixpoint xoro_absorb (fuel : nat) (sm : N) (iv : list N) : outcome (N * list N) :=
  match fuel with
  | O => OutOfFuel
  | S fuel' =>
      if (8 <? length iv)%nat then
        let p := go_copy (zeros 8) iv in
        let iv := skipn (Nat.min 8 (length iv)) iv in
        let! w := get64 p 0 in
        xoro_absorb fuel' (add64 sm (N.lxor sm_gamma w)) iv
      else Ret (sm, iv)
  end.

(** xoroshiro.go:25-82 *)
Definition Xoroshiro_SeedIV (old : xoro) (iv : list N) : outcome xoro :=
  let sm := 0 in
  if (length iv =? 0)%nat then
    (* 36-50 *)
    let sm := add64 sm sm_gamma in
    let st := mkXoro (sm_mix sm) (xo1 old) in
    let sm := add64 sm sm_gamma in
    Ret (mkXoro (xo0 st) (sm_mix sm))
  else
    let! (sm, iv) := xoro_absorb (S (length iv)) sm iv in
    let! (st, sm, iv) :=
      (if (0 <? length iv)%nat then
         (* 56-65 *)
         let p := go_copy (zeros 8) iv in
         let iv := skipn (Nat.min 8 (length iv)) iv in
         let sm := add64 sm sm_gamma in
         let st := mkXoro (xo0 old) (sm_mix sm) in
         let! w := get64 p 0 in
         Ret (st, N.lxor sm w, iv)
       else
         (* 66-73 *)
         let sm := add64 sm sm_gamma in
         Ret (mkXoro (xo0 old) (sm_mix sm), sm, iv)) in
    (* 74-81; the [copy(p, iv)] of lines 74-75 is never used again *)
    let sm := add64 sm sm_gamma in
    Ret (mkXoro (sm_mix sm) (xo1 st)).

(** xoroshiro.go:85-92 *)
Definition Xoroshiro_next (st : xoro) : N * xoro :=
  let s0 := xo0 st in
  let s1 := xo1 st in
  let x := add64 s0 s1 in
  let s1 := N.lxor s1 s0 in
  (x, mkXoro (N.lxor (N.lxor (rotl64 s0 55) s1) (shl64 s1 14)) (rotl64 s1 36)).
(** xoroshiro.go:85-92 as a method that cannot panic *)
Definition Xoroshiro_Uint64 (st : xoro) : outcome (N * xoro) := Ret (Xoroshiro_next st).

(** xoroshiro.go:96-106 *)
Definition Xoroshiro_Read : reader xoro := read_ge8 Xoroshiro_Uint64.

(** xoroshiro.go:112-117 *)
Definition Xoroshiro_Save {W} (write : writer W) (st : xoro) (w : W)
  : outcome ((nat * option goerr) * W) :=
  let p := zeros 16 in
  let! p := put64 p 0 (xo0 st) in
  let! p := put64 p 8 (xo1 st) in
  write w p.

(** xoroshiro.go:120-128. Returns (n, err), the new state and the new world. *)
Definition Xoroshiro_Restore {W} (read : reader W) (st : xoro) (w : W)
  : outcome ((nat * option goerr) * xoro * W) :=
  let! ((p, n, err), w) := read w (zeros 16) in
  if (n <? 16)%nat then Ret ((n, err), st, w)
  else
    let! a := get64 p 0 in
    let! b := get64 p 8 in
    Ret ((n, None), mkXoro a b, w).

(** util.go:227-231 SeedInt64: the bytes handed to SeedIV for an int64 whose two's complement
    representation is [x] (a uint64). *)
Definition seed_bytes (x : N) : list N := le_bytes 8 x.

(** xoroshiro.go:132-134 *)
Definition Xoroshiro_Seed (old : xoro) (x : N) : outcome xoro :=
  Xoroshiro_SeedIV old (seed_bytes x).

(** xoroshiro.go:138-140; the uint64 >> 1 fits in an int64, so the conversion keeps its value *)
Definition Xoroshiro_Int63 (st : xoro) : outcome (N * xoro) :=
  let! (x, st) := Xoroshiro_Uint64 st in
  Ret (shr64 x 1, st).

(** ** Rexoroshiro, xoroshiro.go:155-216: same state, so the same record *)
(** xoroshiro.go:159-161 *)
Definition NewRexoroshiro : xoro := NewXoroshiro.
(** xoroshiro.go:164-166 *)
Definition Rexoroshiro_SeedIV (old : xoro) (iv : list N) : outcome xoro := Xoroshiro_SeedIV old iv.
(** xoroshiro.go:169-171 *)
Definition Rexoroshiro_Uint64 (st : xoro) : outcome (N * xoro) :=
  let! (x, st) := Xoroshiro_Uint64 st in
  Ret (rev_bytes64 x, st).
(** xoroshiro.go:174-184 *)
Definition Rexoroshiro_Read : reader xoro := read_gt8 Rexoroshiro_Uint64.
(** xoroshiro.go:188-190 *)
Definition Rexoroshiro_Save {W} (write : writer W) (st : xoro) (w : W) := Xoroshiro_Save write st w.
(** xoroshiro.go:194-196 *)
Definition Rexoroshiro_Restore {W} (read : reader W) (st : xoro) (w : W) := Xoroshiro_Restore read st w.
(** xoroshiro.go:200-202 *)
Definition Rexoroshiro_Seed (old : xoro) (x : N) : outcome xoro := Xoroshiro_Seed old x.
(** xoroshiro.go:206-210 *)
Definition Rexoroshiro_Int63 (st : xoro) : outcome (N * xoro) :=
  let! (x, st) := Rexoroshiro_Uint64 st in
  Ret (N.land x 0x7fffffffffffffff, st).
