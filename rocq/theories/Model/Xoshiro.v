(** xoshiro.go *)
From Verif Require Import Model.Base Model.GenRead Model.Xoroshiro.
Local Open Scope N_scope.

(** xoshiro.go:20-22 *)
Record xoshi := mkXoshi { xw : N; xx : N; xy : N; xz : N }.

(** xoshiro.go:26-28 *)
Definition NewXoshiro : xoshi := mkXoshi 0 0 0 0.

(** xoshiro.go:241-251 *)
Definition Xoshiro_next (st : xoshi) : N * xoshi :=
  let (w, x, y, z) := st in
  let r := mul64 (rotl64 (mul64 x 5) 7) 9 in
  let t := shl64 x 17 in
  let y := N.lxor y w in
  let z := N.lxor z x in
  let x := N.lxor x y in
  let w := N.lxor w z in
  let y := N.lxor y t in
  let z := rotl64 z 45 in
  (r, mkXoshi w x y z).
(** xoshiro.go:241-252 as a method that cannot panic *)
Definition Xoshiro_Uint64 (st : xoshi) : outcome (N * xoshi) := Ret (Xoshiro_next st).

(** the state after one discarded Uint64 call, as at xoshiro.go:66 *)
Definition xoshi_step (st : xoshi) : xoshi := snd (Xoshiro_next st).

(** xoshiro.go:78-101, 117-140, 152-175, 184-207, 213-236: four SplitMix64 outputs xored into
    w, x, y, z. Returns the new state and sm. *)
Definition xoshi_add_sm (st : xoshi) (sm : N) : xoshi * N :=
  let sm := add64 sm sm_gamma in
  let w := N.lxor (xw st) (sm_mix sm) in
  let sm := add64 sm sm_gamma in
  let x := N.lxor (xx st) (sm_mix sm) in
  let sm := add64 sm sm_gamma in
  let y := N.lxor (xy st) (sm_mix sm) in
  let sm := add64 sm sm_gamma in
  let z := N.lxor (xz st) (sm_mix sm) in
  (mkXoshi w x y z, sm).

(** xoshiro.go:65-102 *)
Fixpoint xoshi_absorb (fuel : nat) (st : xoshi) (sm : N) (iv : list N)
  : outcome (xoshi * N * list N) :=
  match fuel with
  | O => OutOfFuel
  | S fuel' =>
      if (32 <=? length iv)%nat then
        let st := xoshi_step (xoshi_step (xoshi_step (xoshi_step st))) in
        let! a := get64 iv 0 in
        let! iv := slice_from iv 8 in
        let! b := get64 iv 0 in
        let! iv := slice_from iv 8 in
        let! c := get64 iv 0 in
        let! iv := slice_from iv 8 in
        let! d := get64 iv 0 in
        let! iv := slice_from iv 8 in
        let st := mkXoshi (N.lxor (xw st) a) (N.lxor (xx st) b)
                          (N.lxor (xy st) c) (N.lxor (xz st) d) in
        let (st, sm) := xoshi_add_sm st sm in
        xoshi_absorb fuel' st sm iv
      else Ret (st, sm, iv)
  end.

(** xoshiro.go:32-238. The old state is overwritten by lines 41-64 before it is read. *)
Definition Xoshiro_SeedIV (old : xoshi) (iv : list N) : outcome xoshi :=
  let sm := 0 in
  (* 41-64 *)
  let sm := add64 sm sm_gamma in
  let w := sm_mix sm in
  let sm := add64 sm sm_gamma in
  let x := sm_mix sm in
  let sm := add64 sm sm_gamma in
  let y := sm_mix sm in
  let sm := add64 sm sm_gamma in
  let z := sm_mix sm in
  let! (st, sm, iv) := xoshi_absorb (S (length iv)) (mkXoshi w x y z) sm iv in
  if (24 <? length iv)%nat then
    (* 103-140 *)
    let st := xoshi_step (xoshi_step (xoshi_step (xoshi_step st))) in
    let! a := get64 iv 0 in
    let! iv := slice_from iv 8 in
    let! b := get64 iv 0 in
    let! iv := slice_from iv 8 in
    let! c := get64 iv 0 in
    let! iv := slice_from iv 8 in
    let p := go_copy (zeros 8) iv in
    let! d := get64 p 0 in
    let st := mkXoshi (N.lxor (xw st) a) (N.lxor (xx st) b)
                      (N.lxor (xy st) c) (N.lxor (xz st) d) in
    Ret (fst (xoshi_add_sm st sm))
  else if (16 <? length iv)%nat then
    (* 141-175 *)
    let st := xoshi_step (xoshi_step (xoshi_step st)) in
    let! a := get64 iv 0 in
    let! iv := slice_from iv 8 in
    let! b := get64 iv 0 in
    let! iv := slice_from iv 8 in
    let p := go_copy (zeros 8) iv in
    let! c := get64 p 0 in
    let st := mkXoshi (N.lxor (xw st) a) (N.lxor (xx st) b)
                      (N.lxor (xy st) c) (xz st) in
    Ret (fst (xoshi_add_sm st sm))
  else if (8 <? length iv)%nat then
    (* 176-207 *)
    let st := xoshi_step (xoshi_step st) in
    let! a := get64 iv 0 in
    let! iv := slice_from iv 8 in
    let p := go_copy (zeros 8) iv in
    let! b := get64 p 0 in
    let st := mkXoshi (N.lxor (xw st) a) (N.lxor (xx st) b) (xy st) (xz st) in
    Ret (fst (xoshi_add_sm st sm))
  else if (0 <? length iv)%nat then
    (* 208-236 *)
    let st := xoshi_step st in
    let p := go_copy (zeros 8) iv in
    let! a := get64 p 0 in
    let st := mkXoshi (N.lxor (xw st) a) (xx st) (xy st) (xz st) in
    Ret (fst (xoshi_add_sm st sm))
  else Ret st.

(** xoshiro.go:255-265 *)
Definition Xoshiro_Read : reader xoshi := read_gt8 Xoshiro_Uint64.

(** xoshiro.go:271-278 *)
Definition Xoshiro_Save {W} (write : writer W) (st : xoshi) (w : W)
  : outcome ((nat * option goerr) * W) :=
  let p := zeros 32 in
  let! p := put64 p 0 (xw st) in
  let! p := put64 p 8 (xx st) in
  let! p := put64 p 16 (xy st) in
  let! p := put64 p 24 (xz st) in
  write w p.

(** xoshiro.go:281-291 *)
Definition Xoshiro_Restore {W} (read : reader W) (st : xoshi) (w : W)
  : outcome ((nat * option goerr) * xoshi * W) :=
  let! ((p, n, err), w) := read w (zeros 32) in
  if (n <? 32)%nat then Ret ((n, err), st, w)
  else
    let! a := get64 p 0 in
    let! b := get64 p 8 in
    let! c := get64 p 16 in
    let! d := get64 p 24 in
    Ret ((n, None), mkXoshi a b c d, w).

(** xoshiro.go:295-297 *)
Definition Xoshiro_Seed (old : xoshi) (x : N) : outcome xoshi :=
  Xoshiro_SeedIV old (seed_bytes x).

(** xoshiro.go:326-328 *)
Definition xoshiroJump : list N :=
  [0x76e15d3efefdcbbf; 0xc5004e441c522fb3; 0x77710069854ee241; 0x39109bb02acbe635].

(** xoshiro.go:309-318: the inner loop, [k] iterations left; acc = (w, x, y, z) *)
Fixpoint jump_bits (k : nat) (j : N) (acc st : xoshi) : xoshi * xoshi :=
  match k with
  | O => (acc, st)
  | S k' =>
      let acc :=
        if negb (N.land j 1 =? 0) then
          mkXoshi (N.lxor (xw acc) (xw st)) (N.lxor (xx acc) (xx st))
                  (N.lxor (xy acc) (xy st)) (N.lxor (xz acc) (xz st))
        else acc in
      jump_bits k' (shr64 j 1) acc (xoshi_step st)
  end.
(** xoshiro.go:306-324 *)
Definition Xoshiro_Jump (st : xoshi) : xoshi :=
  fst (fold_left (fun '(acc, st) j => jump_bits 64 j acc st) xoshiroJump
                 (mkXoshi 0 0 0 0, st)).

(** xoshiro.go:331-344 *)
Definition Xoshiro_Reverse (st : xoshi) : xoshi :=
  let (w, x, y, z) := st in
  let xa := x in
  let xa := N.lxor xa (shl64 xa 17) in
  let xa := N.lxor xa (shl64 xa 34) in
  let ya := y in
  let ya := N.lxor ya (shl64 ya 17) in
  let ya := N.lxor ya (shl64 ya 34) in
  let z := rotl64 z 19 in
  let y := N.lxor w x in
  let w := N.lxor w z in
  let x := N.lxor xa ya in
  let z := N.lxor z x in
  let y := N.lxor y z in
  mkXoshi w x y z.
