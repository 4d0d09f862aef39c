(** lfg.go *)
From Verif Require Import Model.Base Model.GenRead Model.LfgTable Model.Xoroshiro.
Local Open Scope N_scope.

(** lfg.go:8-11 *)
Definition lfgJ : nat := 273.
(** lfg.go:8-11 *)
Definition lfgK : nat := 607.

(** lfg.go:32-35 *)
Record lfg := mkLFG { lf : nat; lt : nat; ls : list N }.

(** the zero value of the struct lfg.go:32-35: [LFG{}] or [new(LFG)] *)
Definition LFG_zero : lfg := mkLFG 0 0 (zeros lfgK).

(** lfg.go:38-40 *)
Definition NewLFG : lfg := mkLFG (lfgK - lfgJ) 0 (zeros lfgK).

(** lfg.go:62-73 *)
Definition LFG_Uint64 (g : lfg) : outcome (N * lfg) :=
  let! a := aget (ls g) (lf g) in
  let! b := aget (ls g) (lt g) in
  let x := add64 a b in
  let f := S (lf g) in
  let t := S (lt g) in
  let '(f, t) :=
    if (lfgK <=? f)%nat then (O, t)
    else if (lfgK <=? t)%nat then (f, O)
    else (f, t) in
  let! s := aset (ls g) f x in
  Ret (x, mkLFG f t s).

(** lfg.go:53-55: the loop over the bytes of iv, starting at index i.
    [256*i] is a Go int; it cannot overflow for slices that fit in memory. *)
Fixpoint lfg_mix_iv (i : nat) (iv : list N) (s : list N) : outcome (list N) :=
  match iv with
  | [] => Ret s
  | v :: iv' =>
      let k := ((i + lfgK - lfgJ) mod lfgK)%nat in
      let! a := aget s k in
      let! b := aget lfgS0 (N.to_nat ((v + 256 * N.of_nat i) mod 607)) in
      let! s := aset s k (add64 a b) in
      lfg_mix_iv (S i) iv' s
  end.

(** lfg.go:56-58: n discarded Uint64 calls *)
Fixpoint lfg_skip (n : nat) (g : lfg) : outcome lfg :=
  match n with
  | O => Ret g
  | S n' => let! (_, g) := LFG_Uint64 g in lfg_skip n' g
  end.

(** lfg.go:50-59 *)
Definition LFG_SeedIV (old : lfg) (iv : list N) : outcome lfg :=
  let s := go_copy (ls old) lfgS0 in
  let! s := lfg_mix_iv 0 iv s in
  lfg_skip (lfgK * 8) (mkLFG (lfgK - lfgJ) 0 s).

(** lfg.go:44-46 *)
Definition LFG_Seed (old : lfg) (x : N) : outcome lfg := LFG_SeedIV old (seed_bytes x).

(** lfg.go:77-87 *)
Definition LFG_Read : reader lfg := read_gt8 LFG_Uint64.

(** lfg.go:91-93 *)
Definition LFG_Int63 (g : lfg) : outcome (N * lfg) :=
  let! (x, g) := LFG_Uint64 g in
  Ret (shr64 x 1, g).

(** [for i, v := range vs { PutUint64(p[(base+i)<<3:], v) }], as at lfg.go:102-107 and
    mt64-19937.go:141-143 *)
Fixpoint put_words (p : list N) (base : nat) (vs : list N) : outcome (list N) :=
  match vs with
  | [] => Ret p
  | v :: vs' => let! p := put64 p (8 * base) v in put_words p (S base) vs'
  end.

(** lfg.go:98-109 *)
Definition LFG_Save {W} (write : writer W) (g : lfg) (w : W) : outcome ((nat * option goerr) * W) :=
  let p := zeros (lfgK * 8) in
  let! hd := slice_from (ls g) (lt g) in
  let! p := put_words p 0 hd in
  let! tl := slice_to (ls g) (lt g) in
  let! p := put_words p (lfgK - lt g) tl in
  write w p.

(** [for i := range s { s[i] = Uint64(p[i<<3:]) }], as at lfg.go:118-120 and
    mt64-19937.go:157-159: the n words starting at word index i *)
Fixpoint get_words (p : list N) (i n : nat) : outcome (list N) :=
  match n with
  | O => Ret []
  | S n' => let! v := get64 p (8 * i) in let! r := get_words p (S i) n' in Ret (v :: r)
  end.

(** lfg.go:113-123 *)
Definition LFG_Restore {W} (read : reader W) (g : lfg) (w : W)
  : outcome ((nat * option goerr) * lfg * W) :=
  let! ((p, n, err), w) := read w (zeros (lfgK * 8)) in
  if (n <? lfgK * 8)%nat then Ret ((n, err), g, w)
  else
    let! s := get_words p 0 lfgK in
    Ret ((n, None), mkLFG (lfgK - lfgJ) 0 s, w).
