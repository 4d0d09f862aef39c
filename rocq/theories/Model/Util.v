(** util.go: composition, adapters, RandString, shuffles, seeding helpers. *)
From Verif Require Import Model.Base Model.GenRead Model.Rng Model.Xoroshiro.
Local Open Scope N_scope.

(** ** XorCompose and SelectCompose; the sources act on one shared world, so they may alias *)
Section Compose.
  Context {W : Type}.

  (** util.go:19-21: [for i, v := range buf { p[i] ^= v }] *)
  Fixpoint xor_into (i : nat) (buf p : list N) : outcome (list N) :=
    match buf with
    | [] => Ret p
    | v :: buf' =>
        let! a := aget p i in
        let! p := aset p i (N.lxor a v) in
        xor_into (S i) buf' p
    end.
  (** util.go:15-23 *)
  Definition XorCompose_Read (readA readB : reader W) : reader W := fun w p =>
    let buf := zeros (length p) in
    let! ((p, _, _), w) := readA w p in
    let! ((buf, _, _), w) := readB w buf in
    let! p := xor_into 0 buf p in
    Ret ((p, length p, None), w).

  (** util.go:37-39, k iterations left *)
  Fixpoint select_into (k i : nat) (s b p : list N) : outcome (list N) :=
    match k with
    | O => Ret p
    | S k' =>
        let! pi := aget p i in
        let! bi := aget b i in
        let! si := aget s i in
        let! p := aset p i (N.lxor pi (N.land (N.lxor pi bi) si)) in
        select_into k' (S i) s b p
    end.
  (** util.go:32-41 *)
  Definition SelectCompose_Read (readS readA readB : reader W) : reader W := fun w p =>
    let s := zeros (length p) in
    let b := zeros (length p) in
    let! ((s, _, _), w) := readS w s in
    let! ((p, _, _), w) := readA w p in
    let! ((b, _, _), w) := readB w b in
    let! p := select_into (length p) 0 s b p in
    Ret ((p, length p, None), w).
End Compose.

(** ** math/rand adapters
    A math/rand Source is [int63 : W -> outcome (N * W)] (an int64 in [0, 2^63), given as its
    uint64 value) and [seed : W -> Z -> outcome W]; a Source64 also has
    [uint64 : W -> outcome (N * W)]. *)
Section Adapt.
  Context {W : Type}.
  Variable int63 : W -> outcome (N * W).
  Variable uint64 : W -> outcome (N * W).
  Variable seed : W -> Z -> outcome W.

  (** util.go:80-83: [PutUint64(p, uint64(m.Int63()^m.Int63()<<1))]; the left operand is called
      first, and the shift is an int64 shift, which drops bit 63 as the uint64 one does *)
  Definition two_int63 (w : W) : outcome (N * W) :=
    let! (a, w) := int63 w in
    let! (b, w) := int63 w in
    Ret (N.lxor a (shl64 b 1), w).
  (** util.go:80-86, the loop and the final partial word *)
  Fixpoint math2crazy_loop (fuel : nat) (p : list N) (w : W) : outcome (list N * W) :=
    match fuel with
    | O => OutOfFuel
    | S fuel' =>
        if (8 <? length p)%nat then
          let! (x, w) := two_int63 w in
          let! (rest, w) := math2crazy_loop fuel' (skipn 8 p) w in
          Ret (le_bytes 8 x ++ rest, w)
        else
          let! (x, w) := int63 w in
          Ret (go_copy p (le_bytes 8 x), w)
    end.
  (** util.go:78-88 *)
  Definition math2crazy_Read : reader W := fun w p =>
    let! (p', w') := math2crazy_loop (S (length p)) p w in
    Ret ((p', length p, None), w').

  (** util.go:90-100 *)
  Definition math642crazy_Read : reader W := read_gt8 uint64.

  (** int64(x) for a uint64 x (util.go:105, 111, ziggurat.go:30) *)
  Definition to_int64 (x : N) : Z :=
    if x <? 0x8000000000000000 then Z.of_N x else (Z.of_N x - 2 ^ 64)%Z.
  (** uint64(x) for an int64 x (util.go:229, ziggurat.go:37) *)
  Definition to_uint64 (x : Z) : N := Z.to_N (x mod 2 ^ 64).

  (** util.go:102-106 and 108-112 *)
  Definition math2crazy_SeedIV (w : W) (iv : list N) : outcome W :=
    let b := go_copy (zeros 8) iv in
    let! x := get64 b 0 in
    seed w (to_int64 x).
End Adapt.

(** *** crazy2math, util.go:114-137, over a Seeder (read, seedIV) *)
Section Crazy2Math.
  Context {W : Type}.
  Variable read : reader W.
  Variable seedIV : W -> list N -> outcome W.
  (** util.go:127-129 *)
  Definition crazy2math_Uint64 (w : W) : outcome (N * W) := RNG_Uint64 read w.
  (** util.go:131-133 *)
  Definition crazy2math_Int63 (w : W) : outcome (N * W) :=
    let! (x, w) := RNG_Uint64 read w in
    Ret (shr64 x 1, w).
  (** util.go:227-231 *)
  Definition SeedInt64 (w : W) (x : Z) : outcome W :=
    let b := zeros 8 in
    let! b := put64 b 0 (to_uint64 x) in
    seedIV w b.
  (** util.go:135-137 *)
  Definition crazy2math_Seed (w : W) (x : Z) : outcome W := SeedInt64 w x.
  (** util.go:235-240; [rnd] is crypto/rand.Reader's Read. crypto/rand.Read is io.ReadFull on it and
      its error is ignored; here it is one call filling iv. n < 0 makes make([]byte, n) panic. *)
  Definition CryptoSeeded (rnd : reader W) (w : W) (n : Z) : outcome W :=
    if (n <? 0)%Z then Panic
    else
      let! iv := make_bytes (Z.to_N n) in
      let! ((iv, _, _), w) := rnd w iv in
      seedIV w iv.
End Crazy2Math.

(** ** Interface dispatch: the method sets that decide the type assertions
    in AdaptRand, AdaptRand64 and AdaptCrazy (util.go:61, 64, 72, 121). *)
Record methods := { m_Read : bool; m_SeedIV : bool; m_Seed : bool; m_Int63 : bool; m_Uint64 : bool }.
(** source.go:14-19 *)
Definition is_Seeder (m : methods) : bool := m_Read m && m_SeedIV m.
(** math/rand.Source and Source64 (util.go:45, 49, 64, 121) *)
Definition is_Source (m : methods) : bool := m_Seed m && m_Int63 m.
(** math/rand.Source64 (util.go:49, 64, 121) *)
Definition is_Source64 (m : methods) : bool := is_Source m && m_Uint64 m.
(** a value is one of the concrete wrappers around another value, or some other value
    (util.go:43-51, 114-116) *)
Inductive value : Type :=
| Plain (m : methods)           (* any other dynamic type, with that method set *)
| Math2crazy (v : value)        (* util.go:44-46, embeds mathrand.Source *)
| Math642crazy (v : value)      (* util.go:48-50, embeds mathrand.Source64 *)
| Crazy2math (v : value).       (* util.go:114-116, embeds Seeder *)
(** method sets by embedding plus the methods declared in util.go:78-137 *)
Definition method_set (v : value) : methods :=
  match v with
  | Plain m => m
  | Math2crazy _ => {| m_Read := true; m_SeedIV := true; m_Seed := true; m_Int63 := true; m_Uint64 := false |}
  | Math642crazy _ => {| m_Read := true; m_SeedIV := true; m_Seed := true; m_Int63 := true; m_Uint64 := true |}
  | Crazy2math _ => {| m_Read := true; m_SeedIV := true; m_Seed := true; m_Int63 := true; m_Uint64 := true |}
  end.
(** util.go:60-68 *)
Definition AdaptRand (src : value) : value :=
  if is_Seeder (method_set src) then src
  else if is_Source64 (method_set src) then Math642crazy src
  else Math2crazy src.
(** util.go:71-76 *)
Definition AdaptRand64 (src : value) : value :=
  if is_Seeder (method_set src) then src else Math642crazy src.
(** util.go:120-125 *)
Definition AdaptCrazy (src : value) : value :=
  if is_Source64 (method_set src) then src else Crazy2math src.
(** method sets of the built-in generators (func declarations of lfg.go, mt64-19937.go,
    xoroshiro.go, xoshiro.go); *Xoshiro has no Int63 *)
Definition m_full : methods :=
  {| m_Read := true; m_SeedIV := true; m_Seed := true; m_Int63 := true; m_Uint64 := true |}.
(** a *LFG (lfg.go:32) *)
Definition v_LFG : value := Plain m_full.
(** a *MT64 (mt64-19937.go:20) *)
Definition v_MT64 : value := Plain m_full.
(** a *Xoroshiro (xoroshiro.go:15) *)
Definition v_Xoroshiro : value := Plain m_full.
(** a *Rexoroshiro (xoroshiro.go:155) *)
Definition v_Rexoroshiro : value := Plain m_full.
(** a *Xoshiro (xoshiro.go:20) *)
Definition v_Xoshiro : value := Plain
  {| m_Read := true; m_SeedIV := true; m_Seed := true; m_Int63 := false; m_Uint64 := true |}.

(** ** RandString and shuffles, over an arbitrary Source *)
Section Draws.
  Context {W : Type}.
  Variable read : reader W.
  Variable ub : N. (* bits of uint/int *)

  (** util.go:146-148, on the rune slice [a]; k iterations left. [fuel] bounds each Uintn. *)
  Fixpoint randstring_loop (fuel k : nat) (a : list N) (w : W) : outcome (list N * W) :=
    match k with
    | O => Ret ([], w)
    | S k' =>
        let! (i, w) := RNG_Uintn read fuel ub (N.of_nat (length a)) w in
        let! c := aget a (N.to_nat i) in
        let! (r, w) := randstring_loop fuel k' a w in
        Ret (c :: r, w)
    end.
  (** util.go:143-150 on runes: the conversions []rune(alphabet) and string(p) are outside this
      function. make([]rune, length) panics for negative length. *)
  Definition RandRunes (fuel : nat) (a : list N) (n : Z) (w : W) : outcome (list N * W) :=
    if (n <? 0)%Z then Panic else randstring_loop fuel (Z.to_nat n) a w.

  (** util.go:160-165 Shuffle over a Swapper with an abstract data type D. *)
  Section Swapper.
    Context {D : Type}.
    Variable len : D -> nat.
    Variable swap : D -> nat -> nat -> outcome D.
    (** util.go:162-164; k iterations left, i the index *)
    Fixpoint shuffle_loop (fuel k i n : nat) (d : D) (w : W) : outcome (D * W) :=
      match k with
      | O => Ret (d, w)
      | S k' =>
          let! (j, w) := RNG_Uintn read fuel ub (N.of_nat n) w in
          let! d := swap d i (N.to_nat j) in
          shuffle_loop fuel k' (S i) n d w
      end.
    (** util.go:160-165 *)
    Definition Shuffle (fuel : nat) (d : D) (w : W) : outcome (D * W) :=
      let n := len d in
      shuffle_loop fuel n 0 n d w.
  End Swapper.

  (** util.go:168-173, 176-181, 184-189: ShuffleFloat64s, ShuffleInts, ShuffleStrings, which differ
      only in the element type *)
  Section Slice.
    Context {A : Type}.
    (** data[i], data[k] = data[k], data[i] (util.go:171, 179, 187) *)
    Definition slice_swap (d : list A) (i k : nat) : outcome (list A) :=
      let! a := aget d k in
      let! b := aget d i in
      let! d := aset d i a in
      aset d k b.
    (** util.go:169-172, 177-180, 185-188; n iterations left, i the index *)
    Fixpoint shuffle_slice_loop (fuel n i : nat) (d : list A) (w : W) : outcome (list A * W) :=
      match n with
      | O => Ret (d, w)
      | S n' =>
          let! (k, w) := RNG_Intn read fuel ub (Z.of_nat (length d)) w in
          let! d := slice_swap d i (Z.to_nat k) in
          shuffle_slice_loop fuel n' (S i) d w
      end.
    (** util.go:168-173, 176-181, 184-189 *)
    Definition ShuffleSlice (fuel : nat) (d : list A) (w : W) : outcome (list A * W) :=
      shuffle_slice_loop fuel (length d) 0 d w.
  End Slice.
End Draws.
