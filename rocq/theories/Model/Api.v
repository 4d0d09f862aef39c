(** The method tables of the five generators, programs that call them, and objects in memory.
    source.go:5-53 (the interfaces), plus Uint64, Seed, Int63, Jump, Reverse of the concrete types. *)
From Verif Require Import Model.Base Model.Xoroshiro Model.Xoshiro Model.Lfg Model.Mt64.
Local Open Scope N_scope.

(** One generator type with the methods its pointer type has (source.go:5-53, and the func declarations of lfg.go,
    mt64-19937.go, xoroshiro.go, xoshiro.go). [None]: no such method. *)
Record api (G : Type) := mkApi {
  a_new : G;                                       (* New...() *)
  a_SeedIV : G -> list N -> outcome G;
  a_Seed : G -> N -> outcome G;
  a_Uint64 : G -> outcome (N * G);
  a_Int63 : option (G -> outcome (N * G));
  a_Read : reader G;
  a_Save : forall W, writer W -> G -> W -> outcome ((nat * option goerr) * W);
  a_Restore : forall W, reader W -> G -> W -> outcome ((nat * option goerr) * G * W);
  a_Jump : option (G -> G);
  a_Reverse : option (G -> G)
}.
Arguments a_new {G}. Arguments a_SeedIV {G}. Arguments a_Seed {G}. Arguments a_Uint64 {G}.
Arguments a_Int63 {G}. Arguments a_Read {G}. Arguments a_Save {G} _ {W}. Arguments a_Restore {G} _ {W}.
Arguments a_Jump {G}. Arguments a_Reverse {G}.

(** lfg.go *)
Definition apiLFG : api lfg := mkApi lfg NewLFG LFG_SeedIV LFG_Seed LFG_Uint64 (Some LFG_Int63) LFG_Read
  (@LFG_Save) (@LFG_Restore) None None.
(** mt64-19937.go *)
Definition apiMT64 : api mt64 := mkApi mt64 NewMT64 MT64_SeedIV MT64_Seed MT64_Uint64 (Some MT64_Int63)
  MT64_Read (@MT64_Save) (@MT64_Restore) None None.
(** xoroshiro.go:15-147 *)
Definition apiXoroshiro : api xoro := mkApi xoro NewXoroshiro Xoroshiro_SeedIV Xoroshiro_Seed
  Xoroshiro_Uint64 (Some Xoroshiro_Int63) Xoroshiro_Read (@Xoroshiro_Save) (@Xoroshiro_Restore) None None.
(** xoroshiro.go:155-216 *)
Definition apiRexoroshiro : api xoro := mkApi xoro NewRexoroshiro Rexoroshiro_SeedIV Rexoroshiro_Seed
  Rexoroshiro_Uint64 (Some Rexoroshiro_Int63) Rexoroshiro_Read (@Rexoroshiro_Save) (@Rexoroshiro_Restore)
  None None.
(** xoshiro.go; *Xoshiro has no Int63 *)
Definition apiXoshiro : api xoshi := mkApi xoshi NewXoshiro Xoshiro_SeedIV Xoshiro_Seed
  Xoshiro_Uint64 None Xoshiro_Read (@Xoshiro_Save) (@Xoshiro_Restore) (Some Xoshiro_Jump)
  (Some Xoshiro_Reverse).

(** ** Programs: sequences of method calls with their arguments, and what a caller sees.
    One constructor per method: SeedIV, Read (source.go:9, 18), Save, Restore (source.go:29, 32), Jump (source.go:52),
    Seed, Uint64, Int63, Reverse (lfg.go:44, 62, 91 and their like; xoshiro.go:331). *)
Inductive op : Type :=
| OpSeedIV (iv : list N)
| OpSeed (x : N)
| OpUint64
| OpInt63
| OpRead (p : list N)                 (* p: the buffer's contents before the call *)
| OpSave                              (* into a bytes.Buffer *)
| OpRestore (r : list N -> list N * nat * option goerr)
                                      (* r: what the reader makes of a buffer: contents, n, err *)
| OpJump
| OpReverse.
(** what the call returns to the caller: the results of the methods named at [op] (source.go:9, 29, 32; lfg.go:62, 91) *)
Inductive obs : Type :=
| ObsNone
| ObsWord (x : N)
| ObsRead (p : list N) (n : nat) (e : option goerr)
| ObsSaved (p : list N) (n : nat) (e : option goerr)
| ObsRestored (n : nat) (e : option goerr).

(** bytes.Buffer.Write: the world is what has been written so far *)
Definition buffer_writer : writer (list N) := fun w p => Ret ((length p, None), w ++ p).
(** a reader for one Restore call *)
Definition fun_reader (r : list N -> list N * nat * option goerr) : reader unit :=
  fun w p => Ret (r p, w).

(** one method call (source.go:5-53 dispatches to the methods of the concrete type) *)
Definition exec {G} (a : api G) (g : G) (o : op) : outcome (obs * G) :=
  match o with
  | OpSeedIV iv => let! g := a_SeedIV a g iv in Ret (ObsNone, g)
  | OpSeed x => let! g := a_Seed a g x in Ret (ObsNone, g)
  | OpUint64 => let! (x, g) := a_Uint64 a g in Ret (ObsWord x, g)
  | OpInt63 => match a_Int63 a with
               | Some f => let! (x, g) := f g in Ret (ObsWord x, g)
               | None => Ret (ObsNone, g)   (* such a program does not compile *)
               end
  | OpRead p => let! ((p, n, e), g) := a_Read a g p in Ret (ObsRead p n e, g)
  | OpSave => let! ((n, e), w) := a_Save a buffer_writer g [] in Ret (ObsSaved w n e, g)
  | OpRestore r => let! ((n, e), g, _) := a_Restore a (fun_reader r) g tt in Ret (ObsRestored n e, g)
  | OpJump => match a_Jump a with Some f => Ret (ObsNone, f g) | None => Ret (ObsNone, g) end
  | OpReverse => match a_Reverse a with Some f => Ret (ObsNone, f g) | None => Ret (ObsNone, g) end
  end.
(** a sequence of method calls by the user of the package; not a function of /repo *)
Fixpoint exec_all {G} (a : api G) (g : G) (os : list op) : outcome (list obs * G) :=
  match os with
  | [] => Ret ([], g)
  | o :: os => let! (b, g) := exec a g o in let! (bs, g) := exec_all a g os in Ret (b :: bs, g)
  end.

(** ** Objects in memory
    The generator structs contain no pointers, slices or maps, only integers and arrays of integers
    (lfg.go:32-35, mt64-19937.go:20-23, xoroshiro.go:15, xoshiro.go:20-22), so a heap of generator
    objects is a list of struct values indexed by address.
    Copy (lfg.go:126-129, mt64-19937.go:165-168, xoroshiro.go:143-146, 213-216, xoshiro.go:300-303):
    [l := *lfg; return &l] allocates a new object holding the struct value. *)
Inductive hop : Type :=
| HCall (addr : nat) (o : op)
| HCopy (addr : nat).
(** one call on, or Copy of, the object at an address (Copy: lfg.go:126-129 and the lines cited above) *)
Definition hexec {G} (a : api G) (h : list G) (o : hop) : outcome (obs * list G) :=
  match o with
  | HCall n o =>
      let! g := aget h n in
      let! (b, g) := exec a g o in
      let! h := aset h n g in
      Ret (b, h)
  | HCopy n => let! g := aget h n in Ret (ObsNone, h ++ [g])
  end.
(** a sequence of those; not a function of /repo *)
Fixpoint hexec_all {G} (a : api G) (h : list G) (os : list hop) : outcome (list obs * list G) :=
  match os with
  | [] => Ret ([], h)
  | o :: os => let! (b, h) := hexec a h o in let! (bs, h) := hexec_all a h os in Ret (b :: bs, h)
  end.
