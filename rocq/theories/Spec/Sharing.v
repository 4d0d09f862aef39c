(** Vocabulary for programs whose goroutines share generators (C76). *)
From Verif Require Import Model.Base Model.Lfg Model.Mt64 Model.Xoroshiro Model.Xoshiro Model.Api Model.Shared.
From Verif Require Import Spec.Common Spec.States Spec.Kinds.

(** a generator of kind k in state s, as an object in memory *)
Definition words (k : gen) : state k -> list N :=
  match k with
  | gLFG => LFG_words | gMT64 => MT64_words | gXoroshiro | gRexoroshiro => Xoroshiro_words
  | gXoshiro => Xoshiro_words
  end.
Definition accesses (k : gen) : code N :=
  match k with
  | gLFG => LFG_acc | gMT64 => MT64_acc | gXoroshiro => Xoroshiro_acc | gRexoroshiro => Rexoroshiro_acc
  | gXoshiro => Xoshiro_acc
  end.
Definition obj (k : gen) (s : state k) : object := mkObj (accesses k) (words k s).

(** goroutine j is in a call of object o *)
Definition calling (s : gstate) (j o : nat) : Prop := exists c, nth_error (g_busy s) j = Some (Some (o, c)).
(** a call of object o is going on *)
Definition in_use (s : gstate) (o : nat) : Prop := exists j, calling s j o.
(** In this schedule, calls of object o never overlap: each begins when no other is going on. That is what
    a sync.Mutex held during each call ensures; also what happens if one goroutine only calls it. *)
Definition no_overlap (s0 : gstate) (es : list event) (o : nat) : Prop :=
  forall es1 i es2 s, es = es1 ++ Begin i o :: es2 -> grun s0 es1 = Some s -> ~ in_use s o.
(** the values that calls of object o returned, to whichever goroutine, in the order of the returns *)
Definition returned (s : gstate) (o : nat) : list N :=
  flat_map (fun '(_, o', v) => if (o' =? o)%nat then [v] else []) (g_log s).
(** and those which goroutine i received from any object *)
Definition received (s : gstate) (i : nat) : list N :=
  flat_map (fun '(j, _, v) => if (j =? i)%nat then [v] else []) (g_log s).
(** no goroutine is in a call *)
Definition quiet (s : gstate) : Prop := forall i x, nth_error (g_busy s) i = Some x -> x = None.
(** in this schedule goroutine i calls object o and nothing else, and nobody else calls it *)
Definition owns (es : list event) (i o : nat) : Prop := forall j o', In (Begin j o') es -> (j = i <-> o' = o).
(** the state in which a shift-register generator is stuck (C10, C11); not used for the other two kinds *)
Definition zero_state (k : gen) : state k :=
  match k with gLFG => NewLFG | gMT64 => NewMT64 | gXoroshiro | gRexoroshiro => mkXoro 0 0 | gXoshiro => mkXoshi 0 0 0 0 end.
