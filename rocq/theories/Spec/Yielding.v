(** Vocabulary for the statements about Yield and YieldUint64 (C47). *)
From Verif Require Import Model.Base Model.Yield.

(** the values sent by the goroutine itself, in order *)
Definition mine {A} (l : list (bool * A)) : list A := map snd (filter fst l).
(** what is in a channel's buffer *)
Definition pending {A} (c : option (chan A)) : list A := match c with Some c => c_buf c | None => [] end.
Definition capacity {A} (c : option (chan A)) : nat := match c with Some c => c_cap c | None => 0 end.
Definition closed {A} (c : option (chan A)) : bool := match c with Some c => c_closed c | None => false end.
(** in make(chan A, n) at most n values are buffered *)
Definition chan_ok {A} (c : option (chan A)) : Prop := length (pending c) <= capacity c.
(** a receive from the channel would succeed at once *)
Definition can_receive {A} (c : option (chan A)) : Prop := pending c <> [] \/ closed c = true.
(** free places in the buffer *)
Definition room {A} (c : option (chan A)) : nat := capacity c - length (pending c).

(** actions of the goroutine that involve no other goroutine *)
Definition alone {A} (a : action A) : Prop := match a with Enter | Proceed _ => True | _ => False end.
(** the goroutine has drawn a value that it has not sent (and, once ended, never will) *)
Definition holds_one {A} (p : phase A) : Prop := match p with Waiting _ | Ended => True | _ => False end.
(** number of values sent on quit by others, and taken from it by others *)
Fixpoint signals {A} (acts : list (action A)) : nat :=
  match acts with [] => 0 | QuitSend :: r => S (signals r) | _ :: r => signals r end.
Fixpoint stolen {A} (acts : list (action A)) : nat :=
  match acts with [] => 0 | QuitTake :: r => S (stolen r) | _ :: r => stolen r end.
(** case 1 of the select is the receive from quit: how often the goroutine took it from the buffer (or
    because quit is closed), and how often directly from a goroutine that was sending *)
Fixpoint buffered_stops {A} (acts : list (action A)) : nat :=
  match acts with [] => 0 | Proceed 1 :: r => S (buffered_stops r) | _ :: r => buffered_stops r end.
Fixpoint direct_stops {A} (acts : list (action A)) : nat :=
  match acts with [] => 0 | ProceedWith 1 :: r => S (direct_stops r) | _ :: r => direct_stops r end.
Definition is_ended {A} (p : phase A) : nat := match p with Ended => 1 | _ => 0 end.
