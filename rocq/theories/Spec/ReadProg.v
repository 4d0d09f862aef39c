(** Programs whose only interaction with the outside world is to call Read on one Source, with buffers of zero bytes. What
    they do next may depend on everything a Read returned. *)
From Verif Require Import Model.Base.

Inductive read_program (A : Type) : Type :=
| Gives (a : A)
| Panics
| Hangs                                                            (* still running after the allotted iterations *)
| Reads (n : nat) (rest : list N -> nat -> option goerr -> read_program A). (* Read(make([]byte, n)); then go on with buffer, count, error *)
Arguments Gives {A}. Arguments Panics {A}. Arguments Hangs {A}. Arguments Reads {A}.

(** what the program does on a given source *)
Fixpoint run {A W} (read : reader W) (c : read_program A) (w : W) : outcome (A * W) :=
  match c with
  | Gives a => Ret (a, w)
  | Panics => Panic
  | Hangs => OutOfFuel
  | Reads n rest => let! ((p, m, e), w) := read w (zeros n) in run read (rest p m e) w
  end.

(** a function of an arbitrary source that is such a program *)
Definition is_read_program {A} (f : forall W, reader W -> W -> outcome (A * W)) : Prop :=
  exists c : read_program A, forall W (read : reader W) w, f W read w = run read c w.
