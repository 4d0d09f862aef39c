(** The five built-in generators, so that one statement can speak about all of them. *)
From Verif Require Import Model.Base Spec.Common Spec.States Model.Xoroshiro Model.Xoshiro Model.Lfg Model.Mt64 Model.Api.

Inductive gen : Type := gLFG | gMT64 | gXoroshiro | gRexoroshiro | gXoshiro.

(** the Go struct *)
Definition state (k : gen) : Type :=
  match k with gLFG => lfg | gMT64 => mt64 | gXoroshiro | gRexoroshiro => xoro | gXoshiro => xoshi end.
(** its methods *)
Definition methods (k : gen) : api (state k) :=
  match k with
  | gLFG => apiLFG | gMT64 => apiMT64 | gXoroshiro => apiXoroshiro | gRexoroshiro => apiRexoroshiro
  | gXoshiro => apiXoshiro
  end.
(** any value of the Go struct type, whether or not a program can produce it (an array of 607 or 312
    uint64, ...) *)
Definition any_value (k : gen) : state k -> Prop :=
  match k with
  | gLFG => lfg_typed | gMT64 => mt_typed | gXoroshiro | gRexoroshiro => xoro_typed
  | gXoshiro => xoshi_typed
  end.
(** a state that some program reaches from the constructor *)
Definition reachable (k : gen) (s : state k) : Prop := reach (methods k) s.

(** documented size of a saved state *)
Definition saved_size (k : gen) : nat :=
  match k with
  | gLFG => 607 * 8 | gMT64 => 312 * 8 + 2 | gXoroshiro | gRexoroshiro => 16 | gXoshiro => 32
  end.
(** number of Uint64 calls one Read of [len] bytes amounts to *)
Definition read_calls (k : gen) (len : nat) : nat :=
  match k with
  | gXoroshiro => len / 8 + 1
  | _ => Nat.max 1 (ceil8 len)
  end.
Definition is_gXoroshiro (k : gen) : bool := match k with gXoroshiro => true | _ => false end.
Definition is_gMT64 (k : gen) : bool := match k with gMT64 => true | _ => false end.

(** ** Programs over several objects (C09) *)
(** the method calls made on object [n], in order *)
Fixpoint calls_on (n : nat) (os : list hop) : list op :=
  match os with
  | [] => []
  | HCall m o :: os => if (m =? n)%nat then o :: calls_on n os else calls_on n os
  | HCopy _ :: os => calls_on n os
  end.
(** the results of those calls *)
Fixpoint results_on (n : nat) (os : list hop) (bs : list obs) : list obs :=
  match os, bs with
  | HCall m o :: os, b :: bs => if (m =? n)%nat then b :: results_on n os bs else results_on n os bs
  | HCopy _ :: os, _ :: bs => results_on n os bs
  | _, _ => []
  end.
(** the program only uses objects that exist: [n] of them at the start, one more after each Copy *)
Fixpoint addresses_ok (n : nat) (os : list hop) : Prop :=
  match os with
  | [] => True
  | HCall m o :: os => (m < n)%nat /\ op_ok o /\ addresses_ok n os
  | HCopy m :: os => (m < n)%nat /\ addresses_ok (S n) os
  end.
