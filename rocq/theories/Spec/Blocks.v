(** What a program that only calls Read sees: a sequence of buffers. *)
From Verif Require Import Model.Base Spec.Common Spec.States Spec.Kinds Model.Rng Model.Api.
Local Open Scope N_scope.

(** one Read into a fresh buffer of n bytes; the result is what the buffer holds afterwards *)
Definition read_block (k : gen) (n : nat) (s : state k) : outcome (list N * state k) :=
  let! ((q, _, _), s') := a_Read (methods k) s (zeros n) in Ret (q, s').

(** p is a period of the sequence of results of successive calls: result number n + p equals result number n, for all n *)
Definition repeats_after {S A} (u : S -> outcome (A * S)) (s : S) (p : N) : Prop :=
  forall xs s' n, runs u s xs s' -> N.of_nat n + p < N.of_nat (length xs) ->
    nth_error xs (n + N.to_nat p) = nth_error xs n.

(** the generators with a full cycle, the length of that cycle, and the one state outside it *)
Definition full_cycle (k : gen) : option N :=
  match k with
  | gLFG | gMT64 => None
  | gXoroshiro | gRexoroshiro => Some (2 ^ 128 - 1)
  | gXoshiro => Some (2 ^ 256 - 1)
  end.
Definition nonzero_state (k : gen) : state k -> Prop :=
  match k with
  | gLFG | gMT64 => fun _ => False
  | gXoroshiro | gRexoroshiro => fun s => xoro_typed s /\ s <> Model.Xoroshiro.mkXoro 0 0
  | gXoshiro => fun s => xoshi_typed s /\ s <> Model.Xoshiro.mkXoshi 0 0 0 0
  end.
