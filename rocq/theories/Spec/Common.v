(** Vocabulary of the theorem statements. Nothing here depends on how the generators work. *)
From Verif Require Import Model.Base.
Local Open Scope N_scope.

(** Go types: a uint64 and a byte *)
Definition w64 (x : N) : Prop := x < 2 ^ 64.
Definition isbyte (b : N) : Prop := b < 256.

(** byte [i] (0 = least significant) of [x] *)
Definition byte_of (x : N) (i : nat) : N := (x / 256 ^ N.of_nat i) mod 256.

(** [runs u64 s xs s']: successive calls of the method [u64], starting in state [s], return exactly
    the values [xs] and leave state [s']. *)
Inductive runs {S A : Type} (u64 : S -> outcome (A * S)) : S -> list A -> S -> Prop :=
| runs_nil s : runs u64 s [] s
| runs_cons s x s1 xs s' : u64 s = Ret (x, s1) -> runs u64 s1 xs s' -> runs u64 s (x :: xs) s'.

(** What Go itself guarantees of any Read(p []byte): it cannot change len(p), and stores bytes.
    The returned count and error are unconstrained. *)
Definition go_reader {W} (read : reader W) : Prop :=
  forall w p p' n e w', read w p = Ret ((p', n, e), w') ->
    length p' = length p /\ (Forall isbyte p -> Forall isbyte p').

(** a reader that always returns (never panics, never loops) *)
Definition total_reader {W} (read : reader W) : Prop :=
  forall w p, exists r w', read w p = Ret (r, w').

(** a writer that always returns *)
Definition total_writer {W} (write : writer W) : Prop :=
  forall w p, exists r w', write w p = Ret (r, w').

(** ceil(n/8) *)
Definition ceil8 (n : nat) : nat := ((n + 7) / 8)%nat.

(** k applications of f *)
Definition times {A} (k : N) (f : A -> A) (a : A) : A := N.iter k f a.

(** the 64-bit little-endian words of a byte string, the last one padded with zero bytes:
    word k is the value of bytes 8k .. 8k+7 (absent bytes count as 0) *)
Definition iv_word (iv : list N) (k : nat) : N := le_val (firstn 8 (skipn (8 * k) iv)).
Definition iv_words (iv : list N) : list N := map (iv_word iv) (seq 0 (ceil8 (length iv))).
(** sum modulo 2^64 *)
Definition sum64 (l : list N) : N := (fold_right N.add 0 l) mod 2 ^ 64.

(** p is a period of the stream of values from state s: value n+p equals value n, for all n *)
Definition stream_period {S} (u : S -> outcome (N * S)) (s : S) (p : N) : Prop :=
  forall xs s' n, runs u s xs s' -> N.of_nat n + p < N.of_nat (length xs) ->
    nth (n + N.to_nat p) xs 0 = nth n xs 0.
(** the values [tuple] are returned, in this order, by consecutive calls, the first being call number n
    (counted from 0) *)
Definition occurs_at {S} (u : S -> outcome (N * S)) (s : S) (n : N) (tuple : list N) : Prop :=
  exists xs t t', N.of_nat (length xs) = n /\ runs u s xs t /\ runs u t tuple t'.
