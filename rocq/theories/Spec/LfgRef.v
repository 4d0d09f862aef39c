(** The additive generator behind LFG and the meaning of its seeding, in plain arithmetic.
    The table [lfgS0] (lfg.go:133-286) is data of the code and is referred to, not repeated. *)
From Verif Require Import Model.Base Spec.Common Model.LfgTable.

(** the recurrence u(n+335) = u(n+334) + u(n) mod 2^64 *)
Definition lfg_recurrence (u : nat -> N) : Prop :=
  forall n, u (n + 335)%nat = ((u (n + 334)%nat + u n) mod 2 ^ 64)%N.
Definition table (k : nat) : N := nth k lfgS0 0%N.
(** byte i of the IV adds table word (iv_i + 256 i) mod 607 to window word (i + 334) mod 607; only window
    words 0..334 ever matter *)
Definition lfg_window (iv : list N) (k : nat) : N :=
  ((table k + fold_right N.add 0 (map (fun i => if ((i + 334) mod 607 =? k)%nat
                                          then table (N.to_nat ((nth i iv 0 + 256 * N.of_nat i) mod 607)) else 0)
                                     (seq 0 (length iv)))) mod 2 ^ 64)%N.
(** the last n elements of a list *)
Definition last_n {A} (n : nat) (l : list A) : list A := skipn (length l - n) l.
