(** The Uint64 methods as sequences of reads and writes of the memory of the struct, for programs in which
    several goroutines call methods of the same object (nothing in the package locks: doc.go, util.go:191-219
    offer channels instead).

    Model/Lfg.v, Model/Mt64.v, Model/Xoroshiro.v and Model/Xoshiro.v take a call as one step. Here a call is
    the sequence of its accesses to the fields, in the order of the source, and other goroutines may run
    between any two of them. Simplification: interleaving semantics (sequentially consistent memory, every
    read of a field in the source is a load). Go's memory model allows more to a program with a data race,
    never less, so what can go wrong here can go wrong there. *)
From Verif Require Import Model.Base Model.Lfg Model.Mt64 Model.Xoroshiro Model.Xoshiro Model.Api.
Local Open Scope N_scope.

(** ** Code between two accesses is local to the goroutine *)
(** a method body, as the accesses it makes to the words of the struct (lfg.go:62-73, mt64-19937.go:80-108,
    xoroshiro.go:85-92, 169-171, xoshiro.go:241-251) *)
Inductive code (A : Type) : Type :=
| Done (a : A)                                (* return a *)
| Fail                                        (* index out of range: a panic *)
| Load (c : nat) (k : N -> code A)            (* read word c of the struct *)
| Store (c : nat) (v : N) (k : code A).       (* write it *)
Arguments Done {A}. Arguments Fail {A}. Arguments Load {A}. Arguments Store {A}.

(** read of element i of an array of len words that starts at word base: bounds check, then load
    (lfg.go:63, mt64-19937.go:101 and the like) *)
Definition load_at {A} (base len : nat) (i : N) (k : N -> code A) : code A :=
  if i <? N.of_nat len then Load (base + N.to_nat i) k else Fail.
(** write of it (lfg.go:71, mt64-19937.go:86 and the like) *)
Definition store_at {A} (base len : nat) (i : N) (v : N) (k : code A) : code A :=
  if i <? N.of_nat len then Store (base + N.to_nat i) v k else Fail.

(** ** Layouts: the words of the struct, in order of declaration *)
(** lfg.go:32-35 *)
Definition LFG_words (g : lfg) : list N := N.of_nat (lf g) :: N.of_nat (lt g) :: ls g.
(** mt64-19937.go:20-23 *)
Definition MT64_words (g : mt64) : list N := mi g :: ms g.
(** xoroshiro.go:15 *)
Definition Xoroshiro_words (s : xoro) : list N := [xo0 s; xo1 s].
(** xoshiro.go:20-22 *)
Definition Xoshiro_words (s : xoshi) : list N := [xw s; xx s; xy s; xz s].

(** ** The methods *)
(** xoroshiro.go:85-92; [r] is what follows the return *)
Definition Xoroshiro_acc_to (r : N -> N) : code N :=
  Load 0 (fun s0 => Load 1 (fun s1 =>
  let x := add64 s0 s1 in
  let s1 := N.lxor s1 s0 in
  Store 0 (N.lxor (N.lxor (rotl64 s0 55) s1) (shl64 s1 14))
  (Store 1 (rotl64 s1 36)
  (Done (r x))))).
(** xoroshiro.go:85-92 *)
Definition Xoroshiro_acc : code N := Xoroshiro_acc_to (fun x => x).
(** xoroshiro.go:169-171 *)
Definition Rexoroshiro_acc : code N := Xoroshiro_acc_to rev_bytes64.

(** [a ^= b] on two fields: xoshiro.go:244-247 *)
Definition xor_into {A} (a b : nat) (k : code A) : code A :=
  Load a (fun u => Load b (fun v => Store a (N.lxor u v) k)).
(** xoshiro.go:241-251; w, x, y, z are words 0, 1, 2, 3 *)
Definition Xoshiro_acc : code N :=
  Load 1 (fun x =>
  let r := mul64 (rotl64 (mul64 x 5) 7) 9 in
  Load 1 (fun x =>
  let t := shl64 x 17 in
  xor_into 2 0
  (xor_into 3 1
  (xor_into 1 2
  (xor_into 0 3
  (Load 2 (fun y => Store 2 (N.lxor y t)
  (Load 3 (fun z => Store 3 (rotl64 z 45)
  (Done r)))))))))).

(** lfg.go:62-73; f and t are words 0 and 1, s starts at word 2 *)
Definition LFG_acc : code N :=
  Load 0 (fun f => load_at 2 lfgK f (fun a =>
  Load 1 (fun t => load_at 2 lfgK t (fun b =>
  let x := add64 a b in
  Load 0 (fun f => Store 0 (f + 1)
  (Load 1 (fun t => Store 1 (t + 1)
  (let rest := Load 0 (fun f => store_at 2 lfgK f x (Done x)) in
   Load 0 (fun f =>
   if N.of_nat lfgK <=? f then Store 0 0 rest
   else Load 1 (fun t => if N.of_nat lfgK <=? t then Store 1 0 rest else rest)))))))))).

(** mt64-19937.go:83-88: k iterations of the loop, the next index being i *)
Fixpoint mt_acc1 {A} (k i : nat) (rest : code A) : code A :=
  match k with
  | O => rest
  | S k' =>
      load_at 1 mt64N (N.of_nat i) (fun a =>
      load_at 1 mt64N (N.of_nat (i + 1)) (fun b =>
      load_at 1 mt64N (N.of_nat (i + mt64M)) (fun c =>
      store_at 1 mt64N (N.of_nat i) (N.lxor c (mt_twist a b))
      (mt_acc1 k' (S i) rest))))
  end.
(** mt64-19937.go:89-94 *)
Fixpoint mt_acc2 {A} (k i : nat) (rest : code A) : code A :=
  match k with
  | O => rest
  | S k' =>
      load_at 1 mt64N (N.of_nat i) (fun a =>
      load_at 1 mt64N (N.of_nat (i + 1)) (fun b =>
      load_at 1 mt64N (N.of_nat (i - (mt64N - mt64M))) (fun c =>
      store_at 1 mt64N (N.of_nat i) (N.lxor c (mt_twist a b))
      (mt_acc2 k' (S i) rest))))
  end.
(** mt64-19937.go:82-98 *)
Definition mt_acc_regen {A} (rest : code A) : code A :=
  mt_acc1 (mt64N - mt64M) 0
  (mt_acc2 (mt64N - 1 - (mt64N - mt64M)) (mt64N - mt64M)
  (load_at 1 mt64N (N.of_nat (mt64N - 1)) (fun a =>
   load_at 1 mt64N 0 (fun b =>
   load_at 1 mt64N (N.of_nat (mt64M - 1)) (fun c =>
   store_at 1 mt64N (N.of_nat (mt64N - 1)) (N.lxor c (mt_twist a b))
   (Store 0 0 rest)))))).
(** mt64-19937.go:101-107 *)
Definition mt_acc_out : code N :=
  Load 0 (fun i => load_at 1 mt64N i (fun x =>
  Load 0 (fun i => Store 0 (i + 1)
  (Done (mt_temper x))))).
(** mt64-19937.go:80-108; i is word 0, s starts at word 1 *)
Definition MT64_acc : code N :=
  Load 0 (fun i => if N.of_nat mt64N <=? i then mt_acc_regen mt_acc_out else mt_acc_out).

(** ** Goroutines *)
(** an object: the code of its Uint64 method, and the words of the struct *)
Record object := mkObj { o_code : code N; o_words : list N }.

(** [t_busy]: the call the goroutine is in, as the number of the object and what is left of the method.
    [g_log]: ghost history of the calls that have returned: goroutine, object, value; oldest first *)
Record gstate := mkG {
  g_objs : list object;
  g_busy : list (option (nat * code N));      (* one entry for each goroutine *)
  g_log : list (nat * nat * N);
  g_crashed : bool                            (* a goroutine panicked: Go ends the whole program *)
}.

(** what goroutine number i does next; which object it calls is up to the user's program *)
Inductive event : Type :=
| Begin (i o : nat)      (* calls Uint64 of object o *)
| Access (i : nat)       (* the next read or write of the method *)
| Finish (i : nat).      (* the method returns *)

(** one event; [None]: it is not possible in this state (Go specification, "Go statements", "Calls") *)
Definition gstep (s : gstate) (e : event) : option gstate :=
  let '(mkG objs busy log crashed) := s in
  if crashed then None else
  match e with
  | Begin i o =>
      match nth_error busy i, nth_error objs o with
      | Some None, Some ob => Some (mkG objs (lupd busy i (Some (o, o_code ob))) log false)
      | _, _ => None
      end
  | Access i =>
      match nth_error busy i with
      | Some (Some (o, c)) =>
          match nth_error objs o with
          | Some ob =>
              match c with
              | Done _ => None
              | Fail => Some (mkG objs busy log true)
              | Load w k =>
                  match nth_error (o_words ob) w with
                  | Some v => Some (mkG objs (lupd busy i (Some (o, k v))) log false)
                  | None => None      (* no such word: does not happen *)
                  end
              | Store w v k =>
                  Some (mkG (lupd objs o (mkObj (o_code ob) (lupd (o_words ob) w v)))
                            (lupd busy i (Some (o, k))) log false)
              end
          | None => None
          end
      | _ => None
      end
  | Finish i =>
      match nth_error busy i with
      | Some (Some (o, Done v)) => Some (mkG objs (lupd busy i None) (log ++ [(i, o, v)]) false)
      | _ => None
      end
  end.
(** a schedule: the events of all goroutines in the order in which they happen *)
Fixpoint grun (s : gstate) (es : list event) : option gstate :=
  match es with
  | [] => Some s
  | e :: es => match gstep s e with Some s' => grun s' es | None => None end
  end.
(** n goroutines, none of which is in a call *)
Definition gstart (objs : list object) (n : nat) : gstate := mkG objs (repeat None n) [] false.
