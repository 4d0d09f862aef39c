(** util.go:191-223: Yield and YieldUint64, as a goroutine running next to any number of others.

    The goroutine's code is given as data ([Yield_code]); [step] is the meaning Go gives to
    [for { select { ... } }] and to channel operations (Go specification, "Select statements", "Send
    statements", "Receive operator", "Close"). Interleaving semantics: one communication at a time.
    Everything the other goroutines of the program can do to the two channels is an action too. *)
From Verif Require Import Model.Base Model.Rng.

(** ** Channels: the parameters over and quit of util.go:194, 209 *)
Record chan (A : Type) := mkChan {
  c_cap : nat;             (* make(chan A, c_cap) *)
  c_buf : list A;          (* oldest first *)
  c_closed : bool
}.
Arguments mkChan {A}. Arguments c_cap {A}. Arguments c_buf {A}. Arguments c_closed {A}.
(** a send can use the buffer (Go specification, behind util.go:198, 213) *)
Definition c_room {A} (c : chan A) : bool := (length (c_buf c) <? c_cap c)%nat && negb (c_closed c).
(** a value enters the buffer *)
Definition c_push {A} (c : chan A) (v : A) : chan A := mkChan (c_cap c) (c_buf c ++ [v]) (c_closed c).
(** the oldest value leaves the buffer *)
Definition c_pop {A} (c : chan A) : chan A := mkChan (c_cap c) (tl (c_buf c)) (c_closed c).
(** close(c), by the user of util.go:221-223 *)
Definition c_close {A} (c : chan A) : chan A := mkChan (c_cap c) (c_buf c) true.
(** the buffer is empty *)
Definition is_nil {A} (l : list A) : bool := match l with [] => true | _ => false end.
(** a sender and a receiver can meet without the buffer: it is empty and the channel is open *)
Definition c_meet {A} (c : chan A) : bool := is_nil (c_buf c) && negb (c_closed c).

(** ** The code: the cases of the select of util.go:197-201, 212-216 *)
Inductive comm := SendNext      (* case over <- from.Next(): *)
                | RecvQuit.     (* case <-quit: *)
(** what follows a case: util.go:198-200, 213-215 *)
Inductive branch := Fallout     (* empty case body: leaves the select, the for loop goes on *)
                  | Return.     (* return *)
(** util.go:195-203 and 210-218: the cases of the select, in source order *)
Definition Yield_code : list (comm * branch) := [(SendNext, Fallout); (RecvQuit, Return)].
(** util.go:212-216 *)
Definition YieldUint64_code : list (comm * branch) := [(SendNext, Fallout); (RecvQuit, Return)].

(** ** States *)
(** a case after the select was entered: "the right-hand-side expressions of send statements are
    evaluated exactly once, in source order, upon entering the select statement" *)
Inductive ready (A : Type) := RSend (v : A) | RRecv.
Arguments RSend {A}. Arguments RRecv {A}.
(** where the goroutine of util.go:195-203 or 210-218 is *)
Inductive phase (A : Type) :=
| Looping                                        (* at the top of the for loop *)
| Waiting (cases : list (ready A * branch))      (* in the select *)
| Ended                                          (* the goroutine returned *)
| Crashed.                                       (* it panicked, which ends the whole program *)
Arguments Looping {A}. Arguments Waiting {A}. Arguments Ended {A}. Arguments Crashed {A}.

(** Values in the channel carry a ghost tag: [true] if sent by this goroutine. [y_got] is the ghost
    history of all values received from [over] by all consumers, in order. *)
Record ystate (W A : Type) := mkY {
  y_src : W;
  y_phase : phase A;
  y_over : option (chan (bool * A));       (* None: nil channel *)
  y_quit : option (chan unit);
  y_got : list (bool * A)
}.
Arguments mkY {W A}. Arguments y_src {W A}. Arguments y_phase {W A}. Arguments y_over {W A}.
Arguments y_quit {W A}. Arguments y_got {W A}.

(** what can happen next (Go memory and channel semantics, behind util.go:195-203, 210-218) *)
Inductive action (A : Type) :=
(* the goroutine *)
| Enter                     (* evaluates the operands of the select *)
| Proceed (i : nat)         (* completes case i using the buffer, or because the channel is closed *)
| ProceedWith (i : nat)     (* completes case i together with another goroutine that waits there *)
(* the other goroutines *)
| Consume                   (* one receives from over's buffer *)
| OtherSend (v : A)         (* another one sends v on over, into the buffer *)
| OtherPass (v : A)         (* another one sends v on over, a waiting consumer takes it *)
| CloseOver
| QuitSend                  (* one sends on quit, into the buffer *)
| QuitTake                  (* another one receives from quit's buffer *)
| CloseQuit.
Arguments Enter {A}. Arguments Proceed {A}. Arguments ProceedWith {A}. Arguments Consume {A}.
Arguments OtherSend {A}. Arguments OtherPass {A}. Arguments CloseOver {A}. Arguments QuitSend {A}.
Arguments QuitTake {A}. Arguments CloseQuit {A}.

Section Step.
  Context {W A : Type}.
  Variable next : W -> outcome (A * W).    (* from.Next() *)
  Variable code : list (comm * branch).

  (** entering the select of util.go:197 or 212: from.Next() or from.Uint64() is evaluated, once per send case *)
  Fixpoint enter_select (cs : list (comm * branch)) (w : W) : outcome (list (ready A * branch) * W) :=
    match cs with
    | [] => Ret ([], w)
    | (SendNext, b) :: cs =>
        let! (v, w) := next w in
        let! (r, w) := enter_select cs w in
        Ret ((RSend v, b) :: r, w)
    | (RecvQuit, b) :: cs =>
        let! (r, w) := enter_select cs w in
        Ret ((RRecv, b) :: r, w)
    end.

  (** leaving the select: util.go:198-200 *)
  Definition after (b : branch) : phase A := match b with Fallout => Looping | Return => Ended end.

  (** [None]: the action is not possible in this state. Other goroutines are assumed not to panic on the
      channels themselves (send on or close of a closed channel, close of nil). *)
  Definition step (s : ystate W A) (a : action A) : option (ystate W A) :=
    let '(mkY w ph over quit got) := s in
    match ph with
    | Crashed => None
    | _ =>
      match a with
      | Enter =>
          match ph with
          | Looping => match enter_select code w with
                       | Ret (cs, w') => Some (mkY w' (Waiting cs) over quit got)
                       | Panic => Some (mkY w Crashed over quit got)
                       | OutOfFuel => None      (* Next does not return *)
                       end
          | _ => None
          end
      | Proceed i =>
          match ph with
          | Waiting cs =>
              match nth_error cs i with
              | Some (RSend v, b) =>
                  match over with
                  | Some c =>
                      if c_closed c then Some (mkY w Crashed over quit got)   (* send on closed channel *)
                      else if c_room c then Some (mkY w (after b) (Some (c_push c (true, v))) quit got)
                      else None
                  | None => None
                  end
              | Some (RRecv, b) =>
                  match quit with
                  | Some q =>
                      if is_nil (c_buf q) then
                        if c_closed q then Some (mkY w (after b) over quit got) else None
                      else Some (mkY w (after b) over (Some (c_pop q)) got)
                  | None => None
                  end
              | None => None
              end
          | _ => None
          end
      | ProceedWith i =>
          match ph with
          | Waiting cs =>
              match nth_error cs i with
              | Some (RSend v, b) =>
                  match over with
                  | Some c => if c_meet c then Some (mkY w (after b) over quit (got ++ [(true, v)])) else None
                  | None => None
                  end
              | Some (RRecv, b) =>
                  match quit with
                  | Some q => if c_meet q then Some (mkY w (after b) over quit got) else None
                  | None => None
                  end
              | None => None
              end
          | _ => None
          end
      | Consume =>
          match over with
          | Some c => match c_buf c with
                      | v :: _ => Some (mkY w ph (Some (c_pop c)) quit (got ++ [v]))
                      | [] => None
                      end
          | None => None
          end
      | OtherSend v =>
          match over with
          | Some c => if c_room c then Some (mkY w ph (Some (c_push c (false, v))) quit got) else None
          | None => None
          end
      | OtherPass v =>
          match over with
          | Some c => if c_meet c then Some (mkY w ph over quit (got ++ [(false, v)])) else None
          | None => None
          end
      | CloseOver =>
          match over with
          | Some c => if c_closed c then None else Some (mkY w ph (Some (c_close c)) quit got)
          | None => None
          end
      | QuitSend =>
          match quit with
          | Some q => if c_room q then Some (mkY w ph over (Some (c_push q tt)) got) else None
          | None => None
          end
      | QuitTake =>
          match quit with
          | Some q => if is_nil (c_buf q) then None else Some (mkY w ph over (Some (c_pop q)) got)
          | None => None
          end
      | CloseQuit =>
          match quit with
          | Some q => if c_closed q then None else Some (mkY w ph over (Some (c_close q)) got)
          | None => None
          end
      end
    end.

  (** a schedule: the actions of all goroutines, in the order in which they happen *)
  Fixpoint run (s : ystate W A) (acts : list (action A)) : option (ystate W A) :=
    match acts with
    | [] => Some s
    | a :: acts => match step s a with Some s' => run s' acts | None => None end
    end.
  (** the state when the goroutine starts; what is in [over] already was sent by others *)
  Definition start (w : W) (over : option (chan A)) (quit : option (chan unit)) : ystate W A :=
    mkY w Looping
      (option_map (fun c => mkChan (c_cap c) (map (fun v => (false, v)) (c_buf c)) (c_closed c)) over)
      quit [].
End Step.

(** util.go:194-204, [next] being from.Next *)
Definition Yield {W A} (next : W -> outcome (A * W)) := run next Yield_code.
(** util.go:209-219 *)
Definition YieldUint64 {W} (read : reader W) := run (RNG_Uint64 read) YieldUint64_code.
