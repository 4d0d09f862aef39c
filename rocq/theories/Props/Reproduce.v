(** C71: what is drawn from a restored or reseeded generator is reproduced exactly, whatever is drawn. *)
From Coq Require Import Lia Bool.
From Flocq Require Import Core BinarySingleNaN.
From Verif Require Import Model.Base Model.Rng Model.Util Model.Utf8 Model.Float Model.Distr Model.Ziggurat Model.ExpoNormal Model.Xoshiro Model.Api Spec.Common Spec.States Spec.Kinds Spec.ReadProg.
From Verif Require Import Proofs.WordLemmas Proofs.ReadProofs Proofs.SaveProofs Proofs.KindProofs Proofs.ReadProgs Props.Gens.

(** for every choice of the compiler which x*y + z to fuse (Model/Fused.v) *)
Section Compiler.
Context {fpc : compiler}.

(** all that RNG, the distributions and the utilities do to their Source is to Read from it *)
Theorem C71_clients fuel ub max imax nbits bmax low high alphabet n math_exp math_log rate mean sd tf :
  is_read_program (fun W => @RNG_Uint64 W) /\ is_read_program (fun W => @RNG_Uint32 W) /\ is_read_program (fun W => @RNG_Uint16 W) /\
  is_read_program (fun W read => RNG_Uintn read fuel ub max) /\ is_read_program (fun W read => RNG_Intn read fuel ub imax) /\
  is_read_program (fun W read => RNG_Big read nbits) /\ is_read_program (fun W read => RNG_Bign read fuel bmax) /\
  is_read_program (fun W => @Uniform0_1_Next W) /\ is_read_program (fun W => @Uniform1_2_Next W) /\ is_read_program (fun W read => Uniform_Next read low high) /\
  is_read_program (fun W read => Exponential_Next read math_exp math_log rate fuel) /\ is_read_program (fun W read => Normal_Next read math_exp math_log mean sd tf fuel) /\
  is_read_program (fun W read => RandString read ub fuel alphabet n).
Proof.
  repeat split; apply prog_is;
    [exact prog_uint64|exact prog_uint32|exact prog_uint16|apply prog_uintn|apply prog_intn|apply prog_big|apply prog_bign|exact prog_uniform01|exact prog_uniform12|apply prog_uniform|apply prog_exponential|apply prog_normal|apply prog_randstring].
Qed.
Theorem C71_shuffles {A D} ub fuel (d : list A) len (swap : D -> nat -> nat -> outcome D) data :
  is_read_program (fun W read => ShuffleSlice read ub fuel d) /\ is_read_program (fun W read => Shuffle read ub len swap fuel data).
Proof. split; apply prog_is; [apply prog_shuffle_slice|apply prog_shuffle]. Qed.
(** a user's ziggurat, if its Tail only Reads from the source it is given *)
Theorem C71_ziggurat pdf tail mir K Wt F fuel : is_read_program tail ->
  is_read_program (fun W read => GenNext read {| zPDF := pdf; zTail := tail W read; zMirrored := mir; zK := K; zW := Wt; zF := F |} fuel).
Proof. intros [c H]. apply prog_is, prog_gennext. now exists c. Qed.

(** Two sources that answer equal Reads equally, and go on doing so, are the same to every program. *)
Definition agree {A W1 W2} (R : W1 -> W2 -> Prop) (x : outcome (A * W1)) (y : outcome (A * W2)) : Prop :=
  match x, y with Ret (a, s), Ret (b, t) => a = b /\ R s t | Panic, Panic => True | OutOfFuel, OutOfFuel => True | _, _ => False end.
Theorem C71_equal_sources {W1 W2} (read1 : reader W1) (read2 : reader W2) (R : W1 -> W2 -> Prop) :
  (forall s t n, R s t -> agree R (read1 s (zeros n)) (read2 t (zeros n))) ->
  forall A (c : read_program A) s t, R s t -> agree R (run read1 c s) (run read2 c t).
Proof.
  intros H A c. induction c as [a| | |n rest IH]; intros s t Rst; cbn [run]; try exact I; [split; [reflexivity|exact Rst]|].
  specialize (H s t n Rst). destruct (read1 s (zeros n)) as [[[[p m] e] s']| |], (read2 t (zeros n)) as [[[[p' m'] e'] t']| |]; cbn [agree] in H; try contradiction; cbn [bind]; try exact I.
  destruct H as [E R']. injection E as <- <- <-. now apply IH.
Qed.

(** the two objects agree on everything a program does with them: now with program c, and afterwards under any calls *)
Definition reproduced (k : gen) (s s' : state k) : Prop := forall A (c : read_program A),
  (forall v t, run (a_Read (methods k)) c s = Ret (v, t) -> exists t', run (a_Read (methods k)) c s' = Ret (v, t') /\
     forall os, Forall op_ok os -> exists bs u u', exec_all (methods k) t os = Ret (bs, u) /\ exec_all (methods k) t' os = Ret (bs, u')) /\
  (run (a_Read (methods k)) c s = Panic <-> run (a_Read (methods k)) c s' = Panic).
Lemma same_read k s t n : same k s t -> agree (same k) (a_Read (methods k) s (zeros n)) (a_Read (methods k) t (zeros n)).
Proof.
  intros S. destruct (same_exec k s t (OpRead (zeros n)) S (zeros_isbyte n)) as (b & s' & t' & E1 & E2 & S'). cbn [exec] in E1, E2.
  destruct (a_Read (methods k) s (zeros n)) as [[[[p m] e] s1]| |]; cbn [bind] in E1; try discriminate E1. destruct (a_Read (methods k) t (zeros n)) as [[[[p' m'] e'] t1]| |]; cbn [bind] in E2; try discriminate E2.
  injection E1 as E1 E1'. injection E2 as E2 E2'. subst s' t'. cbn [agree]. split; [|exact S']. rewrite <- E1 in E2. injection E2 as -> -> ->. reflexivity.
Qed.
Lemma same_reproduced k s s' : same k s s' -> reproduced k s s'.
Proof.
  intros S A c. pose proof (C71_equal_sources (a_Read (methods k)) (a_Read (methods k)) (same k) (fun a b n => same_read k a b n) A c s s' S) as G. split.
  - intros v t E. rewrite E in G. cbn [agree] in G. destruct (run _ c s') as [[v' t']| |]; try contradiction. destruct G as [<- St]. exists t'. split; [reflexivity|].
    intros os Ho. destruct (same_exec_all k os t t' St Ho) as (bs & u & u' & E1 & E2 & _). eauto.
  - destruct (run _ c s) as [[]| |], (run _ c s') as [[]| |]; cbn [agree] in G; try contradiction; split; discriminate || reflexivity.
Qed.
Theorem C71_restored k s : reachable k s -> exists bytes,
  (forall W (write : writer W) w, a_Save (methods k) write s w = write w bytes) /\
  (forall W (read : reader W) w w' h, reachable k h -> read w (zeros (saved_size k)) = Ret ((bytes, saved_size k, None), w') ->
     exists s', a_Restore (methods k) read h w = Ret ((saved_size k, None), s', w') /\ reproduced k s s').
Proof.
  intros H. apply reachable_inv in H. exists (saved k s). split; [intros W write w; now apply save_spec|].
  intros W read w w' h Hh E. apply reachable_inv in Hh. destruct (restore_saved k read s h w w' H Hh E) as (s' & E' & S'). exists s'. split; [exact E'|]. now apply same_reproduced.
Qed.
(** the program Uintn(100), on a Xoshiro in state (1,2,3,4), returns 20: so it does on any Xoshiro restored from it *)
Example C71_nonvacuous : reachable gXoshiro (mkXoshi 1 2 3 4) /\ exists (c : read_program N) t, (forall W (read : reader W) w, RNG_Uintn read 1 64 100 w = run read c w) /\
  run (a_Read (methods gXoshiro)) c (mkXoshi 1 2 3 4) = Ret (20%N, t).
Proof.
  split; [apply C00_xoshiro_all_states_reachable; repeat split; reflexivity|]. destruct (prog_uintn 1 64 100) as [c Hc]. exists c. eexists. split; [exact Hc|]. rewrite <- Hc. vm_compute. reflexivity.
Qed.
End Compiler.
