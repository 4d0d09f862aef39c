(** Every client of a Source is a read program. *)
From Coq Require Import Bool.
From Verif Require Import Model.Base Model.Rng Model.Float Model.Distr Model.Ziggurat Model.ExpoNormal Model.Util Model.Utf8 Model.Api Spec.Common Spec.ReadProg.

(** for every choice of the compiler which x*y + z to fuse (Model/Fused.v) *)
Section Compiler.
Context {fpc : compiler}.

Definition prog {A} (f : forall W, reader W -> W -> outcome (A * W)) : Type := {c : read_program A | forall W (read : reader W) w, f W read w = run read c w}.
Lemma prog_is {A} (f : forall W, reader W -> W -> outcome (A * W)) : prog f -> is_read_program f.
Proof. intros [c H]. now exists c. Qed.
Fixpoint pbind {A B} (c : read_program A) (k : A -> read_program B) : read_program B :=
  match c with Gives a => k a | Panics => Panics | Hangs => Hangs | Reads n rest => Reads n (fun p m e => pbind (rest p m e) k) end.
Lemma run_pbind {A B W} (read : reader W) (c : read_program A) (k : A -> read_program B) : forall w, run read (pbind c k) w = let! (a, w) := run read c w in run read (k a) w.
Proof. induction c as [a| | |n rest IH]; intros w; cbn [pbind run bind]; try reflexivity. destruct (read w (zeros n)) as [[[[p m] e] w']| |]; cbn [bind]; try reflexivity. apply IH. Qed.
Lemma prog_ret {A} (a : A) : prog (fun W read w => Ret (a, w)). Proof. now exists (Gives a). Defined.
Lemma prog_panic {A} : prog (fun W read w => @Panic (A * W)). Proof. now exists Panics. Defined.
Lemma prog_fuel {A} : prog (fun W read w => @OutOfFuel (A * W)). Proof. now exists Hangs. Defined.
Lemma prog_bind {A B} (m : forall W, reader W -> W -> outcome (A * W)) (k : A -> forall W, reader W -> W -> outcome (B * W)) :
  prog m -> (forall a, prog (k a)) -> prog (fun W read w => let! (a, w) := m W read w in k a W read w).
Proof.
  intros [c Hc] K. exists (pbind c (fun a => proj1_sig (K a))). intros W read w. rewrite run_pbind, Hc. destruct (run read c w) as [[a w']| |]; cbn [bind]; try reflexivity. exact (proj2_sig (K a) W read w').
Defined.
Lemma prog_ext {A} (f g : forall W, reader W -> W -> outcome (A * W)) : (forall W read w, f W read w = g W read w) -> prog g -> prog f.
Proof. intros H [c Hc]. exists c. intros W read w. rewrite H. apply Hc. Defined.
Lemma prog_out {A B} (o : outcome A) (k : A -> forall W, reader W -> W -> outcome (B * W)) : (forall a, prog (k a)) -> prog (fun W read w => let! a := o in k a W read w).
Proof. intros K. destruct o as [a| |]; cbn [bind]; [apply K|apply prog_panic|apply prog_fuel]. Defined.
Lemma prog_if {A} (b : bool) (f g : forall W, reader W -> W -> outcome (A * W)) : prog f -> prog g -> prog (fun W read w => if b then f W read w else g W read w).
Proof. intros F G. destruct b; assumption. Defined.
Lemma prog_read {A} n (k : list N -> nat -> option goerr -> outcome A) : prog (fun W (read : reader W) w => let! ((p, m, e), w) := read w (zeros n) in let! a := k p m e in Ret (a, w)).
Proof.
  exists (Reads n (fun p m e => match k p m e with Ret a => Gives a | Panic => Panics | OutOfFuel => Hangs end)). intros W read w. cbn [run].
  destruct (read w (zeros n)) as [[[[p m] e] w']| |]; cbn [bind]; try reflexivity. now destruct (k p m e).
Defined.

Lemma prog_uint64 : prog (fun W => @RNG_Uint64 W). Proof. exact (prog_read 8 (fun p _ _ => get64 p 0)). Defined.
Lemma prog_uint32 : prog (fun W => @RNG_Uint32 W). Proof. exact (prog_read 4 (fun p _ _ => get_le 4 p)). Defined.
Lemma prog_uint16 : prog (fun W => @RNG_Uint16 W). Proof. exact (prog_read 2 (fun p _ _ => get_le 2 p)). Defined.
Lemma prog_uintn_loop ub bad fuel : prog (fun W (read : reader W) w => uintn_loop read fuel ub bad w).
Proof.
  induction fuel as [|fuel IH]; cbn [uintn_loop]; [apply prog_fuel|]. apply (prog_bind (fun W => @RNG_Uint64 W) (fun u W read w => let x := N.land u (N.ones ub) in if (bad <? x)%N then uintn_loop read fuel ub bad w else Ret (x, w))); [exact prog_uint64|].
  intros u. apply prog_if; [exact IH|apply prog_ret].
Defined.
Lemma prog_uintn fuel ub max : prog (fun W (read : reader W) w => RNG_Uintn read fuel ub max w).
Proof. unfold RNG_Uintn. apply prog_if; [apply prog_panic|]. cbv zeta. apply (prog_bind (fun W (read : reader W) w => uintn_loop read fuel ub _ w) (fun x W read w => Ret (_, w))); [apply prog_uintn_loop|intros; apply prog_ret]. Defined.
Lemma prog_intn fuel ub max : prog (fun W (read : reader W) w => RNG_Intn read fuel ub max w).
Proof. unfold RNG_Intn. apply prog_if; [apply prog_panic|]. apply (prog_bind (fun W (read : reader W) w => RNG_Uintn read fuel ub _ w) (fun x W read w => Ret (_, w))); [apply prog_uintn|intros; apply prog_ret]. Defined.
Lemma prog_big nbits : prog (fun W (read : reader W) w => RNG_Big read nbits w).
Proof.
  unfold RNG_Big, make_bytes. cbv zeta. destruct (_ <=? go_max_alloc)%N; cbn [bind]; [|apply prog_panic].
  eapply prog_ext; [|apply (prog_read (N.to_nat (shr64 (add64 (Z.to_N (nbits mod 2 ^ 64)) 7) 3)) (fun p _ _ => let! b := aget p 0 in let! p := aset p 0 (N.land b (N.shiftr 0xff (8 - N.land (Z.to_N (nbits mod 2 ^ 64)) 7))) in Ret (be_val p)))].
  intros W read w. cbv beta. destruct (read w _) as [[[[p m] e] w']| |]; cbn [bind]; try reflexivity. destruct (aget p 0); cbn [bind]; try reflexivity. now destruct (aset p 0 _).
Defined.
Lemma prog_bign_loop nbits k fuel : prog (fun W (read : reader W) w => bign_loop read fuel nbits k w).
Proof.
  induction fuel as [|fuel IH]; cbn [bign_loop]; [apply prog_fuel|]. apply (prog_bind (fun W (read : reader W) w => RNG_Big read nbits w) (fun x W read w => if (k <? x)%N then bign_loop read fuel nbits k w else Ret (x, w))); [apply prog_big|].
  intros x. apply prog_if; [exact IH|apply prog_ret].
Defined.
Lemma prog_bign fuel max : prog (fun W (read : reader W) w => RNG_Bign read fuel max w).
Proof. unfold RNG_Bign. apply prog_if; [apply prog_panic|]. cbv zeta. apply (prog_bind (fun W (read : reader W) w => bign_loop read fuel _ _ w) (fun x W read w => Ret (_, w))); [apply prog_bign_loop|intros; apply prog_ret]. Defined.
Lemma prog_uniform12 : prog (fun W => @Uniform1_2_Next W).
Proof.
  eapply prog_ext; [|exact (prog_read 7 (fun p _ _ => let! x := get64 (p ++ zeros 1) 0 in Ret (Float64frombits (N.lor x 0x3ff0000000000000))))].
  intros W read w. unfold Uniform1_2_Next. destruct (read w _) as [[[[p m] e] w']| |]; cbn [bind]; try reflexivity. now destruct (get64 _ 0).
Defined.
Lemma prog_uniform01 : prog (fun W => @Uniform0_1_Next W).
Proof.
  eapply prog_ext; [|exact (prog_read 8 (fun p _ _ => let! x := get64 p 0 in Ret (fmul (of_int (Z.of_N (N.land x 0x1fffffffffffff))) lit_scale)))].
  intros W read w. unfold Uniform0_1_Next. destruct (read w _) as [[[[p m] e] w']| |]; cbn [bind]; try reflexivity. now destruct (get64 _ 0).
Defined.
Lemma prog_uniform low high : prog (fun W (read : reader W) w => Uniform_Next read low high w).
Proof. unfold Uniform_Next. apply (prog_bind (fun W => @Uniform1_2_Next W) (fun x W read w => Ret (_, w))); [exact prog_uniform12|intros; apply prog_ret]. Defined.
Lemma prog_randstring_loop ub fuel a k : prog (fun W (read : reader W) w => randstring_loop read ub fuel k a w).
Proof.
  induction k as [|k IH]; cbn [randstring_loop]; [apply prog_ret|].
  apply (prog_bind (fun W (read : reader W) w => RNG_Uintn read fuel ub _ w) (fun i W read w => let! c := aget a (N.to_nat i) in let! (r, w) := randstring_loop read ub fuel k a w in Ret (c :: r, w))); [apply prog_uintn|].
  intros i. apply (prog_out (aget a (N.to_nat i)) (fun c W read w => let! (r, w) := randstring_loop read ub fuel k a w in Ret (c :: r, w))). intros c.
  apply (prog_bind (fun W (read : reader W) w => randstring_loop read ub fuel k a w) (fun r W read w => Ret (c :: r, w))); [exact IH|intros; apply prog_ret].
Defined.
Lemma prog_randstring ub fuel alphabet n : prog (fun W (read : reader W) w => RandString read ub fuel alphabet n w).
Proof.
  unfold RandString. eapply prog_bind with (m := fun W (read : reader W) w => RandRunes read ub fuel _ n w) (k := fun x W read w => Ret (_, w)); [|intros; apply prog_ret].
  unfold RandRunes. apply prog_if; [apply prog_panic|apply prog_randstring_loop].
Defined.
Lemma prog_shuffle_loop {D} ub (swap : D -> nat -> nat -> outcome D) fuel n k : forall i d, prog (fun W (read : reader W) w => shuffle_loop read ub swap fuel k i n d w).
Proof.
  induction k as [|k IH]; intros i d; cbn [shuffle_loop]; [apply prog_ret|].
  apply (prog_bind (fun W (read : reader W) w => RNG_Uintn read fuel ub _ w) (fun j W read w => let! d := swap d i (N.to_nat j) in shuffle_loop read ub swap fuel k (S i) n d w)); [apply prog_uintn|].
  intros j. apply (prog_out (swap d i (N.to_nat j)) (fun d W read w => shuffle_loop read ub swap fuel k (S i) n d w)). intros d'. apply IH.
Defined.
Lemma prog_shuffle {D} ub len (swap : D -> nat -> nat -> outcome D) fuel d : prog (fun W (read : reader W) w => Shuffle read ub len swap fuel d w).
Proof. apply prog_shuffle_loop. Defined.
Lemma prog_shuffle_slice {A} ub fuel (d : list A) : prog (fun W (read : reader W) w => ShuffleSlice read ub fuel d w).
Proof.
  unfold ShuffleSlice. generalize (length d) 0%nat. intros n. revert d. induction n as [|n IH]; intros d i; cbn [shuffle_slice_loop]; [apply prog_ret|].
  apply (prog_bind (fun W (read : reader W) w => RNG_Intn read fuel ub _ w) (fun k W read w => let! d := slice_swap d i (Z.to_nat k) in shuffle_slice_loop read ub fuel n (S i) d w)); [apply prog_intn|].
  intros k. apply (prog_out (slice_swap d i (Z.to_nat k)) (fun d W read w => shuffle_slice_loop read ub fuel n (S i) d w)). intros d'. apply IH.
Defined.
(** a ziggurat whose Tail is a read program *)
Lemma prog_gennext pdf tail mir K Wt F fuel : prog tail -> prog (fun W (read : reader W) w => GenNext read {| zPDF := pdf; zTail := tail W read; zMirrored := mir; zK := K; zW := Wt; zF := F |} fuel w).
Proof.
  intros T. induction fuel as [|fuel IH]; cbn [GenNext zPDF zTail zMirrored zK zW zF]; [apply prog_fuel|].
  eapply prog_bind with (m := fun W => @RNG_Uint64 W); [exact prog_uint64|]. intros u. cbv zeta.
  eapply prog_out. intros k. eapply prog_if.
  - eapply (prog_out _ (fun wi W (read : reader W) w => Ret (_, w))). intros wi. apply prog_ret.
  - eapply prog_if.
    + eapply prog_out. intros wi. eapply prog_out. intros fi. eapply prog_bind with (m := fun W => @Uniform0_1_Next W); [exact prog_uniform01|]. intros y. eapply prog_out. intros fp. eapply prog_if; [apply prog_ret|exact IH].
    + eapply prog_bind; [exact T|]. intros x. eapply prog_if; apply prog_ret.
Defined.
Lemma prog_exponential math_exp math_log rate fuel : prog (fun W (read : reader W) w => Exponential_Next read math_exp math_log rate fuel w).
Proof.
  unfold Exponential_Next. apply (prog_bind (fun W (read : reader W) w => GenNext read (expoZig read math_exp math_log) fuel w) (fun x W read w => Ret (_, w))); [|intros; apply prog_ret].
  unfold expoZig. apply (prog_gennext _ (fun W read => expoTail read math_log)). unfold expoTail. apply (prog_bind (fun W => @Uniform0_1_Next W) (fun x W read w => Ret (_, w))); [exact prog_uniform01|intros; apply prog_ret].
Defined.
Lemma prog_normal_tail math_log fuel : prog (fun W (read : reader W) w => normalTail read math_log fuel w).
Proof.
  induction fuel as [|fuel IH]; cbn [normalTail]; [apply prog_fuel|]. eapply prog_bind with (m := fun W => @Uniform0_1_Next W); [exact prog_uniform01|]. intros u. cbv zeta.
  eapply prog_bind with (m := fun W => @Uniform0_1_Next W); [exact prog_uniform01|]. intros v. eapply prog_if; [apply prog_ret|exact IH].
Defined.
Lemma prog_normal math_exp math_log mean sd tf fuel : prog (fun W (read : reader W) w => Normal_Next read math_exp math_log mean sd tf fuel w).
Proof.
  unfold Normal_Next. apply (prog_bind (fun W (read : reader W) w => GenNext read (normalZig read math_exp math_log tf) fuel w) (fun x W read w => Ret (_, w))); [|intros; apply prog_ret].
  unfold normalZig. apply (prog_gennext _ (fun W read => normalTail read math_log tf)). apply prog_normal_tail.
Defined.
End Compiler.
