(** Goroutines that share generators: single calls, calls that do not overlap, and schedules of two. *)
From Coq Require Import Lia ZifyN ZifyNat ZifyBool.
From Verif Require Import Model.Base Model.Lfg Model.Mt64 Model.Xoroshiro Model.Xoshiro Model.Api Model.Shared.
From Verif Require Import Spec.Common Spec.States Spec.Kinds Spec.Sharing.
From Verif Require Import Proofs.WordLemmas Proofs.KindProofs Proofs.LfgProofs Proofs.MtSeed.
Local Open Scope nat_scope.

(** ** A call that nobody disturbs *)
Fixpoint alone (c : code N) (m : list N) : outcome (N * list N) :=
  match c with
  | Done a => Ret (a, m)
  | Fail => Panic
  | Load w k => match nth_error m w with Some v => alone (k v) m | None => OutOfFuel end
  | Store w v k => alone k (lupd m w v)
  end.

Lemma alone_load_at base len i k m h s : base = length h -> m = h ++ s -> len = length s ->
  alone (load_at base len i k) m = let! v := aget s (N.to_nat i) in alone (k v) m.
Proof.
  intros -> -> ->. unfold load_at, aget. destruct (N.ltb_spec i (N.of_nat (length s))) as [L|L].
  - cbn [alone]. rewrite nth_error_app2 by lia. replace (length h + N.to_nat i - length h) with (N.to_nat i) by lia.
    destruct (nth_error s (N.to_nat i)) eqn:E; [reflexivity|]. apply nth_error_None in E. lia.
  - cbn [alone]. destruct (nth_error s (N.to_nat i)) eqn:E; [|reflexivity].
    assert (N.to_nat i < length s) by (apply nth_error_Some; congruence). lia.
Qed.
Lemma lupd_app2 {A} (h s : list A) i v : lupd (h ++ s) (length h + i) v = h ++ lupd s i v.
Proof. induction h; cbn; [reflexivity|]. now f_equal. Qed.
Lemma alone_store_at base len i v k m h s : base = length h -> m = h ++ s -> len = length s ->
  alone (store_at base len i v k) m = let! s' := aset s (N.to_nat i) v in alone k (h ++ s').
Proof.
  intros -> -> ->. unfold store_at, aset.
  destruct (N.ltb_spec i (N.of_nat (length s))); destruct (Nat.ltb_spec (N.to_nat i) (length s)); try lia.
  - cbn [alone bind]. now rewrite lupd_app2.
  - reflexivity.
Qed.

Lemma alone_xoro r s : alone (Xoroshiro_acc_to r) (Xoroshiro_words s) =
  Ret (r (fst (Xoroshiro_next s)), Xoroshiro_words (snd (Xoroshiro_next s))).
Proof. destruct s. reflexivity. Qed.
Lemma alone_xoshi s : alone Xoshiro_acc (Xoshiro_words s) =
  Ret (fst (Xoshiro_next s), Xoshiro_words (snd (Xoshiro_next s))).
Proof. destruct s. reflexivity. Qed.
Lemma alone_lfg g : length (ls g) = 607 ->
  alone LFG_acc (LFG_words g) = let! (x, g') := LFG_Uint64 g in Ret (x, LFG_words g').
Proof.
  intros L. destruct g as [f t s]. cbn [ls] in L. unfold LFG_acc, LFG_words, LFG_Uint64. cbn [lf lt ls].
  cbn [alone nth_error]. rewrite (alone_load_at 2 lfgK _ _ _ [N.of_nat f; N.of_nat t] s) by (reflexivity || now symmetry).
  rewrite Nat2N.id. destruct (aget s f) as [a| |] eqn:Ea; cbn [bind]; [|reflexivity|reflexivity].
  cbn [alone nth_error]. rewrite (alone_load_at 2 lfgK _ _ _ [N.of_nat f; N.of_nat t] s) by (reflexivity || now symmetry).
  rewrite Nat2N.id. destruct (aget s t) as [b| |] eqn:Eb; cbn [bind]; [|reflexivity|reflexivity].
  cbn [alone nth_error lupd].
  destruct (N.leb_spec (N.of_nat lfgK) (N.of_nat f + 1)); destruct (Nat.leb_spec lfgK (S f)); try lia;
    cbn [alone nth_error lupd].
  - rewrite (alone_store_at 2 lfgK _ _ _ _ [0%N; (N.of_nat t + 1)%N] s) by (reflexivity || now symmetry).
    change (N.to_nat 0) with 0. destruct (aset s 0 (add64 a b)); cbn [bind]; [|reflexivity|reflexivity].
    cbn [alone app lf lt ls]. do 3 f_equal. f_equal. lia.
  - destruct (N.leb_spec (N.of_nat lfgK) (N.of_nat t + 1)); destruct (Nat.leb_spec lfgK (S t)); try lia;
      cbn [alone nth_error lupd].
    + rewrite (alone_store_at 2 lfgK _ _ _ _ [(N.of_nat f + 1)%N; 0%N] s) by (reflexivity || now symmetry).
      replace (N.to_nat (N.of_nat f + 1)) with (S f) by lia.
      destruct (aset s (S f) (add64 a b)); cbn [bind]; [|reflexivity|reflexivity].
      cbn [alone app lf lt ls]. do 2 f_equal. f_equal. lia.
    + rewrite (alone_store_at 2 lfgK _ _ _ _ [(N.of_nat f + 1)%N; (N.of_nat t + 1)%N] s) by (reflexivity || now symmetry).
      replace (N.to_nat (N.of_nat f + 1)) with (S f) by lia.
      destruct (aset s (S f) (add64 a b)); cbn [bind]; [|reflexivity|reflexivity].
      cbn [alone app lf lt ls]. do 2 f_equal. f_equal; [lia|]. f_equal. lia.
Qed.
Lemma aset_length {A} (s : list A) i v s' : aset s i v = Ret s' -> length s' = length s.
Proof. unfold aset. destruct (_ <? _); [|discriminate]. intros E. injection E as <-. apply lupd_length. Qed.
Lemma mt_loop1_length k : forall i s s', mt_loop1 k i s = Ret s' -> length s' = length s.
Proof.
  induction k as [|k IH]; intros i s s' E; cbn [mt_loop1] in E; [now injection E as <-|].
  destruct (aget s i); try discriminate; cbn [bind] in E. destruct (aget s (i + 1)); try discriminate; cbn [bind] in E.
  destruct (aget s (i + mt64M)); try discriminate; cbn [bind] in E.
  destruct (aset s i _) eqn:Es; try discriminate; cbn [bind] in E. apply IH in E. apply aset_length in Es. congruence.
Qed.
Lemma mt_loop2_length k : forall i s s', mt_loop2 k i s = Ret s' -> length s' = length s.
Proof.
  induction k as [|k IH]; intros i s s' E; cbn [mt_loop2] in E; [now injection E as <-|].
  destruct (aget s i); try discriminate; cbn [bind] in E. destruct (aget s (i + 1)); try discriminate; cbn [bind] in E.
  destruct (aget s (i - (mt64N - mt64M))); try discriminate; cbn [bind] in E.
  destruct (aset s i _) eqn:Es; try discriminate; cbn [bind] in E. apply IH in E. apply aset_length in Es. congruence.
Qed.
Lemma alone_mt1 k rest h : length h = 1 -> forall i s, length s = 312 ->
  alone (mt_acc1 k i rest) (h ++ s) = let! s' := mt_loop1 k i s in alone rest (h ++ s').
Proof.
  intros H. induction k as [|k IH]; intros i s L; [reflexivity|]. cbn [mt_acc1 mt_loop1].
  rewrite (alone_load_at 1 mt64N _ _ _ h s) by (reflexivity || now symmetry). rewrite Nat2N.id.
  destruct (aget s i); cbn [bind]; [|reflexivity|reflexivity].
  rewrite (alone_load_at 1 mt64N _ _ _ h s) by (reflexivity || now symmetry). rewrite Nat2N.id.
  destruct (aget s (i + 1)); cbn [bind]; [|reflexivity|reflexivity].
  rewrite (alone_load_at 1 mt64N _ _ _ h s) by (reflexivity || now symmetry). rewrite Nat2N.id.
  destruct (aget s (i + mt64M)); cbn [bind]; [|reflexivity|reflexivity].
  rewrite (alone_store_at 1 mt64N _ _ _ _ h s) by (reflexivity || now symmetry). rewrite Nat2N.id.
  destruct (aset s i _) eqn:Es; cbn [bind]; [|reflexivity|reflexivity].
  apply IH. apply aset_length in Es. congruence.
Qed.
Lemma alone_mt2 k rest h : length h = 1 -> forall i s, length s = 312 ->
  alone (mt_acc2 k i rest) (h ++ s) = let! s' := mt_loop2 k i s in alone rest (h ++ s').
Proof.
  intros H. induction k as [|k IH]; intros i s L; [reflexivity|]. cbn [mt_acc2 mt_loop2].
  rewrite (alone_load_at 1 mt64N _ _ _ h s) by (reflexivity || now symmetry). rewrite Nat2N.id.
  destruct (aget s i); cbn [bind]; [|reflexivity|reflexivity].
  rewrite (alone_load_at 1 mt64N _ _ _ h s) by (reflexivity || now symmetry). rewrite Nat2N.id.
  destruct (aget s (i + 1)); cbn [bind]; [|reflexivity|reflexivity].
  rewrite (alone_load_at 1 mt64N _ _ _ h s) by (reflexivity || now symmetry). rewrite Nat2N.id.
  destruct (aget s (i - (mt64N - mt64M))); cbn [bind]; [|reflexivity|reflexivity].
  rewrite (alone_store_at 1 mt64N _ _ _ _ h s) by (reflexivity || now symmetry). rewrite Nat2N.id.
  destruct (aset s i _) eqn:Es; cbn [bind]; [|reflexivity|reflexivity].
  apply IH. apply aset_length in Es. congruence.
Qed.
Lemma alone_regen rest i s : length s = 312 ->
  alone (mt_acc_regen rest) (i :: s) = let! s' := mt_regen s in alone rest (0%N :: s').
Proof.
  intros L. unfold mt_acc_regen, mt_regen. change (i :: s) with ([i] ++ s).
  rewrite alone_mt1 by (reflexivity || exact L). destruct (mt_loop1 _ _ s) as [s1| |] eqn:E1; cbn [bind]; [|reflexivity|reflexivity].
  apply mt_loop1_length in E1. rewrite alone_mt2 by (reflexivity || congruence).
  destruct (mt_loop2 _ _ s1) as [s2| |] eqn:E2; cbn [bind]; [|reflexivity|reflexivity].
  apply mt_loop2_length in E2. assert (L2 : mt64N = length s2) by (unfold mt64N; congruence).
  rewrite (alone_load_at 1 mt64N _ _ _ [i] s2) by (reflexivity || exact L2). rewrite Nat2N.id.
  destruct (aget s2 (mt64N - 1)); cbn [bind]; [|reflexivity|reflexivity].
  rewrite (alone_load_at 1 mt64N _ _ _ [i] s2) by (reflexivity || exact L2). change (N.to_nat 0) with 0.
  destruct (aget s2 0); cbn [bind]; [|reflexivity|reflexivity].
  rewrite (alone_load_at 1 mt64N _ _ _ [i] s2) by (reflexivity || exact L2). rewrite Nat2N.id.
  destruct (aget s2 (mt64M - 1)); cbn [bind]; [|reflexivity|reflexivity].
  rewrite (alone_store_at 1 mt64N _ _ _ _ [i] s2) by (reflexivity || exact L2). rewrite Nat2N.id.
  destruct (aset s2 _ _); reflexivity.
Qed.
Lemma alone_out i s : length s = 312 ->
  alone mt_acc_out (i :: s) = let! x := aget s (N.to_nat i) in Ret (mt_temper x, (i + 1)%N :: s).
Proof.
  intros L. unfold mt_acc_out. cbn [alone nth_error].
  rewrite (alone_load_at 1 mt64N _ _ _ [i] s) by (reflexivity || now symmetry).
  destruct (aget s (N.to_nat i)); reflexivity.
Qed.
Lemma mt_regen_length s s' : mt_regen s = Ret s' -> length s' = length s.
Proof.
  unfold mt_regen. destruct (mt_loop1 _ _ s) as [s1| |] eqn:E1; cbn [bind]; try discriminate.
  destruct (mt_loop2 _ _ s1) as [s2| |] eqn:E2; cbn [bind]; try discriminate.
  destruct (aget s2 (mt64N - 1)); cbn [bind]; try discriminate. destruct (aget s2 0); cbn [bind]; try discriminate.
  destruct (aget s2 (mt64M - 1)); cbn [bind]; try discriminate. intros E3.
  apply mt_loop1_length in E1. apply mt_loop2_length in E2. apply aset_length in E3. congruence.
Qed.
Lemma alone_mt g : length (ms g) = 312 ->
  alone MT64_acc (MT64_words g) = let! (x, g') := MT64_Uint64 g in Ret (x, MT64_words g').
Proof.
  intros L. destruct g as [i s]. cbn [ms] in L. unfold MT64_acc, MT64_words, MT64_Uint64. cbn [mi ms].
  cbn [alone nth_error]. destruct (N.leb_spec (N.of_nat mt64N) i).
  - rewrite alone_regen by exact L. destruct (mt_regen s) as [s'| |] eqn:E; cbn [bind mi ms]; [|reflexivity|reflexivity].
    apply mt_regen_length in E. rewrite alone_out by congruence.
    change (N.to_nat 0) with 0. destruct (aget s' 0); reflexivity.
  - cbn [bind mi ms]. rewrite alone_out by exact L. destruct (aget s (N.to_nat i)); reflexivity.
Qed.
(** the methods as sequences of accesses are the methods *)
Lemma alone_call k s : any_value k s ->
  alone (accesses k) (words k s) = let! (x, s') := a_Uint64 (methods k) s in Ret (x, words k s').
Proof.
  destruct k; cbn [any_value accesses words methods a_Uint64 apiLFG apiMT64 apiXoroshiro apiRexoroshiro apiXoshiro]; intros H.
  - apply alone_lfg, H.
  - apply alone_mt, H.
  - apply (alone_xoro (fun x => x)).
  - apply (alone_xoro rev_bytes64).
  - rewrite alone_xoshi. unfold Xoshiro_Uint64. cbn [bind]. now destruct (Xoshiro_next s).
Qed.

(** ** Lists *)
Lemma nth_error_lupd {A} (l : list A) i v j : nth_error (lupd l i v) j =
  if (j =? i) && (j <? length l) then Some v else nth_error l j.
Proof.
  revert i j. induction l as [|a l IH]; intros [|i] [|j]; cbn; try reflexivity.
  - now rewrite Bool.andb_false_r.
  - rewrite IH. reflexivity.
Qed.
Lemma nth_error_lupd_eq {A} (l : list A) i v w : nth_error l i = Some w -> nth_error (lupd l i v) i = Some v.
Proof.
  intros E. assert (i < length l) by (apply nth_error_Some; congruence). rewrite nth_error_lupd, Nat.eqb_refl.
  destruct (Nat.ltb_spec i (length l)); [reflexivity|lia].
Qed.
Lemma nth_error_lupd_ne {A} (l : list A) i v j : j <> i -> nth_error (lupd l i v) j = nth_error l j.
Proof. intros N. rewrite nth_error_lupd. destruct (Nat.eqb_spec j i); [contradiction|reflexivity]. Qed.

Lemma grun_app es1 es2 s : grun s (es1 ++ es2) = match grun s es1 with Some s' => grun s' es2 | None => None end.
Proof. revert s. induction es1 as [|e es1 IH]; intros s; cbn; [reflexivity|]. destruct (gstep s e); [apply IH|reflexivity]. Qed.

Lemma runs_snoc {S A} (u : S -> outcome (A * S)) s xs s1 x s2 : runs u s xs s1 -> u s1 = Ret (x, s2) -> runs u s (xs ++ [x]) s2.
Proof. induction 1; intros E; cbn; econstructor; eauto. constructor. Qed.

(** ** Calls that do not overlap *)
Section Serial.
  Variable k : gen.
  Variable o : nat.
  Variable g0 : state k.
  Hypothesis G0 : inv k g0.
  Notation u := (a_Uint64 (methods k)).

  Definition serial_inv (s : gstate) : Prop :=
    exists g ob, inv k g /\ runs u g0 (returned s o) g /\ nth_error (g_objs s) o = Some ob /\ o_code ob = accesses k /\
      (forall i j c c', nth_error (g_busy s) i = Some (Some (o, c)) -> nth_error (g_busy s) j = Some (Some (o, c')) -> i = j) /\
      (forall j c, nth_error (g_busy s) j = Some (Some (o, c)) ->
         alone c (o_words ob) = alone (accesses k) (words k g)) /\
      (~ in_use s o -> o_words ob = words k g) /\
      (g_crashed s = true -> forall j c, nth_error (g_busy s) j = Some (Some (o, c)) -> c <> Fail).

  Lemma serial_step s e s' : serial_inv s -> gstep s e = Some s' ->
    (forall i, e = Begin i o -> ~ in_use s o) -> serial_inv s'.
  Proof.
    intros (g & ob & I & R & Eo & Ec & U & A & Q & _) E N. destruct s as [objs busy log cr].
    unfold gstep in E. cbn [g_objs g_busy g_log g_crashed] in *. destruct cr; [discriminate|].
    destruct e as [i o'|i|i].
    - destruct (nth_error busy i) as [[|]|] eqn:Eb; try discriminate. destruct (nth_error objs o') as [ob'|] eqn:Eo'; [|discriminate].
      injection E as <-. unfold serial_inv. cbn [g_objs g_busy g_log g_crashed].
      exists g, ob. split; [exact I|]. split; [exact R|]. split; [exact Eo|]. split; [exact Ec|].
      destruct (Nat.eq_dec o' o) as [->|No].
      + rewrite Eo in Eo'. injection Eo' as <-. specialize (N i eq_refl). specialize (Q N).
        assert (F : forall j c, nth_error (lupd busy i (Some (o, o_code ob))) j = Some (Some (o, c)) -> j = i /\ c = o_code ob).
        { intros j c H. destruct (Nat.eq_dec j i) as [->|Nj].
          - rewrite (nth_error_lupd_eq _ _ _ _ Eb) in H. injection H as <-. auto.
          - rewrite nth_error_lupd_ne in H by exact Nj. exfalso. apply N. exists j, c. exact H. }
        repeat split.
        * intros a b c c' Ha Hb. destruct (F _ _ Ha) as [-> _]. destruct (F _ _ Hb) as [-> _]. reflexivity.
        * intros j c H. destruct (F _ _ H) as [_ ->]. now rewrite Q, Ec.
        * intros _. exact Q.
        * discriminate.
      + assert (F : forall j c, nth_error (lupd busy i (Some (o', o_code ob'))) j = Some (Some (o, c)) -> nth_error busy j = Some (Some (o, c))).
        { intros j c H. destruct (Nat.eq_dec j i) as [->|Nj].
          - rewrite (nth_error_lupd_eq _ _ _ _ Eb) in H. congruence.
          - now rewrite nth_error_lupd_ne in H by exact Nj. }
        assert (F' : forall j c, nth_error busy j = Some (Some (o, c)) -> nth_error (lupd busy i (Some (o', o_code ob'))) j = Some (Some (o, c))).
        { intros j c H. rewrite nth_error_lupd_ne; [exact H|]. congruence. }
        repeat split.
        * intros a b c c' Ha Hb. eauto.
        * intros j c H. apply (A j). auto.
        * intros H. apply Q. intros (j & c & H'). apply H. exists j, c. auto.
        * discriminate.
    - destruct (nth_error busy i) as [[[o' c]|]|] eqn:Eb; try discriminate. destruct (nth_error objs o') as [ob'|] eqn:Eo'; [|discriminate].
      destruct (Nat.eq_dec o' o) as [->|No].
      + rewrite Eo in Eo'. injection Eo' as <-. pose proof (A i c Eb) as A'.
        rewrite (alone_call k g (inv_value k g I)) in A'. destruct (inv_total k g I) as (x & g1 & E1 & _). rewrite E1 in A'. cbn [bind] in A'.
        assert (F : forall c' j d, nth_error (lupd busy i (Some (o, c'))) j = Some (Some (o, d)) -> j = i /\ d = c').
        { intros c' j d H. destruct (Nat.eq_dec j i) as [->|Nj].
          - rewrite (nth_error_lupd_eq _ _ _ _ Eb) in H. injection H as <-. auto.
          - rewrite nth_error_lupd_ne in H by exact Nj. exfalso. apply Nj. eapply U; eassumption. }
        destruct c as [a| |w kk|w v kk]; cbn [alone] in A'; [discriminate E|discriminate A'| |].
        * destruct (nth_error (o_words ob) w) as [v|] eqn:Ew; [|discriminate]. injection E as <-.
          unfold serial_inv. cbn [g_objs g_busy g_log g_crashed].
          exists g, ob. split; [exact I|]. split; [exact R|]. split; [exact Eo|]. split; [exact Ec|]. repeat split.
          -- intros a b d d' Ha Hb. destruct (F _ _ _ Ha) as [-> _]. destruct (F _ _ _ Hb) as [-> _]. reflexivity.
          -- intros j d H. destruct (F _ _ _ H) as [_ ->]. rewrite A', (alone_call k g (inv_value k g I)), E1. reflexivity.
          -- intros H. exfalso. apply H. exists i, (kk v). cbn [g_busy]. eapply nth_error_lupd_eq; eassumption.
          -- discriminate.
        * injection E as <-. unfold serial_inv. cbn [g_objs g_busy g_log g_crashed].
          exists g, (mkObj (o_code ob) (lupd (o_words ob) w v)). split; [exact I|]. split; [exact R|].
          split; [eapply nth_error_lupd_eq; eassumption|]. split; [exact Ec|]. cbn [o_words]. repeat split.
          -- intros a b d d' Ha Hb. destruct (F _ _ _ Ha) as [-> _]. destruct (F _ _ _ Hb) as [-> _]. reflexivity.
          -- intros j d H. destruct (F _ _ _ H) as [_ ->]. rewrite A', (alone_call k g (inv_value k g I)), E1. reflexivity.
          -- intros H. exfalso. apply H. exists i, kk. cbn [g_busy]. eapply nth_error_lupd_eq; eassumption.
          -- discriminate.
      + assert (K : forall c' objs' cr', nth_error objs' o = Some ob -> 
            (cr' = true -> forall j d, nth_error (lupd busy i (Some (o', c'))) j = Some (Some (o, d)) -> d <> Fail) ->
            serial_inv (mkG objs' (lupd busy i (Some (o', c'))) log cr')).
        { intros c' objs' cr' Hobj Hcr. unfold serial_inv. cbn [g_objs g_busy g_log g_crashed].
          assert (F : forall j d, nth_error (lupd busy i (Some (o', c'))) j = Some (Some (o, d)) -> nth_error busy j = Some (Some (o, d))).
          { intros j d H. destruct (Nat.eq_dec j i) as [->|Nj].
            - rewrite (nth_error_lupd_eq _ _ _ _ Eb) in H. congruence.
            - now rewrite nth_error_lupd_ne in H by exact Nj. }
          assert (F' : forall j d, nth_error busy j = Some (Some (o, d)) -> nth_error (lupd busy i (Some (o', c'))) j = Some (Some (o, d))).
          { intros j d H. rewrite nth_error_lupd_ne; [exact H|]. congruence. }
          exists g, ob. split; [exact I|]. split; [exact R|]. split; [exact Hobj|]. split; [exact Ec|]. repeat split.
          - intros a b d d' Ha Hb. eauto.
          - intros j d H. apply (A j). auto.
          - intros H. apply Q. intros (j & d & H'). apply H. exists j, d. auto.
          - exact Hcr. }
        destruct c as [a| |w kk|w v kk]; [discriminate E| | |].
        * injection E as <-. exists g, ob. cbn [g_objs g_busy g_log g_crashed]. split; [exact I|]. split; [exact R|].
          split; [exact Eo|]. split; [exact Ec|]. split; [exact U|]. split; [exact A|]. split; [exact Q|].
          intros _ j c H ->. specialize (A j Fail H). cbn [alone] in A.
          rewrite (alone_call k g (inv_value k g I)) in A. destruct (inv_total k g I) as (x & g1 & E1 & _). rewrite E1 in A. discriminate A.
        * destruct (nth_error (o_words ob') w); [|discriminate]. injection E as <-. apply K; [exact Eo|discriminate].
        * injection E as <-. apply K; [|discriminate]. rewrite nth_error_lupd_ne; [exact Eo|congruence].
    - destruct (nth_error busy i) as [[[o' [v| | |]]|]|] eqn:Eb; try discriminate. injection E as <-.
      unfold serial_inv. cbn [g_objs g_busy g_log g_crashed].
      assert (F : forall j d, nth_error (lupd busy i None) j = Some (Some (o, d)) -> nth_error busy j = Some (Some (o, d)) /\ j <> i).
      { intros j d H. destruct (Nat.eq_dec j i) as [->|Nj].
        - rewrite (nth_error_lupd_eq _ _ _ _ Eb) in H. congruence.
        - now rewrite nth_error_lupd_ne in H by exact Nj. }
      destruct (Nat.eq_dec o' o) as [->|No].
      + pose proof (A i _ Eb) as A'. rewrite (alone_call k g (inv_value k g I)) in A'.
        destruct (inv_total k g I) as (x & g1 & E1 & I1). rewrite E1 in A'. cbn [bind alone] in A'. injection A' as -> Ew.
        exists g1, ob. split; [exact I1|]. split.
        { unfold returned. cbn [g_log]. rewrite flat_map_app. cbn [flat_map]. rewrite Nat.eqb_refl. cbn [app].
          eapply runs_snoc; [exact R|exact E1]. }
        split; [exact Eo|]. split; [exact Ec|]. repeat split.
        * intros a b d d' Ha Hb. eapply U; [apply (F _ _ Ha)|apply (F _ _ Hb)].
        * intros j d H. destruct (F _ _ H) as [H' Nj]. exfalso. apply Nj. eapply U; eassumption.
        * intros _. exact Ew.
        * discriminate.
      + exists g, ob. split; [exact I|]. split.
        { unfold returned. cbn [g_log]. rewrite flat_map_app. cbn [flat_map].
          destruct (Nat.eqb_spec o' o); [contradiction|]. rewrite !app_nil_r. exact R. }
        split; [exact Eo|]. split; [exact Ec|]. repeat split.
        * intros a b d d' Ha Hb. eapply U; [apply (F _ _ Ha)|apply (F _ _ Hb)].
        * intros j d H. apply (A j). apply (F _ _ H).
        * intros H. apply Q. intros (j & d & H'). apply H. exists j, d. cbn [g_busy] in *.
          rewrite nth_error_lupd_ne; [exact H'|]. congruence.
        * discriminate.
  Qed.
  Lemma serial_run s0 es : forall s, serial_inv s0 -> grun s0 es = Some s -> no_overlap s0 es o -> serial_inv s.
  Proof.
    induction es as [|e es IH] using rev_ind; intros s I E N.
    - cbn in E. injection E as <-. exact I.
    - rewrite grun_app in E. destruct (grun s0 es) as [s1|] eqn:E1; [|discriminate]. cbn [grun] in E.
      destruct (gstep s1 e) as [s2|] eqn:E2; [|discriminate]. injection E as <-.
      apply (serial_step s1 e); [|exact E2|].
      + apply (IH s1 I eq_refl). intros es1 i es2 t -> Et. apply (N es1 i (es2 ++ [e]) t); [now rewrite <- app_assoc|exact Et].
      + intros i ->. apply (N es i [] s1); [reflexivity|exact E1].
  Qed.
  Lemma serial_start objs n : nth_error objs o = Some (obj k g0) -> serial_inv (gstart objs n).
  Proof.
    intros E. exists g0, (obj k g0). unfold gstart. cbn [g_objs g_busy g_log g_crashed].
    assert (F : forall j (c : code N), nth_error (repeat None n) j <> Some (Some (o, c))).
    { intros j c H. apply nth_error_In, repeat_spec in H. discriminate. }
    split; [exact G0|]. split; [constructor|]. split; [exact E|]. split; [reflexivity|]. repeat split.
    - intros i j c c' H. now apply F in H.
    - intros j c H. now apply F in H.
    - discriminate.
  Qed.
End Serial.

(** ** No crash *)
Lemma crash_step s e s' : gstep s e = Some s' -> g_crashed s = false -> g_crashed s' = true ->
  exists i o, e = Access i /\ nth_error (g_busy s) i = Some (Some (o, Fail)).
Proof.
  destruct s as [objs busy log cr]. intros E F T. cbn [g_crashed] in F. subst cr. unfold gstep in E.
  destruct e as [i o'|i|i].
  - destruct (nth_error busy i) as [[|]|]; try discriminate. destruct (nth_error objs o'); [|discriminate]. injection E as <-. discriminate T.
  - destruct (nth_error busy i) as [[[o c]|]|] eqn:Eb; try discriminate. destruct (nth_error objs o); [|discriminate].
    destruct c as [a| |w k|w v k]; [discriminate| | |].
    + exists i, o. auto.
    + destruct (nth_error (o_words o0) w); [|discriminate]. injection E as <-. discriminate T.
    + injection E as <-. discriminate T.
  - destruct (nth_error busy i) as [[[o [v| | |]]|]|]; try discriminate. injection E as <-. discriminate T.
Qed.
Lemma serial_no_fail k o g0 s i : serial_inv k o g0 s -> nth_error (g_busy s) i <> Some (Some (o, Fail)).
Proof.
  intros (g & ob & I & _ & _ & _ & _ & A & _) H. specialize (A i Fail H). cbn [alone] in A.
  rewrite (alone_call k g (inv_value k g I)) in A. destruct (inv_total k g I) as (x & g1 & E1 & _). rewrite E1 in A. discriminate A.
Qed.
(** the number of objects does not change, and a busy goroutine is busy with one of them *)
Lemma objs_step s e s' : gstep s e = Some s' -> length (g_objs s') = length (g_objs s) /\
  ((forall i o c, nth_error (g_busy s) i = Some (Some (o, c)) -> o < length (g_objs s)) ->
   (forall i o c, nth_error (g_busy s') i = Some (Some (o, c)) -> o < length (g_objs s'))).
Proof.
  destruct s as [objs busy log cr]. intros E. unfold gstep in E. destruct cr; [discriminate|].
  destruct e as [i o'|i|i].
  - destruct (nth_error busy i) as [[|]|] eqn:Eb; try discriminate. destruct (nth_error objs o') as [ob|] eqn:Eo; [|discriminate]. injection E as <-.
    cbn [g_objs g_busy]. split; [reflexivity|]. intros H j o c Hj. destruct (Nat.eq_dec j i) as [->|Nj].
    + rewrite (nth_error_lupd_eq _ _ _ _ Eb) in Hj. injection Hj as <- _. apply nth_error_Some. congruence.
    + rewrite nth_error_lupd_ne in Hj by exact Nj. eauto.
  - destruct (nth_error busy i) as [[[o1 c1]|]|] eqn:Eb; try discriminate. destruct (nth_error objs o1) as [ob|] eqn:Eo; [|discriminate].
    assert (K : forall c' (objs' : list object), length objs' = length objs ->
      (forall i o c, nth_error busy i = Some (Some (o, c)) -> o < length objs) ->
      forall j o c, nth_error (lupd busy i (Some (o1, c'))) j = Some (Some (o, c)) -> o < length objs').
    { intros c' objs' L H j o2 c Hj. rewrite L. destruct (Nat.eq_dec j i) as [->|Nj].
      - rewrite (nth_error_lupd_eq _ _ _ _ Eb) in Hj. injection Hj as <- _. apply nth_error_Some. congruence.
      - rewrite nth_error_lupd_ne in Hj by exact Nj. eauto. }
    destruct c1 as [a| |w k|w v k]; [discriminate| | |].
    + injection E as <-. cbn [g_objs g_busy]. split; [reflexivity|]. auto.
    + destruct (nth_error (o_words ob) w); [|discriminate]. injection E as <-. cbn [g_objs g_busy]. split; [reflexivity|]. apply K. reflexivity.
    + injection E as <-. cbn [g_objs g_busy]. split; [apply lupd_length|]. apply K, lupd_length.
  - destruct (nth_error busy i) as [[[o1 [v| | |]]|]|] eqn:Eb; try discriminate. injection E as <-. cbn [g_objs g_busy].
    split; [reflexivity|]. intros H j o c Hj. destruct (Nat.eq_dec j i) as [->|Nj].
    + rewrite (nth_error_lupd_eq _ _ _ _ Eb) in Hj. discriminate.
    + rewrite nth_error_lupd_ne in Hj by exact Nj. eauto.
Qed.
Lemma no_overlap_prefix s0 es e o : no_overlap s0 (es ++ [e]) o -> no_overlap s0 es o.
Proof. intros N es1 i es2 t -> Et. apply (N es1 i (es2 ++ [e]) t); [now rewrite <- app_assoc|exact Et]. Qed.
Lemma serial_no_crash objs n es s :
  (forall o ob, nth_error objs o = Some ob -> exists k g, ob = obj k g /\ inv k g) ->
  (forall o, o < length objs -> no_overlap (gstart objs n) es o) ->
  grun (gstart objs n) es = Some s -> g_crashed s = false.
Proof.
  intros H. revert s. induction es as [|e es IH] using rev_ind; intros s N E.
  - injection E as <-. reflexivity.
  - rewrite grun_app in E. destruct (grun (gstart objs n) es) as [s1|] eqn:E1; [|discriminate]. cbn [grun] in E.
    destruct (gstep s1 e) as [s2|] eqn:E2; [|discriminate]. injection E as <-.
    assert (N' : forall o, o < length objs -> no_overlap (gstart objs n) es o).
    { intros o Ho. eapply no_overlap_prefix. apply N, Ho. }
    specialize (IH s1 N' eq_refl). destruct (g_crashed s2) eqn:T; [|reflexivity]. exfalso.
    destruct (crash_step s1 e s2 E2 IH T) as (i & o & _ & F).
    assert (B : length (g_objs s1) = length objs /\ forall i o c, nth_error (g_busy s1) i = Some (Some (o, c)) -> o < length (g_objs s1)).
    { clear - E1. revert s1 E1. induction es as [|e es IH] using rev_ind; intros s1 E1.
      - injection E1 as <-. split; [reflexivity|]. intros i o c Hi. apply nth_error_In, repeat_spec in Hi. discriminate.
      - rewrite grun_app in E1. destruct (grun (gstart objs n) es) as [s0|] eqn:E0; [|discriminate]. cbn [grun] in E1.
        destruct (gstep s0 e) as [s2|] eqn:E2; [|discriminate]. injection E1 as <-. destruct (IH s0 eq_refl) as [L W].
        destruct (objs_step s0 e s2 E2) as [L' W']. split; [congruence|]. apply W', W. }
    destruct B as [L W]. specialize (W i o Fail F). rewrite L in W.
    destruct (nth_error objs o) as [ob|] eqn:Eo; [|apply nth_error_None in Eo; lia].
    destruct (H o ob Eo) as (k & g & -> & I).
    apply (serial_no_fail k o g s1 i); [|exact F].
    apply (serial_run k o g (gstart objs n) es s1); [now apply serial_start|exact E1|now apply N'].
Qed.

(** ** Two goroutines, one object *)
Inductive csteps : code N -> list N -> code N -> list N -> Prop :=
| cs_refl c m : csteps c m c m
| cs_load w k m v c' m' : nth_error m w = Some v -> csteps (k v) m c' m' -> csteps (Load w k) m c' m'
| cs_store w v k m c' m' : csteps k (lupd m w v) c' m' -> csteps (Store w v k) m c' m'.
Lemma alone_csteps c : forall m x m', alone c m = Ret (x, m') -> csteps c m (Done x) m'.
Proof.
  induction c as [a| |w k IH|w v k IH]; intros m x m' E; cbn [alone] in E.
  - injection E as <- <-. constructor.
  - discriminate.
  - destruct (nth_error m w) as [v|] eqn:Ew; [|discriminate]. eapply cs_load; [exact Ew|]. now apply IH.
  - apply cs_store. now apply IH.
Qed.
Definition two (cd : code N) (m : list N) (b0 b1 : option (code N)) (log : list (nat * nat * N)) : gstate :=
  mkG [mkObj cd m] [option_map (pair 0) b0; option_map (pair 0) b1] log false.
Lemma run0 cd c m c' m' : csteps c m c' m' -> forall b1 log,
  exists es, grun (two cd m (Some c) b1 log) es = Some (two cd m' (Some c') b1 log).
Proof.
  induction 1 as [c m|w k m v c' m' E _ IH|w v k m c' m' _ IH]; intros b1 log.
  - exists []. reflexivity.
  - destruct (IH b1 log) as (es & IHe). exists (Access 0 :: es). cbn. rewrite E. exact IHe.
  - destruct (IH b1 log) as (es & IHe). exists (Access 0 :: es). exact IHe.
Qed.
Lemma run1 cd c m c' m' : csteps c m c' m' -> forall b0 log,
  exists es, grun (two cd m b0 (Some c) log) es = Some (two cd m' b0 (Some c') log).
Proof.
  induction 1 as [c m|w k m v c' m' E _ IH|w v k m c' m' _ IH]; intros b1 log.
  - exists []. reflexivity.
  - destruct (IH b1 log) as (es & IHe). exists (Access 1 :: es). cbn. rewrite E. exact IHe.
  - destruct (IH b1 log) as (es & IHe). exists (Access 1 :: es). exact IHe.
Qed.
Definition goes (s s' : gstate) : Prop := exists es, grun s es = Some s'.
Lemma goes_trans a b c : goes a b -> goes b c -> goes a c.
Proof. intros [e1 E1] [e2 E2]. exists (e1 ++ e2). now rewrite grun_app, E1. Qed.
Lemma begin0 cd m b1 log : goes (two cd m None b1 log) (two cd m (Some cd) b1 log).
Proof. exists [Begin 0 0]. reflexivity. Qed.
Lemma begin1 cd m b0 log : goes (two cd m b0 None log) (two cd m b0 (Some cd) log).
Proof. exists [Begin 1 0]. reflexivity. Qed.
Lemma finish0 cd m x b1 log : goes (two cd m (Some (Done x)) b1 log) (two cd m None b1 (log ++ [(0, 0, x)])).
Proof. exists [Finish 0]. reflexivity. Qed.
Lemma finish1 cd m x b0 log : goes (two cd m b0 (Some (Done x)) log) (two cd m b0 None (log ++ [(1, 0, x)])).
Proof. exists [Finish 1]. reflexivity. Qed.
Lemma to_done0 cd c m x m' b1 log : alone c m = Ret (x, m') ->
  goes (two cd m (Some c) b1 log) (two cd m' None b1 (log ++ [(0, 0, x)])).
Proof. intros E. eapply goes_trans; [exact (run0 cd _ _ _ _ (alone_csteps _ _ _ _ E) b1 log)|apply finish0]. Qed.
Lemma to_done1 cd c m x m' b0 log : alone c m = Ret (x, m') ->
  goes (two cd m b0 (Some c) log) (two cd m' b0 None (log ++ [(1, 0, x)])).
Proof. intros E. eapply goes_trans; [exact (run1 cd _ _ _ _ (alone_csteps _ _ _ _ E) b0 log)|apply finish1]. Qed.
Definition logged (i : nat) (xs : list N) : list (nat * nat * N) := map (fun x => (i, 0, x)) xs.
(** goroutine 1 makes calls while goroutine 0 stands still *)
Lemma calls1 k g xs g' : inv k g -> runs (a_Uint64 (methods k)) g xs g' -> forall b0 log,
  goes (two (accesses k) (words k g) b0 None log) (two (accesses k) (words k g') b0 None (log ++ logged 1 xs)).
Proof.
  intros I R. induction R as [g|g x g1 xs g' E _ IH]; intros b0 log.
  - exists []. cbn. now rewrite app_nil_r.
  - destruct (inv_total k g I) as (y & g2 & E2 & I2). rewrite E2 in E. injection E as -> ->.
    eapply goes_trans; [apply begin1|].
    eapply goes_trans; [apply to_done1; rewrite (alone_call k g (inv_value k g I)), E2; reflexivity|].
    cbn [logged map]. change ((1, 0, x) :: map (fun x => (1, 0, x)) xs) with ([(1, 0, x)] ++ logged 1 xs). rewrite app_assoc.
    apply IH, I2.
Qed.
