(** Programs over a Source see only the words their 8-byte Reads deliver: on any source they behave as on a tape. *)
From Coq Require Import Reals Lia Bool.
From Flocq Require Import Core BinarySingleNaN.
From Verif Require Import Model.Base Model.Rng Model.Float Model.Distr Model.Ziggurat Model.ExpoNormal Model.Util Model.Utf8 Spec.Common Spec.Zig Spec.Prob Spec.Words.
From Verif Require Import Proofs.WordLemmas Proofs.SaveProofs Proofs.ZigTape Props.Rng.

(** for every choice of the compiler which x*y + z to fuse (Model/Fused.v) *)
Section Compiler.
Context {fpc : compiler}.

Section Sim.
  Context {W : Type} (read : reader W).
  Notation same := (same_draws read).
  Lemma same_ret {A} (v : A) : same (fun ws => Ret (v, ws)) (fun w => Ret (v, w)).
  Proof. intros s ws t v' ws' F R E. inversion E; subst. exists [], s. repeat split; [constructor|exact R]. Qed.
  Lemma same_bind {A B} (mt : list N -> outcome (A * list N)) m (kt : A -> list N -> outcome (B * list N)) k :
    same mt m -> (forall a, same (kt a) (k a)) -> same (fun ws => let! (a, ws) := mt ws in kt a ws) (fun w => let! (a, w) := m w in k a w).
  Proof.
    intros HM HK s ws t v ws' F R E. destruct (mt ws) as [[a w1]| |] eqn:E1; try discriminate E. cbn [bind] in E.
    destruct (HM _ _ _ _ _ F R E1) as (u1 & s1 & -> & Es & R1 & R2). apply Forall_app in F. destruct F as [_ F].
    destruct (HK a _ _ _ _ _ F R2 E) as (u2 & s2 & -> & Es2 & R3 & R4). exists (u1 ++ u2), s2. rewrite Es. cbn [bind].
    split; [apply app_assoc|]. split; [exact Es2|]. split; [|exact R4].
    clear - R1 R3. induction R1 as [s|s x s0 xs s' E R IH]; [exact R3|]. cbn [app]. econstructor; [exact E|now apply IH].
  Qed.
  Lemma same_ext {A} (mt mt' : list N -> outcome (A * list N)) m m' : (forall ws, mt' ws = mt ws) -> (forall w, m' w = m w) -> same mt m -> same mt' m'.
  Proof. intros H1 H2 S s ws t v ws' F R E. rewrite H1 in E. destruct (S _ _ _ _ _ F R E) as (u & s' & A1 & A2 & A3). exists u, s'. now rewrite H2. Qed.
  Lemma same_fail {A} (mt : list N -> outcome (A * list N)) m : (forall ws v, mt ws <> Ret v) -> same mt m.
  Proof. intros H s ws t v ws' F R E. now apply H in E. Qed.
  Lemma same_aget {A B} (l : list A) i (kt : A -> list N -> outcome (B * list N)) k : (forall a, same (kt a) (k a)) ->
    same (fun ws => let! a := aget l i in kt a ws) (fun w => let! a := aget l i in k a w).
  Proof. intros H. unfold aget. destruct (nth_error l i); cbn [bind]; [apply H|]. apply same_fail. discriminate. Qed.
  Lemma same_out {A B} (o : outcome A) (kt : A -> list N -> outcome (B * list N)) k : (forall a, same (kt a) (k a)) ->
    same (fun ws => let! a := o in kt a ws) (fun w => let! a := o in k a w).
  Proof. intros H. destruct o; cbn [bind]; [apply H| |]; apply same_fail; discriminate. Qed.

  Lemma same_uint64 : same (RNG_Uint64 tape) (RNG_Uint64 read).
  Proof.
    intros s ws t v ws' F R E. destruct (tape_draw_inv _ _ _ E) as [u ->]. inversion F; subst. rewrite tape_draw in E by assumption. inversion E; subst u.
    inversion R as [|? ? s1 ? ? E1 R1]; subst. exists [v], s1. split; [reflexivity|]. split; [exact E1|]. split; [|exact R1]. econstructor; [exact E1|constructor].
  Qed.
  Lemma unif_u64 {X} (rd : reader X) w : Uniform0_1_Next rd w =
    let! (x, w) := RNG_Uint64 rd w in Ret (fmul (of_int (Z.of_N (N.land x 0x1fffffffffffff))) lit_scale, w).
  Proof. unfold Uniform0_1_Next, RNG_Uint64. destruct (rd w (zeros 8)) as [[[[p n] e] w1]| |]; cbn [bind]; try reflexivity. now destruct (get64 p 0). Qed.
  Lemma same_uniform : same (Uniform0_1_Next tape) (Uniform0_1_Next read).
  Proof. eapply same_ext; [apply unif_u64|apply unif_u64|]. apply same_bind; [apply same_uint64|]. intros a. apply same_ret. Qed.

  Lemma same_uintn_loop fuel ub bad : same (uintn_loop tape fuel ub bad) (uintn_loop read fuel ub bad).
  Proof.
    induction fuel as [|fuel IH]; [apply same_fail; discriminate|]. cbn [uintn_loop]. apply same_bind; [apply same_uint64|]. intros u.
    destruct (bad <? N.land u (N.ones ub))%N; [exact IH|apply same_ret].
  Qed.
  Lemma same_uintn fuel ub max : same (RNG_Uintn tape fuel ub max) (RNG_Uintn read fuel ub max).
  Proof.
    unfold RNG_Uintn. destruct (max =? 0)%N; [apply same_fail; discriminate|]. apply same_bind; [apply same_uintn_loop|]. intros x. apply same_ret.
  Qed.
  Lemma same_intn fuel ub max : same (RNG_Intn tape fuel ub max) (RNG_Intn read fuel ub max).
  Proof. unfold RNG_Intn. destruct (max <? 0)%Z; [apply same_fail; discriminate|]. apply same_bind; [apply same_uintn|]. intros x. apply same_ret. Qed.
  Lemma same_randstring_loop ub fuel k a : same (randstring_loop tape ub fuel k a) (randstring_loop read ub fuel k a).
  Proof.
    induction k as [|k IH]; cbn [randstring_loop]; [apply same_ret|]. apply same_bind; [apply same_uintn|]. intros i. apply same_aget. intros c.
    apply same_bind; [exact IH|]. intros r. apply same_ret.
  Qed.
  Lemma same_randstring ub fuel alphabet n : same (RandString tape ub fuel alphabet n) (RandString read ub fuel alphabet n).
  Proof.
    unfold RandString. apply same_bind; [|intros p; apply same_ret]. unfold RandRunes. destruct (n <? 0)%Z; [apply same_fail; discriminate|apply same_randstring_loop].
  Qed.
  Lemma same_shuffle_loop {D} ub (swap : D -> nat -> nat -> outcome D) fuel k : forall i n d,
    same (shuffle_loop tape ub swap fuel k i n d) (shuffle_loop read ub swap fuel k i n d).
  Proof.
    induction k as [|k IH]; intros i n d; cbn [shuffle_loop]; [apply same_ret|]. apply same_bind; [apply same_uintn|]. intros j. apply same_out. intros d'. apply IH.
  Qed.
  Lemma same_shuffle {D} ub len (swap : D -> nat -> nat -> outcome D) fuel d : same (Shuffle tape ub len swap fuel d) (Shuffle read ub len swap fuel d).
  Proof. apply same_shuffle_loop. Qed.
  Lemma same_shuffle_slice {A} ub fuel (d : list A) : same (ShuffleSlice tape ub fuel d) (ShuffleSlice read ub fuel d).
  Proof.
    unfold ShuffleSlice. generalize (length d) 0%nat. intros n. revert d. induction n as [|n IH]; intros d i; cbn [shuffle_slice_loop]; [apply same_ret|].
    apply same_bind; [apply same_intn|]. intros k. apply same_out. intros d'. apply IH.
  Qed.
  Lemma same_ziggurat (zt : Ziggurat (list N)) (z : Ziggurat W) fuel : zPDF zt = zPDF z -> zMirrored zt = zMirrored z -> zK zt = zK z -> zW zt = zW z -> zF zt = zF z ->
    same (zTail zt) (zTail z) -> same (GenNext tape zt fuel) (GenNext read z fuel).
  Proof.
    intros E1 E2 E3 E4 E5 HT. induction fuel as [|fuel IH]; [apply same_fail; discriminate|]. cbn [GenNext]. rewrite E1, E2, E3, E4, E5. apply same_bind; [apply same_uint64|]. intros u.
    apply same_aget. intros k. destruct (_ <? k)%N; [apply same_aget; intros; apply same_ret|]. destruct (negb _).
    - apply same_aget. intros wi. apply same_aget. intros fi. apply same_bind; [apply same_uniform|]. intros y. apply same_aget. intros fp. destruct (flt _ _); [apply same_ret|exact IH].
    - apply same_bind; [exact HT|]. intros x. destruct (_ <? 0)%Z; apply same_ret.
  Qed.
  Variables math_exp math_log : float64 -> float64.
  Lemma same_exponential rate fuel : same (Exponential_Next tape math_exp math_log rate fuel) (Exponential_Next read math_exp math_log rate fuel).
  Proof.
    unfold Exponential_Next. apply same_bind; [|intros x; apply same_ret]. apply same_ziggurat; try reflexivity. cbn [zTail expoZig]. unfold expoTail.
    apply same_bind; [apply same_uniform|]. intros u. apply same_ret.
  Qed.
  Lemma same_normal_tail tf : same (normalTail tape math_log tf) (normalTail read math_log tf).
  Proof.
    induction tf as [|tf IH]; [apply same_fail; discriminate|]. cbn [normalTail]. apply same_bind; [apply same_uniform|]. intros u. apply same_bind; [apply same_uniform|]. intros v.
    destruct (fge _ _); [apply same_ret|exact IH].
  Qed.
  Lemma same_normal mean sd tf fuel : same (Normal_Next tape math_exp math_log mean sd tf fuel) (Normal_Next read math_exp math_log mean sd tf fuel).
  Proof. unfold Normal_Next. apply same_bind; [|intros x; apply same_ret]. apply same_ziggurat; try reflexivity. apply same_normal_tail. Qed.
End Sim.

(** *** ... and nothing else *)
Section Only.
  Context {W : Type} (read : reader W).
  Hypothesis GO : go_reader read.
  Notation only := (draws_only read).
  Lemma only_ret {A} (v : A) : only (fun ws => Ret (v, ws)) (fun w => Ret (v, w)).
  Proof. intros s v' s' E. inversion E; subst. exists []. repeat split; constructor. Qed.
  Lemma only_bind {A B} (mt : list N -> outcome (A * list N)) m (kt : A -> list N -> outcome (B * list N)) k :
    only mt m -> (forall a, only (kt a) (k a)) -> only (fun ws => let! (a, ws) := mt ws in kt a ws) (fun w => let! (a, w) := m w in k a w).
  Proof.
    intros HM HK s v s' E. destruct (m s) as [[a s1]| |] eqn:E1; try discriminate E. cbn [bind] in E.
    destruct (HM _ _ _ E1) as (u1 & F1 & R1 & T1). destruct (HK a _ _ _ E) as (u2 & F2 & R2 & T2). exists (u1 ++ u2). split; [now apply Forall_app|]. split.
    - clear - R1 R2. induction R1 as [s|s x s0 xs s1 E R IH]; [exact R2|]. cbn [app]. econstructor; [exact E|now apply IH].
    - intros rest F. rewrite <- app_assoc, T1 by (apply Forall_app; now split). cbn [bind]. now apply T2.
  Qed.
  Lemma only_ext {A} (mt mt' : list N -> outcome (A * list N)) m m' : (forall ws, mt' ws = mt ws) -> (forall w, m' w = m w) -> only mt m -> only mt' m'.
  Proof. intros H1 H2 S s v s' E. rewrite H2 in E. destruct (S _ _ _ E) as (u & A1 & A2 & A3). exists u. repeat split; try assumption. intros rest F. rewrite H1. now apply A3. Qed.
  Lemma only_fail {A} (mt : list N -> outcome (A * list N)) m : (forall w v, m w <> Ret v) -> only mt m.
  Proof. intros H s v s' E. now apply H in E. Qed.
  Lemma only_aget {A B} (l : list A) i (kt : A -> list N -> outcome (B * list N)) k : (forall a, only (kt a) (k a)) ->
    only (fun ws => let! a := aget l i in kt a ws) (fun w => let! a := aget l i in k a w).
  Proof. intros H. unfold aget. destruct (nth_error l i); cbn [bind]; [apply H|]. apply only_fail. discriminate. Qed.
  Lemma only_out {A B} (o : outcome A) (kt : A -> list N -> outcome (B * list N)) k : (forall a, only (kt a) (k a)) ->
    only (fun ws => let! a := o in kt a ws) (fun w => let! a := o in k a w).
  Proof. intros H. destruct o; cbn [bind]; [apply H| |]; apply only_fail; discriminate. Qed.
  Lemma only_uint64 : only (RNG_Uint64 tape) (RNG_Uint64 read).
  Proof.
    intros s v s' E. assert (V : w64 v).
    { destruct (read s (zeros 8)) as [[[[p n] e] s1]| |] eqn:ER; [|unfold RNG_Uint64 in E; rewrite ER in E; discriminate E..]. destruct (C25_uint64_decodes read s p n e s1 GO ER) as (x & Ex & Hx & _). rewrite E in Ex. injection Ex as -> _. exact Hx. }
    exists [v]. split; [constructor; [exact V|constructor]|]. split; [econstructor; [exact E|constructor]|].
    intros rest F. cbn [app]. now apply tape_draw.
  Qed.
  Lemma only_uniform : only (Uniform0_1_Next tape) (Uniform0_1_Next read).
  Proof. eapply only_ext; [apply unif_u64|apply unif_u64|]. apply only_bind; [apply only_uint64|]. intros a. apply only_ret. Qed.

  Lemma only_uintn_loop fuel ub bad : only (uintn_loop tape fuel ub bad) (uintn_loop read fuel ub bad).
  Proof.
    induction fuel as [|fuel IH]; [apply only_fail; discriminate|]. cbn [uintn_loop]. apply only_bind; [apply only_uint64|]. intros u.
    destruct (bad <? N.land u (N.ones ub))%N; [exact IH|apply only_ret].
  Qed.
  Lemma only_uintn fuel ub max : only (RNG_Uintn tape fuel ub max) (RNG_Uintn read fuel ub max).
  Proof.
    unfold RNG_Uintn. destruct (max =? 0)%N; [apply only_fail; discriminate|]. apply only_bind; [apply only_uintn_loop|]. intros x. apply only_ret.
  Qed.
  Lemma only_intn fuel ub max : only (RNG_Intn tape fuel ub max) (RNG_Intn read fuel ub max).
  Proof. unfold RNG_Intn. destruct (max <? 0)%Z; [apply only_fail; discriminate|]. apply only_bind; [apply only_uintn|]. intros x. apply only_ret. Qed.
  Lemma only_randstring_loop ub fuel k a : only (randstring_loop tape ub fuel k a) (randstring_loop read ub fuel k a).
  Proof.
    induction k as [|k IH]; cbn [randstring_loop]; [apply only_ret|]. apply only_bind; [apply only_uintn|]. intros i. apply only_aget. intros c.
    apply only_bind; [exact IH|]. intros r. apply only_ret.
  Qed.
  Lemma only_randstring ub fuel alphabet n : only (RandString tape ub fuel alphabet n) (RandString read ub fuel alphabet n).
  Proof.
    unfold RandString. apply only_bind; [|intros p; apply only_ret]. unfold RandRunes. destruct (n <? 0)%Z; [apply only_fail; discriminate|apply only_randstring_loop].
  Qed.
  Lemma only_shuffle_loop {D} ub (swap : D -> nat -> nat -> outcome D) fuel k : forall i n d,
    only (shuffle_loop tape ub swap fuel k i n d) (shuffle_loop read ub swap fuel k i n d).
  Proof.
    induction k as [|k IH]; intros i n d; cbn [shuffle_loop]; [apply only_ret|]. apply only_bind; [apply only_uintn|]. intros j. apply only_out. intros d'. apply IH.
  Qed.
  Lemma only_shuffle {D} ub len (swap : D -> nat -> nat -> outcome D) fuel d : only (Shuffle tape ub len swap fuel d) (Shuffle read ub len swap fuel d).
  Proof. apply only_shuffle_loop. Qed.
  Lemma only_shuffle_slice {A} ub fuel (d : list A) : only (ShuffleSlice tape ub fuel d) (ShuffleSlice read ub fuel d).
  Proof.
    unfold ShuffleSlice. generalize (length d) 0%nat. intros n. revert d. induction n as [|n IH]; intros d i; cbn [shuffle_slice_loop]; [apply only_ret|].
    apply only_bind; [apply only_intn|]. intros k. apply only_out. intros d'. apply IH.
  Qed.
  Lemma only_ziggurat (zt : Ziggurat (list N)) (z : Ziggurat W) fuel : zPDF zt = zPDF z -> zMirrored zt = zMirrored z -> zK zt = zK z -> zW zt = zW z -> zF zt = zF z ->
    only (zTail zt) (zTail z) -> only (GenNext tape zt fuel) (GenNext read z fuel).
  Proof.
    intros E1 E2 E3 E4 E5 HT. induction fuel as [|fuel IH]; [apply only_fail; discriminate|]. cbn [GenNext]. rewrite E1, E2, E3, E4, E5. apply only_bind; [apply only_uint64|]. intros u.
    apply only_aget. intros k. destruct (_ <? k)%N; [apply only_aget; intros; apply only_ret|]. destruct (negb _).
    - apply only_aget. intros wi. apply only_aget. intros fi. apply only_bind; [apply only_uniform|]. intros y. apply only_aget. intros fp. destruct (flt _ _); [apply only_ret|exact IH].
    - apply only_bind; [exact HT|]. intros x. destruct (_ <? 0)%Z; apply only_ret.
  Qed.
  Variables math_exp math_log : float64 -> float64.
  Lemma only_exponential rate fuel : only (Exponential_Next tape math_exp math_log rate fuel) (Exponential_Next read math_exp math_log rate fuel).
  Proof.
    unfold Exponential_Next. apply only_bind; [|intros x; apply only_ret]. apply only_ziggurat; try reflexivity. cbn [zTail expoZig]. unfold expoTail.
    apply only_bind; [apply only_uniform|]. intros u. apply only_ret.
  Qed.
  Lemma only_normal_tail tf : only (normalTail tape math_log tf) (normalTail read math_log tf).
  Proof.
    induction tf as [|tf IH]; [apply only_fail; discriminate|]. cbn [normalTail]. apply only_bind; [apply only_uniform|]. intros u. apply only_bind; [apply only_uniform|]. intros v.
    destruct (fge _ _); [apply only_ret|exact IH].
  Qed.
  Lemma only_normal mean sd tf fuel : only (Normal_Next tape math_exp math_log mean sd tf fuel) (Normal_Next read math_exp math_log mean sd tf fuel).
  Proof. unfold Normal_Next. apply only_bind; [|intros x; apply only_ret]. apply only_ziggurat; try reflexivity. apply only_normal_tail. Qed.
End Only.

(** *** More fuel never changes a result *)
Section Fuel.
  Context {W : Type} (read : reader W).
  Definition fuel_mono {A} (m : nat -> W -> outcome (A * W)) : Prop := forall f f' w r, (f <= f')%nat -> m f w = Ret r -> m f' w = Ret r.
  Lemma mono_const {A} (m : W -> outcome (A * W)) : fuel_mono (fun _ => m). Proof. intros f f' w r _ E. exact E. Qed.
  Lemma mono_bind {A B} (m : nat -> W -> outcome (A * W)) (k : A -> nat -> W -> outcome (B * W)) : fuel_mono m -> (forall a, fuel_mono (k a)) ->
    fuel_mono (fun f w => let! (a, w) := m f w in k a f w).
  Proof.
    intros HM HK f f' w r L E. destruct (m f w) as [[a w1]| |] eqn:E1; try discriminate E. rewrite (HM f f' w _ L E1). cbn [bind] in *. now apply (HK a f f').
  Qed.
  Lemma mono_out {A B} (o : outcome A) (k : A -> nat -> W -> outcome (B * W)) : (forall a, fuel_mono (k a)) -> fuel_mono (fun f w => let! a := o in k a f w).
  Proof. intros H. destruct o; cbn [bind]; [apply H| |]; intros f f' w r _ E; discriminate E. Qed.
  Lemma mono_uintn_loop ub bad : fuel_mono (fun f => uintn_loop read f ub bad).
  Proof.
    intros f. induction f as [|f IH]; intros f' w r L E; [discriminate E|]. destruct f' as [|f']; [lia|]. cbn [uintn_loop] in *.
    destruct (RNG_Uint64 read w) as [[u w1]| |]; cbn [bind] in *; try discriminate E. destruct (bad <? N.land u (N.ones ub))%N; [|exact E]. apply IH; [lia|exact E].
  Qed.
  Lemma mono_uintn ub max : fuel_mono (fun f => RNG_Uintn read f ub max).
  Proof.
    unfold RNG_Uintn. destruct (max =? 0)%N; [apply mono_const|]. apply mono_bind; [apply mono_uintn_loop|]. intros a. apply (mono_const (fun w => Ret (a mod max, w)%N)).
  Qed.
  Lemma mono_intn ub max : fuel_mono (fun f => RNG_Intn read f ub max).
  Proof. unfold RNG_Intn. destruct (max <? 0)%Z; [apply mono_const|]. apply mono_bind; [apply mono_uintn|]. intros a. apply (mono_const (fun w => Ret (Z.of_N a, w))). Qed.
  Lemma mono_randstring ub alphabet n : fuel_mono (fun f => RandString read ub f alphabet n).
  Proof.
    unfold RandString. apply mono_bind; [|intros a; apply (mono_const (fun w => Ret (runes_string a, w)))]. unfold RandRunes. destruct (n <? 0)%Z; [apply mono_const|].
    generalize (Z.to_nat n). intros k. generalize (string_runes alphabet). intros a. induction k as [|k IH]; cbn [randstring_loop]; [apply (mono_const (fun w => Ret ([], w)))|].
    apply mono_bind; [apply mono_uintn|]. intros i. apply mono_out. intros c. apply mono_bind; [exact IH|]. intros x. apply (mono_const (fun w => Ret (c :: x, w))).
  Qed.
  Lemma mono_shuffle_slice {A} ub (d : list A) : fuel_mono (fun f => ShuffleSlice read ub f d).
  Proof.
    unfold ShuffleSlice. generalize (length d) 0%nat. intros n. revert d. induction n as [|n IH]; intros d i; cbn [shuffle_slice_loop]; [apply (mono_const (fun w => Ret (d, w)))|].
    apply mono_bind; [apply mono_intn|]. intros k. apply mono_out. intros d'. apply IH.
  Qed.
  Lemma mono_ziggurat (z : nat -> Ziggurat W) : (forall a b, zPDF (z a) = zPDF (z b) /\ zMirrored (z a) = zMirrored (z b) /\ zK (z a) = zK (z b) /\ zW (z a) = zW (z b) /\ zF (z a) = zF (z b)) ->
    fuel_mono (fun f => zTail (z f)) -> fuel_mono (fun f => GenNext read (z f) f).
  Proof.
    intros SZ HT f f' w r L. destruct (SZ f' f) as (E1 & E2 & E3 & E4 & E5). assert (HT' : forall w r, zTail (z f) w = Ret r -> zTail (z f') w = Ret r) by (intros w0 r0; apply (HT f f' w0 r0 L)).
    clear HT SZ. revert f' w r L E1 E2 E3 E4 E5 HT'. assert (K : forall n n' w r, (n <= n')%nat -> forall f', zPDF (z f') = zPDF (z f) -> zMirrored (z f') = zMirrored (z f) -> zK (z f') = zK (z f) -> zW (z f') = zW (z f) -> zF (z f') = zF (z f) ->
      (forall w r, zTail (z f) w = Ret r -> zTail (z f') w = Ret r) -> GenNext read (z f) n w = Ret r -> GenNext read (z f') n' w = Ret r); [|intros; eapply K; eauto].
    induction n as [|n IH]; intros n' w r L f' E1 E2 E3 E4 E5 HT' E; [discriminate E|]. destruct n' as [|n']; [lia|]. cbn [GenNext] in *. rewrite E1, E2, E3, E4, E5.
    destruct (RNG_Uint64 read w) as [[u w1]| |]; cbn [bind] in *; try discriminate E. destruct (aget (zK (z f)) _) as [k| |]; cbn [bind] in *; try discriminate E.
    destruct (_ <? k)%N; [exact E|]. destruct (negb _).
    - destruct (aget (zW (z f)) _) as [wi| |]; cbn [bind] in *; try discriminate E. destruct (aget (zF (z f)) _) as [fi| |]; cbn [bind] in *; try discriminate E.
      destruct (Uniform0_1_Next read w1) as [[y w2]| |]; cbn [bind] in *; try discriminate E. destruct (aget (zF (z f)) _) as [fp| |]; cbn [bind] in *; try discriminate E.
      destruct (flt _ _); [exact E|]. apply IH; auto; lia.
    - destruct (zTail (z f) w1) as [[x w2]| |] eqn:ET; cbn [bind] in *; try discriminate E. rewrite (HT' _ _ ET). exact E.
  Qed.
  Variables math_exp math_log : float64 -> float64.
  Lemma mono_exponential rate : fuel_mono (Exponential_Next read math_exp math_log rate).
  Proof.
    unfold Exponential_Next. apply mono_bind; [|intros x; apply (mono_const (fun w => Ret (fdiv x rate, w)))]. apply (mono_ziggurat (fun _ => expoZig read math_exp math_log)); [repeat split|]. apply mono_const.
  Qed.
  Lemma mono_normal mean sd : fuel_mono (fun f => Normal_Next read math_exp math_log mean sd f f).
  Proof.
    unfold Normal_Next. apply mono_bind; [|intros x; apply (mono_const (fun w => Ret (add_mul NormalSite mean x sd, w)))]. apply (mono_ziggurat (normalZig read math_exp math_log)); [repeat split|].
    cbn [zTail normalZig]. intros f. induction f as [|f IH]; intros f' w r L E; [discriminate E|]. destruct f' as [|f']; [lia|]. cbn [normalTail] in *.
    destruct (Uniform0_1_Next read w) as [[u w1]| |]; cbn [bind] in *; try discriminate E. destruct (Uniform0_1_Next read w1) as [[v w2]| |]; cbn [bind] in *; try discriminate E.
    destruct (fge _ _); [exact E|]. apply IH; [lia|exact E].
  Qed.
End Fuel.
End Compiler.
