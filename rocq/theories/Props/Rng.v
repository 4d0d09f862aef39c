(** Properties of RNG over an arbitrary source: C25, C26, C27, C28, C29. *)
From Coq Require Import Lia ZifyN ZifyNat ZifyBool.
From Verif Require Import Model.Base Model.Rng Spec.Common Spec.Counting.
From Verif Require Import Proofs.WordLemmas Proofs.ReadProofs Proofs.SaveProofs Proofs.Count Proofs.IvWords.
Local Open Scope N_scope.

(** ** C25 *)
Lemma get64_8 p : length p = 8%nat -> get64 p 0 = Ret (le_val p).
Proof. intros L. rewrite get64_first by lia. now rewrite firstn_all2 by lia. Qed.
Lemma get_le_all k p : length p = k -> get_le k p = Ret (le_val p).
Proof. intros L. unfold get_le. rewrite L, Nat.leb_refl. now rewrite firstn_all2 by lia. Qed.
Lemma byte_of_le_val p i : Forall isbyte p -> byte_of (le_val p) i = nth i p 0.
Proof.
  intros H. unfold byte_of. revert i. induction H as [|b p Hb _ IH]; intros i; cbn [le_val].
  - destruct i; cbn [nth]; rewrite N.div_0_l, N.mod_0_l; (reflexivity || discriminate || now apply N.pow_nonzero).
  - unfold isbyte in Hb. destruct i as [|i]; cbn [nth].
    + change (N.of_nat 0) with 0. rewrite N.pow_0_r, N.div_1_r, N.mul_comm, N.mod_add, N.mod_small by lia. reflexivity.
    + rewrite <- IH, pow256_S, <- N.div_div by (discriminate || now apply N.pow_nonzero). f_equal. f_equal.
      rewrite N.mul_comm, N.div_add, N.div_small by lia. reflexivity.
Qed.
Section C25.
  Context {W : Type} (read : reader W).
  (** The result is the little-endian value of the buffer after one Read of 8 bytes, whatever the
      count n and the error the source reports. *)
  Theorem C25_uint64_decodes w p n e w' : go_reader read -> read w (zeros 8) = Ret ((p, n, e), w') ->
    exists x, RNG_Uint64 read w = Ret (x, w') /\ x < 2 ^ 64 /\ forall i, (i < 8)%nat -> byte_of x i = nth i p 0.
  Proof.
    intros G E. destruct (G _ _ _ _ _ _ E) as [L B]. rewrite zeros_length in L. specialize (B (zeros_isbyte 8)).
    exists (le_val p). unfold RNG_Uint64. rewrite E. cbn [bind]. rewrite get64_8 by exact L. split; [reflexivity|].
    split; [now apply le_val_w64|]. intros i _. now apply byte_of_le_val.
  Qed.
  Theorem C25_uint32_decodes w p n e w' : go_reader read -> read w (zeros 4) = Ret ((p, n, e), w') ->
    exists x, RNG_Uint32 read w = Ret (x, w') /\ x < 2 ^ 32 /\ forall i, (i < 4)%nat -> byte_of x i = nth i p 0.
  Proof.
    intros G E. destruct (G _ _ _ _ _ _ E) as [L B]. rewrite zeros_length in L. specialize (B (zeros_isbyte 4)).
    exists (le_val p). unfold RNG_Uint32. rewrite E. cbn [bind]. rewrite get_le_all by exact L. split; [reflexivity|].
    split; [apply le_val_bound in B; rewrite L in B; exact B|]. intros i _. now apply byte_of_le_val.
  Qed.
  Theorem C25_uint16_decodes w p n e w' : go_reader read -> read w (zeros 2) = Ret ((p, n, e), w') ->
    exists x, RNG_Uint16 read w = Ret (x, w') /\ x < 2 ^ 16 /\ forall i, (i < 2)%nat -> byte_of x i = nth i p 0.
  Proof.
    intros G E. destruct (G _ _ _ _ _ _ E) as [L B]. rewrite zeros_length in L. specialize (B (zeros_isbyte 2)).
    exists (le_val p). unfold RNG_Uint16. rewrite E. cbn [bind]. rewrite get_le_all by exact L. split; [reflexivity|].
    split; [apply le_val_bound in B; rewrite L in B; exact B|]. intros i _. now apply byte_of_le_val.
  Qed.
  (** a source that only wrote k bytes leaves the rest zero, so the value is below 256^k *)
  Theorem C25_short_read_is_silent w p n e w' k : go_reader read -> read w (zeros 8) = Ret ((p, n, e), w') ->
    (k <= 8)%nat -> skipn k p = zeros (8 - k) -> exists x, RNG_Uint64 read w = Ret (x, w') /\ x < 256 ^ N.of_nat k.
  Proof.
    intros G E Hk Z. destruct (G _ _ _ _ _ _ E) as [L B]. rewrite zeros_length in L. specialize (B (zeros_isbyte 8)).
    exists (le_val p). unfold RNG_Uint64. rewrite E. cbn [bind]. rewrite get64_8 by exact L. split; [reflexivity|].
    rewrite <- (firstn_skipn k p), Z, le_val_zeros.
    pose proof (le_val_bound (firstn k p) (firstn_isbyte k p B)) as H. rewrite firstn_length_le in H by lia. exact H.
  Qed.
End C25.
Lemma bytes_one k x : x < 256 ^ k -> has_exactly (fun bs => bytes_of_length k bs /\ le_val bs = x) 1.
Proof.
  intros Hx. apply (bytes_number k (fun y => y = x)). exists [x]. split; [repeat constructor; intros []|]. split; [|reflexivity].
  intros a. split; [intros [<-|[]]; auto|]. intros [_ ->]. now left.
Qed.
(** each value of the type comes from exactly one byte string: uniform bytes give uniform integers *)
Theorem C25_uint64_uniform x : x < 2 ^ 64 ->
  has_exactly (fun bs => bytes_of_length 8 bs /\ RNG_Uint64 (source_of bs) tt = Ret (x, tt)) 1.
Proof.
  intros Hx. apply (has_exactly_ext (fun bs => bytes_of_length 8 bs /\ le_val bs = x)).
  - intros bs. split; intros [[L B] E]; (split; [split; assumption|]).
    + unfold RNG_Uint64, source_of. cbn [bind]. rewrite get64_8 by lia. cbn [bind]. congruence.
    + unfold RNG_Uint64, source_of in E. cbn [bind] in E. rewrite get64_8 in E by lia. cbn [bind] in E. congruence.
  - now apply bytes_one.
Qed.
Theorem C25_uint32_uniform x : x < 2 ^ 32 ->
  has_exactly (fun bs => bytes_of_length 4 bs /\ RNG_Uint32 (source_of bs) tt = Ret (x, tt)) 1.
Proof.
  intros Hx. apply (has_exactly_ext (fun bs => bytes_of_length 4 bs /\ le_val bs = x)).
  - intros bs. split; intros [[L B] E]; (split; [split; assumption|]).
    + unfold RNG_Uint32, source_of. cbn [bind]. rewrite get_le_all by lia. cbn [bind]. congruence.
    + unfold RNG_Uint32, source_of in E. cbn [bind] in E. rewrite get_le_all in E by lia. cbn [bind] in E. congruence.
  - now apply bytes_one.
Qed.
Theorem C25_uint16_uniform x : x < 2 ^ 16 ->
  has_exactly (fun bs => bytes_of_length 2 bs /\ RNG_Uint16 (source_of bs) tt = Ret (x, tt)) 1.
Proof.
  intros Hx. apply (has_exactly_ext (fun bs => bytes_of_length 2 bs /\ le_val bs = x)).
  - intros bs. split; intros [[L B] E]; (split; [split; assumption|]).
    + unfold RNG_Uint16, source_of. cbn [bind]. rewrite get_le_all by lia. cbn [bind]. congruence.
    + unfold RNG_Uint16, source_of in E. cbn [bind] in E. rewrite get_le_all in E by lia. cbn [bind] in E. congruence.
  - now apply bytes_one.
Qed.
(** a source that fails on every read (n = 0, error, buffer untouched) yields 0 *)
Example C25_nonvacuous :
  go_reader (fun (w : unit) p => Ret ((p, 0%nat, Some EOF), w)) /\ go_reader (W := unit) (fun w p => Ret ((map (fun _ => 7) p, length p, None), w)).
Proof.
  split; intros w p p' n e w' E; injection E as <- <- <- <-.
  - auto.
  - split; [apply map_length|]. intros _. apply Forall_forall. intros x Hx. apply in_map_iff in Hx. destruct Hx as (y & <- & _). reflexivity.
Qed.

(** ** C26 *)
(** a 64-bit draw is rejected when its low [ub] bits exceed floor(MaxUint/max)*max *)
Definition rejected (ub max u : N) : Prop := (2 ^ ub - 1) / max * max < u mod 2 ^ ub.

Lemma bad_value ub max : 0 < max -> N.ones ub - N.ones ub mod max = (2 ^ ub - 1) / max * max.
Proof.
  intros H. rewrite N.ones_equiv, <- N.sub_1_r. generalize (2 ^ ub - 1). intros M.
  rewrite (N.mul_comm (M / max)). apply N.add_sub_eq_r. symmetry. apply N.div_mod. lia.
Qed.
Section C26.
  Context {W : Type} (read : reader W).
  Notation draw := (RNG_Uint64 read).
  Lemma uintn_loop_ret ub bad fuel : forall w x w', uintn_loop read fuel ub bad w = Ret (x, w') <->
    exists us u, (length us < fuel)%nat /\ runs draw w (us ++ [u]) w' /\ Forall (fun v => bad < v mod 2 ^ ub) us /\
      ~ bad < u mod 2 ^ ub /\ x = u mod 2 ^ ub.
  Proof.
    induction fuel as [|fuel IH]; intros w x w'; cbn [uintn_loop].
    { split; [discriminate|]. intros (us & u & H & _). lia. }
    split.
    - intros E. destruct (draw w) as [[u w1]| |] eqn:Eu; cbn [bind] in E; try discriminate E. rewrite N.land_ones in E.
      destruct (N.ltb_spec bad (u mod 2 ^ ub)) as [Hb|Hb].
      + apply IH in E. destruct E as (us & v & L & R & F & A & X). exists (u :: us), v. cbn [length app].
        split; [lia|]. split; [econstructor; eassumption|]. split; [now constructor|]. auto.
      + injection E as <- <-. exists [], u. cbn [length app]. split; [lia|]. split; [econstructor; [eassumption|constructor]|].
        split; [constructor|]. split; [lia|reflexivity].
    - intros (us & u & L & R & F & A & X). destruct us as [|v us]; cbn [app] in R; inversion R as [|s y s1 ys s2 Ey Ry]; subst.
      + rewrite Ey. cbn [bind]. rewrite N.land_ones. destruct (N.ltb_spec bad (u mod 2 ^ ub)); [contradiction|].
        inversion Ry; subst. reflexivity.
      + rewrite Ey. cbn [bind]. rewrite N.land_ones. inversion F as [|? ? Fv Fus]; subst.
        destruct (N.ltb_spec bad (v mod 2 ^ ub)); [|lia]. apply IH. exists us, u. cbn [length] in L.
        split; [lia|]. auto.
  Qed.
  Lemma draw_total : go_reader read -> total_reader read -> forall w, exists u w', draw w = Ret (u, w').
  Proof.
    intros G T w. destruct (T w (zeros 8)) as ([[p n] e] & w' & E). destruct (C25_uint64_decodes read w p n e w' G E) as (x & Ex & _). eauto.
  Qed.
  Lemma uintn_loop_fuel ub bad fuel : go_reader read -> total_reader read -> forall w, uintn_loop read fuel ub bad w = OutOfFuel <->
    exists us w', length us = fuel /\ runs draw w us w' /\ Forall (fun v => bad < v mod 2 ^ ub) us.
  Proof.
    intros G T. induction fuel as [|fuel IH]; intros w; cbn [uintn_loop].
    { split; [|reflexivity]. intros _. exists [], w. repeat constructor. }
    destruct (draw_total G T w) as (u & w1 & Eu). rewrite Eu. cbn [bind]. rewrite N.land_ones. split.
    - destruct (N.ltb_spec bad (u mod 2 ^ ub)) as [Hb|Hb]; [|discriminate]. intros E. apply IH in E. destruct E as (us & w' & L & R & F).
      exists (u :: us), w'. cbn [length]. split; [lia|]. split; [econstructor; eassumption|now constructor].
    - intros (us & w' & L & R & F). destruct us as [|v us]; [discriminate L|]. inversion R as [|s y s1 ys s2 Ey Ry]; subst.
      rewrite Eu in Ey. injection Ey as <- <-. inversion F; subst. destruct (N.ltb_spec bad (u mod 2 ^ ub)); [|lia].
      apply IH. exists us, w'. cbn [length] in L. auto.
  Qed.
  Lemma uintn_loop_no_panic ub bad fuel : go_reader read -> total_reader read -> forall w, uintn_loop read fuel ub bad w <> Panic.
  Proof.
    intros G T. induction fuel as [|fuel IH]; intros w; cbn [uintn_loop]; [discriminate|].
    destruct (draw_total G T w) as (u & w1 & Eu). rewrite Eu. cbn [bind]. destruct (bad <? N.land u (N.ones ub)); [apply IH|discriminate].
  Qed.

  (** [fuel] is the number of draws the loop is given; [ub] the width of Go's uint *)
  Theorem C26_uintn_is_first_accepted_draw fuel ub max w x w' : 0 < max ->
    RNG_Uintn read fuel ub max w = Ret (x, w') <->
    exists us u, (length us < fuel)%nat /\ runs draw w (us ++ [u]) w' /\ Forall (rejected ub max) us /\ ~ rejected ub max u /\
      x = (u mod 2 ^ ub) mod max.
  Proof.
    intros Hm. unfold RNG_Uintn, rejected. rewrite (proj2 (N.eqb_neq max 0)) by lia. rewrite bad_value by exact Hm. split.
    - intros E. destruct (uintn_loop read fuel ub ((2 ^ ub - 1) / max * max) w) as [[y w1]| |] eqn:L; cbn [bind] in E; try discriminate E.
      injection E as <- <-. apply uintn_loop_ret in L. destruct L as (us & u & ? & ? & ? & ? & ->). eauto 10.
    - intros (us & u & L & R & F & A & ->).
      rewrite (proj2 (uintn_loop_ret ub ((2 ^ ub - 1) / max * max) fuel w (u mod 2 ^ ub) w')) by eauto 10. reflexivity.
  Qed.
  Theorem C26_uintn_in_range fuel ub max w x w' : RNG_Uintn read fuel ub max w = Ret (x, w') -> x < max.
  Proof.
    intros E. destruct (N.eq_dec max 0) as [->|Hm]; [discriminate E|].
    apply C26_uintn_is_first_accepted_draw in E; [|lia]. destruct E as (us & u & _ & _ & _ & _ & ->). now apply N.mod_lt.
  Qed.
  Theorem C26_uintn_panics_iff fuel ub max w : go_reader read -> total_reader read ->
    (RNG_Uintn read fuel ub max w = Panic <-> max = 0).
  Proof.
    intros G T. unfold RNG_Uintn. destruct (N.eqb_spec max 0) as [->|Hm]; [tauto|]. split; [|contradiction].
    pose proof (uintn_loop_no_panic ub (N.ones ub - N.ones ub mod max) fuel G T w).
    destruct (uintn_loop read fuel ub (N.ones ub - N.ones ub mod max) w) as [[y w1]| |]; cbn [bind]; congruence.
  Qed.
  (** it needs more than [fuel] draws iff the first [fuel] draws are all rejected; so it runs forever iff
      no draw is ever accepted *)
  Theorem C26_uintn_not_finished_iff fuel ub max w : go_reader read -> total_reader read -> 0 < max ->
    (RNG_Uintn read fuel ub max w = OutOfFuel <->
     exists us w', length us = fuel /\ runs draw w us w' /\ Forall (rejected ub max) us).
  Proof.
    intros G T Hm. unfold RNG_Uintn, rejected. rewrite (proj2 (N.eqb_neq max 0)) by lia. rewrite bad_value by exact Hm.
    rewrite <- (uintn_loop_fuel ub ((2 ^ ub - 1) / max * max) fuel G T w).
    destruct (uintn_loop read fuel ub ((2 ^ ub - 1) / max * max) w) as [[y w1]| |]; cbn [bind]; split; congruence.
  Qed.
  (** Intn *)
  Theorem C26_intn_is_first_accepted_draw fuel ub max w x w' :
    RNG_Intn read fuel ub max w = Ret (x, w') <->
    (0 < max)%Z /\ exists us u, (length us < fuel)%nat /\ runs draw w (us ++ [u]) w' /\
      Forall (rejected ub (Z.to_N max)) us /\ ~ rejected ub (Z.to_N max) u /\ x = Z.of_N ((u mod 2 ^ ub) mod Z.to_N max).
  Proof.
    unfold RNG_Intn. destruct (Z.ltb_spec max 0) as [Hn|Hn].
    { split; [discriminate|]. intros [H _]. lia. }
    destruct (Z.eq_dec max 0) as [->|Hz].
    { cbn. split; [discriminate|]. intros [H _]. lia. }
    split.
    - intros E. split; [lia|]. destruct (RNG_Uintn read fuel ub (Z.to_N max) w) as [[y w1]| |] eqn:U; cbn [bind] in E; try discriminate E.
      injection E as <- <-. apply C26_uintn_is_first_accepted_draw in U; [|lia]. destruct U as (us & u & ? & ? & ? & ? & ->). eauto 10.
    - intros (_ & us & u & L & R & F & A & ->).
      rewrite (proj2 (C26_uintn_is_first_accepted_draw fuel ub (Z.to_N max) w ((u mod 2 ^ ub) mod Z.to_N max) w' ltac:(lia))) by eauto 10. reflexivity.
  Qed.
  Theorem C26_intn_in_range fuel ub max w x w' : RNG_Intn read fuel ub max w = Ret (x, w') -> (0 <= x < max)%Z.
  Proof.
    intros E. apply C26_intn_is_first_accepted_draw in E. destruct E as (Hm & us & u & _ & _ & _ & _ & ->).
    pose proof (N.mod_lt (u mod 2 ^ ub) (Z.to_N max)). lia.
  Qed.
  Theorem C26_intn_panics_iff fuel ub max w : go_reader read -> total_reader read ->
    (RNG_Intn read fuel ub max w = Panic <-> (max <= 0)%Z).
  Proof.
    intros G T. unfold RNG_Intn. destruct (Z.ltb_spec max 0) as [Hn|Hn]; [split; [lia|reflexivity]|].
    pose proof (C26_uintn_panics_iff fuel ub (Z.to_N max) w G T) as P.
    destruct (RNG_Uintn read fuel ub (Z.to_N max) w) as [[y w1]| |]; cbn [bind]; (split; [try discriminate|]); intros; try lia;
      try (assert (Ret (y, w1) = Panic) by (apply P; lia); discriminate); try reflexivity;
      try (assert (@OutOfFuel (N * W) = Panic) by (apply P; lia); discriminate).
    assert (Z.to_N max = 0) by (apply P; reflexivity). lia.
  Qed.
End C26.
(** there is a source on which Uintn(2) never returns: the one that always delivers 0xff *)
Definition ones_source : reader unit := fun w p => Ret ((map (fun _ => 255) p, length p, None), w).
Theorem C26_uintn_can_run_forever fuel : RNG_Uintn ones_source fuel 64 2 tt = OutOfFuel.
Proof.
  unfold RNG_Uintn. change (2 =? 0) with false. cbn iota. change (N.ones 64 - N.ones 64 mod 2) with (2 ^ 64 - 2).
  replace (uintn_loop ones_source fuel 64 (2 ^ 64 - 2) tt) with (@OutOfFuel (N * unit)); [reflexivity|].
  induction fuel as [|fuel IH]; [reflexivity|]. cbn [uintn_loop].
  change (RNG_Uint64 ones_source tt) with (Ret (2 ^ 64 - 1, tt)). cbn [bind].
  change (2 ^ 64 - 2 <? N.land (2 ^ 64 - 1) (N.ones 64)) with true. exact IH.
Qed.
Lemma ones_source_ok : go_reader ones_source /\ total_reader ones_source.
Proof.
  split.
  - intros w p p' n e w' E. injection E as <- <- <- <-. split; [apply map_length|]. intros _. apply Forall_forall.
    intros x Hx. apply in_map_iff in Hx. destruct Hx as (y & <- & _). reflexivity.
  - intros w p. eexists _, _. reflexivity.
Qed.
Example C26_nonvacuous : go_reader ones_source /\ total_reader ones_source /\
  RNG_Uintn (source_of (repeat 7 8)) 1 64 10 tt = Ret (1, tt).
Proof. split; [apply ones_source_ok|]. split; [apply ones_source_ok|reflexivity]. Qed.

(** ** C27 *)
Lemma draw_source_of bs : bytes_of_length 8 bs -> RNG_Uint64 (source_of bs) tt = Ret (le_val bs, tt).
Proof. intros [L B]. unfold RNG_Uint64, source_of. cbn [bind]. rewrite get64_8 by lia. reflexivity. Qed.
(** one draw: the result of Uintn if the draw is accepted *)
Lemma uintn_source_of bs ub max r : bytes_of_length 8 bs -> 0 < max ->
  (RNG_Uintn (source_of bs) 1 ub max tt = Ret (r, tt) <-> ~ rejected ub max (le_val bs) /\ (le_val bs mod 2 ^ ub) mod max = r).
Proof.
  intros B Hm. rewrite C26_uintn_is_first_accepted_draw by exact Hm. split.
  - intros (us & u & L & R & _ & A & ->). destruct us as [|v us]; [|cbn in L; lia]. cbn [app] in R.
    inversion R as [|s y s1 ys s2 Ey Ry]; subst. rewrite draw_source_of in Ey by exact B. injection Ey as Ey _. subst u. auto.
  - intros [A <-]. exists [], (le_val bs). cbn [length app]. split; [lia|]. split; [|auto].
    econstructor; [now apply draw_source_of|constructor].
Qed.
(** x below [a*2^ub] *)
Lemma count_low ub a (P : N -> Prop) n : has_exactly (fun x => x < 2 ^ ub /\ P x) n ->
  has_exactly (fun x => x < a * 2 ^ ub /\ P (x mod 2 ^ ub)) (a * n).
Proof.
  intros H. pose proof (N.pow_nonzero 2 ub ltac:(discriminate)) as Z. revert H Z. generalize (2 ^ ub). intros m H Z.
  pose proof (has_exactly_pair _ _ _ _ (has_exactly_below a) H) as H2.
  apply (has_exactly_bij _ _ (fun x => fst x * m + snd x) (fun x => (x / m, x mod m))) with (5 := H2); cbn [fst snd].
  - intros [q x] [Hq [Hx Px]]. cbn [fst snd] in *. split; [nia|]. rewrite N.add_comm, N.mod_add, N.mod_small by lia. exact Px.
  - intros x [Hx Px]. split; [apply N.div_lt_upper_bound; lia|]. split; [now apply N.mod_lt|exact Px].
  - intros [q x] [Hq [Hx Px]]. cbn [fst snd] in *. f_equal.
    + rewrite N.div_add_l, N.div_small by lia. lia.
    + rewrite N.add_comm, N.mod_add, N.mod_small by lia. reflexivity.
  - intros x _. rewrite N.mul_comm. symmetry. now apply N.div_mod.
Qed.
(** x <= q*m, x mod m = r *)
Lemma count_residue q m r : 0 < m -> r < m -> has_exactly (fun x => x <= q * m /\ x mod m = r) (if r =? 0 then q + 1 else q).
Proof.
  intros Hm Hr. destruct (N.eqb_spec r 0) as [->|Hz].
  - apply (has_exactly_ext (fun x => x < (q + 1) * m /\ x mod m = 0)); [|now apply has_exactly_mod].
    intros x. split; intros [H1 H2]; (split; [|exact H2]).
    + pose proof (N.div_mod x m ltac:(lia)) as D. rewrite H2, N.add_0_r in D. rewrite D in H1 |- *.
      rewrite (N.mul_comm q). apply N.mul_le_mono_l. rewrite (N.mul_comm _ m) in H1. apply N.mul_lt_mono_pos_l in H1; lia.
    + rewrite N.mul_add_distr_r. lia.
  - apply (has_exactly_ext (fun x => x < q * m /\ x mod m = r)); [|now apply has_exactly_mod].
    intros x. split; intros [H1 H2]; (split; [|exact H2]); [lia|].
    assert (x <> q * m) by (intros ->; rewrite N.mod_mul in H2 by lia; congruence). lia.
Qed.
(** how many of the 256^8 draws make Uintn(max) return r at once *)
Theorem C27_uintn_preimages ub max r : ub = 32 \/ ub = 64 -> 0 < max -> r < max -> max < 2 ^ ub ->
  has_exactly (fun bs => bytes_of_length 8 bs /\ RNG_Uintn (source_of bs) 1 ub max tt = Ret (r, tt))
    (2 ^ (64 - ub) * (if r =? 0 then (2 ^ ub - 1) / max + 1 else (2 ^ ub - 1) / max)).
Proof.
  intros Hub Hm Hr Hmx.
  apply (has_exactly_ext (fun bs => bytes_of_length 8 bs /\
    ((fun x => ~ (2 ^ ub - 1) / max * max < x /\ x mod max = r) (le_val bs mod 2 ^ ub)))).
  { intros bs. split; intros [B H]; (split; [exact B|]); now apply uintn_source_of. }
  apply (bytes_number 8 (fun y => (fun x => ~ (2 ^ ub - 1) / max * max < x /\ x mod max = r) (y mod 2 ^ ub))).
  replace (256 ^ 8) with (2 ^ (64 - ub) * 2 ^ ub) by (destruct Hub as [-> | ->]; reflexivity).
  apply (count_low ub (2 ^ (64 - ub)) (fun x => ~ (2 ^ ub - 1) / max * max < x /\ x mod max = r)).
  apply (has_exactly_ext (fun x => x <= (2 ^ ub - 1) / max * max /\ x mod max = r)); [|now apply count_residue].
  intros x. split.
  - intros [H1 H2]. split; [|split; [lia|exact H2]].
    assert ((2 ^ ub - 1) / max * max <= 2 ^ ub - 1) by (rewrite N.mul_comm; apply N.mul_div_le; lia).
    assert (0 < 2 ^ ub) by (destruct Hub as [-> | ->]; reflexivity). lia.
  - intros (_ & H1 & H2). split; [lia|exact H2].
Qed.
(** so for every max >= 2, residue 0 is more likely than residue 1: Uintn is never exactly uniform *)
Theorem C27_uintn_not_uniform ub max : ub = 32 \/ ub = 64 -> 2 <= max -> max < 2 ^ ub -> ~ exists n, forall r, r < max ->
  has_exactly (fun bs => bytes_of_length 8 bs /\ RNG_Uintn (source_of bs) 1 ub max tt = Ret (r, tt)) n.
Proof.
  intros Hub Hm Hmx (n & H).
  pose proof (has_exactly_unique _ _ _ (H 0 ltac:(lia)) (C27_uintn_preimages ub max 0 Hub ltac:(lia) ltac:(lia) Hmx)) as E0.
  pose proof (has_exactly_unique _ _ _ (H 1 ltac:(lia)) (C27_uintn_preimages ub max 1 Hub ltac:(lia) ltac:(lia) Hmx)) as E1.
  change (0 =? 0) with true in E0. change (1 =? 0) with false in E1. cbn iota in *. rewrite E1 in E0.
  revert E0. generalize ((2 ^ ub - 1) / max). intros q E0.
  assert (2 ^ (64 - ub) <> 0) by now apply N.pow_nonzero. nia.
Qed.
(** with the other bound, x < q*max, every residue would have exactly q preimages *)
Theorem C27_exact_bound_would_be_uniform q max r : 0 < max -> r < max -> has_exactly (fun x => x < q * max /\ x mod max = r) q.
Proof. intros. now apply has_exactly_mod. Qed.
Example C27_nonvacuous : (2 ^ 64 - 1) / 10 = 1844674407370955161. Proof. reflexivity. Qed.

Print Assumptions C25_uint64_decodes.
Print Assumptions C25_uint32_decodes.
Print Assumptions C25_uint16_decodes.
Print Assumptions C25_short_read_is_silent.
Print Assumptions C25_uint64_uniform.
Print Assumptions C25_uint32_uniform.
Print Assumptions C25_uint16_uniform.
Print Assumptions C26_uintn_is_first_accepted_draw.
Print Assumptions C26_uintn_in_range.
Print Assumptions C26_uintn_panics_iff.
Print Assumptions C26_uintn_not_finished_iff.
Print Assumptions C26_intn_is_first_accepted_draw.
Print Assumptions C26_intn_in_range.
Print Assumptions C26_intn_panics_iff.
Print Assumptions C26_uintn_can_run_forever.
Print Assumptions C27_uintn_preimages.
Print Assumptions C27_uintn_not_uniform.
Print Assumptions C27_exact_bound_would_be_uniform.
