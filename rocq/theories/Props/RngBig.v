(** RNG.Big and RNG.Bign: C28, C29. *)
From Coq Require Import Lia ZifyN ZifyNat ZifyBool.
From Verif Require Import Model.Base Model.Rng Spec.Common Spec.Counting.
From Verif Require Import Proofs.WordLemmas Proofs.ReadProofs Proofs.SaveProofs Proofs.Count Proofs.IvWords Props.Rng.
Local Open Scope N_scope.

Lemma le_val_app a b : le_val (a ++ b) = le_val a + 256 ^ N.of_nat (length a) * le_val b.
Proof.
  rewrite (le_val_cut (length a) (a ++ b)). rewrite firstn_app, Nat.sub_diag, firstn_all, app_nil_r, skipn_app, Nat.sub_diag, skipn_all. reflexivity.
Qed.
Lemma big_endian_be bs : big_endian bs = be_val bs.
Proof.
  unfold big_endian, be_val. rewrite <- fold_left_rev_right. induction (rev bs) as [|b l IH]; [reflexivity|].
  cbn [fold_right le_val]. rewrite IH. lia.
Qed.
Lemma be_val_cons b bs : be_val (b :: bs) = be_val bs + 256 ^ N.of_nat (length bs) * b.
Proof. unfold be_val. cbn [rev]. rewrite le_val_app, rev_length. cbn [le_val]. lia. Qed.
Lemma be_val_bound bs : Forall isbyte bs -> be_val bs < 256 ^ N.of_nat (length bs).
Proof. intros H. unfold be_val. rewrite <- rev_length. apply le_val_bound. apply Forall_rev, H. Qed.
Lemma pow256 n : 256 ^ n = 2 ^ (8 * n).
Proof. change 256 with (2 ^ 8). now rewrite <- N.pow_mul_r. Qed.

(** number of bits of the result: nbits, or 8 fewer when 8 divides nbits *)
Definition big_bits (nbits : N) : N := if nbits mod 8 =? 0 then nbits - 8 else nbits.

Lemma mask_value nb b bs : 0 < nb -> isbyte b -> Forall isbyte bs -> N.of_nat (S (length bs)) = (nb + 7) / 8 ->
  be_val (N.land b (N.shiftr 0xff (8 - N.land nb 7)) :: bs) = be_val (b :: bs) mod 2 ^ big_bits nb.
Proof.
  intros Hn Hb Hbs L. rewrite !be_val_cons. pose proof (be_val_bound bs Hbs) as B. unfold big_bits.
  change 7 with (N.ones 3). rewrite N.land_ones. change (2 ^ 3) with 8.
  assert (Hr : nb mod 8 < 8) by now apply N.mod_lt. pose proof (N.div_mod nb 8 ltac:(discriminate)) as D.
  destruct (N.eqb_spec (nb mod 8) 0) as [E|E].
  - rewrite E. change (N.shiftr 255 (8 - 0)) with 0. rewrite N.land_0_r, N.mul_0_r, N.add_0_r.
    assert (Hl : 256 ^ N.of_nat (length bs) = 2 ^ (nb - 8)) by (rewrite pow256; f_equal; lia).
    rewrite <- Hl, (N.mul_comm _ b), N.mod_add, N.mod_small by (try exact B; apply N.pow_nonzero; discriminate). reflexivity.
  - assert (M : N.shiftr 0xff (8 - nb mod 8) = N.ones (nb mod 8)).
    { assert (C : nb mod 8 = 1 \/ nb mod 8 = 2 \/ nb mod 8 = 3 \/ nb mod 8 = 4 \/ nb mod 8 = 5 \/ nb mod 8 = 6 \/ nb mod 8 = 7) by lia.
      repeat (destruct C as [-> | C]; [reflexivity|]). rewrite C. reflexivity. }
    rewrite M, N.land_ones.
    assert (Hl : 2 ^ nb = 256 ^ N.of_nat (length bs) * 2 ^ (nb mod 8)) by (rewrite pow256, <- N.pow_add_r; f_equal; lia).
    rewrite Hl. pose proof (N.pow_nonzero 2 (nb mod 8) ltac:(discriminate)) as Z2.
    pose proof (N.pow_nonzero 256 (N.of_nat (length bs)) ltac:(discriminate)) as Z1.
    revert B Z1 Z2. generalize (2 ^ (nb mod 8)), (256 ^ N.of_nat (length bs)), (be_val bs). intros m k v B Z1 Z2.
    rewrite N.mod_mul_r by assumption.
    rewrite (N.mul_comm k b), N.mod_add, (N.mod_small v k), N.div_add, (N.div_small v k), N.add_0_l by assumption. reflexivity.
Qed.

Section Big.
  Context {W : Type} (read : reader W).
  Lemma big_size nb : 0 < nb -> nb <= 2 ^ 51 -> shr64 (add64 nb 7) 3 = (nb + 7) / 8.
  Proof.
    intros H1 H2. rewrite add64_mod, N.mod_small by (change (2 ^ 51) with 2251799813685248 in H2; change (2 ^ 64) with 18446744073709551616; lia).
    unfold shr64. now rewrite N.shiftr_div_pow2.
  Qed.
  Lemma big_eq nb w : go_reader read -> 0 < nb -> nb <= 2 ^ 51 ->
    RNG_Big read (Z.of_N nb) w =
    let! ((p, _, _), w') := read w (zeros (N.to_nat ((nb + 7) / 8))) in Ret (be_val p mod 2 ^ big_bits nb, w').
  Proof.
    intros G H1 H2. unfold RNG_Big.
    replace (Z.to_N (Z.of_N nb mod 2 ^ 64)) with nb.
    2:{ rewrite Z.mod_small by (change (2 ^ 51) with 2251799813685248 in H2; change (2 ^ 64)%Z with 18446744073709551616%Z; lia). lia. }
    rewrite big_size by assumption. unfold make_bytes, go_max_alloc.
    assert (Hs : (nb + 7) / 8 <= 0x1000000000000).
    { change 0x1000000000000 with ((2 ^ 51 + 7) / 8). apply N.div_le_mono; [discriminate|]. now apply N.add_le_mono_r. }
    rewrite (proj2 (N.leb_le _ _) Hs). cbn [bind].
    destruct (read w (zeros (N.to_nat ((nb + 7) / 8)))) as [[[[p n] e] w']| |] eqn:E; [|reflexivity|reflexivity]. cbn [bind].
    destruct (G _ _ _ _ _ _ E) as [L B]. specialize (B (zeros_isbyte _)). rewrite zeros_length in L.
    assert (Hp : 1 <= (nb + 7) / 8) by (change 1 with (8 / 8); apply N.div_le_mono; lia).
    destruct p as [|b p]; [cbn [length] in L; lia|]. inversion B as [|? ? Hb Hbs]; subst. cbn [aget nth_error bind].
    unfold aset. cbn [length Nat.ltb Nat.leb lupd bind]. rewrite mask_value; auto. cbn [length] in L. lia.
  Qed.
  Lemma nbits_N nbits : (0 < nbits <= 2 ^ 51)%Z -> exists nb, nbits = Z.of_N nb /\ 0 < nb /\ nb <= 2 ^ 51 /\
    Z.to_N nbits = nb /\ Z.to_nat ((nbits + 7) / 8) = N.to_nat ((nb + 7) / 8).
  Proof.
    intros [H1 H2]. exists (Z.to_N nbits). split; [lia|]. split; [lia|]. split.
    { change (2 ^ 51) with (Z.to_N (2 ^ 51)). apply Z2N.inj_le; lia. }
    split; [reflexivity|]. clear H2. rewrite <- Z_N_nat. f_equal. lia.
  Qed.
  (** 0 < nbits <= 2^51, so that the byte slice fits in memory: Big reads ceil(nbits/8) bytes p and returns
      their big-endian value modulo 2^nbits, or modulo 2^(nbits-8) if 8 divides nbits *)
  Theorem C28_big_value nbits w p n e w' : go_reader read -> (0 < nbits <= 2 ^ 51)%Z ->
    read w (zeros (Z.to_nat ((nbits + 7) / 8))) = Ret ((p, n, e), w') ->
    RNG_Big read nbits w = Ret (big_endian p mod 2 ^ big_bits (Z.to_N nbits), w').
  Proof.
    intros G H E. destruct (nbits_N nbits H) as (nb & -> & H1 & H2 & E1 & E2). rewrite E2 in E. rewrite E1.
    rewrite big_eq by assumption. rewrite E. cbn [bind]. now rewrite big_endian_be.
  Qed.
  Theorem C28_big_range nbits w x w' : go_reader read -> (0 < nbits <= 2 ^ 51)%Z ->
    RNG_Big read nbits w = Ret (x, w') -> x < 2 ^ Z.to_N nbits /\ ((nbits mod 8 = 0)%Z -> x < 2 ^ Z.to_N (nbits - 8)).
  Proof.
    intros G H E. destruct (nbits_N nbits H) as (nb & -> & H1 & H2 & E1 & E2). rewrite E1. rewrite big_eq in E by assumption.
    destruct (read w (zeros (N.to_nat ((nb + 7) / 8)))) as [[[[p n] e] w1]| |]; cbn [bind] in E; try discriminate E.
    injection E as <- <-.
    pose proof (N.mod_lt (be_val p) (2 ^ big_bits nb) ltac:(now apply N.pow_nonzero)) as Hlt. clear H2 H E2. split.
    - eapply N.lt_le_trans; [exact Hlt|]. apply N.pow_le_mono_r; [discriminate|]. unfold big_bits. destruct (nb mod 8 =? 0); lia.
    - intros Hz. replace (Z.to_N (Z.of_N nb - 8)) with (big_bits nb); [exact Hlt|].
      unfold big_bits. replace (nb mod 8) with 0; [change (0 =? 0) with true; cbn iota; lia|]. lia.
  Qed.
  Theorem C28_big_panics nbits w : go_reader read -> total_reader read -> (- 2 ^ 63 <= nbits <= 2 ^ 51)%Z ->
    (RNG_Big read nbits w = Panic <-> (nbits <= 0)%Z).
  Proof.
    intros G T [B1 B2]. split.
    - intros E. destruct (Z.le_gt_cases nbits 0) as [|H]; [assumption|]. exfalso.
      destruct (nbits_N nbits (conj H B2)) as (nb & -> & H1 & H2 & E1 & E2). rewrite big_eq in E by assumption.
      destruct (T w (zeros (N.to_nat ((nb + 7) / 8)))) as ([[p n] e] & w' & R). rewrite R in E. discriminate E.
    - intros H. unfold RNG_Big.
      assert (S : shr64 (add64 (Z.to_N (nbits mod 2 ^ 64)) 7) 3 = 0 \/ 2 ^ 59 <= shr64 (add64 (Z.to_N (nbits mod 2 ^ 64)) 7) 3).
      { rewrite add64_mod. unfold shr64. rewrite N.shiftr_div_pow2. change (2 ^ 3) with 8.
        assert (C : (nbits = 0 \/ -7 <= nbits < 0 \/ - 2 ^ 63 <= nbits < -7)%Z) by lia.
        clear B1 B2 H. destruct C as [-> | [C|C]].
        - left. reflexivity.
        - left. change (-7)%Z with (Z.opp 7) in C.
          assert (C' : (nbits = -1 \/ nbits = -2 \/ nbits = -3 \/ nbits = -4 \/ nbits = -5 \/ nbits = -6 \/ nbits = -7)%Z) by lia.
          repeat (destruct C' as [-> | C']; [reflexivity|]). subst. reflexivity.
        - right. assert (E : (nbits mod 2 ^ 64 = nbits + 2 ^ 64)%Z).
          { symmetry. apply Z.mod_unique with (-1)%Z; [left|]; change (2 ^ 64)%Z with 18446744073709551616%Z;
            change (2 ^ 63)%Z with 9223372036854775808%Z in C; lia. }
          rewrite E. change (2 ^ 64)%Z with 18446744073709551616%Z. change (2 ^ 64) with 18446744073709551616.
          change (2 ^ 63)%Z with 9223372036854775808%Z in C. rewrite N.mod_small by lia.
          change (2 ^ 59) with (4611686018427387904 / 8). apply N.div_le_mono; lia. }
      destruct S as [S|S].
      + rewrite S. change (make_bytes 0) with (Ret (@nil N)). cbn [bind].
        destruct (T w []) as ([[p n] e] & w' & R). rewrite R. cbn [bind].
        destruct (G _ _ _ _ _ _ R) as [L _]. destruct p; [reflexivity|discriminate L].
      + unfold make_bytes. rewrite (proj2 (N.leb_gt _ _)); [reflexivity|]. eapply N.lt_le_trans; [|exact S]. reflexivity.
  Qed.
End Big.

(** numbers of byte strings *)
Lemma bytes_number_be k (P : N -> Prop) n : has_exactly (fun x => x < 256 ^ k /\ P x) n ->
  has_exactly (fun bs => bytes_of_length k bs /\ P (be_val bs)) n.
Proof.
  intros H. apply bytes_number in H. apply (has_exactly_bij _ _ (@rev N) (@rev N)) with (5 := H).
  - intros bs [[L B] E]. split; [split; [now rewrite rev_length|now apply Forall_rev]|]. unfold be_val. now rewrite rev_involutive.
  - intros bs [[L B] E]. split; [split; [now rewrite rev_length|now apply Forall_rev]|]. exact E.
  - intros. apply rev_involutive.
  - intros. apply rev_involutive.
Qed.
Lemma source_of_go bs k : N.of_nat (length bs) = k -> Forall isbyte bs -> forall w p p' n e w', length p = N.to_nat k ->
  source_of bs w p = Ret ((p', n, e), w') -> length p' = length p /\ (Forall isbyte p -> Forall isbyte p').
Proof. intros L B w p p' n e w' Lp E. injection E as <- <- <- <-. split; [lia|auto]. Qed.
(** a source that always delivers [bs], padded or cut to the buffer's length: as [source_of bs] on buffers of length [length bs] *)
Definition fit_source (bs : list N) : reader unit := fun w p => Ret ((firstn (length p) (bs ++ zeros (length p)), length bs, None), w).
Lemma fit_go bs : Forall isbyte bs -> go_reader (fit_source bs).
Proof.
  intros B w p p' n e w' E. injection E as <- <- <- <-. split.
  - rewrite firstn_length, app_length, zeros_length. lia.
  - intros _. apply firstn_isbyte, Forall_app. split; [exact B|apply zeros_isbyte].
Qed.
Lemma fit_source_eq bs w p : length p = length bs -> fit_source bs w p = source_of bs w p.
Proof. intros L. unfold fit_source, source_of. rewrite L, firstn_app, Nat.sub_diag, firstn_all, app_nil_r. reflexivity. Qed.
Lemma big_source nb bs : 0 < nb -> nb <= 2 ^ 51 -> bytes_of_length ((nb + 7) / 8) bs ->
  RNG_Big (source_of bs) (Z.of_N nb) tt = Ret (be_val bs mod 2 ^ big_bits nb, tt).
Proof.
  intros H1 H2 [L B]. pose proof (big_eq (fit_source bs) nb tt (fit_go bs B) H1 H2) as E.
  rewrite fit_source_eq in E by (rewrite zeros_length; lia). cbn [source_of bind] in E. rewrite <- E.
  unfold RNG_Big. replace (Z.to_N (Z.of_N nb mod 2 ^ 64)) with nb.
  2:{ rewrite Z.mod_small by (change (2 ^ 51) with 2251799813685248 in H2; change (2 ^ 64)%Z with 18446744073709551616%Z; lia). lia. }
  rewrite big_size by assumption. unfold make_bytes. destruct ((nb + 7) / 8 <=? go_max_alloc); [|reflexivity]. cbn [bind].
  rewrite fit_source_eq by (rewrite zeros_length; lia). reflexivity.
Qed.
Lemma big_excess nb : 0 < nb -> 256 ^ ((nb + 7) / 8) = 2 ^ (if nb mod 8 =? 0 then 8 else 8 - nb mod 8) * 2 ^ big_bits nb.
Proof.
  intros H. rewrite pow256, <- N.pow_add_r. f_equal. unfold big_bits. destruct (N.eqb_spec (nb mod 8) 0); lia.
Qed.
Lemma count_mod_pow a m (P : N -> Prop) n : has_exactly (fun x => x < 2 ^ m /\ P x) n ->
  has_exactly (fun x => x < 2 ^ a * 2 ^ m /\ P (x mod 2 ^ m)) (2 ^ a * n).
Proof. apply count_low. Qed.
Lemma has_exactly_one {A} (a : A) : has_exactly (fun x => x = a) 1.
Proof. exists [a]. split; [repeat constructor; intros []|]. split; [|reflexivity]. intros x. cbn. intuition congruence. Qed.
Lemma big_count nb v : 0 < nb -> nb <= 2 ^ 51 -> v < 2 ^ big_bits nb ->
  has_exactly (fun bs => bytes_of_length ((nb + 7) / 8) bs /\ RNG_Big (source_of bs) (Z.of_N nb) tt = Ret (v, tt))
    (2 ^ (if nb mod 8 =? 0 then 8 else 8 - nb mod 8)).
Proof.
  intros H1 H2 Hv.
  apply (has_exactly_ext (fun bs => bytes_of_length ((nb + 7) / 8) bs /\ (fun x => x mod 2 ^ big_bits nb = v) (be_val bs))).
  { intros bs. split; intros [B E]; (split; [exact B|]); rewrite big_source in * by assumption; congruence. }
  apply (bytes_number_be _ (fun x => x mod 2 ^ big_bits nb = v)). rewrite big_excess by exact H1.
  apply (has_exactly_mod (2 ^ (if nb mod 8 =? 0 then 8 else 8 - nb mod 8)) (2 ^ big_bits nb) v), Hv.
Qed.
Theorem C28_big_uniform nbits v : (0 < nbits <= 2 ^ 51)%Z -> (nbits mod 8 <> 0)%Z -> v < 2 ^ Z.to_N nbits ->
  has_exactly (fun bs => bytes_of_length (Z.to_N ((nbits + 7) / 8)) bs /\ RNG_Big (source_of bs) nbits tt = Ret (v, tt))
    (2 ^ Z.to_N (8 - nbits mod 8)).
Proof.
  intros H Hm Hv. destruct (nbits_N nbits H) as (nb & -> & H1 & H2 & E1 & E2). rewrite E1 in Hv.
  assert (Hn : nb mod 8 <> 0) by (clear - Hm; lia).
  replace (Z.to_N ((Z.of_N nb + 7) / 8)) with ((nb + 7) / 8) by (clear; lia).
  pose proof (big_count nb v H1 H2) as C. unfold big_bits in C. rewrite (proj2 (N.eqb_neq _ _) Hn) in C.
  replace (Z.to_N (8 - Z.of_N nb mod 8)) with (8 - nb mod 8) by (clear; lia). apply C, Hv.
Qed.
(** if 8 divides nbits, the leading byte is thrown away: only numbers below 2^(nbits-8) arise, each from 2^8 byte strings *)
Theorem C28_big_lost_byte nbits v : (0 < nbits <= 2 ^ 51)%Z -> (nbits mod 8 = 0)%Z -> v < 2 ^ Z.to_N nbits ->
  has_exactly (fun bs => bytes_of_length (Z.to_N (nbits / 8)) bs /\ RNG_Big (source_of bs) nbits tt = Ret (v, tt))
    (if v <? 2 ^ Z.to_N (nbits - 8) then 256 else 0).
Proof.
  intros H Hm Hv. destruct (nbits_N nbits H) as (nb & -> & H1 & H2 & E1 & E2). rewrite E1 in Hv.
  assert (Hn : nb mod 8 = 0) by (clear - Hm; lia).
  replace (Z.to_N (Z.of_N nb / 8)) with ((nb + 7) / 8) by (clear - Hn; lia).
  replace (Z.to_N (Z.of_N nb - 8)) with (nb - 8) by (clear; lia).
  destruct (N.ltb_spec v (2 ^ (nb - 8))) as [L|L].
  - pose proof (big_count nb v H1 H2) as C. unfold big_bits in C. rewrite Hn in C. change (0 =? 0) with true in C. cbn iota in C.
    change (2 ^ 8) with 256 in C. apply C, L.
  - apply has_exactly_none. intros bs [B E]. rewrite big_source in E by assumption. injection E as E.
    unfold big_bits in E. rewrite Hn in E. change (0 =? 0) with true in E. cbn iota in E.
    pose proof (N.mod_lt (be_val bs) (2 ^ (nb - 8)) ltac:(now apply N.pow_nonzero)) as Hlt. rewrite E in Hlt. clear - L Hlt. lia.
Qed.
Example C28_nonvacuous : RNG_Big (source_of [255; 255]) 12 tt = Ret (0xfff, tt) /\ RNG_Big (source_of [255; 255]) 16 tt = Ret (0xff, tt).
Proof. split; reflexivity. Qed.

(** ** C29 *)
(** a draw of Big is rejected when it exceeds floor((2^(bitlen+1)-1)/max)*max *)
Definition bign_rejected (max u : N) : Prop := (2 ^ (N.size max + 1) - 1) / max * max < u.

Section Bign.
  Context {W : Type} (read : reader W).
  Lemma bign_bad mx : 0 < mx -> (N.setbit 0 (N.size mx + 1) - 1) - (N.setbit 0 (N.size mx + 1) - 1) mod mx = (2 ^ (N.size mx + 1) - 1) / mx * mx.
  Proof.
    intros H. rewrite N.setbit_spec', N.lor_0_l. generalize (2 ^ (N.size mx + 1) - 1). intros M.
    rewrite (N.mul_comm (M / mx)). apply N.add_sub_eq_r. symmetry. apply N.div_mod. lia.
  Qed.
  Lemma bign_loop_ret nbits bad fuel : forall w x w', bign_loop read fuel nbits bad w = Ret (x, w') <->
    exists us, (length us < fuel)%nat /\ runs (RNG_Big read nbits) w (us ++ [x]) w' /\ Forall (fun v => bad < v) us /\ ~ bad < x.
  Proof.
    induction fuel as [|fuel IH]; intros w x w'; cbn [bign_loop].
    { split; [discriminate|]. intros (us & H & _). lia. }
    split.
    - intros E. destruct (RNG_Big read nbits w) as [[u w1]| |] eqn:Eu; cbn [bind] in E; try discriminate E.
      destruct (N.ltb_spec bad u) as [Hb|Hb].
      + apply IH in E. destruct E as (us & L & R & F & A). exists (u :: us). cbn [length app].
        split; [lia|]. split; [econstructor; eassumption|]. split; [now constructor|exact A].
      + injection E as <- <-. exists []. cbn [length app]. split; [lia|]. split; [econstructor; [eassumption|constructor]|].
        split; [constructor|lia].
    - intros (us & L & R & F & A). destruct us as [|v us]; cbn [app] in R; inversion R as [|s y s1 ys s2 Ey Ry]; subst; rewrite Ey; cbn [bind].
      + destruct (N.ltb_spec bad x); [contradiction|]. inversion Ry; subst. reflexivity.
      + inversion F as [|? ? Fv Fus]; subst. destruct (N.ltb_spec bad v); [|lia]. apply IH. exists us. cbn [length] in L. split; [lia|]. auto.
  Qed.
  Theorem C29_bign_is_first_accepted_draw fuel max w x w' : (0 < max)%Z ->
    RNG_Bign read fuel max w = Ret (x, w') <->
    exists us u, (length us < fuel)%nat /\ runs (RNG_Big read (Z.of_N (N.size (Z.to_N max)) + 1)) w (us ++ [u]) w' /\
      Forall (bign_rejected (Z.to_N max)) us /\ ~ bign_rejected (Z.to_N max) u /\ x = Z.of_N (u mod Z.to_N max).
  Proof.
    intros Hm. unfold RNG_Bign, bign_rejected. rewrite (proj2 (Z.leb_gt max 0)) by lia. rewrite bign_bad by lia.
    rewrite N2Z.inj_add. change (Z.of_N 1) with 1%Z. split.
    - intros E. destruct (bign_loop _ _ _ _ _) as [[y w1]| |] eqn:L in E; cbn [bind] in E; try discriminate E.
      injection E as <- <-. apply bign_loop_ret in L. destruct L as (us & ? & ? & ? & ?). eauto 10.
    - intros (us & u & L & R & F & A & ->). rewrite (proj2 (bign_loop_ret _ _ fuel w u w')) by eauto 10. reflexivity.
  Qed.
  Theorem C29_bign_in_range fuel max w x w' : RNG_Bign read fuel max w = Ret (x, w') -> (0 <= x < max)%Z.
  Proof.
    intros E. destruct (Z.le_gt_cases max 0) as [H|H].
    { unfold RNG_Bign in E. rewrite (proj2 (Z.leb_le max 0)) in E by exact H. discriminate E. }
    apply C29_bign_is_first_accepted_draw in E; [|exact H]. destruct E as (us & u & _ & _ & _ & _ & ->).
    pose proof (N.mod_lt u (Z.to_N max)). lia.
  Qed.
  (** max of at most 2^51 - 1 bits, so that the byte slice fits in memory *)
  Theorem C29_bign_panics_iff fuel max w : go_reader read -> total_reader read -> N.size (Z.to_N max) < 2 ^ 51 ->
    (RNG_Bign read fuel max w = Panic <-> (max <= 0)%Z).
  Proof.
    intros G T S. unfold RNG_Bign. destruct (Z.leb_spec max 0) as [H|H]; [tauto|]. split; [|lia].
    generalize (N.setbit 0 (N.size (Z.to_N max) + 1) - 1 - (N.setbit 0 (N.size (Z.to_N max) + 1) - 1) mod Z.to_N max). intros bad.
    assert (P : forall fuel w, bign_loop read fuel (Z.of_N (N.size (Z.to_N max) + 1)) bad w <> Panic).
    { clear fuel w. intros fuel. induction fuel as [|fuel IH]; intros w; cbn [bign_loop]; [discriminate|].
      rewrite (big_eq read _ w G) by (rewrite N.add_1_r; first [apply N.lt_0_succ | now apply N.le_succ_l]).
      destruct (T w (zeros (N.to_nat ((N.size (Z.to_N max) + 1 + 7) / 8)))) as ([[p n] e] & w' & R). rewrite R. cbn [bind].
      destruct (bad <? be_val p mod 2 ^ big_bits (N.size (Z.to_N max) + 1)); [apply IH|discriminate]. }
    specialize (P fuel w). destruct (bign_loop _ _ _ _ _) as [[y w1]| |]; cbn [bind]; congruence.
  Qed.
  (** bit length 7 modulo 8: the lost byte of Big makes all large results unreachable *)
  Theorem C29_bitlen_7_mod_8 fuel max w x w' : go_reader read -> (0 < max)%Z -> N.size (Z.to_N max) < 2 ^ 51 ->
    N.size (Z.to_N max) mod 8 = 7 -> RNG_Bign read fuel max w = Ret (x, w') -> (x < 2 ^ (Z.of_N (N.size (Z.to_N max)) - 7))%Z.
  Proof.
    intros G Hm S H7 E. apply C29_bign_is_first_accepted_draw in E; [|exact Hm]. destruct E as (us & u & _ & R & _ & _ & ->).
    apply runs_split in R. destruct R as (w1 & _ & R). inversion R as [|s y s1 ys s2 Ey Ry]; subst.
    replace (Z.of_N (N.size (Z.to_N max)) + 1)%Z with (Z.of_N (N.size (Z.to_N max) + 1)) in Ey by (clear; lia).
    rewrite (big_eq read _ w1 G) in Ey by (rewrite N.add_1_r; first [apply N.lt_0_succ | now apply N.le_succ_l]).
    destruct (read w1 _) as [[[[p n] e] w2]| |] in Ey; cbn [bind] in Ey; try discriminate Ey. injection Ey as <- _.
    assert (E8 : big_bits (N.size (Z.to_N max) + 1) = N.size (Z.to_N max) - 7).
    { unfold big_bits. replace ((N.size (Z.to_N max) + 1) mod 8) with 0 by (clear - H7; lia). change (0 =? 0) with true. cbn iota. clear - H7. lia. }
    rewrite E8. pose proof (N.mod_lt (be_val p) (2 ^ (N.size (Z.to_N max) - 7)) ltac:(now apply N.pow_nonzero)) as Hlt.
    pose proof (N.mod_le (be_val p mod 2 ^ (N.size (Z.to_N max) - 7)) (Z.to_N max) ltac:(clear - Hm; lia)) as Hle.
    assert (Hx : be_val p mod 2 ^ (N.size (Z.to_N max) - 7) mod Z.to_N max < 2 ^ (N.size (Z.to_N max) - 7)) by (eapply N.le_lt_trans; eassumption).
    apply N2Z.inj_lt in Hx. rewrite N2Z.inj_pow, N2Z.inj_sub in Hx by (clear - H7; lia). exact Hx.
  Qed.
  Theorem C29_bign_100_is_always_0 fuel w x w' : go_reader read -> RNG_Bign read fuel 100 w = Ret (x, w') -> x = 0%Z.
  Proof.
    intros G E. pose proof (C29_bign_in_range fuel 100 w x w' E).
    pose proof (C29_bitlen_7_mod_8 fuel 100 w x w' G eq_refl eq_refl eq_refl E) as Hx. change (2 ^ (Z.of_N (N.size (Z.to_N 100)) - 7))%Z with 1%Z in Hx. lia.
  Qed.
End Bign.
Lemma bign_source mx bs r : 0 < mx -> N.size mx < 2 ^ 51 -> bytes_of_length ((N.size mx + 8) / 8) bs ->
  (RNG_Bign (source_of bs) 1 (Z.of_N mx) tt = Ret (Z.of_N r, tt) <->
   ~ bign_rejected mx (be_val bs mod 2 ^ big_bits (N.size mx + 1)) /\ (be_val bs mod 2 ^ big_bits (N.size mx + 1)) mod mx = r).
Proof.
  intros Hm S B.
  assert (D : RNG_Big (source_of bs) (Z.of_N (N.size mx) + 1) tt = Ret (be_val bs mod 2 ^ big_bits (N.size mx + 1), tt)).
  { replace (Z.of_N (N.size mx) + 1)%Z with (Z.of_N (N.size mx + 1)) by (clear; lia).
    apply big_source; [rewrite N.add_1_r; apply N.lt_0_succ|rewrite N.add_1_r; now apply N.le_succ_l|].
    replace (N.size mx + 1 + 7) with (N.size mx + 8) by (clear; lia). exact B. }
  rewrite C29_bign_is_first_accepted_draw by (clear - Hm; lia). rewrite N2Z.id. split.
  - intros (us & u & L & R & _ & A & E). destruct us as [|v us]; [|cbn in L; lia]. cbn [app] in R.
    inversion R as [|s y s1 ys s2 Ey Ry]; subst. rewrite D in Ey. injection Ey as Ey _. rewrite Ey. split; [exact A|]. now apply N2Z.inj.
  - intros [A <-]. exists [], (be_val bs mod 2 ^ big_bits (N.size mx + 1)). cbn [length app]. split; [lia|].
    split; [econstructor; [exact D|constructor]|auto].
Qed.
(** otherwise: residue 0 has one more accepted value than every other residue *)
Theorem C29_bign_preimages mx r : 0 < mx -> N.size mx < 2 ^ 51 -> N.size mx mod 8 <> 7 -> r < mx ->
  has_exactly (fun bs => bytes_of_length ((N.size mx + 8) / 8) bs /\ RNG_Bign (source_of bs) 1 (Z.of_N mx) tt = Ret (Z.of_N r, tt))
    (2 ^ (7 - N.size mx mod 8) *
     (if r =? 0 then (2 ^ (N.size mx + 1) - 1) / mx + 1 else (2 ^ (N.size mx + 1) - 1) / mx)).
Proof.
  intros Hm S H7 Hr.
  apply (has_exactly_ext (fun bs => bytes_of_length ((N.size mx + 8) / 8) bs /\
    (fun y => (fun x => ~ bign_rejected mx x /\ x mod mx = r) (y mod 2 ^ (N.size mx + 1))) (be_val bs))).
  { intros bs. assert (E : big_bits (N.size mx + 1) = N.size mx + 1).
    { unfold big_bits. rewrite (proj2 (N.eqb_neq _ _)); [reflexivity|]. clear - H7. lia. }
    split; intros [B H]; (split; [exact B|]); apply (bign_source mx bs r Hm S B) || apply (bign_source mx bs r Hm S B) in H; rewrite E in *; exact H. }
  apply (bytes_number_be _ (fun y => (fun x => ~ bign_rejected mx x /\ x mod mx = r) (y mod 2 ^ (N.size mx + 1)))).
  replace (256 ^ ((N.size mx + 8) / 8)) with (2 ^ (7 - N.size mx mod 8) * 2 ^ (N.size mx + 1)).
  2:{ rewrite pow256, <- N.pow_add_r. f_equal. clear - H7. lia. }
  apply (count_low (N.size mx + 1) _ (fun x => ~ bign_rejected mx x /\ x mod mx = r)).
  apply (has_exactly_ext (fun x => x <= (2 ^ (N.size mx + 1) - 1) / mx * mx /\ x mod mx = r)); [|now apply count_residue].
  unfold bign_rejected. assert (P : 0 < 2 ^ (N.size mx + 1)) by (apply N.neq_0_lt_0; now apply N.pow_nonzero).
  assert (Q : (2 ^ (N.size mx + 1) - 1) / mx * mx <= 2 ^ (N.size mx + 1) - 1) by (rewrite N.mul_comm; apply N.mul_div_le; clear - Hm; lia).
  revert P Q. generalize (2 ^ (N.size mx + 1)). intros M. generalize ((M - 1) / mx * mx). intros q P Q x. clear - P Q. split.
  - intros [H1 H2]. split; [lia|]. split; [lia|exact H2].
  - intros (_ & H1 & H2). split; [lia|exact H2].
Qed.
Example C29_nonvacuous : N.size 200 mod 8 <> 7 /\ N.size 100 mod 8 = 7 /\ RNG_Bign (source_of [1; 44]) 1 200 tt = Ret (100%Z, tt).
Proof. split; [discriminate|]. split; reflexivity. Qed.

Print Assumptions C28_big_value.
Print Assumptions C28_big_range.
Print Assumptions C28_big_panics.
Print Assumptions C28_big_uniform.
Print Assumptions C28_big_lost_byte.
Print Assumptions C29_bign_is_first_accepted_draw.
Print Assumptions C29_bign_in_range.
Print Assumptions C29_bign_panics_iff.
Print Assumptions C29_bitlen_7_mod_8.
Print Assumptions C29_bign_100_is_always_0.
Print Assumptions C29_bign_preimages.
