(** C74: the distribution of RNG.Big and RNG.Bign (rng.go). *)
From Coq Require Import Reals Lia Lra ZifyN ZifyNat Bool.
From Coquelicot Require Import Coquelicot.
From Verif Require Import Model.Base Model.Rng Spec.Common Spec.Counting Spec.Bytes Spec.Prob.
From Verif Require Import Proofs.WordLemmas Proofs.ReadProofs Proofs.SaveProofs Proofs.Count Proofs.ByteTape Proofs.IvWords Props.Rng Props.RngBig.
Local Open Scope R_scope.

Lemma byte_tape_go : go_reader byte_tape.
Proof.
  intros w p p' n e w' E. unfold byte_tape in E. destruct (Nat.leb_spec (length p) (length w)) as [L|L]; [|discriminate E].
  assert (p' = map (fun b => b mod 256)%N (firstn (length p) w)) as -> by congruence. split.
  - rewrite map_length, firstn_length. lia.
  - intros _. clear. induction (firstn (length p) w) as [|b l IH]; constructor; [|exact IH]. unfold isbyte. apply N.mod_lt. discriminate.
Qed.
Lemma map_byte l : Forall isbyte l -> map (fun b => b mod 256)%N l = l.
Proof. induction 1 as [|b l H _ IH]; [reflexivity|]. cbn [map]. rewrite IH. f_equal. now apply N.mod_small. Qed.
Lemma tape_bytes k bs : Forall isbyte bs -> (k <= length bs)%nat -> byte_tape bs (zeros k) = Ret ((firstn k bs, k, None), skipn k bs).
Proof. intros B L. unfold byte_tape. rewrite zeros_length, (proj2 (Nat.leb_le _ _) L). f_equal. f_equal. f_equal. f_equal. now apply map_byte, firstn_isbyte. Qed.
Lemma tape_short k bs : (length bs < k)%nat -> byte_tape bs (zeros k) = OutOfFuel.
Proof. intros L. unfold byte_tape. now rewrite zeros_length, (proj2 (Nat.leb_gt _ _) L). Qed.
Lemma blocks_pos nb : (0 < nb)%N -> (0 < N.to_nat ((nb + 7) / 8))%nat.
Proof. intros H. assert (1 <= (nb + 7) / 8)%N by (change 1%N with (8 / 8)%N; apply N.div_le_mono; lia). lia. Qed.

Lemma share_of_blocks e v c : IZR (Z.of_N (2 ^ e * c)) / (IZR (Z.of_N (2 ^ e * 2 ^ v))) = IZR (Z.of_N c) / IZR (Z.of_N (2 ^ v)).
Proof.
  assert (P : forall n, 0 < IZR (Z.of_N (2 ^ n))) by (intros n; apply IZR_lt; pose proof (N.pow_nonzero 2 n ltac:(discriminate)); lia).
  rewrite !N2Z.inj_mul, !mult_IZR. field. pose proof (P e). pose proof (P v). lra.
Qed.
Lemma big_law nb v : (0 < nb)%N -> (nb <= 2 ^ 51)%N -> (v < 2 ^ big_bits nb)%N ->
  bytes_draw_prob (fun _ => RNG_Big byte_tape (Z.of_N nb)) (fun x => x = v) (/ IZR (Z.of_N (2 ^ big_bits nb))).
Proof.
  intros H1 H2 Hv. set (m := N.to_nat ((nb + 7) / 8)). set (ex := (if nb mod 8 =? 0 then 8 else 8 - nb mod 8)%N).
  destruct (rejection_law (fun bs => exists (fuel : nat) x bs', RNG_Big byte_tape (Z.of_N nb) bs = Ret (x, bs') /\ x = v) (fun b => (be_val b mod 2 ^ big_bits nb)%N = v) (fun _ => False) m (2 ^ ex * 1)%N 0%N) as (q & Hq & L).
  - now apply blocks_pos.
  - intros bs S (_ & x & bs' & E & _). rewrite (big_eq _ _ _ byte_tape_go H1 H2), tape_short in E by exact S. discriminate E.
  - intros bs S B. assert (E : RNG_Big byte_tape (Z.of_N nb) bs = Ret ((be_val (firstn m bs) mod 2 ^ big_bits nb)%N, skipn m bs)).
    { rewrite (big_eq _ _ _ byte_tape_go H1 H2), tape_bytes by assumption. reflexivity. }
    rewrite E. split.
    + intros (_ & x & bs' & E' & ->). injection E' as E' _. now left.
    + intros [A|[[] _]]. exists O. eauto.
  - tauto.
  - unfold m. rewrite N2Nat.id. apply (bytes_number_be _ (fun x => (x mod 2 ^ big_bits nb)%N = v)). rewrite big_excess by exact H1. rewrite N.mul_1_r. now apply has_exactly_mod.
  - apply has_exactly_none. tauto.
  - unfold Rdiv. rewrite Rmult_0_l. lra.
  - exists q. split; [exact Hq|]. replace (/ IZR (Z.of_N (2 ^ big_bits nb))) with (IZR (Z.of_N (2 ^ ex * 1)) / 256 ^ m / (1 - IZR (Z.of_N 0) / 256 ^ m)); [exact L|].
    rewrite <- pow256_Z. unfold m at 1. rewrite N2Nat.id, big_excess by exact H1. fold ex. rewrite share_of_blocks. change (Z.of_N 0) with 0%Z. change (Z.of_N 1) with 1%Z. unfold Rdiv. rewrite Rmult_0_l, Rminus_0_r, Rinv_1. ring.
Qed.
(** Big(nbits): every number below 2^nbits is equally likely, if 8 does not divide nbits; if it does, every number below 2^(nbits-8) is, and the others do not occur *)
Theorem C74_big_uniform nbits v : (0 < nbits <= 2 ^ 51)%Z -> (nbits mod 8 <> 0)%Z -> (v < 2 ^ Z.to_N nbits)%N ->
  bytes_draw_prob (fun _ => RNG_Big byte_tape nbits) (fun x => x = v) (/ IZR (2 ^ nbits)).
Proof.
  intros H Hm Hv. destruct (nbits_N nbits H) as (nb & -> & H1 & H2 & E1 & E2). rewrite E1 in Hv. assert (E : big_bits nb = nb) by (unfold big_bits; rewrite (proj2 (N.eqb_neq _ _)); [reflexivity|clear - Hm; lia]).
  pose proof (big_law nb v H1 H2) as P. rewrite E in P. rewrite N2Z.inj_pow in P. now apply P.
Qed.
Theorem C74_big_lost_byte nbits v : (0 < nbits <= 2 ^ 51)%Z -> (nbits mod 8 = 0)%Z -> (v < 2 ^ Z.to_N (nbits - 8))%N ->
  bytes_draw_prob (fun _ => RNG_Big byte_tape nbits) (fun x => x = v) (/ IZR (2 ^ (nbits - 8))).
Proof.
  intros H Hm Hv. destruct (nbits_N nbits H) as (nb & -> & H1 & H2 & E1 & E2). assert (N8 : (8 <= nb)%N) by (clear - Hm H1; lia). assert (E : big_bits nb = Z.to_N (Z.of_N nb - 8)) by (unfold big_bits; rewrite (proj2 (N.eqb_eq _ _)); [clear; lia|clear - Hm; lia]).
  pose proof (big_law nb v H1 H2) as P. rewrite E in P. rewrite N2Z.inj_pow, Z2N.id in P by (clear - N8; lia). now apply P.
Qed.

(** *** Bign *)
Section Bign.
  Context (mx : N) (M0 : (0 < mx)%N) (S : (N.size mx < 2 ^ 51)%N).
  Let nb := (N.size mx + 1)%N.
  Let m := N.to_nat ((nb + 7) / 8).
  Let x bs := (be_val (firstn m bs) mod 2 ^ big_bits nb)%N.
  Let k := ((2 ^ nb - 1) / mx * mx)%N.
  Lemma nb_pos : (0 < nb)%N. Proof using M0 S. unfold nb. lia. Qed.
  Lemma nb_small : (nb <= 2 ^ 51)%N. Proof using M0 S. unfold nb. rewrite N.add_1_r. now apply N.le_succ_l. Qed.
  Lemma bign_short fuel bs : (length bs < m)%nat -> RNG_Bign byte_tape fuel (Z.of_N mx) bs = OutOfFuel.
  Proof using M0 S.
    intros L. unfold RNG_Bign. rewrite (proj2 (Z.leb_gt _ _)) by (clear - M0; lia). rewrite N2Z.id. fold nb. destruct fuel as [|fuel]; [reflexivity|]. cbn [bign_loop].
    rewrite (big_eq _ _ _ byte_tape_go nb_pos nb_small), tape_short by exact L. reflexivity.
  Qed.
  Lemma bign_step fuel bs : (m <= length bs)%nat -> Forall isbyte bs ->
    RNG_Bign byte_tape (Datatypes.S fuel) (Z.of_N mx) bs = if (k <? x bs)%N then RNG_Bign byte_tape fuel (Z.of_N mx) (skipn m bs) else Ret (Z.of_N (x bs mod mx), skipn m bs).
  Proof using M0 S.
    intros L B. unfold RNG_Bign. rewrite (proj2 (Z.leb_gt _ _)) by (clear - M0; lia). rewrite N2Z.id, bign_bad by exact M0. fold nb k. cbn [bign_loop].
    rewrite (big_eq _ _ _ byte_tape_go nb_pos nb_small), tape_bytes by assumption. cbn [bind]. fold m. fold (x bs). now destruct (k <? x bs)%N.
  Qed.
  (** counts: ca accepted blocks give r, cj blocks are rejected *)
  Lemma bign_law r ca cj : has_exactly (fun v => (v < 2 ^ big_bits nb)%N /\ (v <= k)%N /\ (v mod mx = r)%N) ca -> has_exactly (fun v => (v < 2 ^ big_bits nb)%N /\ (k < v)%N) cj ->
    (cj < 2 ^ big_bits nb)%N ->
    bytes_draw_prob (fun fuel => RNG_Bign byte_tape fuel (Z.of_N mx)) (fun y => y = Z.of_N r) (IZR (Z.of_N ca) / IZR (Z.of_N (2 ^ big_bits nb - cj))).
  Proof using M0 S.
    intros Ca Cj LJ. set (ex := (if nb mod 8 =? 0 then 8 else 8 - nb mod 8)%N).
    assert (BC : forall P c, has_exactly (fun v => (v < 2 ^ big_bits nb)%N /\ P v) c -> has_exactly (fun b => bytes_of_length (N.of_nat m) b /\ P (be_val b mod 2 ^ big_bits nb)%N) (2 ^ ex * c)%N).
    { intros P c H. unfold m. rewrite N2Nat.id. apply (bytes_number_be _ (fun y => P (y mod 2 ^ big_bits nb)%N)). rewrite big_excess by apply nb_pos. apply (count_low (big_bits nb) (2 ^ ex)%N). exact H. }
    assert (P2 : forall n, 0 < IZR (Z.of_N (2 ^ n))) by (intros n; apply IZR_lt; pose proof (N.pow_nonzero 2 n ltac:(discriminate)) as Z2; revert Z2; generalize (2 ^ n)%N; intros; lia).
    assert (EJ : forall c, IZR (Z.of_N (2 ^ ex * c)) / 256 ^ m = IZR (Z.of_N c) / IZR (Z.of_N (2 ^ big_bits nb))).
    { intros c. rewrite <- pow256_Z. unfold m. rewrite N2Nat.id, big_excess by apply nb_pos. apply share_of_blocks. }
    destruct (rejection_law (fun bs => exists fuel y bs', RNG_Bign byte_tape fuel (Z.of_N mx) bs = Ret (y, bs') /\ y = Z.of_N r)
      (fun b => (be_val b mod 2 ^ big_bits nb <= k)%N /\ ((be_val b mod 2 ^ big_bits nb) mod mx = r)%N) (fun b => (k < be_val b mod 2 ^ big_bits nb)%N) m (2 ^ ex * ca)%N (2 ^ ex * cj)%N) as (q & Hq & L).
    - apply blocks_pos, nb_pos.
    - intros bs H (fuel & y & bs' & E & _). rewrite bign_short in E by exact H. discriminate E.
    - intros bs L B. fold (x bs). split.
      + intros (fuel & y & bs' & E & ->). destruct fuel as [|fuel]; [exfalso; clear - E M0; unfold RNG_Bign in E; rewrite (proj2 (Z.leb_gt _ _)) in E by lia; discriminate E|].
        rewrite bign_step in E by assumption. destruct (N.ltb_spec k (x bs)) as [Hk|Hk]; [right; eauto 10|left]. injection E as E _. split; [exact Hk|]. now apply N2Z.inj.
      + intros [[Hk E]|[Hk (fuel & y & bs' & E & ->)]].
        * exists 1%nat, (Z.of_N r), (skipn m bs). split; [|reflexivity]. rewrite bign_step by assumption. rewrite (proj2 (N.ltb_ge _ _) Hk). now rewrite E.
        * exists (Datatypes.S fuel), (Z.of_N r), bs'. split; [|reflexivity]. rewrite bign_step by assumption. now rewrite (proj2 (N.ltb_lt _ _) Hk).
    - intros b [H _] H'. clear - H H'. lia.
    - apply (BC (fun v => (v <= k)%N /\ (v mod mx = r)%N)). exact Ca.
    - apply (BC (fun v => (k < v)%N)). exact Cj.
    - rewrite EJ. apply Rmult_lt_reg_r with (1 := P2 (big_bits nb)). unfold Rdiv. rewrite Rmult_assoc, Rinv_l, Rmult_1_r, Rmult_1_l by (apply Rgt_not_eq, P2). apply IZR_lt. clear - LJ. revert LJ. generalize (2 ^ big_bits nb)%N. lia.
    - exists q. split; [exact Hq|]. rewrite !EJ in L. replace (IZR (Z.of_N ca) / IZR (Z.of_N (2 ^ big_bits nb - cj))) with (IZR (Z.of_N ca) / IZR (Z.of_N (2 ^ big_bits nb)) / (1 - IZR (Z.of_N cj) / IZR (Z.of_N (2 ^ big_bits nb)))); [exact L|].
      specialize (P2 (big_bits nb)). rewrite N2Z.inj_sub by (clear - LJ; lia). rewrite minus_IZR. assert (IZR (Z.of_N cj) < IZR (Z.of_N (2 ^ big_bits nb))) by (apply IZR_lt; clear - LJ; revert LJ; generalize (2 ^ big_bits nb)%N; lia).
      field. lra.
  Qed.
End Bign.

Lemma size_pow mx : (0 < mx)%N -> (2 ^ (N.size mx - 1) <= mx < 2 ^ N.size mx)%N.
Proof.
  intros H. split.
  - rewrite N.size_log2 by lia. replace (N.succ (N.log2 mx) - 1)%N with (N.log2 mx) by lia. apply N.log2_spec, H.
  - apply N.size_gt.
Qed.
(** Bign(max), if 8 does not divide bitlen(max)+1: each result r > 0 with probability q/(q max + 1), where q = floor((2^(bitlen+1) - 1) / max), and 0 with probability (q+1)/(q max + 1) *)
Theorem C74_bign_distribution max r : (0 < max)%Z -> let b := (N.size (Z.to_N max) + 1)%N in (b <= 2 ^ 51)%N -> (b mod 8 <> 0)%N -> (0 <= r < max)%Z ->
  bytes_draw_prob (fun fuel => RNG_Bign byte_tape fuel max) (fun y => y = r) (uintn_share b (Z.to_N max) (Z.to_N r)).
Proof.
  intros Hm b Sb Hb Hr. set (mx := Z.to_N max) in *. set (rn := Z.to_N r).
  replace max with (Z.of_N mx) by (unfold mx; clear - Hm; lia). replace (fun y => y = r) with (fun y => y = Z.of_N rn) by (unfold rn; now rewrite Z2N.id by apply Hr).
  assert (M0 : (0 < mx)%N) by (unfold mx; clear - Hm; lia). assert (R0 : (rn < mx)%N) by (unfold mx, rn; clear - Hr; lia). clearbody rn. clear Hr Hm. clearbody mx. clear max.
  assert (S : (N.size mx < 2 ^ 51)%N) by (apply N.le_succ_l; rewrite <- N.add_1_r; exact Sb). assert (E : big_bits b = b) by (unfold big_bits; now rewrite (proj2 (N.eqb_neq _ _)) by exact Hb).
  unfold uintn_share. set (q := ((2 ^ b - 1) / mx)%N). assert (P2 : (0 < 2 ^ b)%N) by (apply N.neq_0_lt_0; now apply N.pow_nonzero).
  assert (Q : (q * mx <= 2 ^ b - 1)%N) by (unfold q; rewrite N.mul_comm; apply N.mul_div_le; clear - M0; lia).
  pose proof (bign_law mx M0 S rn (if (rn =? 0)%N then q + 1 else q) (2 ^ b - (q * mx + 1))%N) as B. fold b in B. rewrite E in B. fold q in B.
  replace (q * mx + 1)%N with (2 ^ b - (2 ^ b - (q * mx + 1)))%N by (clear - Q P2; revert Q P2; generalize (2 ^ b)%N, (q * mx)%N; lia).
  apply B; clear B.
  - apply (has_exactly_ext (fun v => (v <= q * mx)%N /\ (v mod mx = rn)%N)); [|now apply count_residue]. intros v. clear - Q P2. revert Q P2. generalize (2 ^ b)%N, (q * mx)%N. intros; intuition lia.
  - clear - Q P2. revert Q P2. generalize (2 ^ b)%N, (q * mx)%N. intros M t Q P. apply (has_exactly_bij (fun i => (i < M - (t + 1))%N) _ (fun i => (i + (t + 1))%N) (fun v => (v - (t + 1))%N)); [intros i Hi; lia|intros i Hi; lia|intros i Hi; lia|intros i Hi; lia|apply has_exactly_below].
  - clear - Q P2. revert Q P2. generalize (2 ^ b)%N, (q * mx)%N. lia.
Qed.
(** ... if it does, the results below 2^(bitlen-7) are equally likely (and the others do not occur) *)
Theorem C74_bign_lost_byte max r : (0 < max)%Z -> let len := N.size (Z.to_N max) in (len < 2 ^ 51)%N -> (len mod 8 = 7)%N -> (0 <= r < 2 ^ (Z.of_N len - 7))%Z ->
  bytes_draw_prob (fun fuel => RNG_Bign byte_tape fuel max) (fun y => y = r) (/ IZR (2 ^ (Z.of_N len - 7))).
Proof.
  intros Hm len S H7 Hr. set (mx := Z.to_N max) in *. set (rn := Z.to_N r).
  replace max with (Z.of_N mx) by (unfold mx; clear - Hm; lia). replace (fun y => y = r) with (fun y => y = Z.of_N rn) by (unfold rn; now rewrite Z2N.id by apply Hr).
  assert (M0 : (0 < mx)%N) by (unfold mx; clear - Hm; lia). assert (L7 : (7 <= len)%N) by (clear - H7; lia).
  assert (EL : (2 ^ (Z.of_N len - 7))%Z = Z.of_N (2 ^ (len - 7))) by (rewrite N2Z.inj_pow, N2Z.inj_sub by exact L7; reflexivity). rewrite EL in Hr |- *.
  assert (R0 : (rn < 2 ^ (len - 7))%N) by (unfold rn; clear - Hr; revert Hr; generalize (2 ^ (len - 7))%N; lia). clearbody rn. clear Hr Hm EL. clearbody mx. clear max.
  assert (E : big_bits (N.size mx + 1) = (len - 7)%N). { unfold big_bits, len. rewrite (proj2 (N.eqb_eq _ _)); [clear; lia|]. clear - H7. unfold len in H7. lia. }
  assert (SM : (2 ^ (len - 7) <= mx)%N). { eapply N.le_trans; [|apply (size_pow mx M0)]. apply N.pow_le_mono_r; [discriminate|]. fold len. clear - L7. lia. }
  assert (KM : (mx <= (2 ^ (N.size mx + 1) - 1) / mx * mx)%N).
  { rewrite <- (N.mul_1_l mx) at 1. apply N.mul_le_mono_r. apply N.div_le_lower_bound; [clear - M0; lia|]. rewrite N.mul_1_r. destruct (size_pow mx M0) as [_ Hs]. rewrite N.add_1_r, N.pow_succ_r by (clear; lia). clear - Hs. revert Hs. generalize (2 ^ N.size mx)%N. lia. }
  pose proof (bign_law mx M0 S rn 1%N 0%N) as B. rewrite E in B. rewrite N.sub_0_r in B. change (IZR (Z.of_N 1)) with 1 in B. unfold Rdiv in B. rewrite Rmult_1_l in B. apply B; clear B.
  - apply (has_exactly_ext (fun v => v = rn)); [|apply has_exactly_one]. intros v. split.
    + intros ->. split; [exact R0|]. split; [apply N.le_trans with (2 := KM); apply N.lt_le_incl, N.lt_le_trans with (1 := R0); exact SM|]. apply N.mod_small. now apply N.lt_le_trans with (1 := R0).
    + intros (L & _ & V). rewrite N.mod_small in V by now apply N.lt_le_trans with (1 := L). exact V.
  - apply has_exactly_none. intros v [L K]. assert (X : (v < v)%N); [|clear - X; lia]. apply N.lt_le_trans with (1 := L). apply N.le_trans with (1 := SM). apply N.le_trans with (1 := KM). now apply N.lt_le_incl.
  - apply N.neq_0_lt_0. now apply N.pow_nonzero.
Qed.
(** 0 < 1000, whose bit length is 10: 0 with probability 3/2001, every other number below 1000 with probability 2/2001; 100 has bit length 7: always 0 *)
Example C74_nonvacuous : bytes_draw_prob (fun fuel => RNG_Bign byte_tape fuel 1000) (fun y => y = 0%Z) (3 / 2001) /\
  bytes_draw_prob (fun fuel => RNG_Bign byte_tape fuel 1000) (fun y => y = 17%Z) (2 / 2001) /\
  bytes_draw_prob (fun fuel => RNG_Bign byte_tape fuel 100) (fun y => y = 0%Z) 1.
Proof.
  split; [|split].
  - exact (C74_bign_distribution 1000 0 ltac:(lia) ltac:(discriminate) ltac:(discriminate) ltac:(lia)).
  - exact (C74_bign_distribution 1000 17 ltac:(lia) ltac:(discriminate) ltac:(discriminate) ltac:(lia)).
  - replace 1 with (/ IZR (2 ^ (Z.of_N (N.size (Z.to_N 100)) - 7))) by (change (2 ^ (Z.of_N (N.size (Z.to_N 100)) - 7))%Z with 1%Z; lra). apply (C74_bign_lost_byte 100 0); [lia|reflexivity|reflexivity|]. change (2 ^ (Z.of_N (N.size (Z.to_N 100)) - 7))%Z with 1%Z. lia.
Qed.
