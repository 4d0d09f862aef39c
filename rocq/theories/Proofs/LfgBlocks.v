(** What a sequence of Reads shows of an LFG's stream (C85). *)
From Coq Require Import Lia ZifyN ZifyNat ZifyBool.
From Verif Require Import Model.Base Model.GenRead Model.Rng Model.Lfg Model.Api Spec.Common Spec.States Spec.Kinds Spec.Blocks.
From Verif Require Import Proofs.WordLemmas Proofs.ReadProofs Proofs.KindProofs Proofs.LfgProofs Proofs.LfgStream Proofs.LfgPeriod Proofs.LfgLow Proofs.BlockProofs
  Props.LfgPeriod.
Local Open Scope N_scope.

Lemma bytes_low r x y : (forall i, (i < r)%nat -> byte_of x i = byte_of y i) <-> x mod 2 ^ (8 * N.of_nat r) = y mod 2 ^ (8 * N.of_nat r).
Proof.
  assert (E : forall r, 2 ^ (8 * N.of_nat r) = 256 ^ N.of_nat r) by (intros; now rewrite N.pow_mul_r). rewrite E. clear E.
  assert (S : forall r x, x mod 256 ^ N.of_nat (S r) = x mod 256 ^ N.of_nat r + 256 ^ N.of_nat r * byte_of x r).
  { intros k z. rewrite Nat2N.inj_succ, N.pow_succ_r', N.mul_comm. apply N.mod_mul_r; [apply N.pow_nonzero; discriminate|discriminate]. }
  induction r as [|r IH].
  - cbn [N.of_nat]. rewrite !N.pow_0_r, !N.mod_1_r. split; [reflexivity|intros; lia].
  - rewrite !S. split.
    + intros H. rewrite (H r), (proj1 IH) by (intros; try apply H; lia). reflexivity.
    + intros H. assert (M : forall z, z mod 256 ^ N.of_nat r < 256 ^ N.of_nat r) by (intros z; apply N.mod_lt, N.pow_nonzero; discriminate).
      pose proof (M x) as Mx. pose proof (M y) as My.
      destruct (N.div_mod_unique (256 ^ N.of_nat r) (byte_of x r) (byte_of y r) (x mod 256 ^ N.of_nat r) (y mod 256 ^ N.of_nat r) Mx My) as [B L]; [lia|].
      intros i Hi. destruct (Nat.eq_dec i r) as [->|Ne]; [exact B|]. apply IH; [exact L|lia].
Qed.
Lemma bytes_word x y : x < 2 ^ 64 -> y < 2 ^ 64 -> (forall i, (i < 8)%nat -> byte_of x i = byte_of y i) -> x = y.
Proof. intros Hx Hy H. apply bytes_low in H. change (8 * N.of_nat 8) with 64 in H. now rewrite !N.mod_small in H by assumption. Qed.

(** ** the sequence of an LFG, read in blocks *)
Definition lout (g : lfg) : N := useq g 335.
Lemma lout_iter g n : lfg_ok g -> lout (N.iter n lstep g) = oseq g n.
Proof. intros H. pose proof (useq_out g n H) as E. pose proof (useq_out (N.iter n lstep g) 0 (literate_ok n g H)) as E'. cbn [N.iter] in E'. rewrite E in E'. unfold lout, oseq. change 335 with (0 + 335) at 1. congruence. Qed.
Lemma lfg_pure g : lfg_ok g -> LFG_Uint64 g = Ret (lout g, lstep g).
Proof. intros H. exact (useq_out g 0 H). Qed.
Lemma lfg_runs_outs g xs g' : lfg_ok g -> runs LFG_Uint64 g xs g' -> xs = outs lout lstep (length xs) g /\ g' = N.iter (N.of_nat (length xs)) lstep g.
Proof.
  intros H R. revert H. induction R as [s|s x s1 xs s' Hx _ IH]; intros H; [split; reflexivity|]. rewrite lfg_pure in Hx by exact H. inversion Hx; subst.
  destruct (IH (lstep_ok s H)) as [E1 E2]. cbn [length outs]. split; [now f_equal|]. rewrite Nat2N.inj_succ, N.iter_succ_r. exact E2.
Qed.
Lemma lfg_block_pure n g : lfg_ok g ->
  read_block gLFG n g = Ret (bout lout lstep n (read_calls gLFG n) g, N.iter (N.of_nat (read_calls gLFG n)) lstep g).
Proof.
  intros H. destruct (inv_read gLFG g (zeros n) H) as (xs & s' & R & L & _ & E). unfold read_block. rewrite E. cbn [bind].
  unfold zeros in *. rewrite repeat_length in *. destruct (lfg_runs_outs g xs s' H R) as [E1 ->]. rewrite L in *. unfold bout. now rewrite E1 at 1.
Qed.
Lemma lfg_block_repeats n p g : lfg_ok g ->
  let c := N.of_nat (read_calls gLFG n) in
  repeats_after (read_block gLFG n) g p <->
  forall j i, (i < n)%nat -> byte_of (oseq g (c * j + N.of_nat (i / 8) + c * p)) (i mod 8) = byte_of (oseq g (c * j + N.of_nat (i / 8))) (i mod 8).
Proof.
  intros H c.
  rewrite (repeats_iter _ lfg_ok (bout lout lstep n (read_calls gLFG n)) (fun s => N.iter c lstep s)); [| |intros; now apply literate_ok|exact H].
  2:{ intros s0 H0. now apply lfg_block_pure. }
  pose proof (read_calls_enough gLFG n) as En. split; intros G j.
  - intros i Hi. specialize (G j). rewrite !iter_mul, bout_eq in G by exact En. specialize (G i Hi).
    rewrite <- !N.iter_add, !lout_iter in G by exact H. rewrite !(N.add_comm (c * j)). exact G.
  - rewrite !iter_mul, bout_eq by exact En. intros i Hi. specialize (G j i Hi).
    rewrite <- !N.iter_add, !lout_iter by exact H. rewrite !(N.add_comm (c * j)) in G. exact G.
Qed.

(** ** all but one word of each block visible *)
Lemma wrec_next s t n : wrec s -> s (n + 334 + t) = s (n + 334) -> s (n + t) = s n -> s (n + 335 + t) = s (n + 335).
Proof.
  intros H A B. destruct (H n) as [_ ->]. replace (n + 335 + t) with (n + t + 335) by lia. destruct (H (n + t)) as [_ ->].
  replace (n + t + 334) with (n + 334 + t) by lia. now rewrite A, B.
Qed.
Lemma add_cancel a b b' : b < 2 ^ 64 -> b' < 2 ^ 64 -> (a + b) mod 2 ^ 64 = (a + b') mod 2 ^ 64 -> b = b'.
Proof.
  intros Hb Hb' E. pose proof (N.div_mod (a + b) (2 ^ 64) ltac:(discriminate)) as D. pose proof (N.div_mod (a + b') (2 ^ 64) ltac:(discriminate)) as D'. rewrite E in D.
  change (2 ^ 64) with 18446744073709551616 in *. lia.
Qed.
Lemma wrec_prev s t n : wrec s -> s (n + 335 + t) = s (n + 335) -> s (n + 334 + t) = s (n + 334) -> s (n + t) = s n.
Proof.
  intros H A B. destruct (H n) as [W E]. replace (n + 335 + t) with (n + t + 335) in A by lia. destruct (H (n + t)) as [W' E'].
  replace (n + 334 + t) with (n + t + 334) in B by lia. rewrite E, E', B in A. now apply add_cancel in A.
Qed.
Lemma wrec_mid s t n : wrec s -> s (n + 335 + t) = s (n + 335) -> s (n + t) = s n -> s (n + 334 + t) = s (n + 334).
Proof.
  intros H A B. destruct (H n) as [_ E]. replace (n + 335 + t) with (n + t + 335) in A by lia. destruct (H (n + t)) as [_ E'].
  replace (n + 334 + t) with (n + t + 334) by lia. rewrite E, E', B in A. rewrite !(N.add_comm _ (s n)) in A. apply add_cancel in A; [exact A|apply H|apply H].
Qed.
Lemma hidden_word s t c : wrec s -> 2 <= c -> (forall j q, q < c - 1 -> s (c * j + q + t) = s (c * j + q)) -> forall k, s (k + t) = s k.
Proof.
  intros H Hc V.
  assert (V' : forall k, k mod c <> c - 1 -> s (k + t) = s k).
  { intros k Hk. pose proof (N.mod_lt k c ltac:(lia)). rewrite (N.div_mod k c) by lia. apply V. lia. }
  assert (A : forall k, 335 <= k -> s (k + t) = s k).
  { intros k Hk. destruct (N.eq_dec (k mod c) (c - 1)) as [E|E]; [|now apply V'].
    pose proof (N.div_mod k c ltac:(lia)) as D. rewrite E in D. set (a := k / c) in *.
    pose proof (N.div_mod 335 c ltac:(lia)) as D3. pose proof (N.mod_lt 335 c ltac:(lia)) as L3. set (b := 335 / c) in *. set (r := 335 mod c) in *.
    assert (Hab : b < a + 1) by (apply (N.mul_lt_mono_pos_l c); lia).
    assert (Hab' : c * b <= c * a) by (apply N.mul_le_mono_l; lia).
    destruct (N.eq_dec r 0) as [R0|R0].
    - replace k with (k - 334 + 334) by lia. apply wrec_mid; [exact H| |].
      + replace (k - 334 + 335) with (c * (a + 1) + 0) by lia. apply V. lia.
      + replace (k - 334) with (c * (a + 1 - b) + 0) by (rewrite N.mul_sub_distr_l; lia). apply V. lia.
    - replace k with (k - 335 + 335) by lia. apply wrec_next; [exact H| |].
      + replace (k - 335 + 334) with (c * a + (c - 2)) by lia. apply V. lia.
      + replace (k - 335) with (c * (a - b) + (c - 1 - r)) by (rewrite N.mul_sub_distr_l; lia). apply V. lia. }
  intros k. destruct (N.eq_dec (k mod c) (c - 1)) as [E|E]; [|now apply V'].
  assert (k <> 0). { intros ->. rewrite N.mod_0_l in E by lia. lia. }
  apply wrec_prev; [exact H|apply A; lia|apply A; lia].
Qed.

(** Reads of at least 8 bytes: the blocks repeat exactly as the words do *)
Lemma lfg_blocks_long n p g : lfg_ok g -> (8 <= n)%nat ->
  (repeats_after (read_block gLFG n) g p <-> stream_period LFG_Uint64 g (N.of_nat (ceil8 n) * p)).
Proof.
  intros H Hn. rewrite (lfg_block_repeats n p g H), (oseq_period g _ H). cbv zeta. cbn [read_calls].
  assert (C : (8 * ceil8 n < n + 8 /\ n <= 8 * ceil8 n)%nat). { unfold ceil8. pose proof (Nat.div_mod (n + 7) 8 ltac:(discriminate)). pose proof (Nat.mod_upper_bound (n + 7) 8 ltac:(discriminate)). lia. }
  rewrite Nat.max_r by lia. set (c := ceil8 n) in *. pose proof (oseq_wrec g H) as W. split.
  2:{ intros G j i _. now rewrite G. }
  intros G. set (t := N.of_nat c * p) in *.
  assert (V : forall j q, (8 * q + 7 < n)%nat -> oseq g (N.of_nat c * j + N.of_nat q + t) = oseq g (N.of_nat c * j + N.of_nat q)).
  { intros j q Hq. apply bytes_word; [apply W|apply W|]. intros i Hi. specialize (G j (8 * q + i)%nat ltac:(lia)).
    replace ((8 * q + i) / 8)%nat with q in G by (rewrite Nat.mul_comm, Nat.div_add_l, Nat.div_small; lia).
    replace ((8 * q + i) mod 8)%nat with i in G by (rewrite Nat.add_comm, Nat.mul_comm, Nat.mod_add, Nat.mod_small; lia). exact G. }
  destruct (Nat.eq_dec c 1) as [E1|E1].
  - intros k. specialize (V k 0%nat). rewrite E1 in V. change (N.of_nat 1) with 1 in V. change (N.of_nat 0) with 0 in V. rewrite N.mul_1_l, N.add_0_r in V. apply V. lia.
  - apply (hidden_word _ t (N.of_nat c) W); [lia|]. intros j q Hq. specialize (V j (N.to_nat q)). rewrite N2Nat.id in V. apply V. lia.
Qed.
(** Reads of fewer than 8 bytes show the low bits *)
Lemma lfg_blocks_short n p g : lfg_ok g -> (1 <= n <= 8)%nat ->
  (repeats_after (read_block gLFG n) g p <-> low_period (oseq g) (8 * N.of_nat n) p).
Proof.
  intros H Hn. rewrite (lfg_block_repeats n p g H). cbv zeta. cbn [read_calls].
  assert (C : ceil8 n = 1%nat). { unfold ceil8. pose proof (Nat.div_mod (n + 7) 8 ltac:(discriminate)). pose proof (Nat.mod_upper_bound (n + 7) 8 ltac:(discriminate)). lia. }
  rewrite C. change (N.of_nat (Nat.max 1 1)) with 1.
  assert (D : forall i, (i < n)%nat -> (i / 8 = 0 /\ i mod 8 = i)%nat) by (intros i Hi; split; [apply Nat.div_small; lia|apply Nat.mod_small; lia]).
  split.
  - intros G k. apply bytes_low. intros i Hi. specialize (G k i Hi). destruct (D i Hi) as [E1 E]. rewrite E1, E in G.
    change (N.of_nat 0) with 0 in G. rewrite !N.mul_1_l, N.add_0_r in G. exact G.
  - intros G j i Hi. destruct (D i Hi) as [E1 E]. rewrite E1, E. change (N.of_nat 0) with 0. rewrite !N.mul_1_l, N.add_0_r. revert i Hi E1 E. pose proof (proj2 (bytes_low n _ _) (G j)) as B. intros i Hi _ _. now apply B.
Qed.
