(** C85: the periods of LFG's low bits, of its Read, of the integer methods of an RNG on it, and of Int63. *)
From Coq Require Import Lia ZifyN ZifyNat ZifyBool.
From Verif Require Import Model.Base Model.GenRead Model.Rng Model.Xoroshiro Model.LfgTable Model.Lfg Model.Api Spec.Common Spec.States Spec.Kinds Spec.Blocks Spec.LfgPeriod Spec.LfgBits.
From Verif Require Import Proofs.WordLemmas Proofs.ReadProofs Proofs.KindProofs Proofs.LfgProofs Proofs.LfgStream Proofs.LfgPeriodCert Proofs.LfgPeriod Proofs.LfgLow Proofs.LfgHigh Proofs.BlockProofs Proofs.LfgBlocks
  Proofs.LfgSave Props.Blocks Props.Lfg Props.LfgMore Props.LfgPeriod.
Local Open Scope N_scope.
Opaque lfgS0.

Lemma odd_part_check : ((2 ^ 187 - 1) * ((2 ^ 108 - 1) / 65) =? Npos lfgEo) = true.
Proof. vm_cast_no_check (eq_refl true). Qed.
Lemma lfgLo_value : forall j, lfg_low_period j = lfgLo j.
Proof. intros j. unfold lfg_low_period, lfgLo. now rewrite (proj1 (N.eqb_eq _ _) odd_part_check). Qed.
(** a method that returns some function of the next value *)
Lemma mapped_repeats {A} (f : N -> A) (u : lfg -> outcome (A * lfg)) (E : forall g x g', LFG_Uint64 g = Ret (x, g') -> u g = Ret (f x, g')) g p : lfg_ok g ->
  repeats_after u g p <-> forall n, f (oseq g (n + p)) = f (oseq g n).
Proof.
  intros H. rewrite (repeats_iter u lfg_ok (fun g => f (lout g)) lstep).
  - split; intros G n; specialize (G n); rewrite <- ?N.iter_add, !lout_iter in * by exact H; exact G.
  - intros s Hs. apply E. now apply lfg_pure.
  - apply lstep_ok.
  - exact H.
Qed.
Lemma low_repeats j g p : lfg_ok g -> repeats_after (low_bits j) g p <-> low_period (oseq g) j p.
Proof. apply (mapped_repeats (fun x => x mod 2 ^ j)). intros g0 x g' E. unfold low_bits. now rewrite E. Qed.
Lemma int63_repeats g p : lfg_ok g -> repeats_after LFG_Int63 g p <-> high_period (oseq g) p.
Proof.
  apply (mapped_repeats (fun x => x / 2)). intros g0 x g' E. unfold LFG_Int63. rewrite E. cbn [bind]. unfold shr64. now rewrite N.shiftr_div_pow2.
Qed.
(** m and the divisors of P *)
Lemma div_gcd_iff P c p : P <> 0 -> (P | c * p) <-> (P / N.gcd c P | p).
Proof.
  intros P0. set (g := N.gcd c P). assert (g0 : g <> 0) by (unfold g; rewrite N.gcd_eq_0; tauto).
  destruct (N.gcd_divide_l c P) as [c' Ec]. destruct (N.gcd_divide_r c P) as [P' EP]. fold g in Ec, EP.
  assert (El : P / g = P') by (rewrite EP; now apply N.div_mul).
  assert (Cop : N.gcd c' P' = 1).
  { pose proof (N.gcd_div_gcd c P g g0 eq_refl) as G. rewrite El in G. rewrite Ec, N.div_mul in G by exact g0. exact G. }
  rewrite El. replace (c * p) with (c' * p * g) by (rewrite Ec; clearbody g; lia). rewrite EP at 1. rewrite N.mul_divide_cancel_r by exact g0. split.
  - intros D. apply N.gauss in D; [exact D|now rewrite N.gcd_comm].
  - intros [q ->]. exists (c' * q). clearbody g. lia.
Qed.
Lemma lfg_period_nz : lfg_period <> 0.
Proof. intros E. pose proof C82_size as [S _]. rewrite E in S. apply N.nlt_0_r in S. exact S. Qed.
Lemma all_periods g : lfg_ok g -> nondeg (oseq g) -> lfg_periods g.
Proof.
  intros H ND. pose proof (oseq_wrec g H) as W.
  assert (LB : forall j, 1 <= j <= 64 -> forall p, low_period (oseq g) j p <-> (lfg_low_period j | p)).
  { intros j Hj p. rewrite lfgLo_value. now apply low_exact. }
  assert (SB : forall n, (1 <= n <= 8)%nat -> period_is (read_block gLFG n) g (lfg_low_period (8 * N.of_nat n))).
  { intros n Hn p. rewrite lfg_blocks_short by (exact H || lia). apply LB. lia. }
  split; [intros j Hj p; rewrite low_repeats by exact H; now apply LB|].
  split; [intros n Hn; apply SB; lia|].
  split. { intros n Hn p. rewrite lfg_blocks_long by (exact H || lia). rewrite (exact_of_nondeg g H ND). apply div_gcd_iff, lfg_period_nz. }
  split. { intros p. rewrite (rng_repeats gLFG 8 g p _ (block_64 gLFG) H). apply (SB 8%nat). lia. }
  split. { intros p. rewrite (rng_repeats gLFG 4 g p _ (block_32 gLFG) H). apply (SB 4%nat). lia. }
  split. { intros p. rewrite (rng_repeats gLFG 2 g p _ (block_16 gLFG) H). apply (SB 2%nat). lia. }
  intros p. rewrite int63_repeats by exact H. rewrite (proj1 (N.eqb_eq _ _) lfg_period_value). now apply high_exact.
Qed.

(** ** C85 *)
(** From any reachable state the low j bits repeat after lfg_low_period j values, maybe earlier. *)
Theorem C85_low_bits_repeat g j : reachable gLFG g -> 1 <= j <= 64 -> repeats_after (low_bits j) g (lfg_low_period j).
Proof.
  intros H Hj. apply lfg_reach_ok in H. apply low_repeats; [exact H|]. rewrite lfgLo_value. apply low_has_period; [now apply oseq_wrec|exact Hj].
Qed.
(** After Seed, or SeedIV with at most 273 bytes, these and all the other periods are exact. *)
Theorem C85_short_iv old iv g : any_value gLFG old -> (length iv <= 273)%nat -> LFG_SeedIV old iv = Ret g -> lfg_periods g.
Proof. intros Ho L E. destruct (short_iv_nondeg old iv g Ho L E). now apply all_periods. Qed.
Theorem C85_seed old x g : any_value gLFG old -> w64 x -> LFG_Seed old x = Ret g -> lfg_periods g.
Proof. intros Ho Hx E. apply (C85_short_iv old (seed_bytes x)); [exact Ho|cbn; lia|exact E]. Qed.
(** In any state they are exact unless the parities of its first 335 values are one of few exceptional patterns. *)
Theorem C85_almost_always : exists L, N.of_nat (length L) <= 2 ^ 227 + 2 ^ 148 /\
  forall g xs g', reachable gLFG g -> runs LFG_Uint64 g xs g' -> length xs = 335%nat -> ~ In (map N.odd xs) L -> lfg_periods g.
Proof.
  destruct rare_nondeg as (L & B & H). exists L. split; [exact B|]. intros g xs g' Hg R Lx NI. destruct (H g xs g' Hg R Lx NI). now apply all_periods.
Qed.
(** Reads of 8 bytes or more repeat exactly when the values do, from any state. *)
Theorem C85_blocks_as_values g n p : reachable gLFG g -> (8 <= n)%nat ->
  (repeats_after (read_block gLFG n) g p <-> stream_period LFG_Uint64 g (N.of_nat (ceil8 n) * p)).
Proof. intros H Hn. apply lfg_reach_ok in H. now apply lfg_blocks_long. Qed.
(** sizes *)
Theorem C85_sizes : lfg_low_period 64 = lfg_period /\ 2 ^ 288 < lfg_low_period 1 < 2 ^ 289 /\ (forall j, 1 <= j -> lfg_low_period (j + 1) = 2 * lfg_low_period j) /\
  lfg_low_period 32 * 2 ^ 32 = lfg_period /\ lfg_low_period 16 * 2 ^ 48 = lfg_period.
Proof.
  split; [reflexivity|]. split; [split; apply N.ltb_lt; vm_cast_no_check (eq_refl true)|]. split; [|split; apply N.eqb_eq; vm_cast_no_check (eq_refl true)].
  intros j Hj. unfold lfg_low_period. replace (2 ^ (j + 1 - 1)) with (2 * 2 ^ (j - 1)) by (rewrite <- N.pow_succ_r'; f_equal; lia).
  generalize ((2 ^ 187 - 1) * ((2 ^ 108 - 1) / 65)), (2 ^ (j - 1)). intros; ring.
Qed.
(** Seed(42): reading 24 bytes at a time repeats after a third of the period; RNG.Uint32 long before the period is over, though
    not before the 2^32-nd part of it *)
Lemma third_check : ((lfg_period / N.gcd 3 lfg_period =? lfg_period / 3) && negb ((lfg_period / 3 / 2) mod (lfg_period / 3) =? 0) && negb ((lfg_low_period 32 / 2) mod lfg_low_period 32 =? 0))%bool = true.
Proof. vm_cast_no_check (eq_refl true). Qed.
Example C85_nonvacuous : any_value gLFG NewLFG /\ exists g, LFG_Seed NewLFG 42 = Ret g /\
  repeats_after (read_block gLFG 24) g (lfg_period / 3) /\ ~ repeats_after (read_block gLFG 24) g (lfg_period / 3 / 2) /\
  repeats_after (RNG_Uint32 LFG_Read) g (lfg_low_period 32) /\ ~ repeats_after (RNG_Uint32 LFG_Read) g (lfg_low_period 32 / 2).
Proof.
  assert (T : any_value gLFG NewLFG) by (split; apply lfg_new_ok). split; [exact T|].
  destruct (LFG_SeedIV_ok NewLFG (seed_bytes 42) eq_refl) as (g & E & Hg). exists g. split; [exact E|].
  destruct (C85_seed NewLFG 42 g T ltac:(reflexivity) E) as (_ & _ & B & _ & U & _).
  pose proof third_check as C. apply andb_prop in C. destruct C as [C C3]. apply andb_prop in C. destruct C as [C1 C2].
  apply N.eqb_eq in C1. apply negb_true_iff, N.eqb_neq in C2, C3.
  specialize (B 24%nat ltac:(lia)). change (N.of_nat (ceil8 24)) with 3 in B. rewrite C1 in B.
  split; [apply B, N.divide_refl|]. split; [|split; [apply U, N.divide_refl|]]; intros R.
  - apply B in R. apply N.mod_divide in R; [contradiction|]. intros Z. rewrite Z in C2. apply C2. reflexivity.
  - apply U in R. apply N.mod_divide in R; [contradiction|]. intros Z. rewrite Z in C3. apply C3. reflexivity.
Qed.
