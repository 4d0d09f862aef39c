(** C86: sequences of uniform doubles and of Int63 values drawn from one generator: after how many calls they repeat, and how
    often each value turns up until then. *)
From Coq Require Import Reals Lia Lra ZifyN ZifyNat ZifyBool.
From Verif Require Import Model.Base Model.GenRead Model.Rng Model.Float Model.Distr Model.Xoroshiro Model.Xoshiro Model.Lfg Model.Api
  Spec.Common Spec.States Spec.Kinds Spec.Counting Spec.Floats Spec.Blocks Spec.LfgPeriod Spec.LfgBits Spec.UniformSeq.
From Verif Require Import Proofs.WordLemmas Proofs.ReadProofs Proofs.PureGen Proofs.Count Proofs.OrbitCount
  Proofs.XoroProofs Proofs.XoroSeed Proofs.XoshiProofs Proofs.XoshiSeed Proofs.KindProofs Proofs.FloatProofs Proofs.BlockProofs
  Proofs.LfgProofs Proofs.LfgStream Proofs.LfgPeriod Proofs.LfgLow Proofs.LfgBlocks Proofs.LfgSave
  Props.Periods Props.Equidist Props.Blocks Props.LfgPeriod Props.LfgBits Proofs.UniformSeqProofs.
Local Open Scope N_scope.

Lemma calls8 k : read_calls k 8 = 1%nat \/ read_calls k 8 = 2%nat.
Proof. destruct k; cbn; auto. Qed.
Lemma calls7 k : read_calls k 7 = 1%nat.
Proof. destruct k; reflexivity. Qed.
Lemma cycle01 k P s : full_cycle k = Some P -> nonzero_state k s ->
  Uniform0_1_Next (a_Read (methods k)) s = Ret (f53 (kout k s mod 2 ^ 53), N.iter (N.of_nat (read_calls k 8)) (kstep k) s).
Proof.
  intros EP Hs. apply next01; [destruct (calls8 k); lia|]. apply block_pure; [intros; now apply (kpure k P)|]. now apply nonzero_inv.
Qed.
Lemma cycle12 k P s : full_cycle k = Some P -> nonzero_state k s ->
  Uniform1_2_Next (a_Read (methods k)) s = Ret (f52 (kout k s mod 2 ^ 52), N.iter (N.of_nat (read_calls k 7)) (kstep k) s).
Proof.
  intros EP Hs. apply next12; [rewrite calls7; lia|]. apply block_pure; [intros; now apply (kpure k P)|]. now apply nonzero_inv.
Qed.
Lemma val53_inj a b : (IZR (Z.of_N a) / IZR (2 ^ 53) = IZR (Z.of_N b) / IZR (2 ^ 53))%R -> a = b.
Proof. now apply frac_inj. Qed.
Lemma val52_inj a b : (1 + IZR (Z.of_N a) / IZR (2 ^ 52) = 1 + IZR (Z.of_N b) / IZR (2 ^ 52))%R -> a = b.
Proof. intros E. apply Rplus_eq_reg_l in E. revert E. now apply frac_inj. Qed.
Lemma c8 k : N.of_nat (read_calls k 8) = 1 \/ N.of_nat (read_calls k 8) = 2.
Proof. destruct (calls8 k) as [->| ->]; auto. Qed.
Lemma c7 k : N.of_nat (read_calls k 7) = 1 \/ N.of_nat (read_calls k 7) = 2.
Proof. rewrite calls7. auto. Qed.

(** ** C86 *)
(** On a Xoroshiro, Rexoroshiro or Xoshiro in any state but the dead one, the results of Uniform0_1.Next repeat exactly with the
    generator's cycle, 2^128-1 or 2^256-1 (although on a Xoroshiro each call uses up two values), and so do those of
    Uniform1_2.Next. *)
Theorem C86_uniform_repeats k cycle s : full_cycle k = Some cycle -> nonzero_state k s ->
  period_is (Uniform0_1_Next (a_Read (methods k))) s cycle /\ period_is (Uniform1_2_Next (a_Read (methods k))) s cycle.
Proof.
  intros EP Hs. split; intros p.
  - apply (mapped_period k cycle (N.of_nat (read_calls k 8)) 53 f53 (fun m => IZR (Z.of_N m) / IZR (2 ^ 53))%R _ EP (c8 k) ltac:(lia) (fun s => cycle01 k cycle s EP) f53_value val53_inj s p Hs).
  - apply (mapped_period k cycle (N.of_nat (read_calls k 7)) 52 f52 (fun m => 1 + IZR (Z.of_N m) / IZR (2 ^ 52))%R _ EP (c7 k) ltac:(lia) (fun s => cycle12 k cycle s EP) f52_value val52_inj s p Hs).
Qed.
(** Over that many calls Uniform0_1 gives each of its 2^53 values m/2^53 equally often, only 0 once less. *)
Theorem C86_uniform0_1_values k cycle s m : full_cycle k = Some cycle -> nonzero_state k s -> m < 2 ^ 53 ->
  has_exactly (fun i => i < cycle /\ gives_at (Uniform0_1_Next (a_Read (methods k))) s i (IZR (Z.of_N m) / IZR (2 ^ 53)))
    ((cycle + 1) / 2 ^ 53 - (if m =? 0 then 1 else 0)).
Proof.
  intros EP Hs Hm.
  apply (mapped_count k cycle (N.of_nat (read_calls k 8)) 53 f53 (fun m => IZR (Z.of_N m) / IZR (2 ^ 53))%R _ EP (c8 k) ltac:(lia) (fun s => cycle01 k cycle s EP) f53_value val53_inj s m Hs Hm).
Qed.
(** Likewise Uniform1_2 its 2^52 values 1 + m/2^52, only 1 once less. *)
Theorem C86_uniform1_2_values k cycle s m : full_cycle k = Some cycle -> nonzero_state k s -> m < 2 ^ 52 ->
  has_exactly (fun i => i < cycle /\ gives_at (Uniform1_2_Next (a_Read (methods k))) s i (1 + IZR (Z.of_N m) / IZR (2 ^ 52)))
    ((cycle + 1) / 2 ^ 52 - (if m =? 0 then 1 else 0)).
Proof.
  intros EP Hs Hm.
  apply (mapped_count k cycle (N.of_nat (read_calls k 7)) 52 f52 (fun m => 1 + IZR (Z.of_N m) / IZR (2 ^ 52))%R _ EP (c7 k) ltac:(lia) (fun s => cycle12 k cycle s EP) f52_value val52_inj s m Hs Hm).
Qed.
(** On an LFG after Seed, or SeedIV with at most 273 bytes, the periods are those of the low 53 and 52 bits: 2^11 and 2^12 times
    shorter than the generator's. *)
Lemma lfg_next01 g x g' : lfg_ok g -> LFG_Uint64 g = Ret (x, g') -> Uniform0_1_Next LFG_Read g = Ret (f53 (x mod 2 ^ 53), g').
Proof. intros H E. rewrite lfg_pure in E by exact H. injection E as <- <-. exact (next01 gLFG g lout lstep 1 (le_n 1) (lfg_block_pure 8 g H)). Qed.
Lemma lfg_next12 g x g' : lfg_ok g -> LFG_Uint64 g = Ret (x, g') -> Uniform1_2_Next LFG_Read g = Ret (f52 (x mod 2 ^ 52), g').
Proof. intros H E. rewrite lfg_pure in E by exact H. injection E as <- <-. exact (next12 gLFG g lout lstep 1 (le_n 1) (lfg_block_pure 7 g H)). Qed.
Lemma lfg_mapped {A} (f : N -> A) j (u : lfg -> outcome (A * lfg)) (E : forall g x g', lfg_ok g -> LFG_Uint64 g = Ret (x, g') -> u g = Ret (f (x mod 2 ^ j), g'))
  (I : forall a b, a < 2 ^ j -> b < 2 ^ j -> f a = f b -> a = b) g p : lfg_ok g ->
  repeats_after u g p <-> low_period (oseq g) j p.
Proof.
  intros H. rewrite (repeats_iter u lfg_ok (fun g => f (lout g mod 2 ^ j)) lstep).
  - unfold low_period. split; intros G n; specialize (G n); rewrite <- ?N.iter_add, !lout_iter in * by exact H.
    + apply I in G; [exact G|apply N.mod_lt, N.pow_nonzero; discriminate..].
    + now rewrite G.
  - intros s Hs. apply E; [exact Hs|]. now apply lfg_pure.
  - apply lstep_ok.
  - exact H.
Qed.
Theorem C86_lfg_short_iv old iv g : any_value gLFG old -> (length iv <= 273)%nat -> LFG_SeedIV old iv = Ret g ->
  period_is (Uniform0_1_Next LFG_Read) g (lfg_low_period 53) /\ period_is (Uniform1_2_Next LFG_Read) g (lfg_low_period 52).
Proof.
  intros Ho L E. destruct (short_iv_nondeg old iv g Ho L E) as [H ND]. pose proof (oseq_wrec g H) as W. split; intros p; rewrite lfgLo_value.
  - rewrite (lfg_mapped f53 53 _ lfg_next01 f53_inj g p H). now apply low_exact.
  - rewrite (lfg_mapped f52 52 _ lfg_next12 f52_inj g p H). now apply low_exact.
Qed.
Theorem C86_lfg_seed old x g : any_value gLFG old -> w64 x -> LFG_Seed old x = Ret g ->
  period_is (Uniform0_1_Next LFG_Read) g (lfg_low_period 53) /\ period_is (Uniform1_2_Next LFG_Read) g (lfg_low_period 52).
Proof. intros Ho Hx E. apply (C86_lfg_short_iv old (seed_bytes x)); [exact Ho|cbn; lia|exact E]. Qed.

(** ** Int63 of Xoroshiro and Rexoroshiro (Xoshiro has none) *)
Lemma int63_xoro s : Xoroshiro_Int63 s = Ret (xout s / 2, xstep s).
Proof. unfold Xoroshiro_Int63. rewrite xoro_pure. cbn [bind]. unfold shr64. now rewrite N.shiftr_div_pow2. Qed.
Lemma int63_rex s : Rexoroshiro_Int63 s = Ret (rev_bytes64 (xout s) mod 2 ^ 63, xstep s).
Proof. unfold Rexoroshiro_Int63. rewrite rex_pure. cbn [bind]. change 0x7fffffffffffffff with (N.ones 63). now rewrite N.land_ones. Qed.
Theorem C86_int63_repeats s : xoro_typed s -> s <> mkXoro 0 0 ->
  period_is Xoroshiro_Int63 s (2 ^ 128 - 1) /\ period_is Rexoroshiro_Int63 s (2 ^ 128 - 1).
Proof.
  intros T Z. assert (Hs : xoro_nz s) by now split. split; intros p.
  - rewrite (repeats_iter Xoroshiro_Int63 (fun _ => True) (fun s => xout s / 2) xstep (fun s _ => int63_xoro s) (fun _ _ => I) s p I). split.
    + intros H. apply (xoro_top_all s p Hs). intros i. unfold xtop. specialize (H i). apply (f_equal (fun b => N.testbit b 62)) in H.
      change 2 with (2 ^ 1) in H. now rewrite !N.div_pow2_bits in H.
    + intros D n. apply (xoro_nz_order s Hs) in D. now rewrite D.
  - rewrite (repeats_iter Rexoroshiro_Int63 (fun _ => True) (fun s => rev_bytes64 (xout s) mod 2 ^ 63) xstep (fun s _ => int63_rex s) (fun _ _ => I) s p I). split.
    + intros H. apply (xoro_top_all s p Hs). intros i. unfold xtop. rewrite <- !rev_byte0 by apply xout_w. specialize (H i). apply (mod_byte0 _ _ 63 ltac:(lia)) in H. now rewrite H.
    + intros D n. apply (xoro_nz_order s Hs) in D. now rewrite D.
Qed.
(** each of the 2^63 values turns up 2^65 times per cycle, 0 once less *)
Lemma halves v : v < 2 ^ 63 -> has_exactly (fun x => w64 x /\ x / 2 = v) 2.
Proof.
  intros Hv. exists [2 * v; 2 * v + 1]. split; [repeat constructor; cbn; [intros [E|[]]; lia|intros []]|]. split; [|reflexivity].
  intros x. unfold w64. cbn [In]. split.
  - intros [<-|[<-|[]]]; (split; [lia|]); [rewrite N.mul_comm; now apply N.div_mul|]. symmetry. apply N.div_unique with 1; lia.
  - intros [Hx <-]. pose proof (N.div_mod x 2 ltac:(discriminate)). pose proof (N.mod_lt x 2 ltac:(discriminate)). lia.
Qed.
Theorem C86_int63_values s v : xoro_typed s -> s <> mkXoro 0 0 -> v < 2 ^ 63 ->
  has_exactly (fun n => n < 2 ^ 128 - 1 /\ occurs_at Xoroshiro_Int63 s n [v]) (if v =? 0 then 2 ^ 65 - 1 else 2 ^ 65) /\
  has_exactly (fun n => n < 2 ^ 128 - 1 /\ occurs_at Rexoroshiro_Int63 s n [v]) (if v =? 0 then 2 ^ 65 - 1 else 2 ^ 65).
Proof.
  intros T Z Hv. assert (Hs : xoro_nz s) by now split.
  assert (A : forall u out (pure : forall s, u s = Ret (out (xout s), xstep s)) (o0 : out 0 = 0)
    (C : has_exactly (fun x => w64 x /\ out x = v) 2), 
    has_exactly (fun n => n < 2 ^ 128 - 1 /\ occurs_at u s n [v]) (if v =? 0 then 2 ^ 65 - 1 else 2 ^ 65)).
  { intros u out pure o0 C. apply (has_exactly_ext (fun n => n < 2 ^ 128 - 1 /\ out (xout (N.iter n xstep s)) = v)).
    { intros n. now rewrite (occurs_at_iff u (fun s => out (xout s)) xstep pure), (runs_one u (fun s => out (xout s)) xstep pure). }
    destruct (xoro_fair (fun x => out x = v) 2 s Hs C) as [F0 F1]. rewrite o0 in F0, F1.
    change (2 * 2 ^ 64) with (2 ^ 65) in *. destruct (N.eqb_spec v 0) as [E|E]; [apply F1|apply F0]; congruence. }
  split.
  - apply (A Xoroshiro_Int63 (fun x => x / 2) int63_xoro eq_refl (halves v Hv)).
  - apply (A Rexoroshiro_Int63 (fun x => rev_bytes64 x mod 2 ^ 63) int63_rex eq_refl).
    apply (has_exactly_bij (fun x => w64 x /\ x mod 2 ^ 63 = v) _ rev_bytes64 rev_bytes64); [| | | |exact (has_exactly_mod 2 (2 ^ 63) v Hv)].
    + intros a [Wa Pa]. split; [apply rev_bytes64_w|]. now rewrite rev_bytes64_invol.
    + intros a [Wa Pa]. split; [apply rev_bytes64_w|]. exact Pa.
    + intros a [Wa _]. now apply rev_bytes64_invol.
    + intros a [Wa _]. now apply rev_bytes64_invol.
Qed.

(** the hypotheses can be met: Xoroshiro in state (1,2), whose first value is 3; each double turns up 2^75 times per cycle; the
    results do not repeat after half of 2^128 calls, though the generator has then gone round once (2 values per call) *)
Example C86_nonvacuous : nonzero_state gXoroshiro (mkXoro 1 2) /\
  gives_at (Uniform0_1_Next Xoroshiro_Read) (mkXoro 1 2) 0 (3 / IZR (2 ^ 53)) /\
  has_exactly (fun i => i < 2 ^ 128 - 1 /\ gives_at (Uniform0_1_Next Xoroshiro_Read) (mkXoro 1 2) i (3 / IZR (2 ^ 53))) (2 ^ 75) /\
  ~ repeats_after (Uniform0_1_Next Xoroshiro_Read) (mkXoro 1 2) (2 ^ 127) /\
  (exists g, LFG_Seed NewLFG 42 = Ret g /\ repeats_after (Uniform0_1_Next LFG_Read) g (lfg_low_period 53)).
Proof.
  assert (Z : nonzero_state gXoroshiro (mkXoro 1 2)) by (repeat split; discriminate).
  split; [exact Z|]. split; [|split; [|split]].
  - exists [], (mkXoro 1 2). eexists _, (f53 3). split; [reflexivity|]. split; [constructor|]. split; [exact (cycle01 gXoroshiro _ (mkXoro 1 2) eq_refl Z)|].
    apply (f53_value 3). reflexivity.
  - exact (C86_uniform0_1_values gXoroshiro _ (mkXoro 1 2) 3 eq_refl Z eq_refl).
  - intros R. apply (proj1 (C86_uniform_repeats gXoroshiro _ (mkXoro 1 2) eq_refl Z)) in R. apply N.divide_pos_le in R; [|reflexivity]. apply N.le_ngt in R. apply R. reflexivity.
  - destruct (LFG_SeedIV_ok NewLFG (seed_bytes 42) eq_refl) as (g & E & Hg). exists g. split; [exact E|].
    apply (proj1 (C86_lfg_seed NewLFG 42 g ltac:(split; apply lfg_new_ok) ltac:(reflexivity) E)), N.divide_refl.
Qed.
