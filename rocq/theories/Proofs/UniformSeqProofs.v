(** Sequences of uniform doubles drawn from a generator (C86). *)
From Coq Require Import Reals Lia Lra ZifyN ZifyNat ZifyBool.
From Flocq Require Import Core BinarySingleNaN.
From Verif Require Import Model.Base Model.GenRead Model.Rng Model.Float Model.Distr Model.Xoroshiro Model.Xoshiro Model.Lfg Model.Api
  Spec.Common Spec.States Spec.Kinds Spec.Counting Spec.Floats Spec.Blocks Spec.UniformSeq.
From Verif Require Import Proofs.WordLemmas Proofs.ReadProofs Proofs.PureGen Proofs.Count Proofs.OrbitCount
  Proofs.XoroProofs Proofs.XoroSeed Proofs.XoshiProofs Proofs.XoshiSeed Proofs.KindProofs Proofs.FloatProofs Proofs.BlockProofs Proofs.LfgBlocks
  Props.Periods Props.LowBit Props.Equidist Props.Blocks Props.Uniform Props.Mixing.
Local Open Scope N_scope.

(** ** the generators with a full cycle, uniformly *)
Definition kout (k : gen) : state k -> N :=
  match k with gLFG => fun _ => 0 | gMT64 => fun _ => 0 | gXoroshiro => xout | gRexoroshiro => fun s => rev_bytes64 (xout s) | gXoshiro => hout end.
Definition kstep (k : gen) : state k -> state k :=
  match k with gLFG => fun s => s | gMT64 => fun s => s | gXoroshiro => xstep | gRexoroshiro => xstep | gXoshiro => xoshi_step end.
Lemma kpure k P s : full_cycle k = Some P -> a_Uint64 (methods k) s = Ret (kout k s, kstep k s).
Proof. destruct k; try discriminate; intros _; [apply xoro_pure|apply rex_pure|apply xoshi_pure]. Qed.
Lemma kstep_nz k s : nonzero_state k s -> nonzero_state k (kstep k s).
Proof. destruct k; try (intros []; fail); [apply xoro_nz_step|apply xoro_nz_step|apply hnz_step]. Qed.
Lemma korder k P s n : full_cycle k = Some P -> nonzero_state k s -> N.iter n (kstep k) s = s <-> (P | n).
Proof. destruct k; try discriminate; intros E H; injection E as <-; [now apply xoro_nz_order|now apply xoro_nz_order|now apply hnz_order]. Qed.
Lemma korbit k P s t : full_cycle k = Some P -> nonzero_state k s -> nonzero_state k t -> exists n, n < P /\ N.iter n (kstep k) s = t.
Proof. destruct k; try discriminate; intros E; injection E as <-; [apply xoro_orbit|apply xoro_orbit|apply xoshi_orbit]. Qed.
Lemma kiter_nz k s n : nonzero_state k s -> nonzero_state k (N.iter n (kstep k) s).
Proof. intros H. apply N.iter_invariant; [|exact H]. apply kstep_nz. Qed.

(** the low byte of the values shows a repetition *)
Lemma mod_byte0 x y j : 8 <= j -> x mod 2 ^ j = y mod 2 ^ j -> byte_of x 0 = byte_of y 0.
Proof.
  intros Hj E. unfold byte_of. change (256 ^ N.of_nat 0) with 1. rewrite !N.div_1_r. change 256 with (2 ^ 8).
  assert (F : forall z, z mod 2 ^ 8 = (z mod 2 ^ j) mod 2 ^ 8).
  { intros z. apply N.bits_inj. intros i. destruct (N.lt_ge_cases i 8) as [L|L]; [|now rewrite !N.mod_pow2_bits_high by exact L].
    rewrite !N.mod_pow2_bits_low by lia. reflexivity. }
  now rewrite (F x), (F y), E.
Qed.
Lemma kreveal k P s m : full_cycle k = Some P -> nonzero_state k s ->
  (forall i, byte_of (kout k (N.iter i (kstep k) (N.iter m (kstep k) s))) 0 = byte_of (kout k (N.iter i (kstep k) s)) 0) -> (P | m).
Proof.
  intros EP Hs H. pose proof (kiter_nz k s m Hs) as Hm. destruct k; try discriminate EP; injection EP as <-; cbn [kout kstep] in *.
  - apply (xoro_nz_order s Hs). apply xoro_low_all; [apply Hs|apply Hm|]. intros i. now rewrite <- !xlow_out, <- !(byte0_odd (xout _)), H.
  - apply (xoro_top_all s m Hs). intros i. unfold xtop. specialize (H i). apply (f_equal (fun b => N.testbit b 7)) in H. now rewrite !rev_byte0 in H by apply xout_w.
  - apply (hnz_order s Hs). apply xoshi_low_all; [apply Hs|apply Hm|]. intros i. rewrite <- !hout_low by (apply hiter_typed; (apply Hm || apply Hs)). now rewrite H.
Qed.
(** ... even if only every second one is seen *)
Lemma kodd k P : full_cycle k = Some P -> exists h, P + 1 = 2 * h.
Proof. destruct k; try discriminate; intros E; injection E as <-; [exists (2 ^ 127)|exists (2 ^ 127)|exists (2 ^ 255)]; reflexivity. Qed.
Lemma kstride k P s c i : full_cycle k = Some P -> nonzero_state k s -> c = 1 \/ c = 2 -> exists j, N.iter (c * j) (kstep k) s = N.iter i (kstep k) s.
Proof.
  intros EP Hs [->| ->]; [exists i; now rewrite N.mul_1_l|]. destruct (kodd k P EP) as [h Eh]. exists (h * i).
  replace (2 * (h * i)) with (i + i * P) by (rewrite N.mul_assoc, <- Eh; clear; lia).
  rewrite N.iter_add. f_equal. apply (korder k P s _ EP Hs). now exists i.
Qed.
Lemma kperiod k P s c p j : full_cycle k = Some P -> nonzero_state k s -> c = 1 \/ c = 2 -> 8 <= j ->
  (forall n, kout k (N.iter (c * n) (kstep k) (N.iter (c * p) (kstep k) s)) mod 2 ^ j = kout k (N.iter (c * n) (kstep k) s) mod 2 ^ j) <-> (P | p).
Proof.
  intros EP Hs Hc Hj. split.
  - intros H. assert (D : (P | c * p)).
    { apply (kreveal k P s _ EP Hs). intros i. destruct (kstride k P s c i EP Hs Hc) as [n En].
      apply (mod_byte0 _ _ j Hj). rewrite <- N.iter_add, (N.add_comm i), N.iter_add, <- En, <- N.iter_add, (N.add_comm (c * p)), N.iter_add. apply H. }
    destruct Hc as [->| ->]; [now rewrite N.mul_1_l in D|]. apply N.gauss in D; [exact D|].
    destruct (kodd k P EP) as [h Eh]. apply N.bezout_1_gcd. exists 1, (h - 1). assert (P <> 0) by (clear - EP; destruct k; try discriminate EP; injection EP as <-; discriminate). lia.
  - intros [q ->] n. rewrite (proj2 (korder k P s (c * (q * P)) EP Hs)); [reflexivity|]. exists (c * q). now rewrite N.mul_assoc.
Qed.

(** ** how many states give a value *)
Lemma kstates k P j v : full_cycle k = Some P -> 0 < j <= 64 -> v < 2 ^ j ->
  has_exactly (fun t => nonzero_state k t /\ kout k t mod 2 ^ j = v) ((P + 1) / 2 ^ j - (if v =? 0 then 1 else 0)).
Proof.
  intros EP Hj Hv.
  assert (PJ : 2 ^ j <> 0) by (apply N.pow_nonzero; discriminate).
  assert (E64 : 2 ^ 64 = 2 ^ (64 - j) * 2 ^ j) by (rewrite <- N.pow_add_r; f_equal; lia).
  assert (X : has_exactly (fun x => w64 x /\ x mod 2 ^ j = v) (2 ^ (64 - j))) by (unfold w64; rewrite E64; now apply has_exactly_mod).
  assert (V0 : 0 mod 2 ^ j = 0) by now apply N.mod_0_l.
  destruct k; try discriminate EP; injection EP as <-; cbn [kout nonzero_state state].
  1,2: assert (A : has_exactly (fun t => xoro_typed t /\ kout gXoroshiro t mod 2 ^ j = v) (2 ^ (64 - j) * 2 ^ 64)) by exact (xoro_states_with (fun x => x mod 2 ^ j = v) _ X).
  2: assert (B : has_exactly (fun t => xoro_typed t /\ rev_bytes64 (xout t) mod 2 ^ j = v) (2 ^ (64 - j) * 2 ^ 64)).
  2:{ apply (xoro_states_with (fun x => rev_bytes64 x mod 2 ^ j = v)). apply (has_exactly_bij (fun x => w64 x /\ x mod 2 ^ j = v) _ rev_bytes64 rev_bytes64); [| | | |exact X].
      - intros a [Wa Pa]. split; [apply rev_bytes64_w|]. now rewrite rev_bytes64_invol.
      - intros a [Wa Pa]. split; [apply rev_bytes64_w|]. exact Pa.
      - intros a [Wa _]. now apply rev_bytes64_invol.
      - intros a [Wa _]. now apply rev_bytes64_invol. }
  1,2: replace ((2 ^ 128 - 1 + 1) / 2 ^ j) with (2 ^ (64 - j) * 2 ^ 64) by (replace (2 ^ 128 - 1 + 1) with (2 ^ (64 - j) * 2 ^ 64 * 2 ^ j) by (rewrite <- N.mul_assoc, (N.mul_comm (2 ^ 64)), N.mul_assoc, <- E64; reflexivity); now rewrite N.div_mul).
  - destruct (N.eqb_spec v 0) as [->|E].
    + apply (has_exactly_ext (fun t => (xoro_typed t /\ xout t mod 2 ^ j = 0) /\ t <> xzero)); [intros t; unfold xzero; tauto|].
      apply has_exactly_remove; [apply xoro_eq_dec|exact A|]. split; [apply xzero_typed|exact V0].
    + rewrite N.sub_0_r. eapply has_exactly_ext; [|exact A]. cbn [kout]. intros t. split; [|tauto]. intros [Tt R]. split; [split; [exact Tt|]|exact R]. intros ->. apply E. rewrite <- R. exact V0.
  - destruct (N.eqb_spec v 0) as [->|E].
    + apply (has_exactly_ext (fun t => (xoro_typed t /\ rev_bytes64 (xout t) mod 2 ^ j = 0) /\ t <> xzero)); [intros t; unfold xzero; tauto|].
      apply has_exactly_remove; [apply xoro_eq_dec|exact B|]. split; [apply xzero_typed|exact V0].
    + rewrite N.sub_0_r. eapply has_exactly_ext; [|exact B]. intros t. split; [|tauto]. intros [Tt R]. split; [split; [exact Tt|]|exact R]. intros ->. apply E. rewrite <- R. exact V0.
  - assert (HO : forall t, exists r, hto t = hout t :: r) by (intros t; eexists; reflexivity).
    assert (HF : forall x l, words_of_length 4 (x :: l) -> hout (hfrom (x :: l)) = x /\ tl (hto (hfrom (x :: l))) = l).
    { intros x l W. pose proof (hto_hfrom _ W) as Q. revert Q. generalize (hfrom (x :: l)). intros t Q. rewrite Q. split; [|reflexivity].
      destruct (HO t) as [r Er]. rewrite Q in Er. now injection Er as ->. }
    assert (A : has_exactly (fun t => xoshi_typed t /\ hout t mod 2 ^ j = v) (2 ^ (64 - j) * 2 ^ 192)).
    { apply (has_exactly_bij (fun q => (w64 (fst q) /\ fst q mod 2 ^ j = v) /\ words_of_length 3 (snd q)) _
        (fun q => hfrom (fst q :: snd q)) (fun t => (hout t, tl (hto t)))).
      - intros [x l] [[Wx Vx] [L F]]. cbn [fst snd] in *. assert (W : words_of_length 4 (x :: l)) by (split; [cbn; lia|now constructor]).
        split; [now apply hfrom_typed|]. rewrite (proj1 (HF x l W)). exact Vx.
      - intros t [T V]. cbn [fst snd]. destruct (hto_words t) as [L F]. destruct (HO t) as [r Er]. rewrite Er in *. inversion F; subst.
        split; [auto|]. split; [cbn in *; lia|assumption].
      - intros [x l] [[Wx Vx] [L F]]. cbn [fst snd] in *. assert (W : words_of_length 4 (x :: l)) by (split; [cbn; lia|now constructor]).
        destruct (HF x l W) as [-> ->]. reflexivity.
      - intros t [T V]. cbn [fst snd]. destruct (HO t) as [r Er]. rewrite Er. cbn [tl]. rewrite <- Er. now apply hfrom_hto.
      - apply (has_exactly_pair (fun x => w64 x /\ x mod 2 ^ j = v) (words_of_length 3)); [exact X|]. exact (words_count 3). }
    replace ((2 ^ 256 - 1 + 1) / 2 ^ j) with (2 ^ (64 - j) * 2 ^ 192) by (replace (2 ^ 256 - 1 + 1) with (2 ^ (64 - j) * 2 ^ 192 * 2 ^ j) by (rewrite <- N.mul_assoc, (N.mul_comm (2 ^ 192)), N.mul_assoc, <- E64; reflexivity); now rewrite N.div_mul).
    destruct (N.eqb_spec v 0) as [->|E].
    + apply (has_exactly_ext (fun t => (xoshi_typed t /\ hout t mod 2 ^ j = 0) /\ t <> hzero)); [intros t; unfold hzero; tauto|].
      apply has_exactly_remove; [apply xoshi_eq_dec|exact A|]. split; [apply hzero_typed|exact V0].
    + rewrite N.sub_0_r. eapply has_exactly_ext; [|exact A]. intros t. split; [|tauto]. intros [Tt R]. split; [split; [exact Tt|]|exact R]. intros ->. apply E. rewrite <- R. exact V0.
Qed.

(** ** one call of Next *)
Lemma bout_val {S} (out : S -> N) step n c s : (n <= 8)%nat -> (1 <= c)%nat -> le_val (bout out step n c s) = out s mod 256 ^ N.of_nat n.
Proof.
  intros Hn Hc. destruct c as [|c]; [lia|]. unfold bout. cbn [outs stream_bytes flat_map].
  rewrite firstn_app, le_bytes_length. replace (n - 8)%nat with 0%nat by lia. rewrite firstn_O, app_nil_r.
  rewrite <- le_val_bytes. f_equal. generalize (out s). clear - Hn. intros x.
  do 9 (destruct n as [|n]; [reflexivity|]). lia.
Qed.
Lemma mod_mod_pow x a b : a <= b -> (x mod 2 ^ b) mod 2 ^ a = x mod 2 ^ a.
Proof.
  intros H. apply N.bits_inj. intros i. destruct (N.lt_ge_cases i a) as [L|L]; [|now rewrite !N.mod_pow2_bits_high by exact L].
  rewrite !N.mod_pow2_bits_low by lia. reflexivity.
Qed.
Definition f53 (m : N) : float64 := fmul (of_int (Z.of_N m)) lit_scale.
Definition f52 (m : N) : float64 := mkfloat false (Z.of_N (m + 2 ^ 52)) (-52).
Lemma f53_value m : m < 2 ^ 53 -> fvalue (f53 m) (IZR (Z.of_N m) / IZR (2 ^ 53)).
Proof. intros H. apply scale_exact, H. Qed.
Lemma f52_value m : m < 2 ^ 52 -> fvalue (f52 m) (1 + IZR (Z.of_N m) / IZR (2 ^ 52)).
Proof.
  intros H. pose proof (frombits_1_2 m) as E. pose proof (frombits_value m) as V. rewrite N.mod_small in E, V by exact H. unfold f52. rewrite <- E; [apply V|]; eapply N.lt_trans; try exact H; reflexivity.
Qed.
Lemma frac_inj a b P : (0 < P)%Z -> (IZR (Z.of_N a) / IZR P = IZR (Z.of_N b) / IZR P)%R -> a = b.
Proof.
  intros HP E. assert (Q : (IZR P <> 0)%R) by (apply not_eq_sym, Rlt_not_eq; now apply IZR_lt).
  apply Rmult_eq_reg_r in E; [|now apply Rinv_neq_0_compat]. apply eq_IZR in E. lia.
Qed.
Lemma fvalue_fun f x y : fvalue f x -> fvalue f y -> x = y.
Proof. intros [_ A] [_ B]. congruence. Qed.
Lemma f53_inj a b : a < 2 ^ 53 -> b < 2 ^ 53 -> f53 a = f53 b -> a = b.
Proof. intros Ha Hb E. apply (frac_inj a b (2 ^ 53) eq_refl). apply (fvalue_fun (f53 a)); [now apply f53_value|rewrite E; now apply f53_value]. Qed.
Lemma f52_inj a b : a < 2 ^ 52 -> b < 2 ^ 52 -> f52 a = f52 b -> a = b.
Proof. apply mk12_inj. Qed.

Lemma next01 k s (out : state k -> N) step c : (1 <= c)%nat -> read_block k 8 s = Ret (bout out step 8 c s, N.iter (N.of_nat c) step s) ->
  Uniform0_1_Next (a_Read (methods k)) s = Ret (f53 (out s mod 2 ^ 53), N.iter (N.of_nat c) step s).
Proof.
  intros Hc E. unfold read_block in E. destruct (a_Read (methods k) s (zeros 8)) as [[[[q n] e] s']| |] eqn:ER; try discriminate E. injection E as -> ->.
  rewrite (uniform01_eq _ _ _ _ _ _ (proj1 (C75_generators k s)) ER). unfold f53. rewrite bout_val by lia.
  change (256 ^ N.of_nat 8) with (2 ^ 64). now rewrite mod_mod_pow by (intros Q; discriminate Q).
Qed.
Lemma next12 k s (out : state k -> N) step c : (1 <= c)%nat -> read_block k 7 s = Ret (bout out step 7 c s, N.iter (N.of_nat c) step s) ->
  Uniform1_2_Next (a_Read (methods k)) s = Ret (f52 (out s mod 2 ^ 52), N.iter (N.of_nat c) step s).
Proof.
  intros Hc E. unfold read_block in E. destruct (a_Read (methods k) s (zeros 7)) as [[[[q n] e] s']| |] eqn:ER; try discriminate E. injection E as -> ->.
  destruct (uniform12_eq _ _ _ _ _ _ (proj1 (C75_generators k s)) ER) as [-> B]. unfold f52. rewrite frombits_1_2 by exact B. rewrite bout_val by lia.
  change (256 ^ N.of_nat 7) with (2 ^ 56). now rewrite mod_mod_pow by (intros Q; discriminate Q).
Qed.

(** ** what the calls return, for a generator with a full cycle *)
Section Mapped.
  Variable k : gen.
  Variables P c j : N.
  Variable f : N -> float64.
  Variable val : N -> R.
  Variable u : state k -> outcome (float64 * state k).
  Hypothesis EP : full_cycle k = Some P.
  Hypothesis Hc : c = 1 \/ c = 2.
  Hypothesis Hj : 8 <= j <= 64.
  Hypothesis u_eq : forall s, nonzero_state k s -> u s = Ret (f (kout k s mod 2 ^ j), N.iter c (kstep k) s).
  Hypothesis f_val : forall m, m < 2 ^ j -> fvalue (f m) (val m).
  Hypothesis val_inj : forall a b, val a = val b -> a = b.
  Let low s := kout k s mod 2 ^ j.
  Lemma low_lt s : low s < 2 ^ j. Proof. apply N.mod_lt, N.pow_nonzero. discriminate. Qed.
  Lemma low_f_inj a b : f (low a) = f (low b) -> low a = low b.
  Proof. intros E. apply val_inj. apply (fvalue_fun (f (low a))); [apply f_val, low_lt|rewrite E; apply f_val, low_lt]. Qed.
  Lemma mapped_period s p : nonzero_state k s -> repeats_after u s p <-> (P | p).
  Proof.
    intros Hs. rewrite (repeats_iter u (nonzero_state k) (fun s => f (low s)) (fun s => N.iter c (kstep k) s) u_eq (fun s H => kiter_nz k s c H) s p Hs).
    rewrite <- (kperiod k P s c p j EP Hs Hc (proj1 Hj)). split; intros H n; specialize (H n); rewrite !iter_mul in *.
    - now apply low_f_inj.
    - unfold low. now rewrite H.
  Qed.
  Lemma mapped_gives s i m : nonzero_state k s -> gives_at u s i (val m) <-> low (N.iter i (fun s => N.iter c (kstep k) s) s) = m.
  Proof.
    intros Hs. set (st := fun s => N.iter c (kstep k) s).
    assert (I : forall s xs s', nonzero_state k s -> runs u s xs s' -> s' = N.iter (N.of_nat (length xs)) st s).
    { intros s0 xs s' H R. revert H. induction R as [s0|s0 x s1 xs s' Hx _ IH]; intros H; [reflexivity|]. rewrite u_eq in Hx by exact H. injection Hx as <- <-.
      cbn [length]. rewrite Nat2N.inj_succ, N.iter_succ_r. apply IH. now apply kiter_nz. }
    assert (T : nonzero_state k (N.iter i st s)) by (apply N.iter_invariant; [intros t Ht; now apply kiter_nz|exact Hs]).
    split.
    - intros (xs & t & t' & g & L & R & U & V). apply I in R; [|exact Hs]. rewrite L in R. subst t. rewrite u_eq in U by exact T. injection U as <- _.
      apply val_inj. apply (fvalue_fun (f (low (N.iter i st s)))); [apply f_val, low_lt|exact V].
    - intros <-. destruct (runsA_exist u (nonzero_state k) (fun s => f (low s)) st u_eq (fun s H => kiter_nz k s c H) (N.to_nat i) s Hs) as (xs & L & R). rewrite N2Nat.id in R.
      exists xs, (N.iter i st s), (st (N.iter i st s)), (f (low (N.iter i st s))). split; [lia|]. split; [exact R|]. split; [now apply u_eq|]. apply f_val, low_lt.
  Qed.
  Lemma ord_nz : P <> 0. Proof. clear - EP. destruct k; try discriminate EP; injection EP as <-; discriminate. Qed.
  Lemma mapped_count s m : nonzero_state k s -> m < 2 ^ j ->
    has_exactly (fun i => i < P /\ gives_at u s i (val m)) ((P + 1) / 2 ^ j - (if m =? 0 then 1 else 0)).
  Proof.
    intros Hs Hm. set (st := fun s => N.iter c (kstep k) s).
    apply (has_exactly_ext (fun i => i < P /\ low (N.iter i st s) = m)).
    { intros i. now rewrite mapped_gives. }
    assert (O : forall v, nonzero_state k v -> forall n, N.iter n st v = v <-> (P | n)).
    { intros v Hv n. unfold st. rewrite iter_mul, (korder k P v _ EP Hv). destruct Hc as [->| ->]; [now rewrite N.mul_1_l|]. split.
      - intros D. apply N.gauss in D; [exact D|]. destruct (kodd k P EP) as [h Eh]. apply N.bezout_1_gcd. exists 1, (h - 1). pose proof ord_nz. lia.
      - intros [q ->]. exists (2 * q). now rewrite N.mul_assoc. }
    assert (F : forall v w, nonzero_state k v -> nonzero_state k w -> exists n, n < P /\ N.iter n st v = w).
    { intros v w Hv Hw. destruct (korbit k P v w EP Hv Hw) as (i & _ & <-). destruct (kstride k P v c i EP Hv Hc) as [n En]. rewrite <- En.
      exists (n mod P). split; [apply N.mod_lt, ord_nz|]. unfold st. rewrite iter_mul.
      assert (D : c * n = c * (n mod P) + c * (n / P) * P).
      { pose proof (N.div_mod n P ord_nz) as D. rewrite D at 1. rewrite N.mul_add_distr_l, N.add_comm. f_equal. rewrite <- N.mul_assoc. f_equal. apply N.mul_comm. }
      rewrite D, N.iter_add. f_equal. symmetry. apply (korder k P v _ EP Hv). now exists (c * (n / P)). }
    apply (orbit_count (nonzero_state k) st P ltac:(pose proof ord_nz; lia) (fun v H => kiter_nz k v c H) O F (fun t => low t = m)); [exact Hs|].
    apply kstates; [exact EP|lia|exact Hm].
  Qed.
End Mapped.
