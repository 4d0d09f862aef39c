(** Property C81: what programs that call Read, or the methods of RNG, see of the generators' cycles. *)
From Coq Require Import Lia ZifyN ZifyNat ZifyBool.
From Verif Require Import Model.Base Model.GenRead Model.Rng Model.Xoroshiro Model.Xoshiro Model.Api Spec.Common Spec.States Spec.Kinds Spec.Counting Spec.Blocks.
From Verif Require Import Proofs.WordLemmas Proofs.ReadProofs Proofs.PureGen Proofs.Count Proofs.OrbitCount
  Proofs.XoroProofs Proofs.XoroSeed Proofs.XoshiProofs Proofs.XoshiSeed Proofs.KindProofs Proofs.BlockProofs Props.Periods Props.LowBit Props.Equidist.
Local Open Scope N_scope.

(** every position of the stream belongs to some block *)
Lemma split_pos c i : c <> 0 -> i = c * (i / c) + i mod c /\ i mod c < c.
Proof. intros H. split; [now apply N.div_mod|now apply N.mod_lt]. Qed.
Lemma visible n c (H8 : (8 * (c - 1) < n)%nat) (c0 : c <> 0%nat) q : q < N.of_nat c -> (8 * N.to_nat q < n)%nat /\ N.of_nat (8 * N.to_nat q / 8) = q /\ (8 * N.to_nat q mod 8 = 0)%nat.
Proof.
  intros Hq. split; [lia|]. rewrite Nat.mul_comm. split; [rewrite Nat.div_mul by discriminate; lia|now apply Nat.mod_mul].
Qed.

Lemma xoroshiro_blocks n s p : xoro_typed s -> s <> mkXoro 0 0 -> (1 <= n)%nat ->
  (repeats_after (read_block gXoroshiro n) s p <-> (2 ^ 128 - 1 | N.of_nat (n / 8 + 1) * p)).
Proof.
  intros T Z Hn. rewrite (block_repeats gXoroshiro n p s xout xstep xoro_pure xstep_typed T). cbv zeta. cbn [state].
  change (read_calls gXoroshiro n) with (n / 8 + 1)%nat. set (c := (n / 8 + 1)%nat). rewrite <- (xoro_order s T Z). split.
  2:{ intros -> j i Hi. reflexivity. }
  intros H. set (t := N.iter (N.of_nat c * p) xstep s) in *. assert (Tt : xoro_typed t) by now apply xiter_typed.
  pose proof (Nat.div_mod n 8 ltac:(discriminate)) as D. pose proof (Nat.mod_upper_bound n 8 ltac:(discriminate)) as M.
  assert (V : forall j q, (8 * q < n)%nat -> xlow (N.iter (N.of_nat c * j + N.of_nat q) xstep t) = xlow (N.iter (N.of_nat c * j + N.of_nat q) xstep s)).
  { intros j q Hq. specialize (H j (8 * q)%nat Hq). replace (8 * q / 8)%nat with q in H by (rewrite Nat.mul_comm, Nat.div_mul; lia).
    replace (8 * q mod 8)%nat with 0%nat in H by (rewrite Nat.mul_comm, Nat.mod_mul; lia).
    now rewrite <- !xlow_out, <- !(byte0_odd (xout _)), H. }
  destruct (Nat.eq_dec (n mod 8) 0) as [E|E].
  - apply xadd_zero_eq. apply (xoro_low_some (n / 8) (N.of_nat c)); [lia|unfold c; lia|now apply xadd_typed|].
    intros j q Hq. destruct (xiter_add (N.of_nat c * j + N.of_nat q) t s Tt T) as (A & _). rewrite A, xlow_add, V by lia. apply xorb_nilpotent.
  - apply (xoro_low_all s t T Tt). intros i. destruct (split_pos (N.of_nat c) i ltac:(lia)) as [Ei Hi].
    rewrite Ei. specialize (V (i / N.of_nat c) (N.to_nat (i mod N.of_nat c))). rewrite N2Nat.id in V. apply V. unfold c in *. lia.
Qed.
Lemma ceil8_calls n : (1 <= n)%nat -> Nat.max 1 (ceil8 n) = ceil8 n /\ (8 * (ceil8 n - 1) < n)%nat /\ ceil8 n <> 0%nat.
Proof.
  intros Hn. unfold ceil8. pose proof (Nat.div_mod (n + 7) 8 ltac:(discriminate)) as D. pose proof (Nat.mod_upper_bound (n + 7) 8 ltac:(discriminate)) as M. lia.
Qed.
Lemma rexoroshiro_blocks n s p : xoro_typed s -> s <> mkXoro 0 0 -> (1 <= n)%nat ->
  (repeats_after (read_block gRexoroshiro n) s p <-> (2 ^ 128 - 1 | N.of_nat (ceil8 n) * p)).
Proof.
  intros T Z Hn. rewrite (block_repeats gRexoroshiro n p s (fun s => rev_bytes64 (xout s)) xstep rex_pure xstep_typed T). cbv zeta. cbn [state].
  destruct (ceil8_calls n Hn) as (E & H8 & c0). cbn [read_calls]. rewrite E. set (c := ceil8 n) in *. split.
  2:{ intros D j i Hi. apply (xoro_order s T Z) in D. now rewrite D. }
  intros H. apply (xoro_top_all s); [now split|]. intros i.
  destruct (split_pos (N.of_nat c) i ltac:(lia)) as [Ei Hi]. destruct (visible n c H8 c0 _ Hi) as (V1 & V2 & V3).
  specialize (H (i / N.of_nat c) _ V1). rewrite V2, V3, <- Ei in H. unfold xtop. now rewrite <- !rev_byte0, H by apply xout_w.
Qed.
Lemma xoshiro_blocks n s p : xoshi_typed s -> s <> mkXoshi 0 0 0 0 -> (1 <= n)%nat ->
  (repeats_after (read_block gXoshiro n) s p <-> (2 ^ 256 - 1 | N.of_nat (ceil8 n) * p)).
Proof.
  intros T Z Hn. rewrite (block_repeats gXoshiro n p s hout xoshi_step xoshi_pure hstep_typed T). cbv zeta. cbn [state].
  destruct (ceil8_calls n Hn) as (E & H8 & c0). cbn [read_calls]. rewrite E. set (c := ceil8 n) in *. rewrite <- (xoshi_order s T Z). split.
  2:{ intros -> j i Hi. reflexivity. }
  intros H. set (t := N.iter (N.of_nat c * p) xoshi_step s) in *. assert (Tt : xoshi_typed t) by now apply hiter_typed.
  apply (xoshi_low_all s t T Tt). intros i.
  destruct (split_pos (N.of_nat c) i ltac:(lia)) as [Ei Hi]. destruct (visible n c H8 c0 _ Hi) as (V1 & V2 & V3).
  specialize (H (i / N.of_nat c) _ V1). rewrite V2, V3, <- Ei in H. rewrite <- !hout_low, H by now apply hiter_typed. reflexivity.
Qed.

(** A program that fills buffers of n bytes, n >= 1, sees the same buffers again after p Reads exactly if p times the
    number of values that one Read uses up is a multiple of the cycle length. *)
Theorem C81_blocks_repeat k n s p cycle : full_cycle k = Some cycle -> nonzero_state k s -> (1 <= n)%nat ->
  (repeats_after (read_block k n) s p <-> (cycle | N.of_nat (read_calls k n) * p)).
Proof.
  intros Hc Hs Hn. destruct k; try discriminate Hc; injection Hc as <-; destruct Hs as [T Z].
  - now apply xoroshiro_blocks.
  - rewrite rexoroshiro_blocks by assumption. cbn [read_calls]. now rewrite (proj1 (ceil8_calls n Hn)).
  - rewrite xoshiro_blocks by assumption. cbn [read_calls]. now rewrite (proj1 (ceil8_calls n Hn)).
Qed.
(** so the least p > 0 is the cycle length divided by its greatest common divisor with that number *)
Theorem C81_least_repetition k n s cycle : full_cycle k = Some cycle -> nonzero_state k s -> (1 <= n)%nat ->
  let least := cycle / N.gcd (N.of_nat (read_calls k n)) cycle in
  0 < least /\ forall p, repeats_after (read_block k n) s p <-> (least | p).
Proof.
  intros Hc Hs Hn. cbv zeta. set (c := N.of_nat (read_calls k n)).
  assert (P0 : cycle <> 0) by (destruct k; try discriminate Hc; injection Hc as <-; discriminate).
  set (g := N.gcd c cycle). assert (g0 : g <> 0) by (unfold g; rewrite N.gcd_eq_0; tauto).
  destruct (N.gcd_divide_l c cycle) as [c' Ec]. destruct (N.gcd_divide_r c cycle) as [P' EP]. fold g in Ec, EP.
  assert (El : cycle / g = P') by (rewrite EP; now apply N.div_mul).
  rewrite El. split; [destruct P'; [exfalso; apply P0; exact EP|reflexivity]|]. intros p. rewrite (C81_blocks_repeat k n s p cycle Hc Hs Hn). fold c.
  assert (Cop : N.gcd c' P' = 1).
  { pose proof (N.gcd_div_gcd c cycle g g0 eq_refl) as G. rewrite El in G. rewrite Ec, N.div_mul in G by exact g0. exact G. }
  replace (c * p) with (c' * p * g) by (rewrite Ec; clearbody g; lia). rewrite EP. rewrite N.mul_divide_cancel_r by exact g0. split.
  - intros D. apply N.gauss in D; [exact D|now rewrite N.gcd_comm].
  - intros [q ->]. exists (c' * q). clearbody g. lia.
Qed.

(** ** the integer methods of RNG *)
Lemma rng_block k n s get xs s' (G : forall s, inv k s -> exists q s1, read_block k n s = Ret (q, s1) /\ get s = Ret (le_val q, s1) /\ length q = n /\ Forall isbyte q /\ inv k s1) :
  inv k s -> runs get s xs s' <-> exists bs, runs (read_block k n) s bs s' /\ Forall2 (fun q x => length q = n /\ Forall isbyte q /\ x = le_val q) bs xs.
Proof.
  intros H. split.
  - intros R. revert H. induction R as [s|s x s1 xs s' Hx _ IH]; intros H; [exists []; repeat constructor|].
    destruct (G s H) as (q & s2 & E1 & E2 & L & B & H2). rewrite Hx in E2. injection E2 as -> ->. destruct (IH H2) as (bs & R & F).
    exists (q :: bs). split; [econstructor; eassumption|constructor; auto].
  - intros (bs & R & F). revert xs F H. induction R as [s|s q s1 bs s' Hq _ IH]; intros xs F H; inversion F as [|q' x bs' xs' Fx Fs]; subst; [constructor|].
    destruct (G s H) as (q1 & s2 & E1 & E2 & L & B & H2). rewrite Hq in E1. injection E1 as <- <-. destruct Fx as (_ & _ & ->).
    econstructor; [exact E2|]. now apply IH.
Qed.
Lemma Forall2_nth_error {A B} (P : A -> B -> Prop) xs ys i : Forall2 P xs ys ->
  match nth_error xs i, nth_error ys i with Some x, Some y => P x y | None, None => True | _, _ => False end.
Proof. intros F. revert i. induction F as [|x y xs ys H F IH]; intros [|i]; cbn; auto. apply IH. Qed.
Lemma Forall2_len {A B} (P : A -> B -> Prop) xs ys : Forall2 P xs ys -> length xs = length ys.
Proof. induction 1; cbn; congruence. Qed.
Lemma le_val_inj xs ys : length xs = length ys -> Forall isbyte xs -> Forall isbyte ys -> le_val xs = le_val ys -> xs = ys.
Proof. intros L Hx Hy E. rewrite <- (le_bytes_val xs Hx), <- (le_bytes_val ys Hy), L, E. reflexivity. Qed.
Lemma Forall2_exists {A B} (P : A -> B -> Prop) xs : (forall x, In x xs -> exists y, P x y) -> exists ys, Forall2 P xs ys.
Proof.
  induction xs as [|x xs IH]; intros H; [exists []; constructor|]. destruct IH as [ys F]; [intros; apply H; cbn; auto|].
  destruct (H x) as [y Hy]; [cbn; auto|]. exists (y :: ys). constructor; assumption.
Qed.
Lemma rng_repeats k n s p get (G : forall s, inv k s -> exists q s1, read_block k n s = Ret (q, s1) /\ get s = Ret (le_val q, s1) /\ length q = n /\ Forall isbyte q /\ inv k s1) :
  inv k s -> repeats_after get s p <-> repeats_after (read_block k n) s p.
Proof.
  intros H. split; intros Rp.
  - intros bs s' i R Hi.
    assert (X : exists xs, Forall2 (fun q x => length q = n /\ Forall isbyte q /\ x = le_val q) bs xs).
    { assert (F : Forall (fun q => length q = n /\ Forall isbyte q) bs).
      { clear - R G H. revert H. induction R as [s|s q s1 bs s' Hq _ IH]; intros H; constructor.
        - destruct (G s H) as (q1 & s2 & E1 & E2 & L & B & H2). rewrite Hq in E1. injection E1 as <- <-. auto.
        - apply IH. destruct (G s H) as (q1 & s2 & E1 & E2 & L & B & H2). rewrite Hq in E1. injection E1 as <- <-. exact H2. }
      apply Forall2_exists. intros q Hq. rewrite Forall_forall in F. exists (le_val q). destruct (F q Hq). auto. }
    destruct X as [xs F]. assert (Rx : runs get s xs s') by (apply (rng_block k n s get xs s' G H); eauto).
    assert (L : length bs = length xs) by now apply Forall2_len in F.
    specialize (Rp xs s' i Rx ltac:(rewrite <- L; exact Hi)).
    pose proof (Forall2_nth_error _ _ _ i F) as F1. pose proof (Forall2_nth_error _ _ _ (i + N.to_nat p)%nat F) as F2. rewrite Rp in F2.
    destruct (nth_error bs i), (nth_error xs i), (nth_error bs (i + N.to_nat p)); try tauto.
    destruct F1 as (L1 & B1 & ->), F2 as (L2 & B2 & E). f_equal. symmetry. apply le_val_inj; auto. congruence.
  - intros xs s' i R Hi. apply (rng_block k n s get xs s' G H) in R. destruct R as (bs & R & F).
    assert (L : length bs = length xs) by now apply Forall2_len in F.
    specialize (Rp bs s' i R ltac:(rewrite L; exact Hi)).
    pose proof (Forall2_nth_error _ _ _ i F) as F1. pose proof (Forall2_nth_error _ _ _ (i + N.to_nat p)%nat F) as F2. rewrite Rp in F2.
    destruct (nth_error bs i), (nth_error xs i), (nth_error xs (i + N.to_nat p)); try tauto.
    destruct F1 as (_ & _ & ->), F2 as (_ & _ & ->). reflexivity.
Qed.

Lemma block_read k n s : inv k s -> exists q s1, a_Read (methods k) s (zeros n) = Ret ((q, n, None), s1) /\ read_block k n s = Ret (q, s1) /\
  length q = n /\ Forall isbyte q /\ inv k s1.
Proof.
  intros H. destruct (inv_read k s (zeros n) H) as (xs & s1 & R & L & H1 & E). unfold zeros in *. rewrite repeat_length in *.
  exists (firstn n (stream_bytes xs)), s1. split; [exact E|]. unfold read_block, zeros. rewrite E. split; [reflexivity|]. split; [|split; [|exact H1]].
  - rewrite firstn_length, stream_bytes_length, L. pose proof (read_calls_enough k n). lia.
  - apply Forall_forall. intros x Hx. pose proof (stream_bytes_isbyte xs) as F. rewrite Forall_forall in F. apply F.
    rewrite <- (firstn_skipn n (stream_bytes xs)). apply in_or_app. now left.
Qed.
Lemma block_64 k s : inv k s -> exists q s1, read_block k 8 s = Ret (q, s1) /\ RNG_Uint64 (a_Read (methods k)) s = Ret (le_val q, s1) /\ length q = 8%nat /\ Forall isbyte q /\ inv k s1.
Proof.
  intros H. destruct (block_read k 8 s H) as (q & s1 & E & Eb & L & B & H1). exists q, s1. split; [exact Eb|]. split; [|auto].
  unfold RNG_Uint64. rewrite E. cbn [bind]. unfold get64. rewrite L. cbn [Nat.add Nat.leb bind skipn]. now rewrite <- L, firstn_all.
Qed.
Lemma block_32 k s : inv k s -> exists q s1, read_block k 4 s = Ret (q, s1) /\ RNG_Uint32 (a_Read (methods k)) s = Ret (le_val q, s1) /\ length q = 4%nat /\ Forall isbyte q /\ inv k s1.
Proof.
  intros H. destruct (block_read k 4 s H) as (q & s1 & E & Eb & L & B & H1). exists q, s1. split; [exact Eb|]. split; [|auto].
  unfold RNG_Uint32. rewrite E. cbn [bind]. unfold get_le. rewrite L. cbn [Nat.leb bind]. now rewrite <- L, firstn_all.
Qed.
Lemma block_16 k s : inv k s -> exists q s1, read_block k 2 s = Ret (q, s1) /\ RNG_Uint16 (a_Read (methods k)) s = Ret (le_val q, s1) /\ length q = 2%nat /\ Forall isbyte q /\ inv k s1.
Proof.
  intros H. destruct (block_read k 2 s H) as (q & s1 & E & Eb & L & B & H1). exists q, s1. split; [exact Eb|]. split; [|auto].
  unfold RNG_Uint16. rewrite E. cbn [bind]. unfold get_le. rewrite L. cbn [Nat.leb bind]. now rewrite <- L, firstn_all.
Qed.
Lemma nonzero_inv k s : nonzero_state k s -> inv k s.
Proof. destruct k; cbn; tauto. Qed.
Lemma cycle_odd k n cycle p : full_cycle k = Some cycle -> (read_calls k n = 1 \/ read_calls k n = 2)%nat -> (cycle | N.of_nat (read_calls k n) * p) <-> (cycle | p).
Proof.
  intros Hc [->| ->]; [change (N.of_nat 1) with 1; now rewrite N.mul_1_l|]. change (N.of_nat 2) with 2. split.
  - intros D. apply N.gauss in D; [exact D|]. destruct k; try discriminate Hc; injection Hc as <-; vm_compute; reflexivity.
  - intros [q ->]. exists (2 * q). now rewrite N.mul_assoc.
Qed.
(** Uint64, Uint32 and Uint16 of an RNG on one of these generators repeat exactly with the generator's cycle. (An RNG on a
    Xoroshiro takes only every second value of it, and still.) *)
Theorem C81_rng_methods_repeat k s p cycle : full_cycle k = Some cycle -> nonzero_state k s ->
  (repeats_after (RNG_Uint64 (a_Read (methods k))) s p <-> (cycle | p)) /\
  (repeats_after (RNG_Uint32 (a_Read (methods k))) s p <-> (cycle | p)) /\
  (repeats_after (RNG_Uint16 (a_Read (methods k))) s p <-> (cycle | p)).
Proof.
  intros Hc Hs. pose proof (nonzero_inv k s Hs) as Hi.
  rewrite (rng_repeats k 8 s p _ (block_64 k) Hi), (rng_repeats k 4 s p _ (block_32 k) Hi), (rng_repeats k 2 s p _ (block_16 k) Hi).
  rewrite !(C81_blocks_repeat k _ s p cycle Hc Hs) by lia.
  rewrite !(cycle_odd k _ cycle p Hc) by (destruct k; try discriminate Hc; cbn; auto). tauto.
Qed.

(** ** how often a value turns up *)
Definition xstep2 (s : xoro) : xoro := xstep (xstep s).
Lemma iter_step2 n s : N.iter n xstep2 s = N.iter (2 * n) xstep s.
Proof. rewrite <- (iter_mul xstep 2 n s). reflexivity. Qed.
Lemma rng_xoro_pure s : xoro_typed s -> RNG_Uint64 Xoroshiro_Read s = Ret (xout s, xstep2 s).
Proof.
  intros H. apply (rng_uint64_ge8 Xoroshiro_Uint64 xoro_typed (inv_total gXoroshiro) s _ (xstep s) (xout (xstep s))).
  all: rewrite ?xoro_pure; auto using xout_w.
Qed.
Lemma nz_order2 v : xoro_nz v -> forall n, N.iter n xstep2 v = v <-> (2 ^ 128 - 1 | n).
Proof.
  intros Hv n. rewrite iter_step2, (xoro_nz_order v Hv). split.
  - intros D. apply N.gauss in D; [exact D|]. vm_compute. reflexivity.
  - intros [q ->]. exists (2 * q). now rewrite N.mul_assoc.
Qed.
Lemma nz_step2 v : xoro_nz v -> xoro_nz (xstep2 v).
Proof. intros H. now apply xoro_nz_step, xoro_nz_step. Qed.
Lemma nz_orbit2 v w : xoro_nz v -> xoro_nz w -> exists n, n < 2 ^ 128 - 1 /\ N.iter n xstep2 v = w.
Proof.
  apply (orbit_full xoro_nz xstep2 (2 ^ 128 - 1) ord128 nz_step2 nz_order2 xcode).
  - intros a b [Ta _] [Tb _]. now apply xcode_inj.
  - apply xcode_range.
Qed.
Lemma rng_xoro_occurs s n x : xoro_typed s -> occurs_at (RNG_Uint64 Xoroshiro_Read) s n [x] <-> xout (N.iter n xstep2 s) = x.
Proof.
  intros T.
  assert (I : forall s xs s', xoro_typed s -> runs (RNG_Uint64 Xoroshiro_Read) s xs s' -> s' = N.iter (N.of_nat (length xs)) xstep2 s).
  { clear. intros s xs s' T R. revert T. induction R as [s|s x s1 xs s' Hx _ IH]; intros T; [reflexivity|]. rewrite rng_xoro_pure in Hx by exact T. inversion Hx; subst.
    cbn [length]. rewrite Nat2N.inj_succ, N.iter_succ_r. apply IH. now apply xstep_typed, xstep_typed. }
  assert (T2 : forall s n, xoro_typed s -> xoro_typed (N.iter n xstep2 s)) by (intros; rewrite iter_step2; now apply xiter_typed).
  split.
  - intros (xs & t & t' & L & R1 & R2). apply I in R1; [|exact T]. rewrite L in R1. subst t.
    inversion R2 as [|? ? ? ? ? Hx]; subst. rewrite rng_xoro_pure in Hx by now apply T2. now inversion Hx.
  - intros E. destruct (runsA_exist (RNG_Uint64 Xoroshiro_Read) xoro_typed xout xstep2 rng_xoro_pure
      (fun s H => xstep_typed _ (xstep_typed _ H)) (N.to_nat n) s T) as (xs & L & R). rewrite N2Nat.id in R.
    exists xs, (N.iter n xstep2 s), (xstep2 (N.iter n xstep2 s)). split; [lia|]. split; [exact R|]. econstructor; [|constructor]. now rewrite rng_xoro_pure, E by now apply T2.
Qed.
(** RNG{xoroshiro}.Uint64 too returns each non-zero value exactly 2^64 times per cycle, and 0 once less *)
Theorem C81_rng_xoroshiro_values s x : xoro_typed s -> s <> mkXoro 0 0 -> w64 x ->
  has_exactly (fun n => n < 2 ^ 128 - 1 /\ occurs_at (RNG_Uint64 Xoroshiro_Read) s n [x]) (if x =? 0 then 2 ^ 64 - 1 else 2 ^ 64).
Proof.
  intros T Z Hx. apply (has_exactly_ext (fun n => n < 2 ^ 128 - 1 /\ xout (N.iter n xstep2 s) = x)).
  { intros n. now rewrite rng_xoro_occurs. }
  apply (orbit_count xoro_nz xstep2 _ ord128 nz_step2 nz_order2 nz_orbit2 (fun t => xout t = x)); [now split|].
  pose proof (xoro_states_with (fun y => y = x) 1 (one_value x Hx)) as C. rewrite N.mul_1_l in C. destruct (N.eqb_spec x 0) as [->|E].
  - apply (has_exactly_ext (fun t => (xoro_typed t /\ xout t = 0) /\ t <> xzero)).
    + intros t. unfold xoro_nz. tauto.
    + apply has_exactly_remove; [apply xoro_eq_dec|exact C|]. split; [apply xzero_typed|reflexivity].
  - eapply has_exactly_ext; [|exact C]. intros t. split; [|intros [[T' _] R]; auto].
    intros [Tt R]. split; [split; [exact Tt|]|exact R]. intros ->. apply E. now rewrite <- R.
Qed.

(** the hypotheses can be met: Xoroshiro read 16 bytes at a time (3 values per Read, and 3 divides the cycle length) repeats
    after a third of the cycle; 8 bytes at a time only after the whole cycle *)
Example C81_nonvacuous :
  nonzero_state gXoroshiro (mkXoro 1 2) /\ nonzero_state gXoshiro (mkXoshi 1 2 3 4) /\
  (exists q s', read_block gXoroshiro 16 (mkXoro 1 2) = Ret (q, s') /\ q = [3;0;0;0;0;0;0;0; 3;192;0;0;48;0;128;0]) /\
  (repeats_after (read_block gXoroshiro 16) (mkXoro 1 2) 113427455640312821154458202477256070485) /\
  ~ repeats_after (read_block gXoroshiro 8) (mkXoro 1 2) 113427455640312821154458202477256070485.
Proof.
  assert (Z : nonzero_state gXoroshiro (mkXoro 1 2)) by (repeat split; discriminate).
  split; [exact Z|]. split; [repeat split; discriminate|]. split; [eexists _, _; split; vm_compute; reflexivity|].
  split.
  - apply (C81_blocks_repeat gXoroshiro 16 _ _ _ eq_refl Z); [lia|]. exists 1. vm_compute. reflexivity.
  - rewrite (C81_blocks_repeat gXoroshiro 8 _ _ _ eq_refl Z) by lia. intros D. apply N.mod_divide in D; [|discriminate]. vm_compute in D. discriminate.
Qed.
