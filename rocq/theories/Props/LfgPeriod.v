(** C82: the exact period of LFG; C83: states and IVs that ruin it. *)
From Coq Require Import Lia ZifyN ZifyNat ZifyBool.
From Verif Require Import Model.Base Model.Xoroshiro Model.LfgTable Model.Lfg Model.Api Spec.Common Spec.States Spec.Kinds Spec.LfgRef
  Spec.RefGens Spec.LfgPeriod.
From Verif Require Import Proofs.WordLemmas Proofs.Gf2 Proofs.Gf2Seq Proofs.LfgProofs Proofs.LfgStream Proofs.LfgPeriodCert Proofs.LfgPeriod
  Proofs.LfgKill Proofs.KindProofs Proofs.LfgSave Props.Lfg Props.LfgMore.
Local Open Scope nat_scope.
Opaque lfgS0.

Lemma lfg_period_value : (lfg_period =? lfgTo)%N = true.
Proof. vm_cast_no_check (eq_refl true). Qed.
Definition oseq (g : lfg) (n : N) : N := useq g (n + 335).
Lemma oseq_wrec g : lfg_ok g -> wrec (oseq g).
Proof.
  intros H n. unfold oseq. split; [apply useq_w, H|]. replace (n + 335 + 335)%N with (n + 335 + 335)%N by lia.
  rewrite useq_recN by exact H. f_equal. f_equal; f_equal; lia.
Qed.
Lemma oseq_period g p : lfg_ok g -> (stream_period LFG_Uint64 g p <-> forall n, oseq g (n + p)%N = oseq g n).
Proof.
  intros H. split.
  - intros P n. destruct (runs_exist_lfg (N.to_nat (n + p + 1)) g H) as (ys & h & Ry & Ly).
    specialize (P ys h (N.to_nat n) Ry). rewrite Ly in P. destruct (runs_useq g ys h H Ry) as [_ E].
    rewrite !E in P by lia. unfold oseq. rewrite Nat2N.inj_add, !N2Nat.id in P. apply P. lia.
  - intros P xs s' n R Hn. destruct (runs_useq g xs s' H R) as [_ E]. rewrite !E by lia.
    rewrite Nat2N.inj_add, N2Nat.id. apply P.
Qed.
Theorem C82_period g : reachable gLFG g -> stream_period LFG_Uint64 g lfg_period.
Proof.
  intros H. apply lfg_reach_ok in H. apply oseq_period; [exact H|]. rewrite (proj1 (N.eqb_eq _ _) lfg_period_value).
  apply wrec_period, oseq_wrec, H.
Qed.
Lemma exact_of_nondeg g : lfg_ok g -> nondeg (oseq g) -> forall p, stream_period LFG_Uint64 g p <-> (lfg_period | p)%N.
Proof.
  intros H D p. rewrite (oseq_period g p H), (proj1 (N.eqb_eq _ _) lfg_period_value). apply wrec_exact; [now apply oseq_wrec|exact D].
Qed.

(** ** which parities are exceptional *)
Fixpoint all_bits (n : nat) : list (list bool) :=
  match n with O => [[]] | S n' => map (cons false) (all_bits n') ++ map (cons true) (all_bits n') end.
Lemma all_bits_In n b : In b (all_bits n) <-> length b = n.
Proof.
  revert b. induction n as [|n IH]; intros b; cbn [all_bits].
  - split; [intros [<-|[]]; reflexivity|]. destruct b; [now left|discriminate].
  - rewrite in_app_iff, !in_map_iff. split.
    + intros [(x & <- & Hx)|(x & <- & Hx)]; apply IH in Hx; cbn; lia.
    + destruct b as [|[] b]; intros L; [discriminate|right|left]; exists b; (split; [reflexivity|]); apply IH; cbn in L; lia.
Qed.
Lemma all_bits_NoDup n : NoDup (all_bits n).
Proof.
  induction n as [|n IH]; cbn [all_bits]; [repeat constructor; auto|].
  assert (J : forall c, NoDup (map (cons c) (all_bits n))).
  { intros c. apply FinFun.Injective_map_NoDup; [intros x y [= ->]; reflexivity|exact IH]. }
  clear IH. pose proof (J false) as J1. pose proof (J true) as J2.
  assert (D : forall x, In x (map (cons false) (all_bits n)) -> ~ In x (map (cons true) (all_bits n))).
  { intros x H1 H2. apply in_map_iff in H1, H2. destruct H1 as (y & <- & _). destruct H2 as (z & [=] & _). }
  revert J1 D. generalize (map (cons false) (all_bits n)). induction l as [|x l IHl]; intros J1 D; cbn [app]; [exact J2|].
  inversion J1; subst. constructor; [|apply IHl; [assumption|intros y Hy; apply D; now right]].
  rewrite in_app_iff. intros [H'|H']; [contradiction|]. apply (D x); [now left|exact H'].
Qed.
Lemma all_bits_length n : N.of_nat (length (all_bits n)) = (2 ^ N.of_nat n)%N.
Proof.
  induction n as [|n IH]; [reflexivity|]. cbn [all_bits]. rewrite app_length, !map_length, Nat2N.inj_add, IH, Nat2N.inj_succ, N.pow_succ_r'. lia.
Qed.
Definition bit_at (b : list bool) (n : N) : bool := nth (N.to_nat n) b false.
Definition obeys (c : N) (d : nat) (b : list bool) : bool :=
  forallb (fun n => negb (act c (bit_at b) (N.of_nat n))) (seq 0 (335 - d)).
Lemma act_ext_lt c d : (c < 2 ^ d)%N -> forall v w n, (forall i, (i < d)%N -> v (n + i)%N = w (n + i)%N) -> act c v n = act c w n.
Proof.
  revert c. induction d as [|d IH] using N.peano_ind; intros c Hc v w n H.
  - cbn in Hc. assert (c = 0%N) by lia. subst c. reflexivity.
  - rewrite N.pow_succ_r' in Hc.
    assert (C : exists c', c = N.double c' \/ c = N.succ_double c').
    { destruct c as [|[p|p|]]; [exists 0%N; now left|exists (Npos p); now right|exists (Npos p); now left|exists 0%N; now right]. }
    assert (S1 : forall c', (c' < 2 ^ d)%N -> act c' v (n + 1) = act c' w (n + 1)).
    { intros c' Hc'. apply IH; [exact Hc'|]. intros i Hi. replace (n + 1 + i)%N with (n + (i + 1))%N by lia. apply H. lia. }
    destruct C as [c' [->| ->]].
    + rewrite !act_double. apply S1. rewrite N.double_spec in Hc. lia.
    + rewrite !act_succ_double, S1 by (rewrite N.succ_double_spec in Hc; lia). f_equal.
      specialize (H 0%N). rewrite N.add_0_r in H. apply H. lia.
Qed.
Lemma obeys_inj c d b b' : d <= 335 -> (N.lxor (2 ^ N.of_nat d) c < 2 ^ N.of_nat d)%N -> length b = 335 -> length b' = 335 ->
  obeys c d b = true -> obeys c d b' = true -> firstn d b = firstn d b' -> b = b'.
Proof.
  intros Hd Hc L L' O O' F.
  assert (A : forall x n, obeys c d x = true -> n < 335 - d ->
    nth (n + d) x false = act (N.lxor (2 ^ N.of_nat d) c) (bit_at x) (N.of_nat n)).
  { intros x n Ox Hn. unfold obeys in Ox. rewrite forallb_forall in Ox. specialize (Ox n). rewrite in_seq in Ox.
    specialize (Ox ltac:(lia)). apply negb_true_iff in Ox.
    rewrite act_lxor, Ox, act_pow2, xorb_false_r. unfold bit_at. f_equal. lia. }
  apply (nth_ext _ _ false false); [congruence|]. rewrite L.
  intros k. induction k as [k IH] using lt_wf_ind. intros Hk.
  destruct (Nat.lt_ge_cases k d) as [Hlt|Hge].
  - rewrite <- (firstn_skipn d b), <- (firstn_skipn d b'), !app_nth1, F by (rewrite firstn_length; lia). reflexivity.
  - replace k with (k - d + d) by lia. rewrite !A by (assumption || lia).
    apply (act_ext_lt _ _ Hc). intros i Hi. unfold bit_at. apply IH; lia.
Qed.
Lemma obeys_count c d : d <= 335 -> (N.lxor (2 ^ N.of_nat d) c < 2 ^ N.of_nat d)%N ->
  (N.of_nat (length (filter (obeys c d) (all_bits 335))) <= 2 ^ N.of_nat d)%N.
Proof.
  intros Hd Hc. rewrite <- all_bits_length, <- (map_length (firstn d)).
  enough (length (map (firstn d) (filter (obeys c d) (all_bits 335))) <= length (all_bits d)) by lia.
  apply NoDup_incl_length.
  - assert (NoDup (filter (obeys c d) (all_bits 335))) as ND by (apply NoDup_filter, all_bits_NoDup).
    assert (G : forall x, In x (filter (obeys c d) (all_bits 335)) -> length x = 335 /\ obeys c d x = true).
    { intros x Hx. apply filter_In in Hx. destruct Hx as [Hx1 Hx2]. apply all_bits_In in Hx1. auto. }
    revert ND G. generalize (filter (obeys c d) (all_bits 335)). induction l as [|x l IH]; intros ND G; cbn [map]; [constructor|].
    inversion ND; subst. constructor; [|apply IH; [assumption|intros y Hy; apply G; now right]].
    rewrite in_map_iff. intros (y & E & Hy). destruct (G x (or_introl eq_refl)) as [Lx Ox]. destruct (G y (or_intror Hy)) as [Ly Oy].
    assert (y = x) by (apply (obeys_inj c d); assumption). subst y. contradiction.
  - intros x Hx. apply in_map_iff in Hx. destruct Hx as (y & <- & Hy). apply filter_In in Hy. destruct Hy as [Hy _].
    apply all_bits_In in Hy. apply all_bits_In. rewrite firstn_length. lia.
Qed.
Lemma degrees_check : ((N.lxor (2 ^ 227) c108 <? 2 ^ 227) && (N.lxor (2 ^ 148) c187 <? 2 ^ 148))%N = true.
Proof. vm_cast_no_check (eq_refl true). Qed.
Lemma killed_obeys c d v xs : d <= 335 -> (N.lxor (2 ^ N.of_nat d) c < 2 ^ N.of_nat d)%N -> (forall n, act c v n = false) ->
  (forall k, k < 335 -> nth k xs false = v (N.of_nat k)) -> obeys c d xs = true.
Proof.
  intros Hd Hc K E. unfold obeys. apply forallb_forall. intros n Hn. apply in_seq in Hn.
  apply negb_true_iff. rewrite <- (K (N.of_nat n)).
  assert (B : (c < 2 ^ (N.of_nat d + 1))%N).
  { replace c with (N.lxor (2 ^ N.of_nat d) (N.lxor (2 ^ N.of_nat d) c)) by (now rewrite <- N.lxor_assoc, N.lxor_nilpotent).
    set (r := N.lxor (2 ^ N.of_nat d) c) in *. clearbody r.
    destruct (N.eq_dec (N.lxor (2 ^ N.of_nat d) r) 0) as [Z|NZ]; [rewrite Z; apply N.neq_0_lt_0, N.pow_nonzero; discriminate|].
    apply N.log2_lt_pow2; [lia|]. pose proof (N.log2_lxor (2 ^ N.of_nat d) r) as LL. rewrite N.log2_pow2 in LL by lia.
    assert (N.log2 r <= N.of_nat d)%N.
    { destruct (N.eq_dec r 0) as [->|Nr]; [cbn; lia|]. apply N.lt_le_incl. apply N.log2_lt_pow2; lia. }
    lia. }
  apply (act_ext_lt c _ B). intros i Hi. unfold bit_at. rewrite E by lia. f_equal. lia.
Qed.
Lemma rare_nondeg : exists L, (N.of_nat (length L) <= 2 ^ 227 + 2 ^ 148)%N /\
  forall g xs g', reachable gLFG g -> runs LFG_Uint64 g xs g' -> length xs = 335 -> ~ In (map N.odd xs) L ->
  lfg_ok g /\ nondeg (oseq g).
Proof.
  pose proof degrees_check as DC. apply andb_prop in DC. destruct DC as [D1 D2]. apply N.ltb_lt in D1, D2.
  exists (filter (obeys c108 227) (all_bits 335) ++ filter (obeys c187 148) (all_bits 335)). split.
  - rewrite app_length, Nat2N.inj_add. apply N.add_le_mono.
    + exact (obeys_count c108 227 ltac:(lia) D1).
    + exact (obeys_count c187 148 ltac:(lia) D2).
  - intros g xs g' Hg R L NI. apply lfg_reach_ok in Hg. split; [exact Hg|].
    destruct (runs_useq g xs g' Hg R) as [_ E].
    assert (P : forall k, k < 335 -> nth k (map N.odd xs) false = parity (oseq g) (N.of_nat k)).
    { intros k Hk. change false with (N.odd 0). rewrite map_nth, E by lia. reflexivity. }
    assert (Lm : length (map N.odd xs) = 335) by (now rewrite map_length).
    split; intros K; apply NI, in_or_app; [left|right]; apply filter_In; (split; [now apply all_bits_In|]).
    + apply (killed_obeys c108 227 (parity (oseq g)) _ ltac:(lia) D1 K P).
    + apply (killed_obeys c187 148 (parity (oseq g)) _ ltac:(lia) D2 K P).
Qed.
(** At most 2^227 + 2^148 of the 2^335 possible parities of the first 335 values are exceptional. *)
Theorem C82_almost_always_exact : exists L, (N.of_nat (length L) <= 2 ^ 227 + 2 ^ 148)%N /\
  forall g xs g', reachable gLFG g -> runs LFG_Uint64 g xs g' -> length xs = 335 -> ~ In (map N.odd xs) L ->
  forall p, stream_period LFG_Uint64 g p <-> (lfg_period | p)%N.
Proof.
  destruct rare_nondeg as (L & B & H). exists L. split; [exact B|]. intros g xs g' Hg R Lx NI. destruct (H g xs g' Hg R Lx NI). now apply exact_of_nondeg.
Qed.

(** ** short IVs *)
Lemma sum_zero {A} (f : A -> N) l : (forall x, In x l -> f x = 0%N) -> fold_right N.add 0%N (map f l) = 0%N.
Proof. induction l as [|x l IH]; intros H; cbn; [reflexivity|]. rewrite H, IH; [reflexivity| |now left]. intros y Hy. apply H. now right. Qed.
Lemma short_window iv k : length iv <= 273 -> k < 334 -> lfg_window iv k = table k.
Proof.
  intros L Hk. unfold lfg_window. rewrite sum_zero.
  - rewrite N.add_0_r. apply N.mod_small. pose proof lfgS0_w64 as W. rewrite Forall_forall in W. apply W. unfold table.
    apply nth_In. rewrite lfgS0_length. lia.
  - intros i Hi. apply in_seq in Hi. destruct (Nat.eqb_spec ((i + 334) mod 607) k); [lia|reflexivity].
Qed.
Definition table_bit (n : N) : bool := N.odd (nth (N.to_nat n) lfgS0 0%N).
Lemma table_parity_check : (existsb (fun n => act c108 table_bit (N.of_nat n)) (seq 0 106) &&
  existsb (fun n => act c187 table_bit (N.of_nat n)) (seq 0 185))%bool = true.
Proof. vm_cast_no_check (eq_refl true). Qed.
Lemma seeded_seq old iv g : any_value gLFG old -> LFG_SeedIV old iv = Ret g -> lfg_ok g /\ exists u, lfg_recurrence u /\
  (forall k, k < 335 -> u k = lfg_window iv k) /\ forall n, oseq g n = u (335 + 8 * 607 + N.to_nat n).
Proof.
  intros Ho E. assert (L := proj1 Ho). destruct (LFG_SeedIV_ok old iv L) as (g1 & E1 & Hg). assert (g1 = g) by congruence. subst g1.
  split; [exact Hg|]. destruct (C54_lfg_seediv old iv Ho) as (g2 & u & E2 & R & W & Ru). assert (g2 = g) by congruence. subst g2.
  exists u. split; [exact R|]. split; [exact W|]. intros n. destruct (Ru (S (N.to_nat n))) as (t & Rt).
  destruct (runs_useq g _ t Hg Rt) as [_ F]. specialize (F (N.to_nat n)). rewrite map_length, seq_length in F. specialize (F ltac:(lia)).
  rewrite N2Nat.id in F. unfold oseq. rewrite <- F.
  rewrite (nth_indep _ 0%N (u (335 + 8 * 607 + 0))) by (rewrite map_length, seq_length; lia).
  rewrite (map_nth (fun k => u (335 + 8 * 607 + k)) (seq 0 (S (N.to_nat n))) 0), seq_nth by lia. f_equal.
Qed.
(** a component missing after the discarded values was missing from the start *)
Lemma component_back c u : brec (fun n => N.odd (u (N.to_nat n))) ->
  (forall n, act c (fun n => N.odd (u (335 + 8 * 607 + N.to_nat n))) n = false) ->
  forall n, act c (fun n => N.odd (u (N.to_nat n))) n = false.
Proof.
  intros B H n. pose proof (bits_period _ B 5191) as P.
  rewrite <- (act_ext c (fun m => N.odd (u (N.to_nat (m + N.pos lfgEo * 5191)))) (fun m => N.odd (u (N.to_nat m))) P n).
  rewrite <- (H (n + (N.pos lfgEo * 5191 - 5191))%N).
  rewrite <- (act_shift c (N.pos lfgEo * 5191 - 5191) (fun n => N.odd (u (335 + 8 * 607 + N.to_nat n))) n).
  apply act_ext. intros m. f_equal. f_equal. clear. generalize lfgEo. intros e. lia.
Qed.
Lemma recurrence_brec u : lfg_recurrence u -> brec (fun n => N.odd (u (N.to_nat n))).
Proof.
  intros R n. pose proof (R (N.to_nat n)) as E.
  replace (N.to_nat (n + 335)) with (N.to_nat n + 335) by lia. replace (N.to_nat (n + 334)) with (N.to_nat n + 334) by lia.
  rewrite E, <- N.odd_add, <- !N.bit0_odd, N.mod_pow2_bits_low by lia. reflexivity.
Qed.
Lemma short_iv_nondeg old iv g : any_value gLFG old -> length iv <= 273 -> LFG_SeedIV old iv = Ret g ->
  lfg_ok g /\ nondeg (oseq g).
Proof.
  intros Ho L E. destruct (seeded_seq old iv g Ho E) as (Hg & u & R & W & Eo).
  split; [exact Hg|].
  pose proof (recurrence_brec u R) as B. pose proof table_parity_check as C. apply andb_prop in C. destruct C as [C1 C2].
  pose proof degrees_check as DC. apply andb_prop in DC. destruct DC as [D1 D2]. apply N.ltb_lt in D1, D2.
  assert (G : forall c d, d < 334 -> (N.lxor (2 ^ N.of_nat d) c < 2 ^ N.of_nat d)%N ->
    existsb (fun n => act c table_bit (N.of_nat n)) (seq 0 (333 - d)) = true -> (forall n, act c (parity (oseq g)) n = false) -> False).
  { intros c d Hd Hc X K. apply existsb_exists in X. destruct X as (n & Hn & X). apply in_seq in Hn.
    assert (K1 : forall n, act c (fun n => N.odd (u (N.to_nat n))) n = false).
    { apply component_back; [exact B|]. intros m. rewrite <- (K m). apply act_ext. intros k. unfold parity. now rewrite Eo. }
    assert (X1 : forall v w, (forall i, i < 334 -> v (N.of_nat i) = w (N.of_nat i)) -> act c v (N.of_nat n) = act c w (N.of_nat n)).
    { intros v w Hvw. replace c with (N.lxor (2 ^ N.of_nat d) (N.lxor (2 ^ N.of_nat d) c)) by (now rewrite <- N.lxor_assoc, N.lxor_nilpotent).
      clear -Hc Hn Hvw. revert Hc. generalize (N.lxor (2 ^ N.of_nat d) c). intros r Hc. rewrite !act_lxor, !act_pow2. f_equal.
      - replace (N.of_nat n + N.of_nat d)%N with (N.of_nat (n + d)) by lia. apply Hvw. lia.
      - apply (act_ext_lt _ _ Hc). intros i Hi. replace (N.of_nat n + i)%N with (N.of_nat (n + N.to_nat i)) by lia. apply Hvw. lia. }
    rewrite (X1 table_bit (fun n => N.odd (u (N.to_nat n)))), K1 in X; [discriminate|].
    intros i Hi. unfold table_bit. rewrite Nat2N.id, W, short_window by lia. reflexivity. }
  split; [exact (G c108 227 ltac:(lia) D1 C1)|exact (G c187 148 ltac:(lia) D2 C2)].
Qed.
(** Whatever the object held, after SeedIV with an IV of at most 273 bytes the least period is lfg_period, and
    every other period is a multiple of it. *)
Theorem C82_short_iv_exact old iv g : any_value gLFG old -> length iv <= 273 -> LFG_SeedIV old iv = Ret g ->
  forall p, stream_period LFG_Uint64 g p <-> (lfg_period | p)%N.
Proof. intros Ho L E. destruct (short_iv_nondeg old iv g Ho L E). now apply exact_of_nondeg. Qed.
Theorem C82_seed_exact old x g : any_value gLFG old -> w64 x -> LFG_Seed old x = Ret g ->
  forall p, stream_period LFG_Uint64 g p <-> (lfg_period | p)%N.
Proof. intros Ho Hx E. apply (C82_short_iv_exact old (seed_bytes x)); [exact Ho|cbn; lia|exact E]. Qed.
(** about 2^352, not 2^670 - 2^63 *)
Theorem C82_size : (2 ^ 351 < lfg_period < 2 ^ 352)%N.
Proof. split; apply N.ltb_lt; vm_cast_no_check (eq_refl true). Qed.
Example C82_nonvacuous : any_value gLFG NewLFG /\ exists g, LFG_Seed NewLFG 42 = Ret g /\ reachable gLFG g /\
  ~ stream_period LFG_Uint64 g (lfg_period / 2).
Proof.
  assert (T : any_value gLFG NewLFG) by (split; apply lfg_new_ok). split; [exact T|].
  destruct (LFG_SeedIV_ok NewLFG (seed_bytes 42) eq_refl) as (g & E & Hg). exists g. split; [exact E|]. split.
  - apply (reach_step apiLFG NewLFG (OpSeed 42) ObsNone g (reach_new apiLFG)); [reflexivity|].
    cbn [exec a_Seed apiLFG]. unfold LFG_Seed. rewrite E. reflexivity.
  - intros P. apply (C82_seed_exact NewLFG 42 g) in P; [|exact T|reflexivity|exact E].
    apply N.divide_pos_le in P; [|reflexivity]. revert P. apply N.lt_nge. apply N.ltb_lt. vm_cast_no_check (eq_refl true).
Qed.

(** ** C83: a cycle of six values *)
Lemma six_rec a b : w64 a -> w64 b -> forall n, six_cycle a b (n + 335) = ((six_cycle a b (n + 334) + six_cycle a b n) mod 2 ^ 64)%N.
Proof.
  intros Ha Hb n. unfold six_cycle. cbv zeta. unfold w64 in *.
  rewrite (Nat.add_mod n 335), (Nat.add_mod n 334) by lia. change (335 mod 6) with 5. change (334 mod 6) with 4.
  pose proof (Nat.mod_upper_bound n 6 ltac:(lia)) as B.
  change (2 ^ 64)%N with 18446744073709551616%N in *.
  destruct (n mod 6) as [|[|[|[|[|[|m]]]]]]; [..|lia]; cbn [Nat.add Nat.modulo Nat.divmod fst snd nth Nat.sub]; lia.
Qed.
Lemma six_w a b n : w64 a -> w64 b -> w64 (six_cycle a b n).
Proof.
  intros Ha Hb. unfold six_cycle. cbv zeta. pose proof (Nat.mod_upper_bound n 6 ltac:(lia)) as B. unfold w64 in *.
  change (2 ^ 64)%N with 18446744073709551616%N in *.
  destruct (n mod 6) as [|[|[|[|[|[|m]]]]]]; [..|lia]; cbn [nth]; lia.
Qed.
(** For any two words a and b, Restore can load a generator whose Uint64 returns a, b, b-a, -a, -b, a-b forever. *)
Theorem C83_six_cycle a b : w64 a -> w64 b -> exists g, reachable gLFG g /\
  forall n, exists g', runs LFG_Uint64 g (map (six_cycle a b) (seq 0 n)) g'.
Proof.
  intros Ha Hb. set (s := map (fun k => six_cycle a b (k + 1)) (seq 0 607)).
  assert (Ls : length s = 607) by (unfold s; now rewrite map_length, seq_length).
  assert (Ws : Forall w64 s) by (apply Forall_forall; intros x Hx; apply in_map_iff in Hx; destruct Hx as (k & <- & _); now apply six_w).
  exists (mkLFG 334 0 s). split; [now apply lfg_restored_reachable|]. intros n.
  pose proof (lfg_fresh_ok s Ls Ws) as Hok.
  destruct (useq_runs (mkLFG 334 0 s) n Hok 0) as (t & Rt). exists t. cbn [N.iter] in Rt.
  erewrite map_ext; [exact Rt|]. intros k. cbv beta.
  assert (U : forall j, six_cycle a b (j + 1) = useq (mkLFG 334 0 s) (N.of_nat j)).
  { apply useq_unique; [exact Hok| |].
    - intros j. replace (j + 335 + 1) with (j + 1 + 335) by lia. replace (j + 334 + 1) with (j + 1 + 334) by lia. now apply six_rec.
    - intros j Hj. unfold rv. cbn [lt ls]. rewrite Nat.add_0_l, Nat.mod_small by lia. unfold s.
      rewrite (nth_indep _ 0%N (six_cycle a b (0 + 1))) by (rewrite map_length, seq_length; lia).
      rewrite (map_nth (fun k => six_cycle a b (k + 1))), seq_nth by lia. reflexivity. }
  replace (0 + N.of_nat k + 335)%N with (N.of_nat (k + 335)) by lia. rewrite <- U.
  replace (k + 335 + 1) with (k + 56 * 6) by lia. unfold six_cycle. now rewrite Nat.mod_add by lia.
Qed.
(** so a stream may start with any two values and still repeat after six *)
Theorem C83_short_period a b : w64 a -> w64 b -> exists g xs g', reachable gLFG g /\
  runs LFG_Uint64 g (a :: b :: xs) g' /\ stream_period LFG_Uint64 g 6.
Proof.
  intros Ha Hb. destruct (C83_six_cycle a b Ha Hb) as (g & Hg & R). destruct (R 2) as (g2 & R2).
  exists g, [], g2. split; [exact Hg|]. split; [exact R2|]. intros xs s' n Rx Hn.
  destruct (R (length xs)) as (g3 & R3). apply lfg_reach_ok in Hg.
  destruct (runs_useq _ _ _ Hg R3) as [_ E3]. destruct (runs_useq _ _ _ Hg Rx) as [_ Ex].
  rewrite map_length, seq_length in E3. change (N.to_nat 6) with 6.
  rewrite !Ex, <- !E3 by lia.
  assert (M : forall j, j < length xs -> nth j (map (six_cycle a b) (seq 0 (length xs))) 0%N = six_cycle a b j).
  { intros j Hj. rewrite (nth_indep _ 0%N (six_cycle a b 0)) by (rewrite map_length, seq_length; lia).
    rewrite map_nth, seq_nth by lia. reflexivity. }
  rewrite !M by lia. unfold six_cycle. replace (n + 6) with (n + 1 * 6) by lia. now rewrite Nat.mod_add by lia.
Qed.

(** ** C83: an IV that silences LFG *)
Lemma block_sum (t : nat -> N) k R : k < 607 ->
  fold_right N.add 0%N (map (fun i => if (i + 334) mod 607 =? k then t i else 0%N) (seq (607 * R) 607)) = t (607 * R + (k + 273) mod 607).
Proof.
  intros Hk. set (i0 := (k + 273) mod 607). assert (H0 : i0 < 607) by (unfold i0; lia).
  assert (S0 : seq (607 * R) 607 = seq (607 * R) i0 ++ (607 * R + i0) :: seq (607 * R + i0 + 1) (606 - i0)).
  { transitivity (seq (607 * R) (i0 + (1 + (606 - i0)))); [f_equal; lia|]. rewrite seq_app. f_equal. cbn [seq Nat.add]. f_equal. f_equal. lia. }
  rewrite S0, map_app, fold_right_app. cbn [map fold_right]. clear S0.
  rewrite (sum_zero _ (seq (607 * R + i0 + 1) (606 - i0))).
  2:{ intros i Hi. apply in_seq in Hi. destruct (Nat.eqb_spec ((i + 334) mod 607) k); [unfold i0 in *; lia|reflexivity]. }
  replace ((607 * R + i0 + 334) mod 607 =? k) with true by (symmetry; apply Nat.eqb_eq; unfold i0; lia).
  rewrite N.add_0_r. generalize (t (607 * R + i0)). intros x.
  assert (Z : forall l, (forall i, In i l -> (i + 334) mod 607 <> k) ->
    fold_right N.add x (map (fun i => if (i + 334) mod 607 =? k then t i else 0%N) l) = x).
  { induction l as [|i l IH]; intros Hl; cbn [map fold_right]; [reflexivity|]. rewrite IH by (intros j Hj; apply Hl; now right).
    destruct (Nat.eqb_spec ((i + 334) mod 607) k) as [E|E]; [exfalso; apply (Hl i); [now left|exact E]|reflexivity]. }
  apply Z. intros i Hi. apply in_seq in Hi. unfold i0 in *. lia.
Qed.
Lemma blocks_sum (t : nat -> N) k R : k < 607 ->
  fold_right N.add 0%N (map (fun i => if (i + 334) mod 607 =? k then t i else 0%N) (seq 0 (607 * R))) =
  fold_right N.add 0%N (map (fun r => t (607 * r + (k + 273) mod 607)) (seq 0 R)).
Proof.
  intros Hk. induction R as [|R IH]; [now rewrite Nat.mul_0_r|].
  assert (A : forall l1 l2, fold_right N.add 0%N (l1 ++ l2) = (fold_right N.add 0 l1 + fold_right N.add 0 l2)%N).
  { intros l1 l2. induction l1 as [|x l1 IHl]; cbn; [reflexivity|]. rewrite IHl. lia. }
  replace (607 * S R) with (607 * R + 607) by lia. rewrite seq_app, Nat.add_0_l, map_app, A, IH, block_sum by exact Hk.
  rewrite seq_S, map_app, A. cbn [map fold_right Nat.add]. now rewrite N.add_0_r.
Qed.
Lemma rows_shape (l : list (list N)) : (forall r, In r l -> length r = 335 /\ Forall isbyte r) ->
  let iv := flat_map (fun r => match r with [] => [] | b :: bs => b :: repeat 0%N 272 ++ bs end) l in
  length iv = 607 * length l /\ Forall isbyte iv /\
  forall r k, r < length l -> k < 335 -> nth (607 * r + (k + 273) mod 607) iv 0%N = nth (if k =? 334 then 0 else S k) (nth r l []) 0%N.
Proof.
  cbv zeta. induction l as [|row l IH]; intros C1.
  - split; [reflexivity|]. split; [constructor|]. intros r k Hr. cbn in Hr. lia.
  - destruct IH as (L & B & V); [intros r Hr; apply C1; now right|]. destruct (C1 row (or_introl eq_refl)) as [Lr Br].
    cbn [flat_map]. set (blk := match row with [] => [] | b :: bs => b :: repeat 0%N 272 ++ bs end).
    assert (Lb : length blk = 607).
    { unfold blk. destruct row as [|b bs]; [discriminate|]. cbn [length] in Lr |- *. rewrite app_length, repeat_length. lia. }
    split; [rewrite app_length, Lb, L; cbn [length]; lia|]. split.
    + apply Forall_app. split; [|exact B]. unfold blk. destruct row as [|b bs]; [constructor|]. inversion Br; subst.
      constructor; [assumption|]. apply Forall_app. split; [|assumption]. apply Forall_forall. intros x Hx. apply repeat_spec in Hx. subst x. reflexivity.
    + intros [|r] k Hr Hk.
      * rewrite Nat.mul_0_r, Nat.add_0_l, app_nth1 by (rewrite Lb; lia). cbn [nth]. unfold blk.
        destruct row as [|b bs]; [discriminate|]. destruct (Nat.eqb_spec k 334) as [->|Hne].
        -- change ((334 + 273) mod 607) with 0. reflexivity.
        -- rewrite Nat.mod_small by lia. replace (k + 273) with (S (272 + k)) by lia. cbn [nth].
           rewrite app_nth2 by (rewrite repeat_length; lia). rewrite repeat_length. f_equal. lia.
      * cbn [nth]. rewrite <- V by (cbn [length] in Hr; lia). rewrite app_nth2 by (rewrite Lb; lia). rewrite Lb. f_equal. lia.
Qed.
Lemma kill_shape : length kill_iv = 607 * 16 /\ Forall isbyte kill_iv /\
  forall r k, r < 16 -> k < 335 -> nth (607 * r + (k + 273) mod 607) kill_iv 0%N = kill_byte r k.
Proof.
  apply (rows_shape kill_rows). intros r Hr.
  pose proof kill_rows_check as C. rewrite forallb_forall in C. specialize (C r Hr).
  apply andb_prop in C. destruct C as [C1 C2]. apply Nat.eqb_eq in C1. split; [exact C1|].
  apply Forall_forall. intros x Hx. rewrite forallb_forall in C2. apply N.ltb_lt, C2, Hx.
Qed.
Lemma kill_window k : k < 335 -> lfg_window kill_iv k = 0%N.
Proof.
  intros Hk. destruct kill_shape as (L & _ & V). unfold lfg_window. rewrite L.
  rewrite (blocks_sum (fun i => table (N.to_nat ((nth i kill_iv 0 + 256 * N.of_nat i) mod 607)%N))) by lia.
  pose proof kill_words_check as C. rewrite forallb_forall in C. specialize (C k). rewrite in_seq in C. specialize (C ltac:(lia)).
  unfold kill_word_ok in C. apply N.eqb_eq in C. etransitivity; [|exact C]. unfold kill_sum. f_equal. f_equal. f_equal.
  apply map_ext_in. intros r Hr. apply in_seq in Hr. rewrite V by lia. unfold table. f_equal. f_equal.
  rewrite Nat2N.inj_add, Nat2N.inj_mul. change (N.of_nat 607) with 607%N.
  replace (kill_byte r k + 256 * (607 * N.of_nat r + N.of_nat ((k + 273) mod 607)))%N
    with (kill_byte r k + 256 * N.of_nat ((k + 273) mod 607) + (256 * N.of_nat r) * 607)%N by lia.
  now rewrite N.mod_add.
Qed.
(** There is an IV of 9712 bytes after which LFG returns 0 forever. *)
Theorem C83_iv_that_kills_lfg : exists iv, length iv = 16 * 607 /\ Forall isbyte iv /\ forall old g, any_value gLFG old ->
  LFG_SeedIV old iv = Ret g -> forall xs g', runs LFG_Uint64 g xs g' -> Forall (eq 0%N) xs.
Proof.
  destruct kill_shape as (L & B & _). exists kill_iv. split; [rewrite L; reflexivity|]. split; [exact B|].
  intros old g Ho E xs g' R. destruct (seeded_seq old kill_iv g Ho E) as (Hg & u & Ru & W & Eo).
  assert (Z : forall k, u k = 0%N).
  { intros k. induction k as [k IH] using lt_wf_ind. destruct (Nat.lt_ge_cases k 335) as [Hk|Hk].
    - rewrite W, kill_window by exact Hk. reflexivity.
    - pose proof (Ru (k - 335)) as F. replace (k - 335 + 335) with k in F by lia. rewrite F, !IH by lia. reflexivity. }
  destruct (runs_useq g xs g' Hg R) as [_ F]. apply Forall_forall. intros x Hx. apply In_nth with (d := 0%N) in Hx.
  destruct Hx as (k & Hk & <-). rewrite F by exact Hk. specialize (Eo (N.of_nat k)). unfold oseq in Eo. rewrite Eo. symmetry. apply Z.
Qed.
Example C83_nonvacuous : w64 5 /\ w64 7 /\ map (six_cycle 5 7) (seq 0 7) = [5; 7; 2; 2 ^ 64 - 5; 2 ^ 64 - 7; 2 ^ 64 - 2; 5]%N /\
  any_value gLFG NewLFG.
Proof. split; [reflexivity|]. split; [reflexivity|]. split; [reflexivity|]. split; apply lfg_new_ok. Qed.
