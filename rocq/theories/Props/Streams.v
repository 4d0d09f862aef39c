(** C57: how many values determine the state, and distinct seeds give distinct streams. *)
From Coq Require Import Lia ZifyN ZifyNat ZifyBool.
From Verif Require Import Model.Base Model.Util Model.Xoroshiro Model.Xoshiro Model.LfgTable Model.Lfg Model.Api Spec.Common Spec.States Spec.Kinds
  Spec.RefGens Spec.LfgRef Spec.Seeding.
From Verif Require Import Proofs.WordLemmas Proofs.ReadProofs Proofs.PureGen Proofs.Gf2 Proofs.PolyCert
  Proofs.XoroProofs Proofs.XoroSeed Proofs.XoshiProofs Proofs.XoshiSeed Proofs.LfgProofs Proofs.LfgStream Proofs.KindProofs
  Props.Periods Props.Seeding Props.LfgMore.
Ltac Zify.zify_post_hook ::= Z.div_mod_to_equations.
Local Open Scope N_scope.
Opaque lfgS0.

(** ** the low bits of 128 consecutive states determine a state *)
Lemma xlow_papp p : forall k v, xoro_typed v ->
  (forall j, k <= j < k + N.of_nat (Pos.size_nat p - 1) -> xlow (N.iter j xstep v) = false) ->
  xlow (N.iter k xstep (papp xadd xstep p v)) = xlow (N.iter (k + N.of_nat (Pos.size_nat p - 1)) xstep v).
Proof.
  assert (S1 : forall p, (1 <= Pos.size_nat p)%nat) by (intros []; cbn; lia).
  assert (Tp : forall p v, xoro_typed v -> xoro_typed (papp xadd xstep p v)).
  { intros p0 v0. apply (papp_wf xadd xoro_typed xstep xadd_typed xstep_typed). }
  induction p as [p IH|p IH|]; intros k v Hv H; cbn [papp Pos.size_nat] in *.
  - pose proof (S1 p) as S1p. destruct (xiter_add k v (xstep (papp xadd xstep p v)) Hv (xstep_typed _ (Tp p v Hv))) as (-> & _).
    rewrite xlow_add. rewrite (H k) by lia. rewrite xorb_false_l.
    rewrite <- N.iter_succ_r, IH by (auto; intros j Hj; apply H; lia). do 2 f_equal. lia.
  - pose proof (S1 p) as S1p. rewrite <- N.iter_succ_r, IH by (auto; intros j Hj; apply H; lia). do 2 f_equal. lia.
  - now rewrite N.add_0_r.
Qed.
Lemma xlow_recurrence v : xoro_typed v -> (forall j, j < 128 -> xlow (N.iter j xstep v) = false) -> xlow (N.iter 128 xstep v) = false.
Proof.
  intros Hv H. pose proof (xoro_kills v Hv) as K. unfold pap, xoro_P in K.
  pose proof (xlow_papp 0x100653ced7f29f88a5fd66762f0e1c001%positive 0 v Hv) as P.
  change (N.of_nat (Pos.size_nat 0x100653ced7f29f88a5fd66762f0e1c001 - 1)) with 128 in P. change (0 + 128) with 128 in P.
  rewrite <- P; [|intros j Hj; apply H; lia]. cbn [N.iter]. rewrite K. reflexivity.
Qed.
Lemma xlow_all v : xoro_typed v -> (forall j, j < 128 -> xlow (N.iter j xstep v) = false) -> forall n, xlow (N.iter n xstep v) = false.
Proof.
  intros Hv H n. induction n as [n IH] using (well_founded_induction N.lt_wf_0). destruct (N.lt_ge_cases n 128) as [L|L]; [apply H, L|].
  replace n with (128 + (n - 128)) by lia. rewrite N.iter_add. apply xlow_recurrence.
  - apply (xiter_add (n - 128) v v Hv Hv).
  - intros j Hj. rewrite <- N.iter_add. apply IH. lia.
Qed.
Lemma xoro_observable128 s t : xoro_typed s -> xoro_typed t ->
  (forall n, n < 128 -> N.odd (xout (N.iter n xstep s)) = N.odd (xout (N.iter n xstep t))) -> s = t.
Proof.
  intros Hs Ht H. destruct (xoro_eq_dec (xadd s t) xzero) as [E|E].
  - destruct s as [a b], t as [c d]. unfold xadd, xzero in E. cbn [xo0 xo1] in E.
    injection E as E1 E2. apply N.lxor_eq in E1, E2. congruence.
  - exfalso. destruct (xoro_orbit (xadd s t) (mkXoro 1 0)) as (n & _ & En).
    { split; [now apply xadd_typed|exact E]. }
    { split; [split; reflexivity|discriminate]. }
    assert (L : xlow (mkXoro 1 0) = true) by reflexivity. rewrite <- En in L. rewrite xlow_all in L; [discriminate|now apply xadd_typed|].
    intros j Hj. destruct (xiter_add j s t Hs Ht) as (-> & _). rewrite xlow_add, <- !xlow_out, H by exact Hj.
    apply xorb_nilpotent.
Qed.
(** the low bits alone of 128 values suffice *)
Theorem C57_xoroshiro_128_low_bits_determine_state s t xs ys s' t' : any_value gXoroshiro s -> any_value gXoroshiro t ->
  length xs = 128%nat -> runs Xoroshiro_Uint64 s xs s' -> runs Xoroshiro_Uint64 t ys t' ->
  map N.odd xs = map N.odd ys -> s = t.
Proof.
  intros Hs Ht L R R' E. apply xoro_observable128; [exact Hs|exact Ht|]. intros n Hn.
  assert (Ly : length ys = 128%nat) by (rewrite <- (map_length N.odd), <- E, map_length; exact L).
  pose proof (runs_nth _ xout xstep xoro_pure s xs s' R (N.to_nat n)) as A.
  pose proof (runs_nth _ xout xstep xoro_pure t ys t' R' (N.to_nat n)) as A'.
  rewrite N2Nat.id in A, A'. rewrite <- A, <- A' by lia.
  rewrite <- !(map_nth N.odd), E. reflexivity.
Qed.
Theorem C57_xoroshiro_128_values_determine_state s t xs s' t' : any_value gXoroshiro s -> any_value gXoroshiro t ->
  length xs = 128%nat -> runs Xoroshiro_Uint64 s xs s' -> runs Xoroshiro_Uint64 t xs t' -> s = t.
Proof. intros Hs Ht L R R'. eapply C57_xoroshiro_128_low_bits_determine_state; eauto. Qed.
Theorem C57_rexoroshiro_128_values_determine_state s t xs s' t' : any_value gRexoroshiro s -> any_value gRexoroshiro t ->
  length xs = 128%nat -> runs Rexoroshiro_Uint64 s xs s' -> runs Rexoroshiro_Uint64 t xs t' -> s = t.
Proof.
  intros Hs Ht L R R'. apply xoro_observable128; [exact Hs|exact Ht|]. intros n Hn.
  pose proof (runs_nth _ (fun s => rev_bytes64 (xout s)) xstep rex_pure s xs s' R (N.to_nat n)) as A.
  pose proof (runs_nth _ (fun s => rev_bytes64 (xout s)) xstep rex_pure t xs t' R' (N.to_nat n)) as A'.
  rewrite N2Nat.id in A, A'. rewrite A in A' by lia. specialize (A' ltac:(lia)).
  rewrite <- (rev_bytes64_invol (xout (N.iter n xstep s))), <- (rev_bytes64_invol (xout (N.iter n xstep t))), A' by apply xout_w.
  reflexivity.
Qed.
Theorem C57_xoshiro_4_values_determine_state s t xs s' t' : any_value gXoshiro s -> any_value gXoshiro t ->
  length xs = 4%nat -> runs Xoshiro_Uint64 s xs s' -> runs Xoshiro_Uint64 t xs t' -> s = t.
Proof.
  intros Hs Ht L R R'. destruct xs as [|a [|b [|c [|d [|e xs]]]]]; try discriminate L.
  assert (W : Forall w64 [a; b; c; d]) by (apply (inv_runs_w gXoshiro s _ s' Hs R)).
  inversion_clear W as [|? ? Ha W1]. inversion_clear W1 as [|? ? Hb W2]. inversion_clear W2 as [|? ? Hc W3]. inversion_clear W3 as [|? ? Hd _].
  assert (E1 : s = from4 (unscr a) (unscr b) (unscr c) (unscr d)) by (apply runs4_iff; eauto).
  assert (E2 : t = from4 (unscr a) (unscr b) (unscr c) (unscr d)) by (apply runs4_iff; eauto).
  congruence.
Qed.

(** ** seeds *)
Theorem C57_xoroshiro_seed_stream_injective old old' x y s t xs s' t' : w64 x -> w64 y ->
  Xoroshiro_Seed old x = Ret s -> Xoroshiro_Seed old' y = Ret t ->
  length xs = 128%nat -> runs Xoroshiro_Uint64 s xs s' -> runs Xoroshiro_Uint64 t xs t' -> x = y.
Proof.
  intros Hx Hy E E' L R R'. apply (C23_xoroshiro_seed_injective old old' x y s); auto.
  rewrite E'. f_equal. symmetry.
  destruct (Xoroshiro_SeedIV_ok old (seed_bytes x) (le_bytes_isbyte 8 x)) as (s1 & E1 & T1).
  destruct (Xoroshiro_SeedIV_ok old' (seed_bytes y) (le_bytes_isbyte 8 y)) as (t1 & E2 & T2).
  unfold Xoroshiro_Seed in E, E'. assert (s1 = s) by congruence. assert (t1 = t) by congruence. subst s1 t1.
  apply (C57_xoroshiro_128_values_determine_state s t xs s' t'); auto.
Qed.
Theorem C57_rexoroshiro_seed_stream_injective old old' x y s t xs s' t' : w64 x -> w64 y ->
  Rexoroshiro_Seed old x = Ret s -> Rexoroshiro_Seed old' y = Ret t ->
  length xs = 128%nat -> runs Rexoroshiro_Uint64 s xs s' -> runs Rexoroshiro_Uint64 t xs t' -> x = y.
Proof.
  intros Hx Hy E E' L R R'. apply (C23_rexoroshiro_seed_injective old old' x y s); auto.
  rewrite E'. f_equal. symmetry.
  destruct (Xoroshiro_SeedIV_ok old (seed_bytes x) (le_bytes_isbyte 8 x)) as (s1 & E1 & T1).
  destruct (Xoroshiro_SeedIV_ok old' (seed_bytes y) (le_bytes_isbyte 8 y)) as (t1 & E2 & T2).
  unfold Rexoroshiro_Seed, Xoroshiro_Seed in E, E'. assert (s1 = s) by congruence. assert (t1 = t) by congruence. subst s1 t1.
  apply (C57_rexoroshiro_128_values_determine_state s t xs s' t'); auto.
Qed.
Theorem C57_xoshiro_seed_stream_injective old old' x y s t xs s' t' : w64 x -> w64 y ->
  Xoshiro_Seed old x = Ret s -> Xoshiro_Seed old' y = Ret t ->
  length xs = 4%nat -> runs Xoshiro_Uint64 s xs s' -> runs Xoshiro_Uint64 t xs t' -> x = y.
Proof.
  intros Hx Hy E E' L R R'. apply (C23_xoshiro_seed_injective old old' x y s); auto.
  rewrite E'. f_equal. symmetry. unfold Xoshiro_Seed in E, E'. rewrite Xoshiro_SeedIV_closed in E, E'.
  assert (E1 : s = xoshiro_seeded (seed_bytes x)) by congruence. assert (E2 : t = xoshiro_seeded (seed_bytes y)) by congruence.
  apply (C57_xoshiro_4_values_determine_state s t xs s' t'); auto; subst s t; apply xoshiro_seeded_typed, le_bytes_isbyte.
Qed.

(** LFG: the first 335 values determine the seed modulo 256 (and depend on nothing else, C19) *)
Definition distinctb (l : list N) : bool :=
  forallb (fun i => forallb (fun j => (i =? j)%nat || negb (nth i l 0 =? nth j l 0)) (seq 0 (length l))) (seq 0 (length l)).
Lemma table_distinct_check : distinctb (firstn 256 lfgS0) = true.
Proof. vm_cast_no_check (eq_refl true). Qed.
Lemma table_distinct a b : (a < 256)%nat -> (b < 256)%nat -> table a = table b -> a = b.
Proof.
  intros Ha Hb E. pose proof table_distinct_check as C. unfold distinctb in C. rewrite forallb_forall in C.
  assert (L : length (firstn 256 lfgS0) = 256%nat) by (rewrite firstn_length, lfgS0_length; reflexivity).
  specialize (C a). rewrite L, in_seq, forallb_forall in C. specialize (C ltac:(lia) b). rewrite in_seq in C. specialize (C ltac:(lia)).
  assert (F : forall i, (i < 256)%nat -> nth i (firstn 256 lfgS0) 0 = table i).
  { intros i Hi. unfold table. rewrite <- (firstn_skipn 256 lfgS0) at 2. rewrite app_nth1 by (rewrite L; exact Hi). reflexivity. }
  rewrite !F, E, N.eqb_refl in C by assumption. rewrite orb_false_r in C. now apply Nat.eqb_eq.
Qed.
Lemma lfg_window_w iv k : w64 (lfg_window iv k).
Proof. unfold lfg_window. apply N.mod_lt. discriminate. Qed.
Lemma lfg_seq_w u iv : lfg_recurrence u -> (forall k, (k < 335)%nat -> u k = lfg_window iv k) -> forall n, w64 (u n).
Proof.
  intros R H n. destruct (Nat.lt_ge_cases n 335) as [L|L]; [rewrite H by exact L; apply lfg_window_w|].
  replace n with (n - 335 + 335)%nat by lia. rewrite R. apply N.mod_lt. discriminate.
Qed.
Lemma lfg_back u v : lfg_recurrence u -> lfg_recurrence v -> (forall n, w64 (u n)) -> (forall n, w64 (v n)) ->
  forall m, (forall j, (j < 335)%nat -> u (m + j)%nat = v (m + j)%nat) -> forall n, u n = v n.
Proof.
  intros Ru Rv Wu Wv m. induction m as [|m IH]; intros H.
  - apply C54_recurrence_determines_sequence; assumption.
  - apply IH. intros j Hj. destruct j as [|j]; [|replace (m + S j)%nat with (S m + j)%nat by lia; apply H; lia].
    rewrite Nat.add_0_r. pose proof (Ru m) as E. pose proof (Rv m) as E'.
    replace (m + 335)%nat with (S m + 334)%nat in E, E' by lia. replace (m + 334)%nat with (S m + 333)%nat in E, E' by lia.
    rewrite (H 334%nat) in E by lia. rewrite E' in E. rewrite (H 333%nat) in E by lia.
    specialize (Wu m). specialize (Wv m). unfold w64 in *.
    generalize dependent (v (S m + 333)%nat). intros w E' E. generalize dependent (v m). generalize dependent (u m). clear.
    intros a Ha b Hb E. set (w0 := w mod 2 ^ 64) in *.
    assert (X : forall c, (w + c) mod 2 ^ 64 = (w0 + c) mod 2 ^ 64) by (intros c; unfold w0; now rewrite N.add_mod_idemp_l).
    rewrite !X in E. assert (w0 < 2 ^ 64) by (apply N.mod_lt; discriminate). clearbody w0. clear X. lia.
Qed.
Lemma seed_window x : w64 x -> lfg_window (seed_bytes x) 334 = (table 334 + table (N.to_nat (x mod 256))) mod 2 ^ 64.
Proof.
  intros Hx. unfold lfg_window, seed_bytes. rewrite le_bytes_length. cbn [seq map].
  repeat match goal with |- context [((?i + 334) mod 607 =? 334)%nat] =>
    let b := eval vm_compute in ((i + 334) mod 607 =? 334)%nat in change ((i + 334) mod 607 =? 334)%nat with b end.
  cbv iota. cbn [fold_right]. rewrite !N.add_0_r. f_equal.
  assert (E0 : nth 0 (le_bytes 8 x) 0 = x mod 256).
  { cbn [le_bytes nth]. change 255 with (N.ones 8). rewrite N.land_ones. reflexivity. }
  rewrite E0. f_equal. f_equal. f_equal. apply N.mod_small. lia.
Qed.
Theorem C57_lfg_seed_stream_injective old old' x y g h xs g' h' : any_value gLFG old -> any_value gLFG old' -> w64 x -> w64 y ->
  LFG_Seed old x = Ret g -> LFG_Seed old' y = Ret h -> length xs = 335%nat ->
  runs LFG_Uint64 g xs g' -> runs LFG_Uint64 h xs h' -> x mod 256 = y mod 256.
Proof.
  intros Ho Ho' Hx Hy E E' L R R'. unfold LFG_Seed in E, E'.
  destruct (C54_lfg_seediv old (seed_bytes x) Ho) as (g1 & u & Eg & Ru & Wu & Ou).
  destruct (C54_lfg_seediv old' (seed_bytes y) Ho') as (h1 & v & Eh & Rv & Wv & Ov).
  assert (g1 = g) by congruence. assert (h1 = h) by congruence. subst g1 h1.
  destruct (Ou 335%nat) as (t & Rt). destruct (Ov 335%nat) as (t' & Rt').
  pose proof (runs_det _ _ _ _ R _ _ Rt) as [X _]; [now rewrite map_length, seq_length|].
  pose proof (runs_det _ _ _ _ R' _ _ Rt') as [X' _]; [now rewrite map_length, seq_length|].
  assert (W : forall n, u n = v n).
  { apply (lfg_back u v Ru Rv (lfg_seq_w u _ Ru Wu) (lfg_seq_w v _ Rv Wv) (335 + 8 * 607)).
    intros j Hj. rewrite X in X'. assert (N1 : forall f : nat -> N, nth j (map f (seq 0 335)) 0 = f j).
    { intros f. rewrite (nth_indep _ 0 (f 0%nat)) by (rewrite map_length, seq_length; exact Hj). rewrite map_nth, seq_nth by exact Hj. reflexivity. }
    rewrite <- (N1 (fun k => u (335 + 8 * 607 + k)%nat)), X', N1. reflexivity. }
  specialize (W 334%nat). rewrite Wu, Wv in W by lia. rewrite !seed_window in W by assumption.
  assert (T : forall k, table k < 2 ^ 64).
  { intros k. unfold table. destruct (Nat.lt_ge_cases k 607) as [Hk|Hk]; [|rewrite nth_overflow by (rewrite lfgS0_length; lia); reflexivity].
    pose proof lfgS0_w64 as F. rewrite Forall_forall in F. apply F, nth_In. rewrite lfgS0_length. exact Hk. }
  pose proof (N.mod_lt x 256 ltac:(discriminate)) as Bx. pose proof (N.mod_lt y 256 ltac:(discriminate)) as By.
  apply N2Nat.inj, table_distinct; [lia|lia|].
  pose proof (T 334%nat) as T0. pose proof (T (N.to_nat (x mod 256))) as Tx. pose proof (T (N.to_nat (y mod 256))) as Ty.
  generalize dependent (table 334). generalize dependent (table (N.to_nat (x mod 256))). generalize dependent (table (N.to_nat (y mod 256))).
  clear. intros a Ha b Hb c E Hc. lia.
Qed.
(** non-vacuity: two different seeds, two different streams *)
Example C57_nonvacuous : exists s t xs ys s' t', Xoroshiro_Seed (mkXoro 0 0) 1 = Ret s /\ Xoroshiro_Seed (mkXoro 0 0) 2 = Ret t /\ length xs = 128%nat /\ length ys = 128%nat /\ runs Xoroshiro_Uint64 s xs s' /\ runs Xoroshiro_Uint64 t ys t' /\ xs <> ys.
Proof.
  destruct (Xoroshiro_SeedIV_ok (mkXoro 0 0) (seed_bytes 1) (le_bytes_isbyte 8 1)) as (s & E1 & T1).
  destruct (Xoroshiro_SeedIV_ok (mkXoro 0 0) (seed_bytes 2) (le_bytes_isbyte 8 2)) as (t & E2 & T2).
  destruct (runs_exist _ xout xstep xoro_pure 128 s) as (xs & L & R). destruct (runs_exist _ xout xstep xoro_pure 128 t) as (ys & L' & R').
  eexists s, t, xs, ys, _, _. split; [exact E1|]. split; [exact E2|]. split; [exact L|]. split; [exact L'|]. split; [exact R|]. split; [exact R'|].
  intros ->. assert (F : 1 = 2); [|discriminate F].
  eapply (C57_xoroshiro_seed_stream_injective (mkXoro 0 0) (mkXoro 0 0) 1 2 s t ys); eauto; reflexivity.
Qed.

Print Assumptions C57_xoroshiro_128_low_bits_determine_state.
Print Assumptions C57_xoroshiro_128_values_determine_state.
Print Assumptions C57_rexoroshiro_128_values_determine_state.
Print Assumptions C57_xoshiro_4_values_determine_state.
Print Assumptions C57_xoroshiro_seed_stream_injective.
Print Assumptions C57_rexoroshiro_seed_stream_injective.
Print Assumptions C57_xoshiro_seed_stream_injective.
Print Assumptions C57_lfg_seed_stream_injective.
