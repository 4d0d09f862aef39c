(** Properties C63: how often values and tuples occur in a full period of the generators. *)
From Coq Require Import Lia ZifyN ZifyNat ZifyBool.
From Verif Require Import Model.Base Model.Xoroshiro Model.Xoshiro Model.Api Spec.Common Spec.States Spec.Counting.
From Verif Require Import Proofs.WordLemmas Proofs.ReadProofs Proofs.PureGen Proofs.Count Proofs.OrbitCount
  Proofs.XoroProofs Proofs.XoroSeed Proofs.XoshiProofs Proofs.XoshiSeed Props.Periods.
Local Open Scope N_scope.

(** ** single values of Xoroshiro and Rexoroshiro *)
Lemma sub64_w (x a : N) : (x + (2 ^ 64 - a)) mod 2 ^ 64 < 2 ^ 64.
Proof. apply N.mod_lt. discriminate. Qed.
Lemma add_sub64 x a : w64 x -> w64 a -> add64 a ((x + (2 ^ 64 - a)) mod 2 ^ 64) = x.
Proof.
  unfold w64. intros Hx Ha. rewrite add64_mod, N.add_mod_idemp_r by discriminate.
  replace (a + (x + (2 ^ 64 - a))) with (x + 1 * 2 ^ 64) by lia. rewrite N.mod_add by discriminate. now apply N.mod_small.
Qed.
Lemma sub_add64 a b : w64 a -> w64 b -> (add64 a b + (2 ^ 64 - a)) mod 2 ^ 64 = b.
Proof.
  unfold w64. intros Ha Hb. rewrite add64_mod, N.add_mod_idemp_l by discriminate.
  replace (a + b + (2 ^ 64 - a)) with (b + 1 * 2 ^ 64) by lia. rewrite N.mod_add by discriminate. now apply N.mod_small.
Qed.
(** all states, by value: 2^64 states for each value with the property *)
Lemma xoro_states_with (P : N -> Prop) c : has_exactly (fun x => w64 x /\ P x) c ->
  has_exactly (fun t => xoro_typed t /\ P (xout t)) (c * 2 ^ 64).
Proof.
  intros H. apply (has_exactly_bij (fun p => (w64 (fst p) /\ P (fst p)) /\ snd p < 2 ^ 64) _
    (fun p => mkXoro (snd p) ((fst p + (2 ^ 64 - snd p)) mod 2 ^ 64)) (fun t => (xout t, xo0 t))).
  - intros [x a] [[Hx Hp] Ha]. cbn [fst snd] in *. split; [split; [exact Ha|apply sub64_w]|].
    rewrite xout_add. cbn [xo0 xo1]. now rewrite add_sub64.
  - intros t [[T0 T1] Hp]. cbn [fst snd]. auto using xout_w.
  - intros [x a] [[Hx _] Ha]. cbn [fst snd xo0] in *. rewrite xout_add. cbn [xo0 xo1]. now rewrite add_sub64.
  - intros [a b] [[T0 T1] _]. cbn [fst snd xo0 xo1] in *. rewrite xout_add. cbn [xo0 xo1]. now rewrite sub_add64.
  - apply (has_exactly_pair (fun x => w64 x /\ P x) (fun a => a < 2 ^ 64)); [exact H|apply has_exactly_below].
Qed.
Lemma xout_zero : xout xzero = 0. Proof. reflexivity. Qed.
Lemma xoro_fair (P : N -> Prop) c s : xoro_nz s -> has_exactly (fun x => w64 x /\ P x) c ->
  (~ P 0 -> has_exactly (fun n => n < 2 ^ 128 - 1 /\ P (xout (N.iter n xstep s))) (c * 2 ^ 64)) /\
  (P 0 -> has_exactly (fun n => n < 2 ^ 128 - 1 /\ P (xout (N.iter n xstep s))) (c * 2 ^ 64 - 1)).
Proof.
  intros Hs H. pose proof (xoro_states_with P c H) as S. split; intros H0.
  - apply (orbit_count xoro_nz xstep _ ord128 xoro_nz_step xoro_nz_order xoro_orbit (fun t => P (xout t))); [exact Hs|].
    apply (has_exactly_ext (fun t => xoro_typed t /\ P (xout t))); [|exact S]. intros t. split.
    + intros [T Hp]. repeat split; try apply T; try exact Hp. intros ->. now apply H0.
    + intros [[T _] Hp]. auto.
  - apply (orbit_count xoro_nz xstep _ ord128 xoro_nz_step xoro_nz_order xoro_orbit (fun t => P (xout t))); [exact Hs|].
    apply (has_exactly_ext (fun t => (xoro_typed t /\ P (xout t)) /\ t <> xzero)).
    + intros t. split; [intros [[T Hp] Z]|intros [[T Z] Hp]]; repeat split; auto; apply T.
    + apply has_exactly_remove; [apply xoro_eq_dec|exact S|]. split; [apply xzero_typed|exact H0].
Qed.

(** In every 2^128-1 consecutive calls, from any non-zero state, each property of a single value holds
    for exactly its fair share of the calls, up to one call less if the value 0 has the property. *)
Theorem C63_xoroshiro_is_fair (P : N -> Prop) c s : xoro_typed s -> s <> mkXoro 0 0 ->
  has_exactly (fun x => w64 x /\ P x) c ->
  (~ P 0 -> has_exactly (fun n => n < 2 ^ 128 - 1 /\ exists x, occurs_at Xoroshiro_Uint64 s n [x] /\ P x) (c * 2 ^ 64)) /\
  (P 0 -> has_exactly (fun n => n < 2 ^ 128 - 1 /\ exists x, occurs_at Xoroshiro_Uint64 s n [x] /\ P x) (c * 2 ^ 64 - 1)).
Proof.
  intros T Z H. destruct (xoro_fair P c s (conj T Z) H) as [F0 F1].
  assert (E : forall n, n < 2 ^ 128 - 1 /\ P (xout (N.iter n xstep s)) <->
    n < 2 ^ 128 - 1 /\ exists x, occurs_at Xoroshiro_Uint64 s n [x] /\ P x).
  { intros n. split; intros [Hn Hp]; (split; [exact Hn|]).
    - eexists. split; [|exact Hp]. now apply (occurs_at_iff _ xout xstep xoro_pure), (runs_one _ xout xstep xoro_pure).
    - destruct Hp as (x & O & Hp). apply (occurs_at_iff _ xout xstep xoro_pure), (runs_one _ xout xstep xoro_pure) in O. now rewrite O. }
  split; intros H0; (eapply has_exactly_ext; [exact E|]); auto.
Qed.
Theorem C63_rexoroshiro_is_fair (P : N -> Prop) c s : xoro_typed s -> s <> mkXoro 0 0 ->
  has_exactly (fun x => w64 x /\ P x) c ->
  (~ P 0 -> has_exactly (fun n => n < 2 ^ 128 - 1 /\ exists x, occurs_at Rexoroshiro_Uint64 s n [x] /\ P x) (c * 2 ^ 64)) /\
  (P 0 -> has_exactly (fun n => n < 2 ^ 128 - 1 /\ exists x, occurs_at Rexoroshiro_Uint64 s n [x] /\ P x) (c * 2 ^ 64 - 1)).
Proof.
  intros T Z H.
  assert (H' : has_exactly (fun x => w64 x /\ P (rev_bytes64 x)) c).
  { apply (has_exactly_bij (fun x => w64 x /\ P x) _ rev_bytes64 rev_bytes64); [| | | |exact H].
    - intros a [Wa Pa]. split; [apply rev_bytes64_w|]. now rewrite rev_bytes64_invol.
    - intros a [Wa Pa]. split; [apply rev_bytes64_w|]. exact Pa.
    - intros a [Wa _]. now apply rev_bytes64_invol.
    - intros a [Wa _]. now apply rev_bytes64_invol. }
  destruct (xoro_fair (fun x => P (rev_bytes64 x)) c s (conj T Z) H') as [F0 F1].
  assert (E : forall n, n < 2 ^ 128 - 1 /\ P (rev_bytes64 (xout (N.iter n xstep s))) <->
    n < 2 ^ 128 - 1 /\ exists x, occurs_at Rexoroshiro_Uint64 s n [x] /\ P x).
  { intros n. split; intros [Hn Hp]; (split; [exact Hn|]).
    - eexists. split; [|exact Hp]. now apply (occurs_at_iff _ (fun s => rev_bytes64 (xout s)) xstep rex_pure), (runs_one _ (fun s => rev_bytes64 (xout s)) xstep rex_pure).
    - destruct Hp as (x & O & Hp). apply (occurs_at_iff _ (fun s => rev_bytes64 (xout s)) xstep rex_pure), (runs_one _ (fun s => rev_bytes64 (xout s)) xstep rex_pure) in O. now rewrite O. }
  change (rev_bytes64 0) with 0 in *.
  split; intros H0; (eapply has_exactly_ext; [exact E|]); auto.
Qed.
(** in particular each value *)
Lemma one_value x : w64 x -> has_exactly (fun y => w64 y /\ y = x) 1.
Proof.
  intros Hx. exists [x]. split; [constructor; [intros []|constructor]|]. split; [|reflexivity]. intros a. cbn. split.
  - intros [<-|[]]. auto.
  - intros [_ ->]. auto.
Qed.
Lemma one_value_count {S} (u : S -> outcome (N * S)) s m k x : 
  has_exactly (fun n => n < m /\ exists y, occurs_at u s n [y] /\ y = x) k -> has_exactly (fun n => n < m /\ occurs_at u s n [x]) k.
Proof. apply has_exactly_ext. intros n. split; [intros [Hn (y & O & ->)]|intros [Hn O]]; eauto. Qed.
Theorem C63_xoroshiro_values s x : xoro_typed s -> s <> mkXoro 0 0 -> w64 x ->
  has_exactly (fun n => n < 2 ^ 128 - 1 /\ occurs_at Xoroshiro_Uint64 s n [x]) (if x =? 0 then 2 ^ 64 - 1 else 2 ^ 64).
Proof.
  intros T Z Hx. destruct (C63_xoroshiro_is_fair (fun y => y = x) 1 s T Z (one_value x Hx)) as [F0 F1].
  apply one_value_count. rewrite N.mul_1_l in *. destruct (N.eqb_spec x 0) as [E|E]; [apply F1|apply F0]; congruence.
Qed.
Theorem C63_rexoroshiro_values s x : xoro_typed s -> s <> mkXoro 0 0 -> w64 x ->
  has_exactly (fun n => n < 2 ^ 128 - 1 /\ occurs_at Rexoroshiro_Uint64 s n [x]) (if x =? 0 then 2 ^ 64 - 1 else 2 ^ 64).
Proof.
  intros T Z Hx. destruct (C63_rexoroshiro_is_fair (fun y => y = x) 1 s T Z (one_value x Hx)) as [F0 F1].
  apply one_value_count. rewrite N.mul_1_l in *. destruct (N.eqb_spec x 0) as [E|E]; [apply F1|apply F0]; congruence.
Qed.

(** ** pairs of Xoroshiro values *)
(** a number and its 64-bit negative differ exactly above the lowest set bit *)
Lemma lxor_ones_sub k m : m < 2 ^ k -> N.lxor m (2 ^ k - 1 - m) = 2 ^ k - 1.
Proof.
  intros Hm. assert (E : 2 ^ k - 1 = N.ones k) by (rewrite N.ones_equiv; lia). rewrite E.
  assert (S : N.ones k - m = N.ldiff (N.ones k) m).
  { apply N.sub_nocarry_ldiff. apply N.bits_inj. intros n. rewrite N.ldiff_spec, N.bits_0.
    destruct (N.lt_ge_cases n k) as [H|H]; [rewrite N.ones_spec_low by exact H; apply andb_false_r|].
    rewrite N.ones_spec_high by exact H. rewrite andb_true_r. destruct (N.eq_dec m 0) as [->|M]; [apply N.bits_0|].
    apply N.bits_above_log2. apply N.log2_lt_pow2 in Hm; lia. }
  rewrite S. apply N.bits_inj. intros n. rewrite N.lxor_spec, N.ldiff_spec.
  destruct (N.lt_ge_cases n k) as [H|H]; [rewrite N.ones_spec_low by exact H; destruct (N.testbit m n); reflexivity|].
  rewrite N.ones_spec_high by exact H. cbn [andb]. rewrite xorb_false_r. destruct (N.eq_dec m 0) as [->|M]; [apply N.bits_0|].
  apply N.bits_above_log2. apply N.log2_lt_pow2 in Hm; lia.
Qed.
Lemma lowest_bit a : a <> 0 -> exists j m, a = 2 ^ j * (2 * m + 1).
Proof.
  induction a as [a IH] using (well_founded_induction N.lt_wf_0). intros Ha.
  destruct (N.Even_or_Odd a) as [[h Eh]|[h Eh]].
  - destruct (IH h) as (j & m & E); [lia|lia|]. exists (N.succ j), m. rewrite Eh, E, N.pow_succ_r'. lia.
  - exists 0, h. rewrite Eh. lia.
Qed.
Lemma lxor_mul_pow2 j a b : N.lxor (2 ^ j * a) (2 ^ j * b) = 2 ^ j * N.lxor a b.
Proof. rewrite !(N.mul_comm (2 ^ j)), <- !N.shiftl_mul_pow2, N.shiftl_lxor. reflexivity. Qed.
Lemma lxor_neg a : a <> 0 -> a < 2 ^ 64 -> exists j, j < 64 /\ a mod 2 ^ (j + 1) = 2 ^ j /\ N.lxor (2 ^ 64 - a) a = 2 ^ 64 - 2 ^ (j + 1).
Proof.
  intros Ha Hb. destruct (lowest_bit a Ha) as (j & m & E). exists j.
  assert (Hj : j < 64).
  { apply (N.pow_lt_mono_r_iff 2); [lia|]. assert (2 ^ j <> 0) by now apply N.pow_nonzero. nia. }
  assert (P64 : 2 ^ 64 = 2 ^ j * (2 * 2 ^ (63 - j))).
  { replace (2 * 2 ^ (63 - j)) with (2 ^ N.succ (63 - j)) by apply N.pow_succ_r'. rewrite <- N.pow_add_r. f_equal. lia. }
  assert (Pj : 2 ^ (j + 1) = 2 ^ j * 2) by (rewrite N.pow_add_r; reflexivity).
  assert (Hm : m < 2 ^ (63 - j)).
  { rewrite E, P64 in Hb. apply N.mul_lt_mono_pos_l in Hb; [lia|]. apply N.neq_0_lt_0. now apply N.pow_nonzero. }
  split; [exact Hj|]. split.
  - rewrite E, Pj. rewrite N.mul_mod_distr_l by (try apply N.pow_nonzero; discriminate).
    replace (2 * m + 1) with (1 + m * 2) by lia. rewrite N.mod_add by discriminate. apply N.mul_1_r.
  - rewrite P64 at 1. rewrite E. rewrite <- N.mul_sub_distr_l, lxor_mul_pow2.
    set (K := 2 ^ (63 - j)) in *.
    replace (2 * K - (2 * m + 1)) with (2 * (K - 1 - m) + 1) by lia.
    assert (X : forall u v, N.lxor (2 * u + 1) (2 * v + 1) = 2 * N.lxor u v).
    { clear. intros u v. apply N.bits_inj. intros n. destruct n as [|n] using N.peano_ind.
      - rewrite N.lxor_spec, !N.testbit_odd_0, N.testbit_even_0. reflexivity.
      - rewrite N.lxor_spec, !N.testbit_odd_succ, N.testbit_even_succ, N.lxor_spec by lia. reflexivity. }
    rewrite X, N.lxor_comm. unfold K. rewrite lxor_ones_sub by exact Hm. fold K. rewrite P64, Pj. nia.
Qed.

Definition pmask (j : N) : N := trunc64 (2 ^ 64 - 2 ^ (j + 1)).
(** the only state word that could give y after 0 with lowest bit j *)
Definition pcand (y j : N) : N :=
  rotl64 (N.lxor (N.lxor ((y + (2 ^ 64 - rotl64 (pmask j) 36)) mod 2 ^ 64) (pmask j)) (shl64 (pmask j) 14)) 9.
Lemma xoro_zero_then y s : xoro_typed s -> s <> xzero -> w64 y -> xout s = 0 -> xout (xstep s) = y ->
  exists j, j < 64 /\ xo0 s = pcand y j /\ xo0 s mod 2 ^ (j + 1) = 2 ^ j.
Proof.
  intros [T0 T1] Z Hy O1 O2. destruct s as [a b]. cbn [xo0 xo1] in *.
  assert (B : b = (2 ^ 64 - a) mod 2 ^ 64).
  { rewrite xout_add in O1. cbn [xo0 xo1] in O1. rewrite <- (sub_add64 a b T0 T1), O1. reflexivity. }
  assert (A0 : a <> 0). { intros ->. apply Z. rewrite B. reflexivity. }
  unfold w64 in T0. rewrite N.mod_small in B by lia.
  destruct (lxor_neg a A0 T0) as (j & Hj & Ml & X). exists j. split; [exact Hj|]. split; [|exact Ml].
  rewrite xout_add in O2. unfold xstep, Xoroshiro_next in O2. cbn [xo0 xo1 snd fst] in O2.
  assert (M : N.lxor b a = pmask j).
  { rewrite B, X. unfold pmask. rewrite trunc64_mod. symmetry. apply N.mod_small.
    assert (2 ^ (j + 1) <> 0) by now apply N.pow_nonzero. lia. }
  rewrite M in O2.
  assert (W : w64 (N.lxor (N.lxor (rotl64 a 55) (pmask j)) (shl64 (pmask j) 14))).
  { repeat apply lxor_w; auto using rotl64_w, shl64_w, trunc64_w. unfold pmask. apply trunc64_w. }
  set (q := N.lxor (N.lxor (rotl64 a 55) (pmask j)) (shl64 (pmask j) 14)) in *.
  assert (Q : q = (y + (2 ^ 64 - rotl64 (pmask j) 36)) mod 2 ^ 64).
  { rewrite <- O2. replace (add64 q (rotl64 (pmask j) 36)) with (add64 (rotl64 (pmask j) 36) q) by (rewrite !add64_mod; f_equal; apply N.add_comm). symmetry. apply sub_add64; [apply rotl64_w, trunc64_w|exact W]. }
  unfold pcand. rewrite <- Q. unfold q.
  replace (N.lxor (N.lxor (N.lxor (N.lxor (rotl64 a 55) (pmask j)) (shl64 (pmask j) 14)) (pmask j)) (shl64 (pmask j) 14)) with (rotl64 a 55) by xor_bits.
  symmetry. apply rotl_rotl; [exact T0|reflexivity..].
Qed.
Lemma forall_below (p : N -> bool) n : forallb p (map N.of_nat (seq 0 (N.to_nat n))) = true -> forall j, j < n -> p j = true.
Proof.
  intros H j Hj. rewrite forallb_forall in H. apply H. apply in_map_iff. exists (N.to_nat j). split; [lia|]. apply in_seq. lia.
Qed.
Lemma no_1023 : forallb (fun j => negb (pcand 1023 j mod 2 ^ (j + 1) =? 2 ^ j)) (map N.of_nat (seq 0 64)) = true.
Proof. vm_compute. reflexivity. Qed.
Lemma only_two : forallb (fun j => implb (pcand (2 ^ 54) j mod 2 ^ (j + 1) =? 2 ^ j)
  ((pcand (2 ^ 54) j =? 2 ^ 63) || (pcand (2 ^ 54) j =? 9259365658091061760))) (map N.of_nat (seq 0 64)) = true.
Proof. vm_compute. reflexivity. Qed.
Lemma xoro_never s : xoro_typed s -> xout s = 0 -> xout (xstep s) <> 1023.
Proof.
  intros T O1 O2. destruct (xoro_eq_dec s xzero) as [->|Z]; [discriminate|].
  destruct (xoro_zero_then 1023 s T Z eq_refl O1 O2) as (j & Hj & E & M).
  pose proof (forall_below _ 64 no_1023 j Hj) as C. cbv beta in C. rewrite <- E, M, N.eqb_refl in C. discriminate.
Qed.
Lemma xoro_iter_typed n s : xoro_typed s -> xoro_typed (N.iter n xstep s).
Proof. intros T. apply (xiter_add n s s T T). Qed.
(** Xoroshiro is not equidistributed in pairs: some pair of consecutive values never occurs, whatever the
    seed, and another occurs twice in each period. *)
Theorem C63_xoroshiro_missing_pair s n : xoro_typed s -> ~ occurs_at Xoroshiro_Uint64 s n [0; 1023].
Proof.
  intros T O. apply (occurs_at_iff _ xout xstep xoro_pure), (runs_two _ xout xstep xoro_pure) in O.
  destruct O as [O1 O2]. revert O2. apply xoro_never; [now apply xoro_iter_typed|exact O1].
Qed.
Theorem C63_rexoroshiro_missing_pair s n : xoro_typed s -> ~ occurs_at Rexoroshiro_Uint64 s n [0; 0xff03000000000000].
Proof.
  intros T O. apply (occurs_at_iff _ (fun s => rev_bytes64 (xout s)) xstep rex_pure), (runs_two _ (fun s => rev_bytes64 (xout s)) xstep rex_pure) in O.
  destruct O as [O1 O2]. apply (f_equal rev_bytes64) in O1, O2. rewrite rev_bytes64_invol in O1, O2 by apply xout_w.
  revert O2. apply xoro_never; [now apply xoro_iter_typed|exact O1].
Qed.
Theorem C63_xoroshiro_repeated_pair s : xoro_typed s -> s <> mkXoro 0 0 ->
  has_exactly (fun n => n < 2 ^ 128 - 1 /\ occurs_at Xoroshiro_Uint64 s n [0; 2 ^ 54]) 2.
Proof.
  intros T Z.
  apply (has_exactly_ext (fun n => n < 2 ^ 128 - 1 /\ (xout (N.iter n xstep s) = 0 /\ xout (xstep (N.iter n xstep s)) = 2 ^ 54))).
  { intros n. rewrite (occurs_at_iff _ xout xstep xoro_pure), (runs_two _ xout xstep xoro_pure). reflexivity. }
  apply (orbit_count xoro_nz xstep _ ord128 xoro_nz_step xoro_nz_order xoro_orbit (fun t => xout t = 0 /\ xout (xstep t) = 2 ^ 54)); [now split|].
  exists [mkXoro (2 ^ 63) (2 ^ 63); mkXoro 9259365658091061760 (2 ^ 64 - 9259365658091061760)]. split; [|split; [|reflexivity]].
  - repeat constructor; cbn; [intros [E|[]]; discriminate|intros []].
  - intros t. split.
    + intros [<-|[<-|[]]]; repeat split; try discriminate; vm_compute; reflexivity.
    + intros [[Tt Zt] [O1 O2]].
      destruct (xoro_zero_then (2 ^ 54) t Tt Zt eq_refl O1 O2) as (j & Hj & E & M).
      pose proof (forall_below _ 64 only_two j Hj) as C. cbv beta in C. rewrite <- E, M, N.eqb_refl in C. cbn [implb] in C.
      destruct t as [a b]. destruct Tt as [T0 T1]. cbn [xo0 xo1] in *.
      assert (B : b = (2 ^ 64 - a) mod 2 ^ 64).
      { rewrite xout_add in O1. cbn [xo0 xo1] in O1. rewrite <- (sub_add64 a b T0 T1), O1. reflexivity. }
      apply orb_prop in C. destruct C as [C|C]; apply N.eqb_eq in C; rewrite B, E, C in *; cbn [In]; [left|right; left]; reflexivity.
Qed.

(** ** tuples of Xoshiro values *)
Definition words_of_length (k : nat) (l : list N) : Prop := length l = k /\ Forall w64 l.
Lemma words_count k : has_exactly (words_of_length k) (2 ^ (64 * N.of_nat k)).
Proof.
  induction k as [|k IH].
  - exists [[]]. split; [constructor; [intros []|constructor]|]. split; [|reflexivity]. intros [|a l]; cbn; split.
    + intros _. split; [reflexivity|constructor].
    + auto.
    + intros [E|[]]. discriminate.
    + intros [E _]. discriminate.
  - replace (2 ^ (64 * N.of_nat (S k))) with (2 ^ 64 * 2 ^ (64 * N.of_nat k)).
    2:{ rewrite <- N.pow_add_r. f_equal. lia. }
    apply (has_exactly_bij (fun p => fst p < 2 ^ 64 /\ words_of_length k (snd p)) _ (fun p => fst p :: snd p)
      (fun l => (hd 0 l, tl l))).
    + intros [a l] [Ha [L F]]. cbn [fst snd] in *. split; [cbn; now rewrite L|constructor; assumption].
    + intros [|a l] [L F]; [discriminate|]. inversion F; subst. cbn [hd tl fst snd]. split; [assumption|]. split; [now inversion L|assumption].
    + intros [a l] _. reflexivity.
    + intros [|a l] [L _]; [discriminate|reflexivity].
    + apply (has_exactly_pair (fun a => a < 2 ^ 64) (words_of_length k)); [apply has_exactly_below|exact IH].
Qed.
Definition hfrom (l : list N) : xoshi := match l with [a; b; c; d] => from4 (unscr a) (unscr b) (unscr c) (unscr d) | _ => hzero end.
Definition hto (s : xoshi) : list N :=
  [scr (xx s); scr (xx (xoshi_step s)); scr (xx (xoshi_step (xoshi_step s))); scr (xx (xoshi_step (xoshi_step (xoshi_step s))))].
Lemma hfrom_typed l : words_of_length 4 l -> xoshi_typed (hfrom l).
Proof. intros [L F]. destruct l as [|a [|b [|c [|d [|]]]]]; try discriminate. apply xs4_from4; apply unscr_w. Qed.
Lemma hto_words s : words_of_length 4 (hto s).
Proof. split; [reflexivity|]. repeat constructor; apply scr_w. Qed.
Lemma hto_hfrom l : words_of_length 4 l -> hto (hfrom l) = l.
Proof.
  intros [L F]. destruct l as [|a [|b [|c [|d [|]]]]]; try discriminate.
  inversion F as [|? ? Wa F1]; subst. inversion F1 as [|? ? Wb F2]; subst. inversion F2 as [|? ? Wc F3]; subst. inversion F3 as [|? ? Wd F4]; subst.
  destruct (proj2 (runs4_iff _ a b c d (hfrom_typed [a; b; c; d] (conj L F)) Wa Wb Wc Wd) eq_refl) as (s' & R).
  pose proof (runs_det _ _ _ _ R _ _ (runs4 _) eq_refl) as [E _]. symmetry. exact E.
Qed.
Lemma hfrom_hto s : xoshi_typed s -> hfrom (hto s) = s.
Proof.
  intros T. symmetry. apply runs4_iff; try apply scr_w; [exact T|]. eexists. apply runs4.
Qed.
Lemma hfrom_zero : hfrom [0; 0; 0; 0] = hzero.
Proof. vm_compute. reflexivity. Qed.
Lemma runs_prefix s tuple : (length tuple <= 4)%nat -> (exists s', runs Xoshiro_Uint64 s tuple s') <-> firstn (length tuple) (hto s) = tuple.
Proof.
  intros L. split.
  - intros (s' & R). pose proof (runs4 s) as R4. fold (hto s) in R4.
    rewrite <- (firstn_skipn (length tuple) (hto s)) in R4. destruct (runs_split _ _ _ _ _ R4) as (s1 & R1 & _).
    pose proof (runs_det _ _ _ _ R _ _ R1) as [E _]; [|now symmetry].
    rewrite firstn_length. change (length (hto s)) with 4%nat. lia.
  - intros <-. pose proof (runs4 s) as R4. fold (hto s) in R4.
    rewrite <- (firstn_skipn (length tuple) (hto s)) in R4. destruct (runs_split _ _ _ _ _ R4) as (s1 & R1 & _). eauto.
Qed.
Lemma xoshi_states_with tuple : (length tuple <= 4)%nat -> Forall w64 tuple ->
  has_exactly (fun t => xoshi_typed t /\ exists t', runs Xoshiro_Uint64 t tuple t') (2 ^ (64 * N.of_nat (4 - length tuple))).
Proof.
  intros L F.
  apply (has_exactly_bij (words_of_length (4 - length tuple)) _ (fun l => hfrom (tuple ++ l)) (fun t => skipn (length tuple) (hto t))).
  - intros l [Ll Fl]. assert (W : words_of_length 4 (tuple ++ l)) by (split; [rewrite app_length; lia|now apply Forall_app]).
    split; [now apply hfrom_typed|]. apply runs_prefix; [exact L|]. rewrite hto_hfrom by exact W.
    rewrite firstn_app, Nat.sub_diag, firstn_all. cbn. apply app_nil_r.
  - intros t [T R]. split; [rewrite skipn_length; reflexivity|]. pose proof (proj2 (hto_words t)) as W.
    rewrite <- (firstn_skipn (length tuple) (hto t)) in W. now apply Forall_app in W.
  - intros l [Ll Fl]. assert (W : words_of_length 4 (tuple ++ l)) by (split; [rewrite app_length; lia|now apply Forall_app]).
    rewrite hto_hfrom by exact W. rewrite skipn_app, Nat.sub_diag, skipn_all. reflexivity.
  - intros t [T R]. apply runs_prefix in R; [|exact L]. rewrite <- R at 1. rewrite firstn_skipn. now apply hfrom_hto.
  - apply words_count.
Qed.
Lemma xoshi_eq_dec (a b : xoshi) : {a = b} + {a <> b}.
Proof. decide equality; apply N.eq_dec. Qed.
Lemma xoshi_orbit v w : hnz v -> hnz w -> exists n, n < 2 ^ 256 - 1 /\ N.iter n xoshi_step v = w.
Proof.
  apply (orbit_full hnz xoshi_step (2 ^ 256 - 1) ord256 hnz_step hnz_order hcode
    (fun a b Ha Hb => hcode_inj a b (proj1 Ha) (proj1 Hb)) hcode_range).
Qed.
Lemma hzero_out tuple : (exists t, runs Xoshiro_Uint64 hzero tuple t) <-> Forall (eq 0) tuple.
Proof.
  split; [intros (t & R); now apply C11_zero_state_is_stuck in R|].
  intros F. exists hzero. induction F as [|x l <- _ IH]; [constructor|]. econstructor; [|exact IH]. vm_compute. reflexivity.
Qed.
(** In every 2^256-1 consecutive calls, from any non-zero state, each tuple of k <= 4 consecutive values
    occurs 2^(64 (4-k)) times, all-zero tuples once less. *)
Theorem C63_xoshiro_tuples s tuple : xoshi_typed s -> s <> mkXoshi 0 0 0 0 -> (length tuple <= 4)%nat -> Forall w64 tuple ->
  has_exactly (fun n => n < 2 ^ 256 - 1 /\ occurs_at Xoshiro_Uint64 s n tuple)
    (2 ^ (64 * (4 - N.of_nat (length tuple))) - (if forallb (N.eqb 0) tuple then 1 else 0)).
Proof.
  intros T Z L F.
  replace (4 - N.of_nat (length tuple)) with (N.of_nat (4 - length tuple)) by lia.
  apply (has_exactly_ext (fun n => n < 2 ^ 256 - 1 /\ exists s', runs Xoshiro_Uint64 (N.iter n xoshi_step s) tuple s')).
  { intros n. rewrite (occurs_at_iff _ hout xoshi_step xoshi_pure). reflexivity. }
  apply (orbit_count hnz xoshi_step _ ord256 hnz_step hnz_order xoshi_orbit (fun t => exists s', runs Xoshiro_Uint64 t tuple s')); [now split|].
  pose proof (xoshi_states_with tuple L F) as C.
  assert (B : Forall (eq 0) tuple <-> forallb (N.eqb 0) tuple = true).
  { rewrite forallb_forall, Forall_forall. split; intros H x Hx; [apply N.eqb_eq|apply N.eqb_eq]; auto. }
  destruct (forallb (N.eqb 0) tuple).
  - apply (has_exactly_ext (fun t => (xoshi_typed t /\ exists s', runs Xoshiro_Uint64 t tuple s') /\ t <> hzero)).
    + intros t. unfold hnz. tauto.
    + apply has_exactly_remove; [apply xoshi_eq_dec|exact C|]. split; [apply hzero_typed|]. apply hzero_out. tauto.
  - rewrite N.sub_0_r. eapply has_exactly_ext; [|exact C]. intros t. split; [|intros [[T' _] R]; auto].
    intros [Tt R]. split; [split; [exact Tt|]|exact R]. intros ->. apply hzero_out in R. apply B in R. discriminate.
Qed.

(** the hypotheses can be met, and the numbers are what they look like *)
Example C63_nonvacuous :
  has_exactly (fun n => n < 2 ^ 128 - 1 /\ occurs_at Xoroshiro_Uint64 (mkXoro 1 2) n [3]) 18446744073709551616 /\
  has_exactly (fun n => n < 2 ^ 256 - 1 /\ occurs_at Xoshiro_Uint64 (mkXoshi 1 2 3 4) n [0; 0; 0]) 18446744073709551615 /\
  has_exactly (fun n => n < 2 ^ 256 - 1 /\ occurs_at Xoshiro_Uint64 (mkXoshi 1 2 3 4) n [5; 6; 7; 8]) 1 /\
  occurs_at Xoroshiro_Uint64 (mkXoro 1 2) 0 [3].
Proof.
  split; [|split; [|split]].
  - apply (C63_xoroshiro_values (mkXoro 1 2) 3); [split; reflexivity|discriminate|reflexivity].
  - apply (C63_xoshiro_tuples (mkXoshi 1 2 3 4) [0; 0; 0]); [repeat split; reflexivity|discriminate|cbn; lia|repeat constructor].
  - apply (C63_xoshiro_tuples (mkXoshi 1 2 3 4) [5; 6; 7; 8]); [repeat split; reflexivity|discriminate|cbn; lia|repeat constructor].
  - exists [], (mkXoro 1 2). eexists. split; [reflexivity|]. split; [constructor|]. econstructor; [reflexivity|constructor].
Qed.
