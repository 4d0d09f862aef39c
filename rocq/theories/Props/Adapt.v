(** math/rand adapters and seeding helpers (util.go:43-137, 225-240): C40-C43, and C49 for AdaptCrazy. *)
From Coq Require Import Lia ZifyN ZifyNat ZifyBool.
From Verif Require Import Model.Base Model.GenRead Model.Rng Model.Util Model.Api Model.Xoshiro Spec.Common Spec.Counting Spec.Kinds Spec.States.
From Verif Require Import Proofs.WordLemmas Proofs.ReadProofs Proofs.SaveProofs Proofs.IvWords Proofs.Count Props.Rng Props.Gens.
Local Open Scope N_scope.

(** ** C40 *)
Lemma read_gt8_runs {St} (u : St -> outcome (N * St)) fuel : forall p s xs s', (length p < fuel)%nat -> runs u s xs s' ->
  length xs = need_gt (length p) -> read_gt8_loop u fuel p s = Ret (firstn (length p) (stream_bytes xs), s').
Proof.
  induction fuel as [|fuel IH]; intros p s xs s' Hf Hr Hl; [lia|]. cbn [read_gt8_loop].
  destruct Hr as [s|s x s1 xs s' Hx Hr]; [exfalso; revert Hl; unfold need_gt; cbn [length]; lia|]. rewrite Hx. cbn [bind].
  change (stream_bytes (x :: xs)) with (le_bytes 8 x ++ stream_bytes xs).
  destruct (Nat.ltb_spec 8 (length p)) as [Hp|Hp].
  - rewrite (IH (skipn 8 p) s1 xs s').
    + cbn [bind]. rewrite skipn_length. rewrite firstn_app, le_bytes_length.
      rewrite (firstn_all2 (le_bytes 8 x)) by (rewrite le_bytes_length; lia). reflexivity.
    + rewrite skipn_length. lia.
    + exact Hr.
    + rewrite skipn_length. cbn [length] in Hl. revert Hl. unfold need_gt, ceil8. lia.
  - assert (xs = []) as ->.
    { destruct xs as [|y ys]; [reflexivity|]. exfalso. cbn [length] in Hl. revert Hl. unfold need_gt, ceil8. lia. }
    inversion Hr; subst. rewrite go_copy_le by (rewrite le_bytes_length; lia). cbn [stream_bytes flat_map]. now rewrite app_nil_r.
Qed.
(** Read of the Source64 adapter: max(1, ceil(len/8)) calls of Uint64; byte j is byte (j mod 8) of the
    (j/8)-th value. The source is arbitrary. *)
Theorem C40_source64_bytes {W} (uint64 : W -> outcome (N * W)) w p xs w' :
  runs uint64 w xs w' -> length xs = Nat.max 1 (ceil8 (length p)) ->
  exists q, math642crazy_Read uint64 w p = Ret ((q, length p, None), w') /\ length q = length p /\
    forall j, (j < length p)%nat -> nth j q 0 = byte_of (nth (j / 8) xs 0) (j mod 8).
Proof.
  intros R L. change (Nat.max 1 (ceil8 (length p))) with (need_gt (length p)) in L.
  exists (firstn (length p) (stream_bytes xs)). unfold math642crazy_Read, read_gt8.
  rewrite (read_gt8_runs uint64 (S (length p)) p w xs w') by (assumption || lia). cbn [bind].
  pose proof (need_gt_enough (length p)) as B. rewrite <- L in B.
  split; [reflexivity|]. split; [now apply firstn_stream_length|]. intros j Hj. now apply firstn_stream_nth.
Qed.
(** so RNG over the adapter reproduces the Source64's own stream *)
Theorem C40_rng_follows_source {W} (uint64 : W -> outcome (N * W)) w x w' : uint64 w = Ret (x, w') -> x < 2 ^ 64 ->
  RNG_Uint64 (math642crazy_Read uint64) w = Ret (x, w').
Proof.
  intros E Hx. unfold RNG_Uint64, math642crazy_Read, read_gt8.
  rewrite (read_gt8_runs uint64 _ (zeros 8) w [x] w'); [|cbn; lia|econstructor; [exact E|constructor]|reflexivity].
  cbn [bind zeros repeat length stream_bytes flat_map]. rewrite app_nil_r. rewrite firstn_all2 by (rewrite le_bytes_length; lia).
  rewrite get64_8 by apply le_bytes_length. cbn [bind]. now rewrite le_val_bytes8 by exact Hx.
Qed.
Example C40_nonvacuous : math642crazy_Read (fun s => Ret (s + 256 * s, s + 1)) 1 (zeros 10) = Ret (([1;1;0;0;0;0;0;0;2;2], 10%nat, None), 3).
Proof. reflexivity. Qed.

(** ** C41: the adapter over a plain Source *)
(** the value of 8-byte group g out of n, from the Int63 results xs: a xor (b << 1) of two results, except
    for the last group, which is one Int63 result *)
Definition group_value (n : nat) (xs : list N) (g : nat) : N :=
  if (S g <? n)%nat then N.lxor (nth (2 * g) xs 0) ((2 * nth (2 * g + 1) xs 0) mod 2 ^ 64) else nth (2 * g) xs 0.
Lemma shl64_1 b : shl64 b 1 = (2 * b) mod 2 ^ 64.
Proof. unfold shl64. rewrite trunc64_mod, N.shiftl_mul_pow2. f_equal. change (2 ^ 1) with 2. apply N.mul_comm. Qed.
Lemma math2_loop_runs {W} (int63 : W -> outcome (N * W)) fuel : forall p w xs w', (length p < fuel)%nat -> runs int63 w xs w' ->
  length xs = (2 * need_gt (length p) - 1)%nat ->
  math2crazy_loop int63 fuel p w = Ret (firstn (length p) (stream_bytes (map (group_value (need_gt (length p)) xs) (seq 0 (need_gt (length p))))), w').
Proof.
  induction fuel as [|fuel IH]; intros p w xs w' Hf Hr Hl; [lia|]. cbn [math2crazy_loop].
  destruct Hr as [w|w a w1 xs w' Ha Hr]; [exfalso; revert Hl; unfold need_gt; cbn [length]; lia|].
  destruct (Nat.ltb_spec 8 (length p)) as [Hp|Hp].
  - destruct Hr as [w1|w1 b w2 xs w' Hb Hr]; [exfalso; cbn [length] in Hl; revert Hl; unfold need_gt, ceil8; lia|].
    unfold two_int63. rewrite Ha. cbn [bind]. rewrite Hb. cbn [bind].
    assert (N1 : need_gt (length p) = S (need_gt (length (skipn 8 p)))) by (rewrite skipn_length; unfold need_gt, ceil8; lia).
    rewrite (IH (skipn 8 p) w2 xs w');
      [|rewrite skipn_length; lia|exact Hr|cbn [length] in Hl; revert Hl; rewrite N1; unfold need_gt; lia].
    cbn [bind]. set (m := need_gt (length (skipn 8 p))) in *. rewrite N1. cbn [seq map].
    match goal with |- _ = Ret (firstn _ (stream_bytes (?h :: ?t)), _) =>
      change (stream_bytes (h :: t)) with (le_bytes 8 h ++ stream_bytes t) end.
    rewrite firstn_app, le_bytes_length, (firstn_all2 (le_bytes 8 _)) by (rewrite le_bytes_length; lia).
    rewrite skipn_length. do 2 f_equal. f_equal.
    + unfold group_value. destruct (Nat.ltb_spec 1 (S m)) as [H|H]; [|exfalso; revert H; unfold m, need_gt; lia].
      change (2 * 0 + 1)%nat with 1%nat. change (2 * 0)%nat with 0%nat. cbn [nth]. now rewrite shl64_1.
    + do 2 f_equal. rewrite <- seq_shift, map_map. apply map_ext. intros g. unfold group_value.
      replace (2 * S g)%nat with (S (S (2 * g)))%nat by lia. replace (S (S (2 * g)) + 1)%nat with (S (S (2 * g + 1)))%nat by lia.
      cbn [nth]. change (S (S g) <? S m)%nat with (S g <? m)%nat. reflexivity.
  - assert (N1 : need_gt (length p) = 1%nat) by (unfold need_gt, ceil8; lia). rewrite N1 in *. cbn [length] in Hl.
    destruct xs as [|]; [|cbn [length] in Hl; lia]. inversion Hr; subst. rewrite Ha. cbn [bind].
    rewrite go_copy_le by (rewrite le_bytes_length; lia). cbn [seq map stream_bytes flat_map]. rewrite app_nil_r. reflexivity.
Qed.
Section C41.
  Context {W : Type} (int63 : W -> outcome (N * W)).
  (** 2G-1 calls of Int63, G = max(1, ceil(len/8)): one fewer than two per group, always *)
  Theorem C41_source_bytes w p xs w' : runs int63 w xs w' -> length xs = (2 * Nat.max 1 (ceil8 (length p)) - 1)%nat ->
    exists q, math2crazy_Read int63 w p = Ret ((q, length p, None), w') /\ length q = length p /\
      forall j, (j < length p)%nat -> nth j q 0 = byte_of (group_value (Nat.max 1 (ceil8 (length p))) xs (j / 8)) (j mod 8).
  Proof.
    intros R L. change (Nat.max 1 (ceil8 (length p))) with (need_gt (length p)) in *.
    set (G := need_gt (length p)) in *.
    exists (firstn (length p) (stream_bytes (map (group_value G xs) (seq 0 G)))). unfold math2crazy_Read.
    rewrite (math2_loop_runs int63 (S (length p)) p w xs w') by (assumption || lia). fold G. cbn [bind].
    pose proof (need_gt_enough (length p)) as B. fold G in B.
    assert (LG : length (map (group_value G xs) (seq 0 G)) = G) by (rewrite map_length, seq_length; reflexivity).
    split; [reflexivity|]. split; [apply firstn_stream_length; rewrite LG; exact B|].
    intros j Hj. rewrite firstn_stream_nth by (rewrite ?LG; lia). f_equal.
    assert (HG : (j / 8 < G)%nat) by (apply Nat.div_lt_upper_bound; lia).
    rewrite (nth_indep _ 0 (group_value G xs 0)) by (rewrite LG; exact HG).
    rewrite (map_nth (group_value G xs)), seq_nth by exact HG. reflexivity.
  Qed.
  (** a Source keeps its contract: Int63 is in [0, 2^63) *)
  Hypothesis contract : forall w x w', int63 w = Ret (x, w') -> x < 2 ^ 63.
  (** whenever 8 divides len(p) > 0 the most significant bit of the last byte is 0 *)
  Theorem C41_top_bit_always_0 w p q n e w' : (0 < length p)%nat -> (length p mod 8 = 0)%nat ->
    math2crazy_Read int63 w p = Ret ((q, n, e), w') -> nth (length p - 1) q 0 < 128.
  Proof.
    unfold math2crazy_Read. intros Hp H8 E.
    assert (K : forall fuel p w p' w', math2crazy_loop int63 fuel p w = Ret (p', w') -> (0 < length p)%nat -> (length p mod 8 = 0)%nat ->
      length p' = length p /\ nth (length p - 1) p' 0 < 128).
    { clear - contract. induction fuel as [|fuel IH]; intros p w p' w' E Hp H8; [discriminate|]. cbn [math2crazy_loop] in E.
      destruct (Nat.ltb_spec 8 (length p)) as [Hl|Hl].
      - destruct (two_int63 int63 w) as [[x w1]| |]; cbn [bind] in E; try discriminate E.
        destruct (math2crazy_loop int63 fuel (skipn 8 p) w1) as [[r w2]| |] eqn:Er; cbn [bind] in E; try discriminate E. assert (p' = le_bytes 8 x ++ r) as -> by congruence.
        apply IH in Er; [|rewrite skipn_length; lia|rewrite skipn_length; lia]. rewrite skipn_length in Er. destruct Er as [Lr Nr].
        split; [rewrite app_length, le_bytes_length; lia|]. rewrite app_nth2 by (rewrite le_bytes_length; lia). rewrite le_bytes_length.
        replace (length p - 1 - 8)%nat with (length p - 8 - 1)%nat by lia. exact Nr.
      - assert (L8 : length p = 8%nat) by (clear - Hp H8 Hl; lia).
        destruct (int63 w) as [[x w1]| |] eqn:Ex; cbn [bind] in E; try discriminate E. assert (p' = go_copy p (le_bytes 8 x)) as -> by congruence. apply contract in Ex.
        rewrite go_copy_le by (rewrite le_bytes_length; lia). rewrite L8, firstn_all2 by (rewrite le_bytes_length; lia).
        split; [apply le_bytes_length|]. rewrite le_bytes_nth by lia. change (256 ^ N.of_nat (8 - 1)) with (2 ^ 56).
        assert (x / 2 ^ 56 < 128) by (apply N.div_lt_upper_bound; [discriminate|exact Ex]). rewrite N.mod_small; lia. }
    destruct (math2crazy_loop int63 (S (length p)) p w) as [[r w1]| |] eqn:Er; cbn [bind] in E; try discriminate E. injection E as <- <- <- <-.
    apply K in Er; auto. apply Er.
  Qed.
  (** so RNG{AdaptRand(src)}.Uint64() is just Int63() and never reaches 2^63 *)
  Theorem C41_rng_uint64_is_int63 w x w' : int63 w = Ret (x, w') -> RNG_Uint64 (math2crazy_Read int63) w = Ret (x, w') /\ x < 2 ^ 63.
  Proof.
    intros E. pose proof (contract _ _ _ E) as Hx. split; [|exact Hx]. unfold RNG_Uint64, math2crazy_Read. cbn [zeros repeat length math2crazy_loop Nat.ltb Nat.leb].
    rewrite E. cbn [bind]. rewrite go_copy_le by (rewrite le_bytes_length; cbn; lia). rewrite firstn_all2 by (rewrite le_bytes_length; cbn; lia).
    rewrite get64_8 by apply le_bytes_length. cbn [bind]. rewrite le_val_bytes8; [reflexivity|]. unfold w64. clear - Hx. lia.
  Qed.
End C41.
(** A group made of two calls is uniform: each 64-bit value comes from exactly 2^62 of the 2^126 pairs. *)
Theorem C41_two_calls_uniform v : v < 2 ^ 64 ->
  has_exactly (fun ab => fst ab < 2 ^ 63 /\ snd ab < 2 ^ 63 /\ N.lxor (fst ab) ((2 * snd ab) mod 2 ^ 64) = v) (2 ^ 62).
Proof.
  intros Hv.
  assert (T : forall x y, x < 2 ^ 64 -> y < 2 ^ 64 -> N.testbit x 63 = N.testbit y 63 -> N.lxor x y < 2 ^ 63).
  { intros x y Hx Hy E. apply bits_bound. intros k Hk. rewrite N.lxor_spec. destruct (N.eq_dec k 63) as [->|Hn].
    - rewrite E. apply xorb_nilpotent.
    - rewrite (testbit_w64 x), (testbit_w64 y) by (assumption || lia). reflexivity. }
  assert (B63 : forall b, b < 2 ^ 63 -> N.testbit ((2 * b) mod 2 ^ 64) 63 = N.testbit b 62).
  { intros b _. rewrite N.mod_pow2_bits_low by reflexivity. change 63 with (N.succ 62). now rewrite N.testbit_even_succ by lia. }
  set (t := if N.testbit v 63 then 2 ^ 62 else 0).
  assert (M : forall b, (2 * b) mod 2 ^ 64 < 2 ^ 64) by (intros; apply N.mod_lt; discriminate).
  apply (has_exactly_bij (fun c => c < 2 ^ 62) _ (fun c => (N.lxor v ((2 * (c + t)) mod 2 ^ 64), c + t)) (fun ab => snd ab - t)); [| | | |apply has_exactly_below].
  - intros c Hc. cbn [fst snd]. assert (Hb : c + t < 2 ^ 63) by (unfold t; destruct (N.testbit v 63); change (2 ^ 63) with (2 ^ 62 + 2 ^ 62); [lia|generalize dependent (2 ^ 62); lia]).
    split; [|split; [exact Hb|]].
    + apply T; [exact Hv|apply M|]. rewrite B63 by exact Hb. unfold t in *. destruct (N.testbit v 63) eqn:Ev.
      * replace (c + 2 ^ 62) with (c + 1 * 2 ^ 62) by lia. rewrite N.testbit_eqb. rewrite N.div_add, N.div_small by (discriminate || exact Hc). reflexivity.
      * rewrite N.add_0_r. symmetry. apply (testbit_above _ 62); [exact Hc|lia].
    + rewrite N.lxor_assoc, N.lxor_nilpotent. apply N.lxor_0_r.
  - intros [a b] (Ha & Hb & E). cbn [fst snd] in *. unfold t. assert (E63 : N.testbit v 63 = N.testbit b 62).
    { rewrite <- E, N.lxor_spec, B63 by exact Hb. rewrite (testbit_above a 63 63) by (assumption || lia). apply xorb_false_l. }
    rewrite E63. destruct (N.testbit b 62) eqn:Eb.
    + change (2 ^ 63) with (2 ^ 62 + 2 ^ 62) in Hb. lia.
    + rewrite N.sub_0_r. apply bits_bound. intros k Hk. destruct (N.eq_dec k 62) as [->|Hn]; [exact Eb|]. apply (testbit_above b 63); [exact Hb|lia].
  - intros c Hc. cbn [snd]. lia.
  - intros [a b] (Ha & Hb & E). cbn [fst snd] in *. assert (E63 : N.testbit v 63 = N.testbit b 62).
    { rewrite <- E, N.lxor_spec, B63 by exact Hb. rewrite (testbit_above a 63 63) by (assumption || lia). apply xorb_false_l. }
    assert (Ht : t <= b).
    { unfold t. rewrite E63. destruct (N.testbit b 62) eqn:Eb; [|lia]. apply N.nlt_ge. intros Hlt. rewrite (testbit_above b 62 62) in Eb by (assumption || lia). discriminate. }
    rewrite N.sub_add by exact Ht. f_equal. rewrite <- E. rewrite N.lxor_assoc, N.lxor_nilpotent. apply N.lxor_0_r.
Qed.
(** A final group of r < 8 bytes, made of one call, is uniform too: each r-byte string comes from 2^(63-8r) of the 2^63 results. *)
Theorem C41_incomplete_last_group_uniform r bs : r < 8 -> bytes_of_length r bs ->
  has_exactly (fun x => x < 2 ^ 63 /\ forall i, (i < length bs)%nat -> byte_of x i = nth i bs 0) (2 ^ (63 - 8 * r)).
Proof.
  intros Hr [L B]. assert (Hb : le_val bs < 256 ^ r) by (rewrite <- L; now apply le_val_bound).
  assert (E63 : 2 ^ 63 = 2 ^ (63 - 8 * r) * 256 ^ r).
  { change 256 with (2 ^ 8). rewrite <- N.pow_mul_r, <- N.pow_add_r. f_equal. lia. }
  apply (has_exactly_ext (fun x => x < 2 ^ (63 - 8 * r) * 256 ^ r /\ x mod 256 ^ r = le_val bs)); [|now apply has_exactly_mod].
  intros x. rewrite <- E63. apply and_iff_compat_l.
  assert (LB : le_val (le_bytes (length bs) x) = x mod 256 ^ r) by (rewrite le_val_bytes, L; reflexivity).
  split.
  - intros E i Hi. assert (Q : le_bytes (length bs) x = bs).
    { rewrite <- LB in E. rewrite <- (le_bytes_val bs B) at 2. rewrite <- E. set (l := le_bytes (length bs) x) in *.
      replace (length bs) with (length l) by apply le_bytes_length. symmetry. apply le_bytes_val, le_bytes_isbyte. }
    unfold byte_of. rewrite <- (le_bytes_nth (length bs)) by exact Hi. now rewrite Q.
  - intros E. rewrite <- LB. f_equal. apply (list_eq_nth 0); [apply le_bytes_length|]. rewrite le_bytes_length. intros i Hi.
    rewrite le_bytes_nth by exact Hi. now apply E.
Qed.
Example C41_nonvacuous : let src := fun s => Ret ((2 ^ 62 + s) mod 2 ^ 63, s + 1) in
  (forall w x w', src w = Ret (x, w') -> x < 2 ^ 63) /\
  math2crazy_Read src 0 (zeros 16) = Ret (([2;0;0;0;0;0;0;192; 2;0;0;0;0;0;0;64], 16%nat, None), 3).
Proof. split; [|reflexivity]. intros w x w' E. injection E as <- <-. now apply N.mod_lt. Qed.

(** ** C42 *)
Definition int64_range (z : Z) : Prop := (- 2 ^ 63 <= z < 2 ^ 63)%Z.
Lemma to_int64_spec x : x < 2 ^ 64 -> int64_range (to_int64 x) /\ (to_int64 x mod 2 ^ 64 = Z.of_N x)%Z.
Proof.
  unfold to_int64, int64_range. intros H. destruct (N.ltb_spec x 0x8000000000000000) as [Hx|Hx].
  - split; [lia|]. apply Z.mod_small. lia.
  - split; [lia|]. symmetry. apply (Z.mod_unique _ _ (-1)); lia.
Qed.
Lemma int64_unique a b : int64_range a -> int64_range b -> (a mod 2 ^ 64 = b mod 2 ^ 64)%Z -> a = b.
Proof. unfold int64_range. intros Ha Hb E. rewrite (Z.div_mod a (2 ^ 64)), (Z.div_mod b (2 ^ 64)) by discriminate. rewrite E.
  pose proof (Z.mod_pos_bound b (2 ^ 64) eq_refl) as B. pose proof (Z.div_mod a (2 ^ 64)) as Ea. pose proof (Z.div_mod b (2 ^ 64)) as Eb.
  rewrite E in Ea. specialize (Ea ltac:(discriminate)). specialize (Eb ltac:(discriminate)). lia.
Qed.
(** SeedIV of both adapters: exactly one Seed call, with the int64 whose two's complement bytes are the first 8
    bytes of iv (zero-padded) *)
Theorem C42_adapter_seediv {W} (seed : W -> Z -> outcome W) w iv : Forall isbyte iv ->
  exists z, int64_range z /\ (z mod 2 ^ 64 = Z.of_N (iv_word iv 0))%Z /\ math2crazy_SeedIV seed w iv = seed w z.
Proof.
  intros B. exists (to_int64 (iv_word iv 0)). pose proof (to_int64_spec (iv_word iv 0) (iv_word_w iv 0 B)) as [R E].
  split; [exact R|]. split; [exact E|]. unfold math2crazy_SeedIV. rewrite get64_padded. reflexivity.
Qed.
Theorem C42_later_bytes_ignored {W} (seed : W -> Z -> outcome W) w iv iv' : firstn 8 iv = firstn 8 iv' ->
  math2crazy_SeedIV seed w iv = math2crazy_SeedIV seed w iv'.
Proof. intros E. unfold math2crazy_SeedIV. rewrite !get64_padded. now rewrite E. Qed.
(** SeedInt64: one SeedIV call with the 8 little-endian two's complement bytes *)
Theorem C42_seedint64 {W} (seedIV : W -> list N -> outcome W) w x :
  exists b, length b = 8%nat /\ Forall isbyte b /\ Z.of_N (iv_word b 0) = (x mod 2 ^ 64)%Z /\ SeedInt64 seedIV w x = seedIV w b.
Proof.
  exists (le_bytes 8 (to_uint64 x)). split; [apply le_bytes_length|]. split; [apply le_bytes_isbyte|].
  assert (U : w64 (to_uint64 x)).
  { unfold w64, to_uint64. pose proof (Z.mod_pos_bound x (2 ^ 64) eq_refl). lia. }
  split.
  - unfold iv_word. change (8 * 0)%nat with 0%nat. rewrite ?skipn_O. rewrite firstn_all2 by (rewrite le_bytes_length; lia). rewrite le_val_bytes8 by exact U.
    unfold to_uint64. apply Z2N.id. apply Z.mod_pos_bound. reflexivity.
  - unfold SeedInt64. change (put64 (zeros 8) 0 (to_uint64 x)) with (put64 ([] ++ zeros 8 ++ []) (length (@nil N)) (to_uint64 x)).
    rewrite put64_at by reflexivity. cbn [bind app]. now rewrite app_nil_r.
Qed.
(** The two conversions are inverse to each other. *)
Theorem C42_seed_through_both {W} (seed : W -> Z -> outcome W) w x : int64_range x ->
  SeedInt64 (math2crazy_SeedIV seed) w x = seed w x.
Proof.
  intros R. destruct (C42_seedint64 (math2crazy_SeedIV seed) w x) as (b & _ & B & E & ->).
  destruct (C42_adapter_seediv seed w b B) as (z & Rz & Ez & ->). f_equal. apply int64_unique; auto. congruence.
Qed.
Theorem C42_seediv_through_both {W} (seedIV : W -> list N -> outcome W) w iv : length iv = 8%nat -> Forall isbyte iv ->
  math2crazy_SeedIV (SeedInt64 seedIV) w iv = seedIV w iv.
Proof.
  intros L B. destruct (C42_adapter_seediv (SeedInt64 seedIV) w iv B) as (z & _ & Ez & ->).
  destruct (C42_seedint64 seedIV w z) as (b & Lb & Bb & E & ->). f_equal.
  rewrite Ez in E. apply N2Z.inj in E. revert E. unfold iv_word. change (8 * 0)%nat with 0%nat. rewrite ?skipn_O. rewrite !firstn_all2 by lia. intros E.
  rewrite <- (le_bytes_val b Bb), <- (le_bytes_val iv B). congruence.
Qed.
(** CryptoSeeded: SeedIV is called once, with exactly the n bytes that crypto/rand delivered; negative n panics *)
Theorem C42_cryptoseeded {W} (seedIV : W -> list N -> outcome W) (rnd : reader W) w n p c e w' : (0 <= n <= 2 ^ 48)%Z ->
  rnd w (zeros (Z.to_nat n)) = Ret ((p, c, e), w') -> CryptoSeeded seedIV rnd w n = seedIV w' p.
Proof.
  intros H E. unfold CryptoSeeded, make_bytes. destruct (Z.ltb_spec n 0); [lia|].
  destruct (N.leb_spec (Z.to_N n) go_max_alloc) as [_|Hb]; [|unfold go_max_alloc in Hb; exfalso; lia]. cbn [bind].
  rewrite Z_N_nat. rewrite E. reflexivity.
Qed.
Theorem C42_cryptoseeded_panics {W} (seedIV : W -> list N -> outcome W) (rnd : reader W) w n : (n < 0)%Z -> CryptoSeeded seedIV rnd w n = Panic.
Proof. intros H. unfold CryptoSeeded. destruct (Z.ltb_spec n 0); [reflexivity|lia]. Qed.
Example C42_nonvacuous : math2crazy_SeedIV (fun _ z => Ret z) 0%Z [254;255;255;255;255;255;255;255;9] = Ret (-2)%Z /\
  SeedInt64 (fun _ b => Ret b) [] (-2)%Z = Ret [254;255;255;255;255;255;255;255] /\ int64_range (-2).
Proof. split; [reflexivity|]. split; [reflexivity|]. unfold int64_range. lia. Qed.

(** ** C43 *)
Section C43.
  Context {W : Type} (read : reader W) (seedIV : W -> list N -> outcome W).
  Theorem C43_wrapped_uint64 w : crazy2math_Uint64 read w = RNG_Uint64 read w.
  Proof. reflexivity. Qed.
  (** Int63 is the RNG value shifted right once, so it is in [0, 2^63) (C49), and costs one 8-byte Read *)
  Theorem C43_wrapped_int63 w p n e w' : go_reader read -> read w (zeros 8) = Ret ((p, n, e), w') ->
    exists x, RNG_Uint64 read w = Ret (x, w') /\ crazy2math_Int63 read w = Ret (x / 2, w') /\ x / 2 < 2 ^ 63.
  Proof.
    intros G E. destruct (C25_uint64_decodes read w p n e w' G E) as (x & Ex & Hx & _). exists x. split; [exact Ex|].
    unfold crazy2math_Int63. rewrite Ex. cbn [bind]. split; [unfold shr64; now rewrite N.shiftr_div_pow2|].
    apply N.div_lt_upper_bound; [discriminate|exact Hx].
  Qed.
  Theorem C43_wrapped_seed w x : crazy2math_Seed seedIV w x = SeedInt64 seedIV w x.
  Proof. reflexivity. Qed.
End C43.
(** Interface dispatch. *)
Theorem C43_adaptrand_type src : is_Source (method_set src) = true -> is_Seeder (method_set (AdaptRand src)) = true.
Proof.
  intros _. unfold AdaptRand. destruct (is_Seeder (method_set src)) eqn:E; [exact E|]. destruct (is_Source64 (method_set src)); reflexivity.
Qed.
Theorem C43_adaptcrazy_type src : is_Seeder (method_set src) = true -> is_Source64 (method_set (AdaptCrazy src)) = true.
Proof. intros _. unfold AdaptCrazy. destruct (is_Source64 (method_set src)) eqn:E; [exact E|reflexivity]. Qed.
Theorem C43_adaptrand64_type src : is_Source64 (method_set src) = true -> is_Seeder (method_set (AdaptRand64 src)) = true.
Proof. intros _. unfold AdaptRand64. destruct (is_Seeder (method_set src)) eqn:E; [exact E|reflexivity]. Qed.
(** a value that already implements the wanted interface comes back unchanged, and only then *)
Theorem C43_adaptrand_identity src : AdaptRand src = src <-> is_Seeder (method_set src) = true.
Proof.
  unfold AdaptRand. destruct (is_Seeder (method_set src)) eqn:E; [tauto|]. split; [|discriminate]. intros H. exfalso.
  destruct (is_Source64 (method_set src)); rewrite <- H in E; discriminate E.
Qed.
Theorem C43_adaptcrazy_identity src : AdaptCrazy src = src <-> is_Source64 (method_set src) = true.
Proof.
  unfold AdaptCrazy. destruct (is_Source64 (method_set src)) eqn:E; [tauto|]. split; [|discriminate]. intros H. exfalso.
  rewrite <- H in E; discriminate E.
Qed.
(** AdaptRand prefers the Source64 adapter exactly when the Source has Uint64 and is not a Seeder *)
Theorem C43_adaptrand_choice src : is_Source (method_set src) = true -> is_Seeder (method_set src) = false ->
  AdaptRand src = if m_Uint64 (method_set src) then Math642crazy src else Math2crazy src.
Proof. intros H1 H2. unfold AdaptRand, is_Source64. now rewrite H2, H1. Qed.
(** no adapter is stacked on an adapter, except AdaptCrazy on the plain-Source adapter *)
Theorem C43_no_stacking src : is_Source (method_set src) = true ->
  AdaptRand (AdaptRand src) = AdaptRand src /\ AdaptCrazy (AdaptCrazy src) = AdaptCrazy src /\ AdaptRand (AdaptCrazy src) = AdaptCrazy src \/
  exists m, AdaptCrazy src = src /\ src = Plain m /\ m_Read m && m_SeedIV m = false.
Proof.
  intros Hs. rewrite !C43_adaptrand_identity, C43_adaptcrazy_identity.
  destruct (is_Source64 (method_set src)) eqn:E.
  - assert (EC : AdaptCrazy src = src) by (now apply C43_adaptcrazy_identity). rewrite EC.
    destruct (is_Seeder (method_set src)) eqn:Es.
    + left. split; [now apply C43_adaptrand_type|]. split; [exact E|exact eq_refl].
    + right. destruct src as [m|v|v|v]; cbn in Es; try discriminate Es. exists m. auto.
  - left. split; [now apply C43_adaptrand_type|]. unfold AdaptCrazy. rewrite E. split; reflexivity.
Qed.
(** Among the built-in generators only Xoshiro is wrapped; all are Seeders. *)
Theorem C43_builtin_generators : AdaptCrazy v_LFG = v_LFG /\ AdaptCrazy v_MT64 = v_MT64 /\ AdaptCrazy v_Xoroshiro = v_Xoroshiro /\
  AdaptCrazy v_Rexoroshiro = v_Rexoroshiro /\ AdaptCrazy v_Xoshiro = Crazy2math v_Xoshiro /\
  forall v, In v [v_LFG; v_MT64; v_Xoroshiro; v_Rexoroshiro; v_Xoshiro] -> is_Seeder (method_set v) = true.
Proof. repeat (split; [reflexivity|]). intros v H. repeat (destruct H as [<-|H]; [reflexivity|]). destruct H. Qed.
(** The wrapper around Xoshiro has Xoshiro's own Uint64 stream, and Int63 is its upper 63 bits, as the other generators' *)
Theorem C43_xoshiro_wrapped s x s' : reachable gXoshiro s -> Xoshiro_Uint64 s = Ret (x, s') ->
  crazy2math_Uint64 Xoshiro_Read s = Ret (x, s') /\ crazy2math_Int63 Xoshiro_Read s = Ret (x / 2, s').
Proof.
  intros R E. assert (K : RNG_Uint64 Xoshiro_Read s = Ret (x, s')).
  { pose proof (rng_gt8_step_all gXoshiro s eq_refl (KindProofs.reachable_inv gXoshiro s R)) as K. cbn in K. rewrite <- E. exact K. }
  unfold crazy2math_Uint64, crazy2math_Int63. rewrite K. split; [reflexivity|]. cbn [bind]. unfold shr64. now rewrite N.shiftr_div_pow2.
Qed.
Example C43_nonvacuous : is_Source (method_set (Plain (Build_methods false false true true false))) = true /\
  AdaptRand (Plain (Build_methods false false true true false)) = Math2crazy (Plain (Build_methods false false true true false)) /\
  AdaptCrazy (Math2crazy (Plain (Build_methods false false true true false))) = Crazy2math (Math2crazy (Plain (Build_methods false false true true false))).
Proof. repeat split. Qed.
