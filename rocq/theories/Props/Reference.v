(** C53: the generators are the published ones, and their saved states are the published state words. *)
From Coq Require Import Lia ZifyN ZifyNat ZifyBool.
From Verif Require Import Model.Base Model.Xoroshiro Model.Xoshiro Model.Lfg Model.Mt64 Model.Api Spec.Common Spec.States
  Spec.Kinds Spec.MtRef Spec.RefGens.
From Verif Require Import Proofs.WordLemmas Proofs.ReadProofs Proofs.SaveProofs Proofs.XoroProofs Proofs.MtProofs Proofs.MtSeed
  Proofs.KindProofs Proofs.XoroSeed Proofs.XoshiSeed.
Local Open Scope N_scope.

Lemma ref_rotl_eq x k : w64 x -> 0 < k < 64 -> rotl64 x k = ref_rotl x k.
Proof.
  intros Hx Hk. unfold ref_rotl.
  assert (Hd : x / 2 ^ (64 - k) < 2 ^ k).
  { apply N.div_lt_upper_bound; [apply N.pow_nonzero; discriminate|].
    rewrite <- N.pow_add_r. replace (64 - k + k) with 64 by lia. exact Hx. }
  assert (E : (x * 2 ^ k) mod 2 ^ 64 = (x mod 2 ^ (64 - k)) * 2 ^ k).
  { replace (2 ^ 64) with (2 ^ (64 - k) * 2 ^ k).
    - rewrite N.mul_mod_distr_r by (apply N.pow_nonzero; discriminate). reflexivity.
    - rewrite <- N.pow_add_r. f_equal. lia. }
  unfold rotl64, shl64, shr64. rewrite N.shiftl_mul_pow2, N.shiftr_div_pow2, trunc64_mod, E.
  apply lor_add_disjoint. exact Hd.
Qed.
Lemma shl64_ref x k : shl64 x k = (x * 2 ^ k) mod 2 ^ 64.
Proof. unfold shl64. now rewrite trunc64_mod, N.shiftl_mul_pow2. Qed.

Lemma words_le_stream ws : words_le ws = stream_bytes ws.
Proof.
  unfold words_le, stream_bytes. apply flat_map_ext. intros w.
  apply (list_eq_nth 0); [reflexivity|]. intros i Hi. rewrite map_length, seq_length in Hi.
  rewrite le_bytes_nth by exact Hi.
  rewrite (nth_indep _ 0 (byte_of w 0)) by (rewrite map_length, seq_length; exact Hi).
  rewrite map_nth, seq_nth by exact Hi. reflexivity.
Qed.

Lemma xoshiro_next_ref s0 s1 s2 s3 : w64 s0 -> w64 s1 -> w64 s2 -> w64 s3 ->
  Xoshiro_next (mkXoshi s0 s1 s2 s3) =
    (fst (xoshiro256ss (s0, s1, s2, s3)), let '(a, b, c, d) := snd (xoshiro256ss (s0, s1, s2, s3)) in mkXoshi a b c d).
Proof.
  intros H0 H1 H2 H3. cbn [Xoshiro_next xoshiro256ss fst snd].
  rewrite <- shl64_ref, <- !mul64_mod, <- !ref_rotl_eq; [reflexivity| | | |]; try (split; reflexivity).
  - apply lxor_w; assumption.
  - apply mul64_w.
Qed.
Lemma xoroshiro_next_ref s0 s1 : w64 s0 -> w64 s1 ->
  Xoroshiro_next (mkXoro s0 s1) =
    (fst (xoroshiro128p (s0, s1)), let '(a, b) := snd (xoroshiro128p (s0, s1)) in mkXoro a b).
Proof.
  intros H0 H1. unfold Xoroshiro_next, xoroshiro128p. cbn [xo0 xo1 fst snd].
  rewrite <- shl64_ref, <- !add64_mod, <- !ref_rotl_eq; [reflexivity| | | |]; try (split; reflexivity); try assumption.
  apply lxor_w; assumption.
Qed.

Definition w64_2 (s : N * N) : Prop := w64 (fst s) /\ w64 (snd s).
Definition toxoro (s : N * N) : xoro := mkXoro (fst s) (snd s).
Definition w64_4 (s : N * N * N * N) : Prop := let '(a, b, c, d) := s in w64 a /\ w64 b /\ w64 c /\ w64 d.
Definition toxoshi (s : N * N * N * N) : xoshi := let '(a, b, c, d) := s in mkXoshi a b c d.
Lemma toxoro_step s : w64_2 s -> Xoroshiro_Uint64 (toxoro s) = Ret (fst (xoroshiro128p s), toxoro (snd (xoroshiro128p s))) /\
  w64_2 (snd (xoroshiro128p s)).
Proof.
  destruct s as [a b]. intros [Ha Hb]; cbn [fst snd] in *. unfold Xoroshiro_Uint64, toxoro; cbn [fst snd].
  rewrite xoroshiro_next_ref by assumption. cbn [xoroshiro128p fst snd]. split; [reflexivity|].
  rewrite <- shl64_ref, <- !ref_rotl_eq; try (split; reflexivity); try assumption; try (apply lxor_w; assumption).
  split; cbn [fst snd]; repeat first [apply lxor_w|apply rotl64_w|apply shl64_w|assumption].
Qed.
Lemma toxoshi_step s : w64_4 s -> Xoshiro_Uint64 (toxoshi s) = Ret (fst (xoshiro256ss s), toxoshi (snd (xoshiro256ss s))) /\
  w64_4 (snd (xoshiro256ss s)).
Proof.
  destruct s as [[[a b] c] d]. intros (Ha & Hb & Hc & Hd). unfold Xoshiro_Uint64, toxoshi; cbn [fst snd].
  rewrite xoshiro_next_ref by assumption. cbn [xoshiro256ss fst snd]. split; [reflexivity|].
  rewrite <- shl64_ref, <- !ref_rotl_eq; try (split; reflexivity); try assumption; try (apply lxor_w; assumption).
  cbn [w64_4]. repeat split; repeat first [apply lxor_w|apply rotl64_w|apply shl64_w|assumption].
Qed.
Lemma ref_runs {S T} (u : T -> outcome (N * T)) (next : S -> N * S) (tr : S -> T) (ok : S -> Prop) :
  (forall s, ok s -> u (tr s) = Ret (fst (next s), tr (snd (next s))) /\ ok (snd (next s))) ->
  forall n s, ok s -> runs u (tr s) (ref_outputs next n s) (tr (ref_after next n s)) /\ ok (ref_after next n s).
Proof.
  intros H n. induction n as [|n IH]; intros s Hs; cbn [ref_outputs ref_after]; [split; [constructor|exact Hs]|].
  destruct (H s Hs) as [E Hs']. destruct (IH _ Hs') as [R O]. split; [|exact O]. econstructor; [exact E|exact R].
Qed.

(** ** C53 *)
(** Whatever was in the object before: after restoring the 32 bytes of four words it returns the outputs of
    xoshiro256** from those words, and Save then writes the reference's state words. *)
Theorem C53_xoshiro_is_xoshiro256ss s0 s1 s2 s3 : w64 s0 -> w64 s1 -> w64 s2 -> w64 s3 ->
  forall W (read : reader W) h w w', read w (zeros 32) = Ret ((words_le [s0; s1; s2; s3], 32%nat, None), w') ->
  exists s, Xoshiro_Restore read h w = Ret ((32%nat, None), s, w') /\
    forall n, exists t, runs Xoshiro_Uint64 s (ref_outputs xoshiro256ss n (s0, s1, s2, s3)) t /\
      forall V (write : writer V) v, Xoshiro_Save write t v =
        let '(t0, t1, t2, t3) := ref_after xoshiro256ss n (s0, s1, s2, s3) in write v (words_le [t0; t1; t2; t3]).
Proof.
  intros H0 H1 H2 H3 W read h w w' E. exists (mkXoshi s0 s1 s2 s3). split.
  - rewrite words_le_stream in E. apply (Xoshiro_Restore_saved _ _ _ _ _ None); [repeat split; assumption|auto|exact E].
  - intros n. destruct (ref_runs Xoshiro_Uint64 xoshiro256ss toxoshi w64_4 toxoshi_step n (s0, s1, s2, s3)) as [R O];
      [repeat split; assumption|].
    eexists. split; [exact R|]. intros V write v. destruct (ref_after _ _ _) as [[[a b] c] d].
    rewrite words_le_stream. cbn [toxoshi]. reflexivity.
Qed.
Theorem C53_xoroshiro_is_xoroshiro128p s0 s1 : w64 s0 -> w64 s1 ->
  forall W (read : reader W) h w w', read w (zeros 16) = Ret ((words_le [s0; s1], 16%nat, None), w') ->
  exists s, Xoroshiro_Restore read h w = Ret ((16%nat, None), s, w') /\
    Rexoroshiro_Restore read h w = Ret ((16%nat, None), s, w') /\
    forall n, exists t, runs Xoroshiro_Uint64 s (ref_outputs xoroshiro128p n (s0, s1)) t /\
      runs Rexoroshiro_Uint64 s (map ref_bswap (ref_outputs xoroshiro128p n (s0, s1))) t /\
      forall V (write : writer V) v, let '(t0, t1) := ref_after xoroshiro128p n (s0, s1) in
        Xoroshiro_Save write t v = write v (words_le [t0; t1]) /\
        Rexoroshiro_Save write t v = write v (words_le [t0; t1]).
Proof.
  intros H0 H1 W read h w w' E. exists (mkXoro s0 s1). 
  assert (E1 : Xoroshiro_Restore read h w = Ret ((16%nat, None), mkXoro s0 s1, w')).
  { rewrite words_le_stream in E. apply (Xoroshiro_Restore_saved _ _ _ _ _ None); [repeat split; assumption|auto|exact E]. }
  split; [exact E1|]. split; [exact E1|].
  intros n. destruct (ref_runs Xoroshiro_Uint64 xoroshiro128p toxoro w64_2 toxoro_step n (s0, s1)) as [R O]; [split; assumption|].
  eexists. split; [exact R|]. split.
  - clear O. revert R. generalize (ref_outputs xoroshiro128p n (s0, s1)). generalize (toxoro (ref_after xoroshiro128p n (s0, s1))).
    change (mkXoro s0 s1) with (toxoro (s0, s1)). generalize (toxoro (s0, s1)). clear.
    intros s t xs R. induction R as [|s x s1 xs s' E R IH]; cbn [map]; econstructor; [|exact IH].
    unfold Rexoroshiro_Uint64. rewrite E. cbn [bind]. f_equal. f_equal.
    unfold rev_bytes64, ref_bswap. cbn [le_bytes rev app le_val map seq fold_right].
    unfold byte_of. rewrite !land255, !shiftr8, !N.div_div by discriminate. cbn [N.of_nat Nat.sub Pos.of_succ_nat Pos.succ].
    change (256 ^ 0) with 1. rewrite N.div_1_r. 
    change (256 * (256 * (256 * (256 * (256 * (256 * 256)))))) with (256 ^ 7).
    change (256 * (256 * (256 * (256 * (256 * 256))))) with (256 ^ 6).
    change (256 * (256 * (256 * (256 * 256)))) with (256 ^ 5).
    change (256 * (256 * (256 * 256))) with (256 ^ 4).
    change (256 * (256 * 256)) with (256 ^ 3). change (256 * 256) with (256 ^ 2).
    change (256 ^ 1) with 256.
    generalize ((x / 256 ^ 7) mod 256) ((x / 256 ^ 6) mod 256) ((x / 256 ^ 5) mod 256) ((x / 256 ^ 4) mod 256)
      ((x / 256 ^ 3) mod 256) ((x / 256 ^ 2) mod 256) ((x / 256) mod 256) (x mod 256). clear. intros. lia.
  - intros V write v. destruct (ref_after _ _ _) as [a b]. rewrite words_le_stream. split; reflexivity.
Qed.

(** MT64: 312 words followed by the position (high byte first) of the next word of the current block; the values
    then returned are the tempered words of the recurrence started with those words, from that position on (a
    position of 312 or more means the block is used up) *)
Theorem C53_mt64_format ws i : length ws = 312%nat -> Forall w64 ws -> i < 65536 ->
  forall W (read : reader W) h w n w', reachable gMT64 h ->
  read w (zeros 2498) = Ret ((words_le ws ++ [i / 256; i mod 256], n, None), w') ->
  exists g, MT64_Restore read h w = Ret ((n, None), g, w') /\
    (forall V (write : writer V) v, MT64_Save write g v = write v (words_le ws ++ [i / 256; i mod 256])) /\
    forall u, mt_recurrence u -> (forall k, (k < 312)%nat -> u k = nth k ws 0) ->
      forall m, exists t, runs MT64_Uint64 g (map (fun k => ref_temper (u (Nat.min (N.to_nat i) 312 + k)%nat)) (seq 0 m)) t.
Proof.
  intros L Hw Hi W read h w n w' Hh E. exists (mkMT i ws).
  assert (T : mt_typed (mkMT i ws)) by (split; assumption).
  assert (B : mt_bytes (mkMT i ws) = words_le ws ++ [i / 256; i mod 256]).
  { unfold mt_bytes; cbn [ms mi]. rewrite words_le_stream, !land255, shiftr8.
    f_equal. f_equal. apply N.mod_small. apply N.div_lt_upper_bound; lia. }
  split; [|split].
  - apply MT64_Restore_saved; [split; [exact T|exact Hi]|]. rewrite B. exact E.
  - intros V write v. rewrite MT64_Save_spec, B by exact T. reflexivity.
  - intros u R U m.
    assert (Wu : forall k, w64 (u k)).
    { apply (rec_w u R). intros k Hk. rewrite U by exact Hk. rewrite Forall_forall in Hw. apply Hw, nth_In. lia. }
    pose proof (mt_typed_at u (mkMT i ws) T U) as A. cbn [mi] in A.
    revert A. generalize (Nat.min (N.to_nat i) 312). generalize (mkMT i ws). clear - R Wu.
    induction m as [|m IH]; intros g k A; cbn [seq map]; [eexists; constructor|].
    destruct (mt_at_step u R Wu k g A) as (g' & E & A'). destruct (IH g' (S k) A') as (t & Rt).
    exists t. econstructor.
    + rewrite E, temper_ref, Nat.add_0_r. reflexivity.
    + rewrite <- seq_shift, map_map. erewrite map_ext; [exact Rt|]. intros j. cbv beta. do 2 f_equal. lia.
Qed.

(** the published test vector of xoshiro256** from state 1, 2, 3, 4 (rand_xoshiro and others) *)
Example C53_vector : ref_outputs xoshiro256ss 10 (1, 2, 3, 4) =
  [11520; 0; 1509978240; 1215971899390074240; 1216172134540287360; 607988272756665600; 16172922978634559625;
   8476171486693032832; 10595114339597558777; 2904607092377533576].
Proof. vm_compute. reflexivity. Qed.
Example C53_nonvacuous : length (words_le [1; 2; 3; 4]) = 32%nat /\
  fun_reader (fun _ => (words_le [1; 2; 3; 4], 32%nat, None)) tt (zeros 32) = Ret ((words_le [1; 2; 3; 4], 32%nat, None), tt) /\
  ref_bswap 0x0102030405060708 = 0x0807060504030201.
Proof.
  split; [reflexivity|]. split; reflexivity.
Qed.
