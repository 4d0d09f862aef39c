(** Uniform distributions (distr.go): C30, C31, C32. *)
From Coq Require Import Reals Lia Lra ZifyN ZifyNat ZifyBool.
From Flocq Require Import Core BinarySingleNaN Sterbenz.
From Verif Require Import Model.Base Model.Rng Model.Float Model.Distr Spec.Common Spec.Counting Spec.Floats.
From Verif Require Import Proofs.WordLemmas Proofs.ReadProofs Proofs.SaveProofs Proofs.IvWords Proofs.Count Proofs.FloatProofs Proofs.FusedProofs Props.Rng.
Local Open Scope R_scope.

(** for every choice of the compiler which x*y + z to fuse (Model/Fused.v) *)
Section Compiler.
Context {fpc : compiler}.

(** ** C30 *)
Lemma zeros_byte n : Forall isbyte (zeros n).
Proof. apply zeros_isbyte. Qed.
Lemma frombits_1_2 x : (x < 2 ^ 56)%N ->
  Float64frombits (N.lor x 0x3ff0000000000000) = mkfloat false (Z.of_N (x mod 2 ^ 52 + 2 ^ 52)) (-52).
Proof.
  intros Hx.
  assert (H0 : N.testbit (N.lor x 0x3ff0000000000000) 63 = false) by (rewrite N.lor_spec, (testbit_above x 56 63) by (lia || exact Hx); reflexivity).
  assert (H1 : N.land (N.shiftr (N.lor x 0x3ff0000000000000) 52) 0x7ff = 0x3ff%N).
  { rewrite N.shiftr_lor. assert (B : (N.shiftr x 52 < 16)%N) by (rewrite N.shiftr_div_pow2; apply N.div_lt_upper_bound; [discriminate|exact Hx]).
    change (N.shiftr 0x3ff0000000000000 52) with 0x3ff%N. revert B. generalize (N.shiftr x 52). intros y B.
    assert (C : (y = 0 \/ y = 1 \/ y = 2 \/ y = 3 \/ y = 4 \/ y = 5 \/ y = 6 \/ y = 7 \/ y = 8 \/ y = 9 \/ y = 10 \/ y = 11 \/ y = 12 \/ y = 13 \/ y = 14 \/ y = 15)%N) by lia.
    repeat (destruct C as [->|C]; [reflexivity|]). subst y. reflexivity. }
  assert (H2 : N.land (N.lor x 0x3ff0000000000000) 0xfffffffffffff = (x mod 2 ^ 52)%N).
  { rewrite N.land_lor_distr_l. change (N.land 0x3ff0000000000000 0xfffffffffffff) with 0%N. rewrite N.lor_0_r. apply (N.land_ones x 52). }
  unfold Float64frombits. rewrite H0, H1, H2. cbn [Z.of_N Z.eqb Pos.eqb]. cbn [cond_Zopp]. f_equal. lia.
Qed.
Lemma frombits_value x : (x < 2 ^ 56)%N ->
  fvalue (Float64frombits (N.lor x 0x3ff0000000000000)) (1 + IZR (Z.of_N (x mod 2 ^ 52)) / IZR (2 ^ 52)).
Proof.
  intros Hx. rewrite frombits_1_2 by exact Hx. pose proof (N.mod_lt x (2 ^ 52) ltac:(discriminate)) as B.
  destruct (mkfloat_exact false (Z.of_N (x mod 2 ^ 52 + 2 ^ 52)) (-52)) as (V & F & _); [lia|lia|]. split; [exact F|]. rewrite V.
  rewrite N2Z.inj_add, plus_IZR. change (Z.of_N (2 ^ 52)) with (2 ^ 52)%Z. change (bpow radix2 (-52)) with (/ IZR (2 ^ 52)).
  assert (0 < IZR (2 ^ 52)) by now apply IZR_lt. field. lra.
Qed.
Section C30.
  Context {W : Type} (read : reader W).
  Lemma uniform12_eq w p n e w' : go_reader read -> read w (zeros 7) = Ret ((p, n, e), w') ->
    Uniform1_2_Next read w = Ret (Float64frombits (N.lor (le_val p) 0x3ff0000000000000), w') /\ (le_val p < 2 ^ 56)%N.
  Proof.
    intros G E. destruct (G _ _ _ _ _ _ E) as [L B]. rewrite zeros_length in L. specialize (B (zeros_byte 7)).
    unfold Uniform1_2_Next. rewrite E. cbn [bind]. rewrite get64_8 by (rewrite app_length, L; reflexivity). cbn [bind].
    rewrite le_val_zeros. split; [reflexivity|]. apply le_val_bound in B. rewrite L in B. exact B.
  Qed.
  (** One Read of 7 bytes; with m the low 52 bits of their little-endian value the result is exactly 1 + m/2^52. *)
  Theorem C30_uniform1_2_value w p n e w' : go_reader read -> read w (zeros 7) = Ret ((p, n, e), w') ->
    exists f, Uniform1_2_Next read w = Ret (f, w') /\ fvalue f (1 + IZR (Z.of_N (le_val p mod 2 ^ 52)) / IZR (2 ^ 52)).
  Proof.
    intros G E. destruct (uniform12_eq w p n e w' G E) as [U B]. eexists. split; [exact U|]. now apply frombits_value.
  Qed.
  (** the result is always in [1, 2) *)
  Theorem C30_uniform1_2_range w f w' : go_reader read -> Uniform1_2_Next read w = Ret (f, w') ->
    exists x, fvalue f x /\ 1 <= x < 2.
  Proof.
    intros G U. destruct (read w (zeros 7)) as [[[[p n] e] w1]| |] eqn:E.
    - destruct (uniform12_eq w p n e w1 G E) as [U' B]. rewrite U in U'. apply frombits_value in B.
      assert (f = Float64frombits (N.lor (le_val p) 0x3ff0000000000000)) as -> by congruence.
      eexists. split; [exact B|]. pose proof (N.mod_lt (le_val p) (2 ^ 52) ltac:(discriminate)) as M.
      assert (0 <= IZR (Z.of_N (le_val p mod 2 ^ 52)) < IZR (2 ^ 52)) by (split; [apply IZR_le|apply IZR_lt]; lia).
      assert (0 < / IZR (2 ^ 52)) by (apply Rinv_0_lt_compat; now apply IZR_lt). unfold Rdiv.
      assert (IZR (Z.of_N (le_val p mod 2 ^ 52)) * / IZR (2 ^ 52) < IZR (2 ^ 52) * / IZR (2 ^ 52)) by (apply Rmult_lt_compat_r; lra).
      rewrite Rinv_r in H1 by (apply not_eq_sym, Rlt_not_eq; now apply IZR_lt). split; [|lra].
      assert (0 <= IZR (Z.of_N (le_val p mod 2 ^ 52)) * / IZR (2 ^ 52)) by (apply Rmult_le_pos; lra). lra.
    - unfold Uniform1_2_Next in U. rewrite E in U. discriminate U.
    - unfold Uniform1_2_Next in U. rewrite E in U. discriminate U.
  Qed.
End C30.
Lemma source_go bs : Forall isbyte bs -> forall w p p' n e w', length p = length bs -> source_of bs w p = Ret ((p', n, e), w') ->
  length p' = length p /\ (Forall isbyte p -> Forall isbyte p').
Proof. intros F w p p' n e w' L E. unfold source_of in E. assert (p' = bs) as -> by congruence. auto. Qed.
Lemma uniform12_source bs : bytes_of_length 7 bs ->
  Uniform1_2_Next (source_of bs) tt = Ret (mkfloat false (Z.of_N (le_val bs mod 2 ^ 52 + 2 ^ 52)) (-52), tt).
Proof.
  intros [L B]. assert (L' : length bs = 7%nat) by lia. unfold Uniform1_2_Next, source_of. cbn [bind].
  rewrite get64_8 by (rewrite app_length, L'; reflexivity). cbn [bind]. rewrite le_val_zeros, frombits_1_2; [reflexivity|].
  apply le_val_bound in B. rewrite L' in B. exact B.
Qed.
(** a double in [1,2) is (2^52 + m) * 2^-52 *)
Lemma double_1_2 (f : float64) x : fvalue f x -> 1 <= x < 2 -> exists m, (m < 2 ^ 52)%N /\ f = mkfloat false (Z.of_N (m + 2 ^ 52)) (-52).
Proof.
  intros [F V] Hx. pose proof (representable_B2R f) as Rf. rewrite V in Rf. unfold representable, generic_format in Rf.
  assert (Ec : cexp radix2 (FLT_exp (-1074) 53) x = (-52)%Z).
  { unfold cexp. rewrite (mag_unique radix2 x 1); [reflexivity|]. rewrite Rabs_pos_eq by lra. cbn [bpow Z.sub Z.add Z.opp]. change (bpow radix2 0) with 1. change (bpow radix2 1) with 2. exact Hx. }
  rewrite Ec in Rf. set (M := Ztrunc (scaled_mantissa radix2 (FLT_exp (-1074) 53) x)) in Rf. unfold F2R in Rf. cbn [Fnum Fexp] in Rf.
  change (bpow radix2 (-52)) with (/ IZR (2 ^ 52)) in Rf. assert (P : 0 < IZR (2 ^ 52)) by now apply IZR_lt.
  assert (EM : IZR M = x * IZR (2 ^ 52)) by (rewrite Rf; field; lra).
  assert (BM : (2 ^ 52 <= M < 2 ^ 53)%Z).
  { split.
    - apply le_IZR. rewrite EM. rewrite <- (Rmult_1_l (IZR (2 ^ 52))) at 1. apply Rmult_le_compat_r; lra.
    - apply lt_IZR. rewrite EM. change (IZR (2 ^ 53)) with (IZR (2 * 2 ^ 52)). rewrite mult_IZR. apply Rmult_lt_compat_r; lra. }
  exists (Z.to_N (M - 2 ^ 52)). split; [lia|]. replace (Z.of_N (Z.to_N (M - 2 ^ 52) + 2 ^ 52)) with M by lia.
  destruct (mkfloat_exact false M (-52)) as (V2 & F2 & S2); [lia|lia|]. apply (B2R_Bsign_inj 53 1024); [exact F|exact F2| |].
  - rewrite V, V2. exact Rf.
  - rewrite S2. destruct M; [lia| |lia]. destruct (Bsign f) eqn:Es; [|reflexivity]. pose proof (sign_R f F Es). lra.
Qed.
Lemma mk12_inj m m' : (m < 2 ^ 52)%N -> (m' < 2 ^ 52)%N -> mkfloat false (Z.of_N (m + 2 ^ 52)) (-52) = mkfloat false (Z.of_N (m' + 2 ^ 52)) (-52) -> m = m'.
Proof.
  intros H H' E. destruct (mkfloat_exact false (Z.of_N (m + 2 ^ 52)) (-52)) as (V & _ & _); [lia|lia|].
  destruct (mkfloat_exact false (Z.of_N (m' + 2 ^ 52)) (-52)) as (V' & _ & _); [lia|lia|]. rewrite E, V' in V.
  apply Rmult_eq_reg_r in V; [|apply Rgt_not_eq, bpow_gt_0]. apply eq_IZR in V. lia.
Qed.
(** Every double in [1, 2) is the result for exactly 16 of the 2^56 strings of 7 bytes. *)
Theorem C30_uniform1_2_uniform (f : float64) x : fvalue f x -> 1 <= x < 2 ->
  has_exactly (fun bs => bytes_of_length 7 bs /\ Uniform1_2_Next (source_of bs) tt = Ret (f, tt)) 16.
Proof.
  intros V Hx. destruct (double_1_2 f x V Hx) as (m & Hm & ->).
  apply (has_exactly_ext (fun bs => bytes_of_length 7 bs /\ (le_val bs mod 2 ^ 52 = m)%N)).
  - intros bs. split; intros [B E]; (split; [exact B|]).
    + rewrite uniform12_source, E by exact B. reflexivity.
    + rewrite uniform12_source in E by exact B. apply mk12_inj; [apply N.mod_lt; discriminate|exact Hm|congruence].
  - apply (bytes_number 7 (fun y => (y mod 2 ^ 52 = m)%N)). change (256 ^ 7)%N with (16 * 2 ^ 52)%N. now apply has_exactly_mod.
Qed.
(** the hypotheses hold of 1.5 *)
Example C30_nonvacuous : fvalue (mkfloat false 3 (-1)) (3 / 2) /\ 1 <= 3 / 2 < 2.
Proof. destruct (mkfloat_exact false 3 (-1)) as (V & F & _); [lia|lia|]. split; [|lra]. split; [exact F|]. rewrite V. cbn. lra. Qed.

(** ** C31 *)
(** distr.go:36 writes 1.11022302462515654042e-16; that literal is 2^-53 *)
Theorem C31_scale_literal : is_literal lit_scale 111022302462515654042 36 /\ fvalue lit_scale (/ IZR (2 ^ 53)).
Proof.
  destruct (mkfloat_exact false 1 (-53)) as (V & F & _); [lia|lia|].
  assert (E : IZR 1 * bpow radix2 (-53) = / IZR (2 ^ 53)) by (rewrite Rmult_1_l; reflexivity).
  split; split; try exact F; unfold lit_scale; rewrite V; [|exact E].
  rewrite (literal_round (2 ^ 53) (-106)); [|lia|lia|lia|reflexivity|reflexivity].
  rewrite Rmult_1_l. change (IZR (2 ^ 53)) with (bpow radix2 53). now rewrite <- bpow_plus.
Qed.
(** k * 2^-53 computed in float64 is exact *)
Lemma scale_exact k : (k < 2 ^ 53)%N ->
  fvalue (fmul (of_int (Z.of_N k)) lit_scale) (IZR (Z.of_N k) / IZR (2 ^ 53)) /\ Bsign (fmul (of_int (Z.of_N k)) lit_scale) = false.
Proof.
  intros Hk. destruct (of_int_exact (Z.of_N k)) as (V1 & F1 & S1); [lia|]. destruct C31_scale_literal as [_ [F2 V2]].
  assert (E : B2R (of_int (Z.of_N k)) * B2R lit_scale = IZR (Z.of_N k) * bpow radix2 (-53)) by (rewrite V1, V2; reflexivity).
  assert (Rp : representable (IZR (Z.of_N k) * bpow radix2 (-53))) by (apply representable_int; lia).
  assert (B : Rabs (IZR (Z.of_N k) * bpow radix2 (-53)) < fmax).
  { rewrite Rabs_pos_eq by (apply Rmult_le_pos; [apply IZR_le; lia|apply bpow_ge_0]).
    apply Rlt_trans with (IZR (2 ^ 53) * bpow radix2 (-53)); [apply Rmult_lt_compat_r; [apply bpow_gt_0|apply IZR_lt; lia]|].
    change (IZR (2 ^ 53)) with (bpow radix2 53). rewrite <- bpow_plus. apply bpow_emax_lt. lia. }
  destruct (fmul_R (of_int (Z.of_N k)) lit_scale F1 F2) as (V & F & S); [rewrite E, rnd_id by exact Rp; exact B|].
  rewrite E, rnd_id in V by exact Rp. split; [split; [exact F|exact V]|]. rewrite S, S1. destruct (mkfloat_exact false 1 (-53)) as (_ & _ & S2); [lia|lia|].
  unfold lit_scale. rewrite S2. destruct k; reflexivity.
Qed.
Section C31.
  Context {W : Type} (read : reader W).
  Lemma uniform01_eq w p n e w' : go_reader read -> read w (zeros 8) = Ret ((p, n, e), w') ->
    Uniform0_1_Next read w = Ret (fmul (of_int (Z.of_N (le_val p mod 2 ^ 53))) lit_scale, w').
  Proof.
    intros G E. destruct (G _ _ _ _ _ _ E) as [L B]. rewrite zeros_length in L.
    unfold Uniform0_1_Next. rewrite E. cbn [bind]. rewrite get64_8 by exact L. cbn [bind]. change 0x1fffffffffffff%N with (N.ones 53). now rewrite N.land_ones.
  Qed.
  (** One Read of 8 bytes; with k the low 53 bits of their little-endian value the result is exactly k/2^53
      (k = 0 gives +0). *)
  Theorem C31_uniform0_1_value w p n e w' : go_reader read -> read w (zeros 8) = Ret ((p, n, e), w') ->
    exists f, Uniform0_1_Next read w = Ret (f, w') /\ fvalue f (IZR (Z.of_N (le_val p mod 2 ^ 53)) / IZR (2 ^ 53)) /\ Bsign f = false.
  Proof.
    intros G E. eexists. split; [exact (uniform01_eq w p n e w' G E)|]. apply scale_exact. apply N.mod_lt. discriminate.
  Qed.
  Lemma uniform01_inv w f w' : go_reader read -> Uniform0_1_Next read w = Ret (f, w') ->
    exists k, (k < 2 ^ 53)%N /\ f = fmul (of_int (Z.of_N k)) lit_scale.
  Proof.
    intros G U. destruct (read w (zeros 8)) as [[[[p n] e] w1]| |] eqn:E.
    - rewrite (uniform01_eq w p n e w1 G E) in U. exists (le_val p mod 2 ^ 53)%N. split; [apply N.mod_lt; discriminate|congruence].
    - unfold Uniform0_1_Next in U. rewrite E in U. discriminate U.
    - unfold Uniform0_1_Next in U. rewrite E in U. discriminate U.
  Qed.
  Lemma frac53 k : (k < 2 ^ 53)%N -> 0 <= IZR (Z.of_N k) / IZR (2 ^ 53) < 1.
  Proof.
    intros Hk. assert (0 <= IZR (Z.of_N k) < IZR (2 ^ 53)) by (split; [apply IZR_le|apply IZR_lt]; lia).
    assert (0 < / IZR (2 ^ 53)) by (apply Rinv_0_lt_compat; now apply IZR_lt). unfold Rdiv.
    assert (IZR (Z.of_N k) * / IZR (2 ^ 53) < IZR (2 ^ 53) * / IZR (2 ^ 53)) by (apply Rmult_lt_compat_r; lra).
    rewrite Rinv_r in H1 by (apply not_eq_sym, Rlt_not_eq; now apply IZR_lt). split; [|lra]. apply Rmult_le_pos; lra.
  Qed.
  (** the result is always in [0, 1) *)
  Theorem C31_uniform0_1_range w f w' : go_reader read -> Uniform0_1_Next read w = Ret (f, w') ->
    exists x, fvalue f x /\ 0 <= x < 1.
  Proof.
    intros G U. destruct (uniform01_inv w f w' G U) as (k & Hk & ->). eexists. split; [apply (scale_exact k Hk)|]. now apply frac53.
  Qed.
End C31.
(** For every k < 2^53 exactly 2^11 of the 2^64 strings of 8 bytes give k/2^53. *)
Theorem C31_uniform0_1_uniform k : (k < 2 ^ 53)%N ->
  has_exactly (fun bs => bytes_of_length 8 bs /\ exists f, Uniform0_1_Next (source_of bs) tt = Ret (f, tt) /\ fvalue f (IZR (Z.of_N k) / IZR (2 ^ 53))) (2 ^ 11).
Proof.
  intros Hk. apply (has_exactly_ext (fun bs => bytes_of_length 8 bs /\ (le_val bs mod 2 ^ 53 = k)%N)).
  - assert (U : forall bs, bytes_of_length 8 bs -> Uniform0_1_Next (source_of bs) tt = Ret (fmul (of_int (Z.of_N (le_val bs mod 2 ^ 53))) lit_scale, tt)).
    { intros bs [L B]. unfold Uniform0_1_Next, source_of. cbn [bind]. rewrite get64_8 by lia. cbn [bind]. change 0x1fffffffffffff%N with (N.ones 53). now rewrite N.land_ones. }
    intros bs. split; intros [B E]; (split; [exact B|]).
    + rewrite U by exact B. rewrite E. eexists. split; [reflexivity|]. now apply scale_exact.
    + rewrite U in E by exact B. destruct E as (f & E & [_ V]).
      assert (f = fmul (of_int (Z.of_N (le_val bs mod 2 ^ 53))) lit_scale) as -> by congruence.
      pose proof (N.mod_lt (le_val bs) (2 ^ 53) ltac:(discriminate)) as Hm. destruct (scale_exact _ Hm) as [[_ V2] _]. rewrite V2 in V.
      assert (P : IZR (2 ^ 53) <> 0) by (apply not_eq_sym, Rlt_not_eq; now apply IZR_lt).
      apply Rmult_eq_reg_r in V; [|now apply Rinv_neq_0_compat]. apply eq_IZR in V. lia.
  - apply (bytes_number 8 (fun y => (y mod 2 ^ 53 = k)%N)). change (256 ^ 8)%N with (2 ^ 11 * 2 ^ 53)%N. now apply has_exactly_mod.
Qed.
(** the hypotheses hold of an all-0xff draw: 1 - 2^-53 *)
Example C31_nonvacuous : (2 ^ 53 - 1 < 2 ^ 53)%N /\ bytes_of_length 8 (repeat 255%N 8) /\ (le_val (repeat 255 8) mod 2 ^ 53 = 2 ^ 53 - 1)%N.
Proof. repeat split. repeat constructor. Qed.

(** ** C32 *)
Lemma representable_lt_fmax (x : float64) : is_finite x = true -> Rabs (B2R x) < fmax.
Proof. intros _. apply (abs_B2R_lt_emax 53 1024 x). Qed.
Lemma u52_bounds m : (m < 2 ^ 52)%N -> 0 <= IZR (Z.of_N m) / IZR (2 ^ 52) <= 1 - / IZR (2 ^ 52).
Proof.
  intros Hm. assert (P : 0 < IZR (2 ^ 52)) by now apply IZR_lt. assert (I := Rinv_0_lt_compat _ P).
  assert (0 <= IZR (Z.of_N m) <= IZR (2 ^ 52) - 1) by (split; [apply IZR_le; lia|rewrite <- minus_IZR; apply IZR_le; lia]).
  unfold Rdiv. split; [apply Rmult_le_pos; lra|]. assert (IZR (Z.of_N m) * / IZR (2 ^ 52) <= (IZR (2 ^ 52) - 1) * / IZR (2 ^ 52)) by (apply Rmult_le_compat_r; lra).
  rewrite Rmult_minus_distr_r, Rinv_r in H0 by lra. lra.
Qed.
Lemma sub1_exact m : (m < 2 ^ 52)%N -> fvalue (fsub (mkfloat false (Z.of_N (m + 2 ^ 52)) (-52)) (of_int 1)) (IZR (Z.of_N m) / IZR (2 ^ 52)).
Proof.
  intros Hm. destruct (mkfloat_exact false (Z.of_N (m + 2 ^ 52)) (-52)) as (V1 & F1 & _); [lia|lia|]. destruct (of_int_exact 1) as (V2 & F2 & _); [lia|].
  assert (E : B2R (mkfloat false (Z.of_N (m + 2 ^ 52)) (-52)) - B2R (of_int 1) = IZR (Z.of_N m) * bpow radix2 (-52)).
  { rewrite V1, V2, N2Z.inj_add, plus_IZR. change (Z.of_N (2 ^ 52)) with (2 ^ 52)%Z. change (bpow radix2 (-52)) with (/ IZR (2 ^ 52)).
    assert (0 < IZR (2 ^ 52)) by now apply IZR_lt. field. lra. }
  assert (Rp : representable (IZR (Z.of_N m) * bpow radix2 (-52))) by (apply representable_int; lia).
  destruct (fsub_R _ _ F1 F2) as [V F].
  - rewrite E, rnd_id by exact Rp. change (bpow radix2 (-52)) with (/ IZR (2 ^ 52)). pose proof (u52_bounds m Hm) as B.
    unfold Rdiv in B. rewrite Rabs_pos_eq by lra. apply Rle_lt_trans with 1; [|apply (bpow_emax_lt 0); lia].
    assert (I : 0 < / IZR (2 ^ 52)) by (apply Rinv_0_lt_compat; now apply IZR_lt). lra.
  - split; [exact F|]. rewrite V, E, rnd_id by exact Rp. reflexivity.
Qed.
(** High*u never overflows *)
Lemma scale_finite h u : is_finite h = true -> is_finite u = true -> 0 <= B2R u <= 1 ->
  B2R (fmul h u) = rnd (B2R h * B2R u) /\ is_finite (fmul h u) = true.
Proof.
  intros Fh Fu Hu. destruct (fmul_R h u Fh Fu) as (V & F & _); [|auto].
  apply Rle_lt_trans with (Rabs (B2R h)); [|now apply representable_lt_fmax].
  apply rnd_abs_le.
  - unfold Rabs. destruct (Rcase_abs (B2R h)); [apply representable_opp|]; apply representable_B2R.
  - rewrite Rabs_mult, (Rabs_pos_eq (B2R u)) by lra. rewrite <- (Rmult_1_r (Rabs (B2R h))) at 2. apply Rmult_le_compat_l; [apply Rabs_pos|lra].
Qed.
Lemma fle_inf_r x : is_finite x = true -> fle x (B754_infinity false) = true.
Proof. destruct x as [[]| | |[] ? ? ?]; cbn; intros H; try discriminate H; reflexivity. Qed.
Lemma fle_inf_l x : is_finite x = true -> fle (B754_infinity true) x = true.
Proof. destruct x as [[]| | |[] ? ? ?]; cbn; intros H; try discriminate H; reflexivity. Qed.
Lemma sign_pos (x : float64) : is_finite x = true -> 0 < B2R x -> Bsign x = false.
Proof. intros F H. destruct (Bsign x) eqn:E; [|reflexivity]. pose proof (sign_R x F E). lra. Qed.
Lemma sign_neg (x : float64) : is_finite x = true -> B2R x < 0 -> Bsign x = true.
Proof. intros F H. destruct (Bsign x) eqn:E; [reflexivity|]. pose proof (sign_R' x F E). lra. Qed.
(** sums that may overflow *)
Lemma fadd_ge a b r : is_finite a = true -> is_finite b = true -> is_finite r = true -> 0 <= B2R b ->
  B2R r <= B2R a + B2R b -> fle r (fadd a b) = true.
Proof.
  intros Fa Fb Fr Hb H. assert (H' := rnd_ge (B2R r) _ (representable_B2R r) H).
  destruct (Rlt_or_le (Rabs (rnd (B2R a + B2R b))) fmax) as [Hlt|Hge].
  - destruct (fadd_R a b Fa Fb Hlt) as [V F]. rewrite fle_R by assumption. rewrite V. now apply Rle_bool_true.
  - destruct (fadd_overflow a b Fa Fb Hge) as [-> S]. rewrite S.
    assert (B2R b <> 0). { intros Z. rewrite Z, Rplus_0_r, rnd_id in Hge by apply representable_B2R. pose proof (representable_lt_fmax a Fa). lra. }
    rewrite sign_pos by (assumption || lra). now apply fle_inf_r.
Qed.
Lemma fadd_ge' a b r : is_finite a = true -> is_finite b = true -> is_finite r = true -> 0 <= B2R a ->
  B2R r <= B2R a + B2R b -> fle r (fadd a b) = true.
Proof.
  intros Fa Fb Fr Hb H. assert (H' := rnd_ge (B2R r) _ (representable_B2R r) H).
  destruct (Rlt_or_le (Rabs (rnd (B2R a + B2R b))) fmax) as [Hlt|Hge].
  - destruct (fadd_R a b Fa Fb Hlt) as [V F]. rewrite fle_R by assumption. rewrite V. now apply Rle_bool_true.
  - destruct (fadd_overflow a b Fa Fb Hge) as [-> S].
    assert (B2R a <> 0). { intros Z. rewrite Z, Rplus_0_l, rnd_id in Hge by apply representable_B2R. pose proof (representable_lt_fmax b Fb). lra. }
    rewrite sign_pos by (assumption || lra). now apply fle_inf_r.
Qed.
Lemma fadd_le a b r : is_finite a = true -> is_finite b = true -> is_finite r = true -> B2R a <= 0 ->
  B2R a + B2R b <= B2R r -> fle (fadd a b) r = true.
Proof.
  intros Fa Fb Fr Hb H. assert (H' := rnd_le_rep _ (B2R r) (representable_B2R r) H).
  destruct (Rlt_or_le (Rabs (rnd (B2R a + B2R b))) fmax) as [Hlt|Hge].
  - destruct (fadd_R a b Fa Fb Hlt) as [V F]. rewrite fle_R by assumption. rewrite V. now apply Rle_bool_true.
  - destruct (fadd_overflow a b Fa Fb Hge) as [-> S].
    assert (B2R a <> 0). { intros Z. rewrite Z, Rplus_0_l, rnd_id in Hge by apply representable_B2R. pose proof (representable_lt_fmax b Fb). lra. }
    rewrite sign_neg by (assumption || lra). now apply fle_inf_l.
Qed.
Section C32.
  Context {W : Type} (read : reader W).
  Lemma uniform_eq low high w p n e w' : go_reader read -> read w (zeros 7) = Ret ((p, n, e), w') ->
    exists u, Uniform_Next read low high w = Ret (mul_add UniformSite high u low, w') /\ fvalue u (IZR (Z.of_N (le_val p mod 2 ^ 52)) / IZR (2 ^ 52)).
  Proof.
    intros G E. destruct (uniform12_eq read w p n e w' G E) as [U B]. unfold Uniform_Next. rewrite U, frombits_1_2 by exact B. cbn [bind].
    eexists. split; [reflexivity|]. apply sub1_exact. apply N.mod_lt. discriminate.
  Qed.
  Lemma uniform_inv low high w f w' : go_reader read -> Uniform_Next read low high w = Ret (f, w') ->
    exists m u, (m < 2 ^ 52)%N /\ f = mul_add UniformSite high u low /\ fvalue u (IZR (Z.of_N m) / IZR (2 ^ 52)).
  Proof.
    intros G U. destruct (read w (zeros 7)) as [[[[p n] e] w1]| |] eqn:E.
    - destruct (uniform_eq low high w p n e w1 G E) as (u & U' & V). exists (le_val p mod 2 ^ 52)%N, u. split; [apply N.mod_lt; discriminate|]. split; [congruence|exact V].
    - unfold Uniform_Next, Uniform1_2_Next in U. rewrite E in U. discriminate U.
    - unfold Uniform_Next, Uniform1_2_Next in U. rewrite E in U. discriminate U.
  Qed.
  (** What Next computes: with m the low 52 bits of the 7 bytes read, the double nearest to
      (the double nearest to High*m/2^52) + Low - or, if the compiler fuses the expression, the double nearest to
      High*m/2^52 + Low -, when that does not overflow; otherwise an infinity. *)
  Theorem C32_uniform_value low high l h w p n e w' : go_reader read -> read w (zeros 7) = Ret ((p, n, e), w') ->
    fvalue low l -> fvalue high h ->
    let u := IZR (Z.of_N (le_val p mod 2 ^ 52)) / IZR (2 ^ 52) in
    let r := if fuses UniformSite then rnd (h * u + l) else rnd (rnd (h * u) + l) in
    exists f, Uniform_Next read low high w = Ret (f, w') /\
      (Rabs r < fmax -> fvalue f r) /\ (fmax <= Rabs r -> f = B754_infinity (Bsign low)).
  Proof.
    intros G E [Fl <-] [Fh <-]. cbv zeta. destruct (uniform_eq low high w p n e w' G E) as (u & U & [Fu Vu]).
    pose proof (u52_bounds (le_val p mod 2 ^ 52) ltac:(apply N.mod_lt; discriminate)) as Hu. rewrite <- Vu in *.
    assert (I : 0 < / IZR (2 ^ 52)) by (apply Rinv_0_lt_compat; now apply IZR_lt).
    destruct (scale_finite high u Fh Fu ltac:(lra)) as [V F]. exists (mul_add UniformSite high u low). split; [exact U|].
    unfold mul_add. destruct (fuses UniformSite).
    - split; intros H.
      + destruct (ffma_R high u low Fh Fu Fl H) as [V' F']. split; assumption.
      + apply ffma_overflow_sign; auto. rewrite <- V. now apply representable_lt_fmax.
    - rewrite <- V. split.
      + intros Hlt. destruct (fadd_R _ _ F Fl Hlt) as [V' F']. split; assumption.
      + intros Hge. destruct (fadd_overflow _ _ F Fl Hge) as [V' S]. now rewrite V', S.
  Qed.
  (** Low is a lower bound, for High >= 0 ... *)
  Theorem C32_uniform_above_low low high l h w f w' : go_reader read -> fvalue low l -> fvalue high h -> 0 <= h ->
    Uniform_Next read low high w = Ret (f, w') -> fle low f = true.
  Proof.
    intros G [Fl <-] [Fh <-] Hh U. destruct (uniform_inv low high w f w' G U) as (m & u & Hm & -> & [Fu Vu]).
    pose proof (u52_bounds m Hm) as Hu. rewrite <- Vu in Hu. assert (I : 0 < / IZR (2 ^ 52)) by (apply Rinv_0_lt_compat; now apply IZR_lt).
    destruct (scale_finite high u Fh Fu ltac:(lra)) as [V F].
    unfold mul_add. destruct (fuses UniformSite).
    { apply ffma_ge; auto. assert (0 <= B2R high * B2R u) by (apply Rmult_le_pos; lra). lra. }
    assert (0 <= B2R (fmul high u)) by (rewrite V; apply rnd_ge; [apply representable_0|apply Rmult_le_pos; lra]).
    apply fadd_ge'; auto. lra.
  Qed.
  (** ... and for High <= 0 an upper bound: with Low < High <= 0 no result is above Low. *)
  Theorem C32_uniform_negative_high low high l h w f w' : go_reader read -> fvalue low l -> fvalue high h -> h <= 0 ->
    Uniform_Next read low high w = Ret (f, w') -> fle f low = true.
  Proof.
    intros G [Fl <-] [Fh <-] Hh U. destruct (uniform_inv low high w f w' G U) as (m & u & Hm & -> & [Fu Vu]).
    pose proof (u52_bounds m Hm) as Hu. rewrite <- Vu in Hu. assert (I : 0 < / IZR (2 ^ 52)) by (apply Rinv_0_lt_compat; now apply IZR_lt).
    destruct (scale_finite high u Fh Fu ltac:(lra)) as [V F].
    unfold mul_add. destruct (fuses UniformSite).
    { apply ffma_le; auto. assert (0 <= - B2R high * B2R u) by (apply Rmult_le_pos; lra). lra. }
    assert (B2R (fmul high u) <= 0). { rewrite V. apply rnd_le_rep; [apply representable_0|]. assert (0 <= - B2R high * B2R u) by (apply Rmult_le_pos; lra). lra. }
    apply fadd_le; auto. lra.
  Qed.
  (** Results stay at or below the double nearest to Low + High (High >= 0, no overflow). *)
  Theorem C32_uniform_below_sum low high l h w f w' : go_reader read -> fvalue low l -> fvalue high h -> 0 <= h ->
    Rabs (rnd (h + l)) < fmax -> Uniform_Next read low high w = Ret (f, w') -> exists x, fvalue f x /\ l <= x <= rnd (h + l).
  Proof.
    intros G [Fl <-] [Fh <-] Hh Hs U. destruct (uniform_inv low high w f w' G U) as (m & u & Hm & -> & [Fu Vu]).
    pose proof (u52_bounds m Hm) as Hu. rewrite <- Vu in Hu. assert (I : 0 < / IZR (2 ^ 52)) by (apply Rinv_0_lt_compat; now apply IZR_lt).
    destruct (scale_finite high u Fh Fu ltac:(lra)) as [V F].
    unfold mul_add. destruct (fuses UniformSite).
    { assert (P0 : 0 <= B2R high * B2R u) by (apply Rmult_le_pos; lra). assert (P1 : 0 <= B2R high * (1 - B2R u)) by (apply Rmult_le_pos; lra).
      assert (B : B2R low <= rnd (B2R high * B2R u + B2R low) <= rnd (B2R high + B2R low)).
      { split; [apply rnd_ge; [apply representable_B2R|lra]|apply rnd_le; lra]. }
      destruct (ffma_R high u low Fh Fu Fl) as [V' F'].
      - pose proof (representable_lt_fmax low Fl) as Hl. apply Rabs_def2 in Hl. apply Rabs_def2 in Hs. apply Rabs_def1; lra.
      - eexists. split; [split; [exact F'|reflexivity]|]. rewrite V'. exact B. }
    assert (H0 : 0 <= B2R (fmul high u)) by (rewrite V; apply rnd_ge; [apply representable_0|apply Rmult_le_pos; lra]).
    assert (H1 : B2R (fmul high u) <= B2R high). { rewrite V. apply rnd_le_rep; [apply representable_B2R|]. assert (0 <= B2R high * (1 - B2R u)) by (apply Rmult_le_pos; lra). lra. }
    assert (B : B2R low <= rnd (B2R (fmul high u) + B2R low) <= rnd (B2R high + B2R low)).
    { split; [apply rnd_ge; [apply representable_B2R|lra]|apply rnd_le; lra]. }
    destruct (fadd_R _ _ F Fl) as [V' F'].
    - pose proof (representable_lt_fmax low Fl) as Hl. apply Rabs_def2 in Hl. apply Rabs_def2 in Hs. apply Rabs_def1; lra.
    - eexists. split; [split; [exact F'|reflexivity]|]. rewrite V'. exact B.
  Qed.
  (** For High/2 <= Low <= High (High > 0), every draw with m >= 2^51, that is every second one, gives a result >= High. *)
  Theorem C32_uniform_exceeds_high low high l h w p n e w' : go_reader read -> read w (zeros 7) = Ret ((p, n, e), w') ->
    fvalue low l -> fvalue high h -> 0 < h -> h / 2 <= l <= h -> (2 ^ 51 <= le_val p mod 2 ^ 52)%N ->
    exists f, Uniform_Next read low high w = Ret (f, w') /\ fle high f = true.
  Proof.
    intros G E [Fl <-] [Fh <-] Hh Hl Hm. destruct (uniform_eq low high w p n e w' G E) as (u & U & [Fu Vu]).
    exists (mul_add UniformSite high u low). split; [exact U|]. set (m := (le_val p mod 2 ^ 52)%N) in *.
    pose proof (u52_bounds m ltac:(apply N.mod_lt; discriminate)) as Hu. assert (I : 0 < / IZR (2 ^ 52)) by (apply Rinv_0_lt_compat; now apply IZR_lt).
    assert (Hu2 : / 2 <= IZR (Z.of_N m) / IZR (2 ^ 52)).
    { assert (IZR (2 ^ 51) <= IZR (Z.of_N m)) by (apply IZR_le; lia). assert (E51 : IZR (2 ^ 52) = 2 * IZR (2 ^ 51)) by (rewrite <- mult_IZR; reflexivity).
      unfold Rdiv. apply Rle_trans with (IZR (2 ^ 51) * / IZR (2 ^ 52)); [|apply Rmult_le_compat_r; lra]. rewrite E51.
      assert (0 < IZR (2 ^ 51)) by now apply IZR_lt. right. field. lra. }
    rewrite <- Vu in Hu, Hu2. destruct (scale_finite high u Fh Fu ltac:(lra)) as [V F].
    assert (Rd : representable (B2R high - B2R low)).
    { replace (B2R high - B2R low) with (- (B2R low - B2R high)) by ring. apply representable_opp.
      apply (sterbenz radix2 (FLT_exp (-1074) 53)); [apply representable_B2R|apply representable_B2R|lra]. }
    unfold mul_add. destruct (fuses UniformSite).
    { apply ffma_ge; auto. assert (0 <= B2R high * (B2R u - / 2)) by (apply Rmult_le_pos; lra). lra. }
    assert (H1 : B2R high - B2R low <= B2R (fmul high u)).
    { rewrite V. apply rnd_ge; [exact Rd|]. assert (0 <= B2R high * (B2R u - / 2)) by (apply Rmult_le_pos; lra). lra. }
    apply fadd_ge; auto; lra.
  Qed.
  (** (Low, High) = (-1, 1): the results are m/2^52 - 1, never in [0, 1). *)
  Theorem C32_uniform_minus1_1 w p n e w' : go_reader read -> read w (zeros 7) = Ret ((p, n, e), w') ->
    exists f x, Uniform_Next read (of_int (-1)) (of_int 1) w = Ret (f, w') /\ fvalue f x /\
      x = IZR (Z.of_N (le_val p mod 2 ^ 52)) / IZR (2 ^ 52) - 1 /\ -1 <= x < 0.
  Proof.
    intros G E. destruct (of_int_exact (-1)) as (V1 & F1 & _); [lia|]. destruct (of_int_exact 1) as (V2 & F2 & _); [lia|].
    destruct (C32_uniform_value (of_int (-1)) (of_int 1) (-1) 1 w p n e w' G E) as (f & U & H & _); [split; assumption|split; assumption|].
    set (m := (le_val p mod 2 ^ 52)%N) in *. assert (Hm : (m < 2 ^ 52)%N) by (apply N.mod_lt; discriminate).
    pose proof (u52_bounds m Hm) as Hu. assert (I : 0 < / IZR (2 ^ 52)) by (apply Rinv_0_lt_compat; now apply IZR_lt).
    assert (R1 : rnd (1 * (IZR (Z.of_N m) / IZR (2 ^ 52))) = IZR (Z.of_N m) / IZR (2 ^ 52)).
    { rewrite Rmult_1_l. apply rnd_id. change (/ IZR (2 ^ 52)) with (bpow radix2 (-52)). apply (representable_int (Z.of_N m) (-52)); lia. }
    assert (R2 : rnd (IZR (Z.of_N m) / IZR (2 ^ 52) + -1) = IZR (Z.of_N m) / IZR (2 ^ 52) - 1).
    { replace (IZR (Z.of_N m) / IZR (2 ^ 52) + -1) with (IZR (Z.of_N m - 2 ^ 52) * bpow radix2 (-52)).
      - rewrite rnd_id by (apply representable_int; lia). rewrite minus_IZR. change (bpow radix2 (-52)) with (/ IZR (2 ^ 52)). field. lra.
      - rewrite minus_IZR. change (bpow radix2 (-52)) with (/ IZR (2 ^ 52)). field. lra. }
    rewrite R1, Rmult_1_l, R2 in H. assert (H2 : Rabs (IZR (Z.of_N m) / IZR (2 ^ 52) - 1) < fmax -> fvalue f (IZR (Z.of_N m) / IZR (2 ^ 52) - 1)) by (revert H; now destruct (fuses UniformSite)). clear H. rename H2 into H. exists f, (IZR (Z.of_N m) / IZR (2 ^ 52) - 1). split; [exact U|]. split; [|split; [reflexivity|lra]].
    apply H. apply Rlt_trans with 2; [apply Rabs_def1; lra|apply (bpow_emax_lt 1); lia].
  Qed.
  (** Low = 0 is the documented case: for a normal High > 0 the results are in [0, High). *)
  Theorem C32_uniform_low_zero low high h w f w' : go_reader read -> fvalue low 0 -> fvalue high h -> bpow radix2 (-1022) <= h ->
    Uniform_Next read low high w = Ret (f, w') -> exists x, fvalue f x /\ 0 <= x < h.
  Proof.
    intros G [Fl Vl] [Fh <-] Hh U. destruct (uniform_inv low high w f w' G U) as (m & u & Hm & -> & [Fu Vu]).
    pose proof (u52_bounds m Hm) as Hu. rewrite <- Vu in Hu. assert (I : 0 < / IZR (2 ^ 52)) by (apply Rinv_0_lt_compat; now apply IZR_lt).
    destruct (scale_finite high u Fh Fu ltac:(lra)) as [V F]. pose proof (bpow_gt_0 radix2 (-1022)) as Hb.
    assert (H0 : 0 <= B2R (fmul high u)) by (rewrite V; apply rnd_ge; [apply representable_0|apply Rmult_le_pos; lra]).
    assert (H1 : B2R (fmul high u) < B2R high).
    { rewrite V. set (h := B2R high) in *. assert (Rh : representable h) by apply representable_B2R.
      pose proof (ulp_FLT_le radix2 (-1074) 53 h) as Hulp. rewrite Rabs_pos_eq in Hulp by lra. specialize (Hulp Hh).
      rewrite ulp_neq_0 in Hulp by lra. set (c := cexp radix2 (FLT_exp (-1074) 53) h) in *.
      change (bpow radix2 (1 - 53)) with (/ IZR (2 ^ 52)) in Hulp. pose proof (bpow_gt_0 radix2 c) as Hc.
      assert (Rp : representable (h - bpow radix2 c)).
      { unfold representable, generic_format in Rh. fold c in Rh. set (M := Ztrunc (scaled_mantissa radix2 (FLT_exp (-1074) 53) h)) in Rh.
        unfold F2R in Rh. cbn [Fnum Fexp] in Rh.
        assert (HM : (0 < M < 2 ^ 53)%Z).
        { split.
          - apply lt_IZR. apply Rmult_lt_reg_r with (bpow radix2 c); [exact Hc|]. rewrite <- Rh. lra.
          - apply lt_IZR. apply Rmult_lt_reg_r with (bpow radix2 c); [exact Hc|]. rewrite <- Rh. change (IZR (2 ^ 53)) with (bpow radix2 53). rewrite <- bpow_plus.
            apply Rlt_le_trans with (bpow radix2 (mag radix2 h)).
            + destruct (mag radix2 h) as [e He]. cbn [mag_val]. specialize (He ltac:(lra)). rewrite Rabs_pos_eq in He by lra. apply He.
            + apply bpow_le. unfold c, cexp, FLT_exp. lia. }
        replace (h - bpow radix2 c) with (IZR (M - 1) * bpow radix2 c).
        - apply representable_int; [lia|]. unfold c, cexp, FLT_exp. lia.
        - rewrite minus_IZR, Rmult_minus_distr_r, Rmult_1_l, <- Rh. reflexivity. }
      apply Rle_lt_trans with (h - bpow radix2 c); [|lra]. apply rnd_le_rep; [exact Rp|].
      apply Rle_trans with (h * (1 - / IZR (2 ^ 52))); [apply Rmult_le_compat_l; lra|]. lra. }
    unfold mul_add. destruct (fuses UniformSite).
    { destruct (ffma_R high u low Fh Fu Fl) as [V' F'].
      - rewrite Vl, Rplus_0_r, <- V. now apply representable_lt_fmax.
      - rewrite Vl, Rplus_0_r, <- V in V'. exists (B2R (fmul high u)). split; [|lra]. now split. }
    assert (E0 : B2R (fmul high u) + B2R low = B2R (fmul high u)) by (rewrite Vl; ring).
    assert (E1 : rnd (B2R (fmul high u) + B2R low) = B2R (fmul high u)) by (rewrite E0; apply rnd_id, representable_B2R).
    destruct (fadd_R _ _ F Fl) as [V' F'].
    - rewrite E1. now apply representable_lt_fmax.
    - exists (B2R (fmul high u)). split; [|lra]. split; [exact F'|]. now rewrite V'.
  Qed.
End C32.
(** (Low, High) = (5, 10) with the largest draw: the hypotheses of C32_uniform_exceeds_high hold, the source is a Go reader *)
Definition all_ff : reader unit := fun w p => Ret ((map (fun _ => 255%N) p, length p, None), w).
Example C32_nonvacuous : go_reader all_ff /\ all_ff tt (zeros 7) = Ret ((repeat 255%N 7, 7%nat, None), tt) /\
  (2 ^ 51 <= le_val (repeat 255 7) mod 2 ^ 52)%N /\ fvalue (of_int 5) 5 /\ fvalue (of_int 10) 10 /\ 10 / 2 <= 5 <= 10.
Proof.
  split; [|split; [reflexivity|split; [discriminate|]]].
  - intros w p p' n e w' E. unfold all_ff in E. assert (p' = map (fun _ => 255%N) p) as -> by congruence. split; [apply map_length|].
    intros _. apply Forall_forall. intros x Hx. apply in_map_iff in Hx. destruct Hx as (y & <- & _). reflexivity.
  - destruct (of_int_exact 5) as (V1 & F1 & _); [lia|]. destruct (of_int_exact 10) as (V2 & F2 & _); [lia|]. repeat split; auto; lra.
Qed.
End Compiler.
