(** Exponential and normal variates (expo.go, normal.go): C35, C36, C37, and C34 for the normal distribution. *)
From Coq Require Import Reals Lia Lra ZifyN ZifyNat ZifyBool.
From Flocq Require Import Core BinarySingleNaN.
From Verif Require Import Model.Base Model.Rng Model.Util Model.Float Model.Distr Model.Ziggurat Model.ExpoTable Model.NormalTable Model.ExpoNormal.
From Verif Require Import Spec.Common Spec.Counting Spec.Floats Spec.Zig.
From Verif Require Import Proofs.WordLemmas Proofs.FloatProofs Proofs.FusedProofs Proofs.ZigTables Props.Rng Props.Uniform Props.Zig.
Local Open Scope R_scope.

(** for every choice of the compiler which x*y + z to fuse (Model/Fused.v) *)
Section Compiler.
Context {fpc : compiler}.

(** ** C35 *)
Section C35.
  Context {W : Type} (read : reader W) (math_exp math_log : float64 -> float64).
  (** the shipped tables are what the decimal literals of the source denote ... *)
  Theorem C35_expo_literals i : (i < 1024)%nat ->
    is_literal (tW (expoZig read math_exp math_log) i) (fst (nth i expoW_dec (0, 0)%Z)) (snd (nth i expoW_dec (0, 0)%Z)) /\
    is_literal (tF (expoZig read math_exp math_log) i) (fst (nth i expoF_dec (0, 0)%Z)) (snd (nth i expoF_dec (0, 0)%Z)).
  Proof.
    intros Hi. destruct (literals_check _ _ expoW_literals) as [L1 H1]. destruct (literals_check _ _ expoF_literals) as [L2 H2].
    split; [apply H1|apply H2]; exact Hi.
  Qed.
  Theorem C35_normal_literals tf i : (i < 1024)%nat ->
    is_literal (tW (normalZig read math_exp math_log tf) i) (fst (nth i normalW_dec (0, 0)%Z)) (snd (nth i normalW_dec (0, 0)%Z)) /\
    is_literal (tF (normalZig read math_exp math_log tf) i) (fst (nth i normalF_dec (0, 0)%Z)) (snd (nth i normalF_dec (0, 0)%Z)).
  Proof.
    intros Hi. destruct (literals_check _ _ normalW_literals) as [L1 H1]. destruct (literals_check _ _ normalF_literals) as [L2 H2].
    split; [apply H1|apply H2]; exact Hi.
  Qed.
  (** ... and form a ziggurat: see Spec.Zig.ziggurat_tables *)
  Theorem C35_expo_tables : ziggurat_tables (expoZig read math_exp math_log).
  Proof. exact (tables_meaning (expoZig read math_exp math_log) _ _ _ 0 eq_refl eq_refl eq_refl expo_table_ok _ _ eq_refl eq_refl). Qed.
  Theorem C35_normal_tables tf : ziggurat_tables (normalZig read math_exp math_log tf).
  Proof. exact (tables_meaning (normalZig read math_exp math_log tf) _ _ _ 1 eq_refl eq_refl eq_refl normal_table_ok _ _ eq_refl eq_refl). Qed.
  (** K[0]: floor(2^53 * x_1023 / x_0), off by one in the normal table *)
  Theorem C35_expo_base : Z.of_N (tK (expoZig read math_exp math_log) 0) =
    Zfloor (IZR (2 ^ 53) * edge (expoZig read math_exp math_log) 1023 / edge (expoZig read math_exp math_log) 0).
  Proof. rewrite (base_ratio (expoZig read math_exp math_log) _ _ _ 0 eq_refl eq_refl expo_table_ok _ _ eq_refl eq_refl). apply Z.add_0_r. Qed.
  Theorem C35_normal_base tf : Z.of_N (tK (normalZig read math_exp math_log tf) 0) =
    (Zfloor (IZR (2 ^ 53) * edge (normalZig read math_exp math_log tf) 1023 / edge (normalZig read math_exp math_log tf) 0) + 1)%Z.
  Proof. exact (base_ratio (normalZig read math_exp math_log tf) _ _ _ 1 eq_refl eq_refl normal_table_ok _ _ eq_refl eq_refl). Qed.
  (** the tail starts where the bottom layer ends *)
  Theorem C35_expo_tail_start : is_literal expoR 925616454426554 14 /\ 0 <= edge (expoZig read math_exp math_log) 1023 - B2R expoR <= 5 / 10 ^ 15.
  Proof.
    split; [exact expoR_literal|]. destruct (edge_value (expoZig read math_exp math_log) _ _ _ 0 eq_refl expo_table_ok _ _ eq_refl eq_refl 1023) as (_ & -> & _); [lia|].
    destruct (mkfloat_exact false 5210757399054285 (-49)) as (V & _ & _); [lia|lia|]. unfold expoR. rewrite V.
    assert (E : (nz (map (scale 112) expoW_bin) 1023 = 5210757399054285 * 2 ^ 10 + 2048)%Z) by (vm_compute; reflexivity). rewrite E.
    change (bpow radix2 (-49)) with (/ IZR (2 ^ 49)). cbn [Z.pow Z.pow_pos Pos.iter Z.mul Pos.mul Z.add Pos.add]. lra.
  Qed.
  Theorem C35_normal_tail_start tf : is_literal normalR 40388498461095 13 /\ 0 <= edge (normalZig read math_exp math_log tf) 1023 - B2R normalR <= 5 / 10 ^ 15.
  Proof.
    split; [exact normalR_literal|]. destruct (edge_value (normalZig read math_exp math_log tf) _ _ _ 1 eq_refl normal_table_ok _ _ eq_refl eq_refl 1023) as (_ & -> & _); [lia|].
    destruct (mkfloat_exact false 4547340665486032 (-50)) as (V & _ & _); [lia|lia|]. unfold normalR. rewrite V.
    assert (E : (nz (map (scale 112) normalW_bin) 1023 = 4547340665486032 * 2 ^ 9 + 2560)%Z) by (vm_compute; reflexivity). rewrite E.
    change (bpow radix2 (-50)) with (/ IZR (2 ^ 50)). cbn [Z.pow Z.pow_pos Pos.iter Z.mul Pos.mul Z.add Pos.add]. lra.
  Qed.
End C35.

(** ** C36 *)
Lemma uniform_cases k : (k < 2 ^ 53)%N ->
  fmul (of_int (Z.of_N k)) lit_scale = B754_zero false /\ k = 0%N \/
  exists x, fvalue (fmul (of_int (Z.of_N k)) lit_scale) x /\ / IZR (2 ^ 53) <= x < 1.
Proof.
  intros Hk. destruct (scale_exact k Hk) as [[F V] S]. destruct (N.eq_dec k 0) as [->|N]; [left|right].
  - split; [|reflexivity]. apply (B2R_Bsign_inj 53 1024); [exact F|reflexivity| |exact S]. rewrite V. cbn. lra.
  - exists (IZR (Z.of_N k) / IZR (2 ^ 53)). split; [split; assumption|]. pose proof (frac53 k Hk) as B. split; [|lra].
    assert (I : 0 < / IZR (2 ^ 53)) by (apply Rinv_0_lt_compat; now apply IZR_lt). unfold Rdiv. rewrite <- (Rmult_1_l (/ IZR (2 ^ 53))) at 1.
    apply Rmult_le_compat_r; [lra|]. apply IZR_le. lia.
Qed.
(** a double that is not NaN and not negative *)
Definition nonneg (f : float64) : Prop := is_nan f = false /\ Bsign f = false.
Lemma nonneg_cases f : nonneg f <-> f = finf \/ (is_finite f = true /\ Bsign f = false).
Proof.
  split.
  - destruct f as [s|s| |s m e H]; intros [H1 H2]; cbn in *; subst; try discriminate; auto.
  - intros [->|[F S]]; [split; reflexivity|]. split; [|exact S]. destruct f; (reflexivity || discriminate).
Qed.
Lemma fsub_nonneg x y : is_finite x = true -> Bsign x = false -> 0 < B2R x -> is_finite y = true -> B2R y <= 0 -> nonneg (fsub x y) /\ (Rabs (rnd (B2R x - B2R y)) < fmax -> is_finite (fsub x y) = true).
Proof.
  intros Fx Sx Px Fy Py. pose proof (Bminus_correct 53 1024 fprec_gt_0 fprec_lt_emax mode_NE x y Fx Fy) as K.
  change (round radix2 (SpecFloat.fexp 53 1024) (round_mode mode_NE) (B2R x - B2R y)) with (rnd (B2R x - B2R y)) in K.
  destruct (Rlt_or_le (Rabs (rnd (B2R x - B2R y))) fmax) as [H|H].
  - rewrite Rlt_bool_true in K by exact H. destruct K as (K1 & K2 & K3). split; [|auto]. apply nonneg_cases. right. split; [exact K2|].
    unfold fsub. rewrite K3, Rcompare_Gt by lra. reflexivity.
  - rewrite Rlt_bool_false in K by exact H. destruct K as (K1 & K2). split; [|lra]. apply nonneg_cases. left. apply B2SF_inj. unfold fsub. rewrite K1, Sx. reflexivity.
Qed.
Lemma fdiv_nonneg x r : nonneg x -> is_finite r = true -> 0 < B2R r -> nonneg (fdiv x r).
Proof.
  intros Hx Fr Pr. pose proof (sign_pos r Fr Pr) as Sr. apply nonneg_cases in Hx. destruct Hx as [->|[Fx Sx]].
  - destruct r as [s|s| |s m e H]; cbn in Fr, Pr, Sr; try discriminate; subst; [lra|]. split; reflexivity.
  - apply nonneg_cases. destruct (Rlt_or_le (Rabs (rnd (B2R x / B2R r))) fmax) as [H|H].
    + destruct (fdiv_R x r Fx ltac:(lra) H) as (V & F & S). right. split; [exact F|]. rewrite S, Sx, Sr. reflexivity.
    + left. rewrite (fdiv_overflow x r Fx ltac:(lra) H), Sx, Sr. reflexivity.
Qed.
(** j * W[i] is finite, with the sign of j *)
Lemma point_finite {W} (z : Ziggurat W) u : ziggurat_tables z -> edge z 0 <= 16 -> (u < 2 ^ 64)%N ->
  is_finite (point z u) = true /\ Bsign (point z u) = (abscissa (zMirrored z) u <? 0)%Z /\ Rabs (B2R (point z u)) <= 16.
Proof.
  intros T E16 Hu. destruct (layer_bits u Hu) as (_ & L & _). destruct (tables_finite z T (layer u) L) as (FW & _ & PE & _).
  unfold point. destruct (C33_abscissa_exact z u) as [Fj Vj]. pose proof (abscissa_range (zMirrored z) u) as R.
  set (j := abscissa (zMirrored z) u) in *. set (wi := tW z (layer u)) in *.
  assert (P53 : 0 < IZR (2 ^ 53)) by now apply IZR_lt. 
  assert (Pw : 0 < B2R wi). { unfold edge in PE. fold wi in PE. apply Rmult_lt_reg_l with (IZR (2 ^ 53)); [exact P53|]. now rewrite Rmult_0_r. }
  assert (EL : edge z (layer u) <= edge z 0).
  { destruct (Nat.eq_dec (layer u) 0) as [->|N0]; [lra|]. apply Rle_trans with (edge z 1023); [|left; apply (base_wider z T)].
    destruct (Nat.eq_dec (layer u) 1023) as [->|N1]; [lra|]. left. apply (edges_increase z T); lia. }
  assert (A : Rabs (IZR j * B2R wi) <= edge z (layer u)).
  { rewrite Rabs_mult, (Rabs_pos_eq (B2R wi)) by lra. unfold edge. fold wi. apply Rmult_le_compat_r; [lra|]. rewrite <- abs_IZR. apply IZR_le. lia. }
  assert (R16 : representable 16) by (replace 16 with (IZR 1 * bpow radix2 4) by (cbn; lra); apply representable_int; lia).
  assert (A2 : Rabs (rnd (IZR j * B2R wi)) <= 16) by (apply rnd_abs_le; [exact R16|lra]).
  assert (Lt : 16 < fmax) by (replace 16 with (bpow radix2 4) by (cbn; lra); apply bpow_emax_lt; lia).
  destruct (fmul_R (of_int j) wi Fj FW) as (V & F & S); [rewrite Vj; lra|]. rewrite V, Vj. split; [exact F|]. split; [|exact A2].
  rewrite S, (sign_pos wi FW Pw). destruct (Z.ltb_spec j 0) as [Hj|Hj].
  - rewrite sign_neg; [reflexivity|exact Fj|]. rewrite Vj. now apply IZR_lt.
  - destruct (Z.eq_dec j 0) as [->|N0]; [reflexivity|]. rewrite sign_pos; [reflexivity|exact Fj|]. rewrite Vj. apply IZR_lt. lia.
Qed.
Section C36.
  Context {W : Type} (read : reader W) (math_exp math_log : float64 -> float64).
  Hypothesis (G : go_reader read).
  Notation zig_e := (expoZig read math_exp math_log).
  Lemma expo_edge0 : edge zig_e 0 <= 16.
  Proof.
    destruct (edge_value zig_e _ _ _ 0 eq_refl expo_table_ok _ _ eq_refl eq_refl 0) as (_ & -> & _); [lia|].
    assert (E : (nz (map (scale 112) expoW_bin) 0 <= 2 ^ 63)%Z) by (vm_compute; discriminate). apply IZR_le in E.
    assert (P : 0 < IZR (2 ^ 59)) by now apply IZR_lt. apply Rmult_le_reg_r with (IZR (2 ^ 59)); [exact P|].
    unfold Rdiv. rewrite Rmult_assoc, Rinv_l, Rmult_1_r by lra. change (IZR (2 ^ 63)) with (IZR (16 * 2 ^ 59)) in E. rewrite mult_IZR in E. exact E.
  Qed.
  Lemma expoR_value : is_finite expoR = true /\ Bsign expoR = false /\ 9 <= B2R expoR <= 10.
  Proof.
    destruct (mkfloat_exact false 5210757399054285 (-49)) as (V & F & S); [lia|lia|]. unfold expoR. rewrite V, F, S.
    change (bpow radix2 (-49)) with (/ IZR (2 ^ 49)). cbn [Z.pow Z.pow_pos Pos.iter Z.mul Pos.mul Z.add Pos.add]. repeat split; lra.
  Qed.
  (** one draw of the tail *)
  Lemma expoTail_cases w x w' : log_like math_log -> expoTail read math_log w = Ret (x, w') ->
    exists u, Uniform0_1_Next read w = Ret (u, w') /\
      (u = B754_zero false /\ x = finf \/ (exists v, fvalue u v /\ / IZR (2 ^ 53) <= v < 1) /\ x = fsub expoR (math_log u) /\ nonneg x).
  Proof.
    intros [L0 L1] E. unfold expoTail in E. destruct (Uniform0_1_Next read w) as [[u w1]| |] eqn:U; cbn [bind] in E; try discriminate E.
    assert (x = fsub expoR (math_log u)) as -> by congruence. assert (w' = w1) as -> by congruence. exists u. split; [reflexivity|].
    destruct (uniform01_inv read w u w1 G U) as (k & Hk & ->). destruct (uniform_cases k Hk) as [[Z _]|(v & V & B)].
    - left. split; [exact Z|]. rewrite Z, L0. apply B2SF_inj. reflexivity.
    - right. split; [eauto|]. split; [reflexivity|]. destruct (L1 _ _ V) as (y & [Fy Vy] & Hy).
      { assert (0 < / IZR (2 ^ 53)) by (apply Rinv_0_lt_compat; now apply IZR_lt). lra. }
      destruct expoR_value as (F & S & P). apply fsub_nonneg; auto; lra.
  Qed.
  Lemma expo_zig_nonneg n u w x w' : log_like math_log -> zig read zig_e n u w x w' -> nonneg x.
  Proof.
    intros L H. induction H as [w u w1 Eu Hi|w u w1 y w2 Eu Hi Hl Ey Eb|w u w1 x w2 Eu Hi Hl Et|w u w1 y w2 n u' x w' Eu Hi Hl Ey Eb H IH].
    - destruct (point_finite zig_e u (C35_expo_tables _ _ _) expo_edge0 (draw_w read G _ _ _ Eu)) as (F & S & _). apply nonneg_cases. right. split; [exact F|]. rewrite S.
      apply Z.ltb_ge. cbn [zMirrored expoZig]. unfold abscissa. apply Z.mod_pos_bound. reflexivity.
    - destruct (point_finite zig_e u (C35_expo_tables _ _ _) expo_edge0 (draw_w read G _ _ _ Eu)) as (F & S & _). apply nonneg_cases. right. split; [exact F|]. rewrite S.
      apply Z.ltb_ge. cbn [zMirrored expoZig]. unfold abscissa. apply Z.mod_pos_bound. reflexivity.
    - replace (abscissa (zMirrored zig_e) u <? 0)%Z with false by (symmetry; apply Z.ltb_ge; cbn [zMirrored expoZig]; unfold abscissa; apply Z.mod_pos_bound; reflexivity).
      destruct (expoTail_cases _ _ _ L Et) as (v & _ & [[_ ->]|(_ & _ & N)]); [split; reflexivity|exact N].
    - exact IH.
  Qed.
  (** For every positive finite rate, the result is never NaN and never negative (not even -0). *)
  Theorem C36_exponential_nonneg rate r fuel w f w' : log_like math_log -> fvalue rate r -> 0 < r ->
    Exponential_Next read math_exp math_log rate fuel w = Ret (f, w') -> is_nan f = false /\ Bsign f = false.
  Proof.
    intros L [Fr <-] Pr E. unfold Exponential_Next in E. destruct (GenNext read zig_e fuel w) as [[x w1]| |] eqn:Eg; cbn [bind] in E; try discriminate E.
    assert (f = fdiv x rate) as -> by congruence. apply (C33_gennext_is_ziggurat read zig_e G (tables_full _ (C35_expo_tables _ _ _))) in Eg.
    destruct Eg as (n & u & _ & H). apply fdiv_nonneg; auto. exact (expo_zig_nonneg _ _ _ _ _ L H).
  Qed.
  Lemma expo_zig_finite n u w x w' : log_bounded math_log -> (forall w y w', Uniform0_1_Next read w = Ret (y, w') -> y <> B754_zero false) ->
    zig read zig_e n u w x w' -> is_finite x = true /\ Bsign x = false /\ 0 <= B2R x <= 48.
  Proof.
    intros [L LB] NZ H. assert (R48 : representable 48) by (replace 48 with (IZR 3 * bpow radix2 4) by (cbn; lra); apply representable_int; lia).
    assert (P : forall w1 u w2, RNG_Uint64 read w1 = Ret (u, w2) -> is_finite (point zig_e u) = true /\ Bsign (point zig_e u) = false /\ 0 <= B2R (point zig_e u) <= 48).
    { intros w1 v w2 Ev. destruct (point_finite zig_e v (C35_expo_tables _ _ _) expo_edge0 (draw_w read G _ _ _ Ev)) as (F & S & B).
      assert (S' : Bsign (point zig_e v) = false). { rewrite S. apply Z.ltb_ge. cbn [zMirrored expoZig]. unfold abscissa. apply Z.mod_pos_bound. reflexivity. }
      split; [exact F|]. split; [exact S'|]. apply Rabs_le_inv in B. pose proof (sign_R' _ F S'). lra. }
    induction H as [w u w1 Eu Hi|w u w1 y w2 Eu Hi Hl Ey Eb|w u w1 x w2 Eu Hi Hl Et|w u w1 y w2 n u' x w' Eu Hi Hl Ey Eb H IH].
    - exact (P _ _ _ Eu).
    - exact (P _ _ _ Eu).
    - replace (abscissa (zMirrored zig_e) u <? 0)%Z with false by (symmetry; apply Z.ltb_ge; cbn [zMirrored expoZig]; unfold abscissa; apply Z.mod_pos_bound; reflexivity).
      destruct (expoTail_cases _ _ _ L Et) as (v & Ev & [[Zv _]|((vx & V & B) & -> & N)]); [destruct (NZ _ _ _ Ev Zv)|].
      specialize (LB v vx V B). destruct L as [_ L1]. destruct (L1 v vx V) as (y & [Fy Vy] & Hy).
      { assert (0 < / IZR (2 ^ 53)) by (apply Rinv_0_lt_compat; now apply IZR_lt). lra. }
      destruct expoR_value as (F & S & PR).
      assert (RB : 0 <= rnd (B2R expoR - B2R (math_log v)) <= 48) by (split; [apply rnd_ge; [apply representable_0|lra]|apply rnd_le_rep; [exact R48|lra]]).
      assert (Lt : Rabs (rnd (B2R expoR - B2R (math_log v))) < fmax).
      { rewrite Rabs_pos_eq by lra. apply Rle_lt_trans with (bpow radix2 6); [apply Rle_trans with 48; [apply RB|cbn; lra]|apply bpow_emax_lt; lia]. }
      destruct (fsub_R _ _ F Fy Lt) as [V' F']. destruct N as [_ S']. rewrite V'. auto.
    - exact IH.
  Qed.
  (** If the source never makes Uniform0_1 return 0 (one of 2^53 values) and math.Log is sane, the result is finite and
      at most 48 for every rate >= 1. *)
  Theorem C36_exponential_finite_without_zero rate r fuel w f w' : log_bounded math_log ->
    (forall w y w', Uniform0_1_Next read w = Ret (y, w') -> y <> B754_zero false) -> fvalue rate r -> 1 <= r ->
    Exponential_Next read math_exp math_log rate fuel w = Ret (f, w') -> exists x, fvalue f x /\ 0 <= x <= 48.
  Proof.
    intros L NZ [Fr <-] Pr E. unfold Exponential_Next in E. destruct (GenNext read zig_e fuel w) as [[x w1]| |] eqn:Eg; cbn [bind] in E; try discriminate E.
    assert (f = fdiv x rate) as -> by congruence. apply (C33_gennext_is_ziggurat read zig_e G (tables_full _ (C35_expo_tables _ _ _))) in Eg.
    destruct Eg as (n & u & _ & H). destruct (expo_zig_finite _ _ _ _ _ L NZ H) as (Fx & Sx & Bx).
    assert (R48 : representable 48) by (replace 48 with (IZR 3 * bpow radix2 4) by (cbn; lra); apply representable_int; lia).
    assert (Q : 0 <= B2R x / B2R rate <= 48).
    { assert (I : 0 < / B2R rate <= 1). { split; [apply Rinv_0_lt_compat; lra|]. rewrite <- Rinv_1. apply Rinv_le_contravar; lra. }
      unfold Rdiv. split; [apply Rmult_le_pos; lra|]. apply Rle_trans with (B2R x * 1); [apply Rmult_le_compat_l; lra|lra]. }
    assert (RB : 0 <= rnd (B2R x / B2R rate) <= 48) by (split; [apply rnd_ge; [apply representable_0|lra]|apply rnd_le_rep; [exact R48|lra]]).
    destruct (fdiv_R x rate Fx) as (V & F & _); [lra| |].
    - rewrite Rabs_pos_eq by lra. apply Rle_lt_trans with (bpow radix2 6); [apply Rle_trans with 48; [apply RB|cbn; lra]|apply bpow_emax_lt; lia].
    - eexists. split; [split; [exact F|reflexivity]|]. rewrite V. exact RB.
  Qed.
End C36.
(** The draw 2^53 - 1 (layer 0, outside) followed by the draw 0 gives +Inf, for every rate. *)
Theorem C36_exponential_can_be_infinite math_exp math_log rate r fuel : log_like math_log -> fvalue rate r -> 0 < r ->
  Exponential_Next tape math_exp math_log rate (S fuel) [2 ^ 53 - 1; 0]%N = Ret (finf, []).
Proof.
  intros [L0 _] [Fr <-] Pr. unfold Exponential_Next. set (z := expoZig tape math_exp math_log).
  rewrite (gennext_step tape z tape_go (tables_full _ (C35_expo_tables _ _ _))). rewrite tape_draw by reflexivity. cbn [bind].
  destruct (inside_dec z (2 ^ 53 - 1)) as [H|_]; [exfalso; revert H; vm_compute; discriminate|].
  replace (layer (2 ^ 53 - 1) =? 0)%nat with true by (vm_compute; reflexivity). unfold z. cbn [zTail expoZig]. unfold expoTail, Uniform0_1_Next.
  cbn [tape bind]. rewrite zeros_length, get64_8 by apply le_bytes_length. cbn [bind]. rewrite le_val_bytes8 by apply w64_0.
  change (N.land 0 0x1fffffffffffff) with 0%N. destruct (uniform_cases 0) as [[-> _]|(x & [_ V] & B)]; [reflexivity| |].
  - rewrite L0. replace (fsub expoR fninf) with finf by (apply B2SF_inj; vm_compute; reflexivity).
    replace (abscissa (zMirrored (expoZig tape math_exp math_log)) (2 ^ 53 - 1) <? 0)%Z with false by (vm_compute; reflexivity).
    f_equal. f_equal. pose proof (sign_pos rate Fr Pr) as Sr. destruct rate as [s|s| |s m e H]; cbn in Fr, Pr, Sr; try discriminate; subst; [lra|]. reflexivity.
  - exfalso. destruct (scale_exact 0) as [[_ V0] _]; [reflexivity|]. rewrite V0 in V. cbn [Z.of_N] in V. assert (0 < / IZR (2 ^ 53)) by (apply Rinv_0_lt_compat; now apply IZR_lt). lra.
Qed.
(** the assumptions on math.Log can be met; 1.0 is a rate *)
Definition coarse_log (u : float64) : float64 := match u with B754_zero _ => fninf | _ => of_int (-1) end.
Lemma coarse_log_bounded : log_bounded coarse_log.
Proof.
  assert (V : fvalue (of_int (-1)) (-1)) by (destruct (of_int_exact (-1)) as (V & F & _); [lia|]; split; assumption).
  assert (C : forall u x, fvalue u x -> 0 < x -> coarse_log u = of_int (-1)).
  { intros u x [F E] H. destruct u as [s|s| |s m e Hb]; try reflexivity. cbn in E. lra. }
  split; [split; [reflexivity|]|].
  - intros u x Hu Hx. exists (-1). rewrite (C u x Hu) by lra. split; [exact V|lra].
  - intros u x Hu Hx. assert (0 < / IZR (2 ^ 53)) by (apply Rinv_0_lt_compat; now apply IZR_lt). rewrite (C u x Hu) by lra. destruct V as [_ ->]. lra.
Qed.
Example C36_nonvacuous : log_like coarse_log /\ fvalue (of_int 1) 1 /\ 0 < 1 /\
  (forall w y w', Uniform0_1_Next all_ff w = Ret (y, w') -> y <> B754_zero false).
Proof.
  split; [apply coarse_log_bounded|]. split; [|split; [lra|]].
  - destruct (of_int_exact 1) as (V & F & _); [lia|]. now split.
  - intros w y w' E Z. subst y. unfold Uniform0_1_Next in E. cbn [all_ff bind] in E. rewrite get64_8 in E by reflexivity. cbn [bind] in E.
    assert (E2 : fmul (of_int (Z.of_N (N.land (le_val (map (fun _ => 255%N) (zeros 8))) 0x1fffffffffffff))) lit_scale = B754_zero false) by congruence.
    apply (f_equal B2SF) in E2. vm_compute in E2. discriminate E2.
Qed.

(** ** C37 *)
Section C37.
  Context {W : Type} (read : reader W) (math_exp math_log : float64 -> float64).
  Hypothesis (G : go_reader read).
  Lemma normalR_value : is_finite normalR = true /\ Bsign normalR = false /\ 4 <= B2R normalR <= 5.
  Proof.
    destruct (mkfloat_exact false 4547340665486032 (-50)) as (V & F & S); [lia|lia|]. unfold normalR. rewrite V, F, S.
    change (bpow radix2 (-50)) with (/ IZR (2 ^ 50)). cbn [Z.pow Z.pow_pos Pos.iter Z.mul Pos.mul Z.add Pos.add]. repeat split; lra.
  Qed.
  Lemma neg_log_nonneg w u w' : log_like math_log -> Uniform0_1_Next read w = Ret (u, w') ->
    u = B754_zero false /\ fneg (math_log u) = finf \/
    u <> B754_zero false /\ is_finite (fneg (math_log u)) = true /\ 0 <= B2R (fneg (math_log u)) /\ (log_bounded math_log -> B2R (fneg (math_log u)) <= 37).
  Proof.
    intros [L0 L1] U. destruct (uniform01_inv read w u w' G U) as (k & Hk & ->). destruct (uniform_cases k Hk) as [[Z _]|(v & V & B)].
    - left. split; [exact Z|]. rewrite Z, L0. reflexivity.
    - right. assert (I : 0 < / IZR (2 ^ 53)) by (apply Rinv_0_lt_compat; now apply IZR_lt). split.
      { intros Z. rewrite Z in V. destruct V as [_ V]. cbn in V. lra. }
      destruct (L1 _ _ V) as (y & [Fy Vy] & Hy); [lra|]. unfold fneg. rewrite is_finite_Bopp, B2R_Bopp, Vy. split; [exact Fy|]. split; [lra|].
      intros [_ LB]. specialize (LB _ _ V B). rewrite Vy in LB. lra.
  Qed.
  Lemma div_R_cases x : nonneg x -> nonneg (fdiv x normalR).
  Proof. intros H. destruct normalR_value as (F & _ & B). apply fdiv_nonneg; auto; lra. Qed.
  Lemma finite_nonneg x : is_finite x = true -> nonneg x -> 0 <= B2R x.
  Proof. intros F [_ S]. now apply sign_R'. Qed.
  Lemma neg_log_cases w u w' : log_like math_log -> Uniform0_1_Next read w = Ret (u, w') -> fneg (math_log u) = finf \/ is_finite (fneg (math_log u)) = true /\ 0 <= B2R (fneg (math_log u)).
  Proof. intros L U. destruct (neg_log_nonneg w u w' L U) as [[_ H]|(_ & F & P & _)]; auto. Qed.
  Lemma add_R_ge x : (x = finf \/ is_finite x = true /\ 0 <= B2R x) -> fle normalR (fadd x normalR) = true.
  Proof.
    destruct normalR_value as (F & _ & B). intros [->|[Fx Px]].
    - replace (fadd finf normalR) with finf by (apply B2SF_inj; vm_compute; reflexivity). now apply fle_inf_r.
    - apply fadd_ge'; auto. lra.
  Qed.
  Lemma div_R_range x : x = finf \/ is_finite x = true /\ 0 <= B2R x -> fdiv x normalR = finf \/ is_finite (fdiv x normalR) = true /\ 0 <= B2R (fdiv x normalR).
  Proof.
    destruct normalR_value as (F & S & B). intros [->|[Fx Px]].
    - left. apply B2SF_inj. vm_compute. reflexivity.
    - right. assert (Q : 0 <= B2R x / B2R normalR <= B2R x).
      { assert (I : 0 < / B2R normalR <= 1). { split; [apply Rinv_0_lt_compat; lra|]. rewrite <- Rinv_1. apply Rinv_le_contravar; lra. }
        unfold Rdiv. split; [apply Rmult_le_pos; lra|]. apply Rle_trans with (B2R x * 1); [apply Rmult_le_compat_l; lra|lra]. }
      assert (RB : 0 <= rnd (B2R x / B2R normalR) <= B2R x) by (split; [apply rnd_ge; [apply representable_0|lra]|apply rnd_le_rep; [apply representable_B2R|lra]]).
      destruct (fdiv_R x normalR Fx) as (V & F' & _); [lra| |split; [exact F'|rewrite V; lra]].
      rewrite Rabs_pos_eq by lra. pose proof (representable_lt_fmax x Fx) as H. rewrite Rabs_pos_eq in H by lra. lra.
  Qed.
  (** Whenever normalTail returns, its value is at least normalR (and not NaN). *)
  Theorem C37_tail_beyond_R fuel : log_like math_log -> forall w f w', normalTail read math_log fuel w = Ret (f, w') -> fle normalR f = true.
  Proof.
    intros L. induction fuel as [|fuel IH]; intros w f w' E; [discriminate E|]. cbn [normalTail] in E.
    destruct (Uniform0_1_Next read w) as [[u w1]| |] eqn:U; cbn [bind] in E; try discriminate E.
    destruct (Uniform0_1_Next read w1) as [[v w2]| |] eqn:V; cbn [bind] in E; try discriminate E. cbv zeta in E.
    destruct (fge _ _); [|exact (IH _ _ _ E)].
    assert (f = fadd (fdiv (fneg (math_log u)) normalR) normalR) as -> by congruence. apply add_R_ge, div_R_range. exact (neg_log_cases w u w1 L U).
  Qed.
  (** If the source never makes Uniform0_1 return 0, the tail value is finite, between normalR and 16. *)
  Theorem C37_tail_finite_without_zero fuel : log_bounded math_log -> (forall w y w', Uniform0_1_Next read w = Ret (y, w') -> y <> B754_zero false) ->
    forall w f w', normalTail read math_log fuel w = Ret (f, w') -> exists x, fvalue f x /\ B2R normalR <= x <= 16.
  Proof.
    intros L NZ. induction fuel as [|fuel IH]; intros w f w' E; [discriminate E|]. cbn [normalTail] in E.
    destruct (Uniform0_1_Next read w) as [[u w1]| |] eqn:U; cbn [bind] in E; try discriminate E.
    destruct (Uniform0_1_Next read w1) as [[v w2]| |] eqn:V; cbn [bind] in E; try discriminate E. cbv zeta in E.
    destruct (fge _ _); [|exact (IH _ _ _ E)].
    assert (f = fadd (fdiv (fneg (math_log u)) normalR) normalR) as -> by congruence.
    destruct (neg_log_nonneg w u w1 (proj1 L) U) as [[Z _]|(_ & Fx & Px & Bx)]; [destruct (NZ _ _ _ U Z)|]. specialize (Bx L).
    destruct normalR_value as (F & S & B). set (x := fneg (math_log u)) in *.
    assert (R10 : representable 10) by (replace 10 with (IZR 10 * bpow radix2 0) by (cbn; lra); apply representable_int; lia).
    assert (R16 : representable 16) by (replace 16 with (IZR 1 * bpow radix2 4) by (cbn; lra); apply representable_int; lia).
    assert (Lt : 16 < fmax) by (replace 16 with (bpow radix2 4) by (cbn; lra); apply bpow_emax_lt; lia).
    assert (Q : 0 <= B2R x / B2R normalR <= 10).
    { assert (I : 0 < / B2R normalR <= / 4). { split; [apply Rinv_0_lt_compat; lra|]. apply Rinv_le_contravar; lra. }
      unfold Rdiv. split; [apply Rmult_le_pos; lra|]. apply Rle_trans with (B2R x * / 4); [apply Rmult_le_compat_l; lra|lra]. }
    assert (RB : 0 <= rnd (B2R x / B2R normalR) <= 10) by (split; [apply rnd_ge; [apply representable_0|lra]|apply rnd_le_rep; [exact R10|lra]]).
    destruct (fdiv_R x normalR Fx) as (V1 & F1 & _); [lra|rewrite Rabs_pos_eq by lra; lra|].
    assert (RB2 : B2R normalR <= rnd (B2R (fdiv x normalR) + B2R normalR) <= 16) by (rewrite V1; split; [apply rnd_ge; [apply representable_B2R|lra]|apply rnd_le_rep; [exact R16|lra]]).
    destruct (fadd_R (fdiv x normalR) normalR F1 F) as [V2 F2]; [rewrite Rabs_pos_eq by lra; lra|].
    eexists. split; [split; [exact F2|reflexivity]|]. rewrite V2. exact RB2.
  Qed.
  (** An attempt whose first uniform is 0 is accepted, with the value +Inf, exactly when the second one is 0 as well;
      otherwise it is rejected and the loop goes on. *)
  Theorem C37_tail_zero_attempt fuel w w1 v w2 : log_bounded math_log ->
    Uniform0_1_Next read w = Ret (B754_zero false, w1) -> Uniform0_1_Next read w1 = Ret (v, w2) ->
    (v = B754_zero false -> normalTail read math_log (S fuel) w = Ret (finf, w2)) /\
    (v <> B754_zero false -> normalTail read math_log (S fuel) w = normalTail read math_log fuel w2).
  Proof.
    intros L U V. cbn [normalTail]. rewrite U. cbn [bind]. rewrite V. cbn [bind]. cbv zeta. pose proof (proj1 (proj1 L)) as L0. rewrite L0.
    assert (E1 : fdiv (fneg fninf) normalR = finf) by (apply B2SF_inj; vm_compute; reflexivity).
    assert (E2 : fmul finf finf = finf) by (apply B2SF_inj; vm_compute; reflexivity).
    assert (E3 : fadd finf finf = finf) by (apply B2SF_inj; vm_compute; reflexivity).
    assert (E4 : fadd finf normalR = finf) by (apply B2SF_inj; vm_compute; reflexivity).
    rewrite E1, E2. destruct (neg_log_nonneg w1 v w2 (proj1 L) V) as [[-> ->]|(N & F & P & B)].
    - rewrite E3, E4. split; [reflexivity|congruence].
    - split; [congruence|]. intros _. set (y := fneg (math_log v)) in *. specialize (B L).
      assert (R128 : representable 128) by (replace 128 with (IZR 1 * bpow radix2 7) by (cbn; lra); apply representable_int; lia).
      assert (Lt : 128 < fmax) by (replace 128 with (bpow radix2 7) by (cbn; lra); apply bpow_emax_lt; lia).
      assert (RB : 0 <= rnd (B2R y + B2R y) <= 128) by (split; [apply rnd_ge; [apply representable_0|lra]|apply rnd_le_rep; [exact R128|lra]]).
      destruct (fadd_R y y F F) as [_ F2]; [rewrite Rabs_pos_eq by lra; lra|].
      replace (fge (fadd y y) finf) with false; [reflexivity|]. unfold fge, fle, finf. destruct (fadd y y) as [[]|[]| |[] ? ? ?]; cbn in *; (reflexivity || discriminate F2).
  Qed.
End C37.
(** tape draws 0, 0: the tail is +Inf *)
Lemma tape_uniform u ws : w64 u -> Uniform0_1_Next tape (u :: ws) = Ret (fmul (of_int (Z.of_N (u mod 2 ^ 53))) lit_scale, ws).
Proof.
  intros H. unfold Uniform0_1_Next. cbn [tape bind]. rewrite zeros_length, get64_8 by apply le_bytes_length. cbn [bind]. rewrite le_val_bytes8 by exact H.
  change 0x1fffffffffffff%N with (N.ones 53). now rewrite N.land_ones.
Qed.
Lemma uniform_zero : fmul (of_int (Z.of_N (0 mod 2 ^ 53))) lit_scale = B754_zero false.
Proof. apply B2SF_inj. vm_compute. reflexivity. Qed.
(** Normal.Next is not always finite: after the draw 2^53 - 1 (layer 0, outside) and two zero uniforms it returns
    Mean + Inf * StdDev: an infinity for StdDev <> 0, NaN for StdDev = 0. *)
Theorem C37_normal_can_be_infinite math_exp math_log mean m sd s tf fuel : log_bounded math_log -> fvalue mean m -> fvalue sd s -> exists f,
  Normal_Next tape math_exp math_log mean sd (S tf) (S fuel) [2 ^ 53 - 1; 0; 0]%N = Ret (f, []) /\
  (0 < s -> f = finf) /\ (s < 0 -> f = fninf) /\ (s = 0 -> f = B754_nan).
Proof.
  intros L [Fm <-] [Fs <-]. unfold Normal_Next. set (z := normalZig tape math_exp math_log (S tf)).
  rewrite (gennext_step tape z tape_go (tables_full _ (C35_normal_tables _ _ _ _))). rewrite tape_draw by reflexivity. cbn [bind].
  destruct (inside_dec z (2 ^ 53 - 1)) as [H|_]; [exfalso; revert H; vm_compute; discriminate|].
  replace (layer (2 ^ 53 - 1) =? 0)%nat with true by (vm_compute; reflexivity).
  assert (ET : zTail z [0; 0]%N = Ret (finf, [])).
  { unfold z. cbn [zTail normalZig]. pose proof uniform_zero as UZ. apply (proj1 (C37_tail_zero_attempt tape math_exp math_log tape_go tf [0; 0]%N [0]%N (B754_zero false) [] L ltac:(rewrite tape_uniform by apply w64_0; now rewrite UZ) ltac:(rewrite tape_uniform by apply w64_0; now rewrite UZ))). reflexivity. }
  rewrite ET. cbn [bind]. replace (abscissa (zMirrored z) (2 ^ 53 - 1) <? 0)%Z with false by (vm_compute; reflexivity).
  exists (add_mul NormalSite mean finf sd). split; [reflexivity|]. unfold add_mul. destruct (fuses NormalSite).
  { split; [|split]; intros Hs.
    - pose proof (sign_pos sd Fs Hs) as Sr. destruct sd as [b|b| |b mm e H]; cbn in Fs, Hs, Sr; try discriminate; subst; [lra|]. destruct mean; (reflexivity || discriminate Fm).
    - pose proof (sign_neg sd Fs Hs) as Sr. destruct sd as [b|b| |b mm e H]; cbn in Fs, Hs, Sr; try discriminate; subst; [lra|]. destruct mean; (reflexivity || discriminate Fm).
    - destruct sd as [b|b| |b mm e H]; try discriminate Fs; [reflexivity|].
      exfalso. cbn in Hs. apply eq_0_F2R in Hs. cbn in Hs. destruct b; discriminate Hs. }
  split; [|split]; intros Hs.
  - rewrite (f_equal (fadd mean) (y := finf)); [destruct mean; (reflexivity || discriminate Fm)|].
    pose proof (sign_pos sd Fs Hs) as Sr. destruct sd as [b|b| |b mm e H]; cbn in Fs, Hs, Sr; try discriminate; subst; [lra|]. reflexivity.
  - rewrite (f_equal (fadd mean) (y := fninf)); [destruct mean; (reflexivity || discriminate Fm)|].
    pose proof (sign_neg sd Fs Hs) as Sr. destruct sd as [b|b| |b mm e H]; cbn in Fs, Hs, Sr; try discriminate; subst; [lra|]. reflexivity.
  - destruct sd as [b|b| |b mm e H]; try discriminate Fs.
    + destruct mean; reflexivity.
    + exfalso. cbn in Hs. apply eq_0_F2R in Hs. cbn in Hs. destruct b; discriminate Hs.
Qed.
Example C37_nonvacuous : log_bounded coarse_log /\ go_reader tape /\ normalTail tape coarse_log 1 [2 ^ 53 - 1; 2 ^ 53 - 1]%N <> OutOfFuel.
Proof.
  split; [exact coarse_log_bounded|]. split; [exact tape_go|]. cbn [normalTail]. rewrite tape_uniform by reflexivity. cbn [bind]. rewrite tape_uniform by reflexivity. cbn [bind]. cbv zeta.
  match goal with |- (if ?b then _ else _) <> _ => replace b with true by (vm_compute; reflexivity) end. discriminate.
Qed.

(** ** C34 for the normal distribution *)
(** normalPDF is exactly even, whatever math.Exp is *)
Theorem C34_normal_pdf_even math_exp : even (normalPDF math_exp).
Proof. intros x. unfold normalPDF. now rewrite !fmul_opp_r, fmul_opp_l, fneg_invol. Qed.
(** so the standard normal variates are exactly symmetric *)
Theorem C34_normal_symmetric math_exp math_log tf k x : exists c,
  has_exactly (fun ws => length ws = k /\ tape_result (normalZig tape math_exp math_log tf) (fun u => ~ no_partner u) ws x) c /\
  has_exactly (fun ws => length ws = k /\ tape_result (normalZig tape math_exp math_log tf) (fun u => ~ no_partner u) ws (fneg x)) c.
Proof. apply C34_mirrored_symmetric; [reflexivity|apply C34_normal_pdf_even]. Qed.
(** the draw 1 (layer 0, abscissa 1) is inside, returns W[0] and has a partner *)
Example C34_nonvacuous : exists x, tape_result (normalZig tape (fun x => x) coarse_log 1) (fun u => ~ no_partner u) [1%N] x /\ ~ no_partner 1 /\ B2SF x = B2SF (tW (normalZig tape (fun x => x) coarse_log 1) 0).
Proof.
  exists (point (normalZig tape (fun x => x) coarse_log 1) 1). split; [|split; [|vm_compute; reflexivity]].
  - split; [repeat constructor|]. exists 0%nat, 1%N. split; [|intros [H|H]; vm_compute in H; discriminate H].
    apply zig_inside; [apply tape_draw; reflexivity|vm_compute; reflexivity].
  - intros [H|H]; vm_compute in H; discriminate H.
Qed.
End Compiler.
