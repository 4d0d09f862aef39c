(** The ziggurat (ziggurat.go): C33, C34. *)
From Coq Require Import Reals Lia ZifyN ZifyNat ZifyBool.
From Flocq Require Import BinarySingleNaN.
From Verif Require Import Model.Base Model.Rng Model.Util Model.Float Model.Distr Model.Ziggurat Spec.Common Spec.Counting Spec.Shuffling Spec.Floats Spec.Zig.
From Verif Require Import Proofs.WordLemmas Proofs.ReadProofs Proofs.SaveProofs Proofs.IvWords Proofs.Count Proofs.PermCount Proofs.FloatProofs Props.Rng Props.Uniform.
Local Open Scope Z_scope.

(** for every choice of the compiler which x*y + z to fuse (Model/Fused.v) *)
Section Compiler.
Context {fpc : compiler}.

(** ** Decoding the draw *)
Lemma layer_bits u : (u < 2 ^ 64)%N -> Z.to_nat (Z.land (Z.shiftr (to_int64 u) 54) 0x3ff) = layer u /\ (layer u < 1024)%nat /\
  (Z.land (Z.shiftr (to_int64 u) 54) 0x3ff =? 0) = (layer u =? 0)%nat /\ Z.to_nat (Z.land (Z.shiftr (to_int64 u) 54) 0x3ff - 1) = (layer u - 1)%nat.
Proof.
  intros Hu. unfold layer. rewrite Z.shiftr_div_pow2 by discriminate. change 0x3ff with (Z.ones 10). rewrite Z.land_ones by discriminate.
  assert (B : (u / 2 ^ 54 < 1024)%N) by (apply N.div_lt_upper_bound; [discriminate|exact Hu]).
  assert (E : (to_int64 u / 2 ^ 54) mod 2 ^ 10 = Z.of_N (u / 2 ^ 54)).
  { rewrite N2Z.inj_div. change (Z.of_N (2 ^ 54)) with (2 ^ 54). unfold to_int64. destruct (N.ltb_spec u 0x8000000000000000) as [H|H].
    - apply Z.mod_small. split; [apply Z.div_pos; lia|]. apply Z.div_lt_upper_bound; lia.
    - replace (Z.of_N u - 2 ^ 64) with (Z.of_N u + (- 2 ^ 10) * 2 ^ 54) by lia. rewrite Z.div_add by discriminate.
      replace (Z.of_N u / 2 ^ 54 + - 2 ^ 10) with (Z.of_N u / 2 ^ 54 + (-1) * 2 ^ 10) by lia. rewrite Z.mod_add by discriminate.
      apply Z.mod_small. split; [apply Z.div_pos; lia|]. apply Z.div_lt_upper_bound; lia. }
  rewrite E. generalize dependent (u / 2 ^ 54)%N. intros q B _. repeat split; lia.
Qed.
Lemma abscissa_bits (b : bool) u : (u < 2 ^ 64)%N ->
  (if b then Z.shiftr (wrap64 (Z.shiftl (to_int64 u) 10)) 10 else Z.land (to_int64 u) 0x001fffffffffffff) = abscissa b u.
Proof.
  intros Hu. assert (E : exists q, to_int64 u = Z.of_N u + q * 2 ^ 64).
  { unfold to_int64. destruct (u <? 0x8000000000000000)%N; [exists 0|exists (-1)]; lia. }
  destruct E as [q E]. rewrite E. clear E. unfold abscissa. destruct b.
  - rewrite Z.shiftl_mul_pow2, Z.shiftr_div_pow2 by discriminate. unfold wrap64.
    pose proof (Z.div_mod (Z.of_N u) (2 ^ 54) ltac:(discriminate)) as D. pose proof (Z.mod_pos_bound (Z.of_N u) (2 ^ 54) eq_refl) as B.
    cbv zeta. set (r := Z.of_N u mod 2 ^ 54) in *. set (a := Z.of_N u / 2 ^ 54) in *.
    replace ((Z.of_N u + q * 2 ^ 64) * 2 ^ 10 + 2 ^ 63) with (r * 2 ^ 10 + 2 ^ 63 + (a + q * 2 ^ 10) * 2 ^ 64) by lia. rewrite Z.mod_add by discriminate.
    clearbody r a. clear D Hu. destruct (Z.ltb_spec r (2 ^ 53)) as [H|H].
    + rewrite Z.mod_small by lia. replace (r * 2 ^ 10 + 2 ^ 63 - 2 ^ 63) with (r * 2 ^ 10) by lia. now rewrite Z.div_mul by discriminate.
    + replace (r * 2 ^ 10 + 2 ^ 63) with (r * 2 ^ 10 - 2 ^ 63 + 1 * 2 ^ 64) by lia. rewrite Z.mod_add by discriminate. rewrite Z.mod_small by lia.
      replace (r * 2 ^ 10 - 2 ^ 63 - 2 ^ 63) with ((r - 2 ^ 54) * 2 ^ 10) by lia. now rewrite Z.div_mul by discriminate.
  - change 0x001fffffffffffff with (Z.ones 53). rewrite Z.land_ones by discriminate.
    replace (Z.of_N u + q * 2 ^ 64) with (Z.of_N u + (q * 2 ^ 11) * 2 ^ 53) by lia. now rewrite Z.mod_add by discriminate.
Qed.
Lemma abscissa_range b u : - 2 ^ 53 <= abscissa b u < 2 ^ 53.
Proof.
  unfold abscissa. destruct b; cbv zeta.
  - pose proof (Z.mod_pos_bound (Z.of_N u) (2 ^ 54) eq_refl). destruct (Z.ltb_spec (Z.of_N u mod 2 ^ 54) (2 ^ 53)); lia.
  - pose proof (Z.mod_pos_bound (Z.of_N u) (2 ^ 53) eq_refl). lia.
Qed.
Lemma abs_bits j : - 2 ^ 53 <= j < 2 ^ 53 -> to_uint64 (Z.lxor (wrap64 (j + Z.shiftr j 63)) (Z.shiftr j 63)) = Z.to_N (Z.abs j).
Proof.
  intros Hj. rewrite Z.shiftr_div_pow2 by discriminate. unfold to_uint64. f_equal.
  destruct (Z.ltb_spec j 0) as [H|H].
  - assert (E : j / 2 ^ 63 = -1) by (symmetry; apply (Z.div_unique j (2 ^ 63) (-1) (j + 2 ^ 63)); lia). rewrite E.
    assert (E2 : wrap64 (j + -1) = j - 1) by (unfold wrap64; rewrite Z.mod_small; lia). rewrite E2, Z.lxor_m1_r. unfold Z.lnot.
    rewrite Z.mod_small; lia.
  - rewrite (Z.div_small j) by lia. rewrite Z.lxor_0_r. assert (E2 : wrap64 (j + 0) = j) by (unfold wrap64; rewrite Z.mod_small; lia). rewrite E2, Z.mod_small; lia.
Qed.

(** ** C33 *)
(** (layer, abscissa) and the draw determine each other in a mirrored ziggurat ... *)
Theorem C33_mirrored_draw_unique i j : (i < 1024)%nat -> - 2 ^ 53 <= j < 2 ^ 53 ->
  has_exactly (fun u => (u < 2 ^ 64)%N /\ layer u = i /\ abscissa true u = j) 1.
Proof.
  intros Hi Hj. set (u0 := (N.of_nat i * 2 ^ 54 + Z.to_N (j mod 2 ^ 54))%N). exists [u0]. split; [repeat constructor; intros []|]. split; [|reflexivity].
  pose proof (Z.mod_pos_bound j (2 ^ 54) eq_refl) as B.
  assert (C : 0 <= j /\ j mod 2 ^ 54 = j \/ j < 0 /\ j mod 2 ^ 54 = j + 2 ^ 54).
  { destruct (Z.ltb_spec j 0) as [H|H]; [right|left]; (split; [exact H|]).
    - symmetry. apply (Z.mod_unique_pos j (2 ^ 54) (-1)); lia.
    - apply Z.mod_small. lia. }
  intros u. split.
  - intros [<-|[]]. split; [lia|]. assert (Q : (u0 / 2 ^ 54 = N.of_nat i)%N) by (symmetry; apply (N.div_unique u0 (2 ^ 54) (N.of_nat i) (Z.to_N (j mod 2 ^ 54))); lia).
    assert (M : Z.of_N u0 mod 2 ^ 54 = j mod 2 ^ 54) by (symmetry; apply (Z.mod_unique_pos (Z.of_N u0) (2 ^ 54) (Z.of_nat i)); lia).
    split; [unfold layer; rewrite Q; lia|]. unfold abscissa. cbv zeta. rewrite M. destruct (Z.ltb_spec (j mod 2 ^ 54) (2 ^ 53)); lia.
  - intros (Hu & Hl & Ha). left. unfold u0. unfold layer in Hl. unfold abscissa in Ha. cbv zeta in Ha.
    pose proof (N.div_mod u (2 ^ 54) ltac:(discriminate)) as D. pose proof (Z.mod_pos_bound (Z.of_N u) (2 ^ 54) eq_refl) as Bu.
    assert (EM : Z.of_N (u mod 2 ^ 54) = Z.of_N u mod 2 ^ 54) by (rewrite N2Z.inj_mod; reflexivity).
    destruct (Z.ltb_spec (Z.of_N u mod 2 ^ 54) (2 ^ 53)); clear B; lia.
Qed.
(** ... and every (layer, abscissa) has exactly two draws otherwise (bit 53 is ignored). *)
Theorem C33_unmirrored_draws i j : (i < 1024)%nat -> 0 <= j < 2 ^ 53 ->
  has_exactly (fun u => (u < 2 ^ 64)%N /\ layer u = i /\ abscissa false u = j) 2.
Proof.
  intros Hi Hj. set (u0 := (N.of_nat i * 2 ^ 54 + Z.to_N j)%N). exists [u0; (u0 + 2 ^ 53)%N].
  split; [constructor; [cbn; lia|repeat constructor; intros []]|]. split; [|reflexivity].
  assert (Q : forall b, (b = 0 \/ b = 2 ^ 53 -> (u0 + b) / 2 ^ 54 = N.of_nat i)%N).
  { intros b Hb. symmetry. apply (N.div_unique (u0 + b) (2 ^ 54) (N.of_nat i) (Z.to_N j + b)); lia. }
  intros u. split.
  - intros Hin. assert (Hb : exists b, (b = 0 \/ b = 2 ^ 53)%N /\ u = (u0 + b)%N).
    { destruct Hin as [<-|[<-|[]]]; [exists 0%N|exists (2 ^ 53)%N]; (split; [auto|]); [now rewrite N.add_0_r|reflexivity]. }
    destruct Hb as (b & Hb & ->). specialize (Q b Hb). split; [lia|]. split; [unfold layer; rewrite Q; lia|].
    unfold abscissa. symmetry. destruct Hb as [->| ->].
    + apply (Z.mod_unique_pos _ (2 ^ 53) (2 * Z.of_nat i)); lia.
    + apply (Z.mod_unique_pos _ (2 ^ 53) (2 * Z.of_nat i + 1)); lia.
  - intros (Hu & Hl & Ha). unfold layer in Hl. unfold abscissa in Ha. clear Q. cbn [In].
    pose proof (N.div_mod u (2 ^ 54) ltac:(discriminate)) as D. pose proof (N.mod_lt u (2 ^ 54) ltac:(discriminate)) as Bu.
    pose proof (Z.div_mod (Z.of_N u) (2 ^ 53) ltac:(discriminate)) as D3. rewrite Ha in D3. lia.
Qed.

Section C33.
  Context {W : Type} (read : reader W) (z : Ziggurat W).
  Hypothesis (G : go_reader read) (T : full_tables z).
  Lemma draw_w w u w1 : RNG_Uint64 read w = Ret (u, w1) -> (u < 2 ^ 64)%N.
  Proof.
    unfold RNG_Uint64. intros E. destruct (read w (zeros 8)) as [[[[p n] e] w2]| |] eqn:R; cbn [bind] in E; try discriminate E.
    destruct (G _ _ _ _ _ _ R) as [L B]. rewrite zeros_length in L. rewrite get64_8 in E by exact L. cbn [bind] in E.
    assert (u = le_val p) as -> by congruence. apply le_val_w64; [apply B, zeros_isbyte|exact L].
  Qed.
  Lemma inside_dec u : {inside z u} + {~ inside z u}.
  Proof. unfold inside. apply Z_lt_dec. Qed.
  (** one iteration of the loop *)
  Lemma gennext_step fuel w : GenNext read z (S fuel) w =
    let! (u, w1) := RNG_Uint64 read w in
    if inside_dec u then Ret (point z u, w1)
    else if (layer u =? 0)%nat then
      let! (x, w2) := zTail z w1 in Ret (if abscissa (zMirrored z) u <? 0 then fneg x else x, w2)
    else
      let! (y, w2) := Uniform0_1_Next read w1 in
      if below_curve z u y then Ret (point z u, w2) else GenNext read z fuel w2.
  Proof.
    cbn [GenNext]. destruct (RNG_Uint64 read w) as [[u w1]| |] eqn:E; [|reflexivity|reflexivity]. cbn [bind]. cbv zeta.
    pose proof (draw_w _ _ _ E) as Hu. pose proof (layer_bits u Hu) as (L1 & L2 & L3 & L4). pose proof (abscissa_bits (zMirrored z) u Hu) as EA.
    pose proof (abscissa_range (zMirrored z) u) as AR. destruct T as (TK & TW & TF).
    rewrite EA, L1, L3, L4, abs_bits by exact AR. unfold point, below_curve, point, tW, tF.
    rewrite (aget_nth (zK z) _ 0%N), (aget_nth (zW z) _ B754_nan), (aget_nth (zF z) (layer u) B754_nan), (aget_nth (zF z) (layer u - 1) B754_nan) by lia. cbn [bind].
    destruct (inside_dec u) as [Hin|Hin]; unfold inside, tK in Hin; set (k := nth (layer u) (zK z) 0%N) in *; set (j := abscissa (zMirrored z) u) in *.
    - replace (Z.to_N (Z.abs j) <? k)%N with true by (symmetry; apply N.ltb_lt; lia). reflexivity.
    - replace (Z.to_N (Z.abs j) <? k)%N with false by (symmetry; apply N.ltb_ge; lia). destruct (layer u =? 0)%nat; cbn [negb].
      + destruct (zTail z w1) as [[x w2]| |]; cbn [bind]; try reflexivity. now destruct (j <? 0).
      + reflexivity.
  Qed.
  (** GenNext is the ziggurat algorithm: it returns x, having made at most [fuel] attempts, exactly when the algorithm does. *)
  Theorem C33_gennext_is_ziggurat fuel : forall w x w', GenNext read z fuel w = Ret (x, w') <-> exists n u, (n < fuel)%nat /\ zig read z n u w x w'.
  Proof.
    induction fuel as [|fuel IH]; intros w x w'.
    { split; [discriminate|]. intros (n & u & H & _). lia. }
    rewrite gennext_step. split.
    - intros E. destruct (RNG_Uint64 read w) as [[u w1]| |] eqn:Eu; cbn [bind] in E; try discriminate E.
      destruct (inside_dec u) as [Hi|Hi].
      + assert (x = point z u) as -> by congruence. assert (w' = w1) as -> by congruence. exists 0%nat, u. split; [lia|]. now apply zig_inside.
      + destruct (Nat.eqb_spec (layer u) 0) as [Hl|Hl].
        * destruct (zTail z w1) as [[y w2]| |] eqn:Et; cbn [bind] in E; try discriminate E.
          assert (x = if abscissa (zMirrored z) u <? 0 then fneg y else y) as -> by congruence. assert (w' = w2) as -> by congruence.
          exists 0%nat, u. split; [lia|]. now apply zig_tail with w1.
        * destruct (Uniform0_1_Next read w1) as [[y w2]| |] eqn:Ey; cbn [bind] in E; try discriminate E.
          destruct (below_curve z u y) eqn:Eb.
          -- assert (x = point z u) as -> by congruence. assert (w' = w2) as -> by congruence. exists 0%nat, u. split; [lia|]. now apply zig_wedge with w1 y.
          -- apply IH in E. destruct E as (n & u' & Hn & E). exists (S n), u'. split; [lia|]. now apply zig_reject with u w1 y w2.
    - intros (n & u & Hn & H). inversion H; subst.
      + rewrite H0. cbn [bind]. destruct (inside_dec u); [reflexivity|contradiction].
      + rewrite H0. cbn [bind]. destruct (inside_dec u); [contradiction|]. destruct (Nat.eqb_spec (layer u) 0); [contradiction|]. rewrite H3. cbn [bind]. now rewrite H4.
      + rewrite H0. cbn [bind]. destruct (inside_dec u); [contradiction|]. destruct (Nat.eqb_spec (layer u) 0); [|contradiction]. now rewrite H3.
      + rewrite H0. cbn [bind]. destruct (inside_dec u0); [contradiction|]. destruct (Nat.eqb_spec (layer u0) 0); [contradiction|]. rewrite H3. cbn [bind]. rewrite H4.
        apply IH. exists n0, u. split; [lia|assumption].
  Qed.
  (** No table index is ever out of range: GenNext does not panic unless the source or the Tail function does. *)
  Theorem C33_no_panic : total_reader read -> (forall w, zTail z w <> Panic) -> forall fuel w, GenNext read z fuel w <> Panic.
  Proof.
    intros TR TT. assert (U8 : forall w, exists p n e w1, read w (zeros 8) = Ret ((p, n, e), w1) /\ length p = 8%nat).
    { intros w. destruct (TR w (zeros 8)) as ([[p n] e] & w1 & R). exists p, n, e, w1. split; [exact R|]. apply (G _ _ _ _ _ _ R). }
    induction fuel as [|fuel IH]; intros w; [discriminate|]. rewrite gennext_step.
    assert (D : exists u w1, RNG_Uint64 read w = Ret (u, w1)).
    { destruct (U8 w) as (p & n & e & w1 & R & L). unfold RNG_Uint64. rewrite R. cbn [bind]. rewrite get64_8 by exact L. cbn [bind]. eexists. eexists. reflexivity. }
    destruct D as (u & w1 & ->). cbn [bind]. destruct (inside_dec u); [discriminate|]. destruct (layer u =? 0)%nat.
    - pose proof (TT w1) as Ht. destruct (zTail z w1) as [[x w2]| |]; cbn [bind]; [discriminate|congruence|discriminate].
    - destruct (U8 w1) as (p & n' & e & w2 & R & L). rewrite (uniform01_eq read w1 p n' e w2 G R). cbn [bind]. destruct (below_curve z u _); [discriminate|apply IH].
  Qed.
  (** j is exact as a float64, so the only rounding in the returned abscissa is that of j * W[i] *)
  Theorem C33_abscissa_exact u : fvalue (of_int (abscissa (zMirrored z) u)) (IZR (abscissa (zMirrored z) u)).
  Proof.
    pose proof (abscissa_range (zMirrored z) u) as R. destruct (Z.eq_dec (abscissa (zMirrored z) u) (- 2 ^ 53)) as [E|E].
    - rewrite E. destruct (mkfloat_exact false (-1) 53) as (V & F & _); [lia|lia|]. assert (Em : of_int (- 2 ^ 53) = mkfloat false (-1) 53) by (apply B2SF_inj; vm_compute; reflexivity).
      rewrite Em. split; [exact F|]. rewrite V. change (Raux.bpow Zaux.radix2 53) with (IZR (2 ^ 53)). now rewrite <- mult_IZR.
    - destruct (of_int_exact (abscissa (zMirrored z) u)) as (V & F & _); [lia|]. now split.
  Qed.
End C33.

(** ** C34 *)
Definition even (f : float64 -> float64) : Prop := forall x, f (fneg x) = f x.
(** two draws with the same layer and opposite non-zero abscissae *)
Definition opposite (u u' : N) : Prop := layer u = layer u' /\ abscissa true u = - abscissa true u' /\ abscissa true u <> 0.
Lemma opposite_sym u u' : opposite u u' -> opposite u' u.
Proof. unfold opposite. intros (A & B & C). repeat split; lia. Qed.
Section C34.
  Context {W : Type} (read : reader W) (z : Ziggurat W).
  Hypothesis (M : zMirrored z = true) (EV : even (zPDF z)).
  Lemma point_opp u u' : opposite u u' -> point z u' = fneg (point z u).
  Proof.
    intros (A & B & C). unfold point. rewrite M, <- A. pose proof (abscissa_range true u) as R. pose proof (abscissa_range true u') as R'.
    replace (abscissa true u') with (- abscissa true u) by lia. rewrite of_int_opp by lia. apply fmul_opp_l.
  Qed.
  Lemma inside_opp u u' : opposite u u' -> inside z u -> inside z u'.
  Proof. unfold inside. rewrite M. intros (A & B & C). rewrite <- A. lia. Qed.
  Lemma below_opp u u' y : opposite u u' -> below_curve z u' y = below_curve z u y.
  Proof. intros O. unfold below_curve. rewrite (point_opp u u' O), EV. destruct O as (<- & _). reflexivity. Qed.
  Lemma mirror_attempt w wm w1 u u' : RNG_Uint64 read w = Ret (u, w1) -> RNG_Uint64 read wm = Ret (u', w1) -> opposite u u' ->
    (forall v x w', zig read z 0 v w x w' -> zig read z 0 u' wm (fneg x) w') /\
    (forall n v x w', zig read z (S n) v w x w' -> zig read z (S n) v wm x w').
  Proof.
    intros Ew Em O. pose proof (inside_opp _ _ (opposite_sym _ _ O)) as NI. pose proof (inside_opp _ _ O) as YI. destruct (O) as (L & A & C). split.
    - intros v x w' H. inversion H; subst.
      + assert (v = u) as -> by congruence. assert (w' = w1) as -> by congruence. rewrite <- (point_opp _ _ O). apply zig_inside; auto.
      + assert (v = u) as -> by congruence. assert (w2 = w1) as -> by congruence. rewrite <- (point_opp _ _ O).
        apply zig_wedge with w1 y; [exact Em|auto|lia|assumption|]. now rewrite (below_opp u u').
      + assert (v = u) as -> by congruence. assert (w2 = w1) as -> by congruence. rewrite M.
        replace (fneg (if abscissa true u <? 0 then fneg x0 else x0)) with (if abscissa (zMirrored z) u' <? 0 then fneg x0 else x0).
        * apply zig_tail with w1; [exact Em|auto|lia|assumption].
        * rewrite M. destruct (Z.ltb_spec (abscissa true u') 0), (Z.ltb_spec (abscissa true u) 0); try lia; [reflexivity|now rewrite fneg_invol].
    - intros n v x w' H. inversion H; subst. assert (u0 = u) as -> by congruence. assert (w2 = w1) as -> by congruence.
      apply zig_reject with u' w1 y w3; [exact Em|auto|lia|assumption| |assumption]. now rewrite (below_opp u u').
  Qed.
  (** Two states of the source that differ only in the sign of the next abscissa: if the next attempt decides, the
      results are x and -x and the source ends in the same state; if it is rejected, both runs go on identically. *)
  Theorem C34_mirror_attempt w wm w1 u u' : RNG_Uint64 read w = Ret (u, w1) -> RNG_Uint64 read wm = Ret (u', w1) -> opposite u u' ->
    (forall x w', zig read z 0 u w x w' <-> zig read z 0 u' wm (fneg x) w') /\
    (forall n v x w', zig read z (S n) v w x w' <-> zig read z (S n) v wm x w').
  Proof.
    intros Ew Em O. destruct (mirror_attempt w wm w1 u u' Ew Em O) as [A1 A2]. destruct (mirror_attempt wm w w1 u' u Em Ew (opposite_sym _ _ O)) as [B1 B2].
    split.
    - intros x w'. split; intros H; [now apply A1 in H|]. apply B1 in H. now rewrite fneg_invol in H.
    - intros n v x w'. split; auto.
  Qed.
End C34.

(** the draw with the opposite abscissa *)
Definition mirror (u : N) : N := (u / 2 ^ 54 * 2 ^ 54 + (2 ^ 54 - u mod 2 ^ 54) mod 2 ^ 54)%N.
Lemma mirror_w u : (u < 2 ^ 64)%N -> (mirror u < 2 ^ 64)%N.
Proof.
  intros H. unfold mirror. pose proof (N.mod_lt (2 ^ 54 - u mod 2 ^ 54) (2 ^ 54) ltac:(discriminate)) as B.
  assert (Q : (u / 2 ^ 54 < 1024)%N) by (apply N.div_lt_upper_bound; [discriminate|exact H]).
  generalize dependent (u / 2 ^ 54)%N. generalize dependent ((2 ^ 54 - u mod 2 ^ 54) mod 2 ^ 54)%N. clear. intros. lia.
Qed.
Lemma mirror_parts u : (mirror u / 2 ^ 54 = u / 2 ^ 54 /\ mirror u mod 2 ^ 54 = (2 ^ 54 - u mod 2 ^ 54) mod 2 ^ 54)%N.
Proof.
  unfold mirror. pose proof (N.mod_lt (2 ^ 54 - u mod 2 ^ 54) (2 ^ 54) ltac:(discriminate)) as B.
  set (q := (u / 2 ^ 54)%N). set (r := ((2 ^ 54 - u mod 2 ^ 54) mod 2 ^ 54)%N) in *. split; symmetry.
  - apply (N.div_unique _ (2 ^ 54) q r); lia.
  - apply (N.mod_unique _ (2 ^ 54) q r); lia.
Qed.
Definition no_partner (u : N) : Prop := abscissa true u = 0 \/ abscissa true u = - 2 ^ 53.
Lemma neg_mod r : (r < 2 ^ 54 -> r <> 0 -> (2 ^ 54 - r) mod 2 ^ 54 = 2 ^ 54 - r)%N.
Proof. intros. apply N.mod_small. lia. Qed.
Lemma abscissa_N u : abscissa true u = let r := (u mod 2 ^ 54)%N in if (r <? 2 ^ 53)%N then Z.of_N r else Z.of_N r - 2 ^ 54.
Proof.
  unfold abscissa. cbv zeta. assert (E : Z.of_N u mod 2 ^ 54 = Z.of_N (u mod 2 ^ 54)) by (rewrite N2Z.inj_mod; reflexivity). rewrite E.
  generalize (u mod 2 ^ 54)%N. intros r. destruct (Z.ltb_spec (Z.of_N r) (2 ^ 53)), (N.ltb_spec r (2 ^ 53)); lia.
Qed.
Lemma mirror_opposite u : ~ no_partner u -> opposite u (mirror u).
Proof.
  unfold no_partner, opposite, layer. rewrite !abscissa_N. cbv zeta. destruct (mirror_parts u) as [-> ->].
  pose proof (N.mod_lt u (2 ^ 54) ltac:(discriminate)) as B. generalize dependent (u mod 2 ^ 54)%N. intros r B H.
  assert (r <> 0%N) by (intros ->; apply H; left; reflexivity). rewrite neg_mod by assumption.
  destruct (N.ltb_spec r (2 ^ 53)), (N.ltb_spec (2 ^ 54 - r) (2 ^ 53)); try lia; (split; [reflexivity|]); lia.
Qed.
Lemma mirror_invol u : ~ no_partner u -> mirror (mirror u) = u.
Proof.
  intros H. unfold mirror at 1. destruct (mirror_parts u) as [-> ->]. revert H. unfold no_partner. rewrite abscissa_N. cbv zeta.
  pose proof (N.mod_lt u (2 ^ 54) ltac:(discriminate)) as B. pose proof (N.div_mod u (2 ^ 54) ltac:(discriminate)) as D.
  generalize dependent (u mod 2 ^ 54)%N. generalize dependent (u / 2 ^ 54)%N. intros q r B D H.
  assert (r <> 0%N) by (intros ->; apply H; left; reflexivity). rewrite (neg_mod r) by assumption. rewrite neg_mod by lia. lia.
Qed.
Lemma tape_go : go_reader tape.
Proof.
  intros w p p' n e w' E. destruct w as [|x w1]; [discriminate E|]. cbn [tape] in E. assert (p' = le_bytes (length p) x) as -> by congruence.
  split; [apply le_bytes_length|]. intros _. apply le_bytes_isbyte.
Qed.
Lemma tape_draw u ws : w64 u -> RNG_Uint64 tape (u :: ws) = Ret (u, ws).
Proof.
  intros H. unfold RNG_Uint64, tape. cbn [bind]. rewrite zeros_length. rewrite get64_8 by apply le_bytes_length. cbn [bind]. now rewrite le_val_bytes8.
Qed.
Lemma tape_draw_inv ws u w1 : Forall w64 ws -> RNG_Uint64 tape ws = Ret (u, w1) -> ws = u :: w1 /\ w64 u /\ Forall w64 w1.
Proof.
  intros F E. destruct ws as [|v ws]; [discriminate E|]. inversion F as [|? ? Fv Fw]; subst. rewrite tape_draw in E by exact Fv. 
  assert (v = u) as -> by congruence. assert (ws = w1) as -> by congruence. auto.
Qed.
Lemma tape_uniform_inv ws y w1 : Uniform0_1_Next tape ws = Ret (y, w1) -> exists v, ws = v :: w1.
Proof.
  destruct ws as [|v ws]; [discriminate|]. unfold Uniform0_1_Next, tape. cbn [bind]. rewrite zeros_length, get64_8 by apply le_bytes_length. cbn [bind].
  intros E. exists v. congruence.
Qed.
Lemma finite_has_exactly {A} (Q P : A -> Prop) n : has_exactly Q n -> (forall a, P a -> Q a) -> exists c, has_exactly P c.
Proof.
  intros (l & ND & I & _) PQ. assert (K : exists l', NoDup l' /\ forall a, In a l' <-> In a l /\ P a).
  { clear I. induction ND as [|a l Ha _ IH].
    - exists []. split; [constructor|]. intros a. split; [intros []|intros [[] _]].
    - destruct IH as (l' & ND' & I'). destruct (Classical_Prop.classic (P a)) as [Pa|Pa].
      + exists (a :: l'). split; [constructor; [|exact ND']; intros H; apply I' in H; now apply Ha|]. intros b. cbn [In]. rewrite I'. intuition congruence.
      + exists l'. split; [exact ND'|]. intros b. cbn [In]. rewrite I'. intuition congruence. }
  destruct K as (l' & ND' & I'). eexists. exists l'. split; [exact ND'|]. split; [|reflexivity]. intros a. rewrite I', I. intuition.
Qed.
Section Flip.
  Variable z : Ziggurat (list N).
  (** mirror the deciding draw of a run *)
  Fixpoint flip (ws : list N) : list N :=
    match ws with
    | [] => []
    | u :: ws1 =>
        if inside_dec z u then mirror u :: ws1
        else if (layer u =? 0)%nat then mirror u :: ws1
        else match ws1 with
             | [] => ws
             | v :: ws2 => match Uniform0_1_Next tape ws1 with
                           | Ret (y, _) => if below_curve z u y then mirror u :: ws1 else u :: v :: flip ws2
                           | _ => ws
                           end
             end
    end.
  Hypothesis (M : zMirrored z = true) (EV : even (zPDF z)).
  Lemma flip_result n u ws x : Forall w64 ws -> zig tape z n u ws x [] -> ~ no_partner u ->
    Forall w64 (flip ws) /\ length (flip ws) = length ws /\ zig tape z n (mirror u) (flip ws) (fneg x) [] /\ flip (flip ws) = ws.
  Proof.
    intros F H NP. remember [] as fin eqn:Ef. induction H as [w u w1 Eu Hi|w u w1 y w2 Eu Hi Hl Ey Eb|w u w1 x w2 Eu Hi Hl Et|w u w1 y w2 n u' x w' Eu Hi Hl Ey Eb H IH]; subst.
    - apply tape_draw_inv in Eu; [|exact F]. destruct Eu as (-> & Wu & F1). pose proof (mirror_opposite u NP) as O. pose proof (inside_opp z M _ _ O Hi) as Hi'.
      cbn [flip]. destruct (inside_dec z u); [|contradiction]. split; [constructor; [now apply mirror_w|exact F1]|]. split; [reflexivity|]. split.
      + rewrite <- (point_opp z M _ _ O). apply zig_inside; [|exact Hi']. apply tape_draw. now apply mirror_w.
      + cbn [flip]. destruct (inside_dec z (mirror u)); [|contradiction]. now rewrite mirror_invol.
    - apply tape_draw_inv in Eu; [|exact F]. destruct Eu as (-> & Wu & F1). pose proof (mirror_opposite u NP) as O.
      destruct (tape_uniform_inv _ _ _ Ey) as (v & ->). 
      assert (Hi' : ~ inside z (mirror u)) by (intros A; apply Hi; exact (inside_opp z M _ _ (opposite_sym _ _ O) A)).
      assert (Hl' : layer (mirror u) = layer u) by (symmetry; apply O).
      assert (Eb' : below_curve z (mirror u) y = true) by (rewrite (below_opp z M EV _ _ y O); exact Eb).
      assert (E1 : flip (u :: [v]) = mirror u :: [v]).
      { cbn [flip]. destruct (inside_dec z u); [contradiction|]. destruct (Nat.eqb_spec (layer u) 0); [contradiction|]. rewrite Ey, Eb. reflexivity. }
      rewrite E1. split; [constructor; [now apply mirror_w|exact F1]|]. split; [reflexivity|]. split.
      + rewrite <- (point_opp z M _ _ O). apply zig_wedge with [v] y; [apply tape_draw; now apply mirror_w|exact Hi'|lia|exact Ey|exact Eb'].
      + cbn [flip]. destruct (inside_dec z (mirror u)); [contradiction|]. destruct (Nat.eqb_spec (layer (mirror u)) 0); [lia|]. rewrite Ey, Eb'. now rewrite mirror_invol.
    - apply tape_draw_inv in Eu; [|exact F]. destruct Eu as (-> & Wu & F1). pose proof (mirror_opposite u NP) as O.
      assert (Hi' : ~ inside z (mirror u)) by (intros A; apply Hi; exact (inside_opp z M _ _ (opposite_sym _ _ O) A)).
      assert (Hl' : layer (mirror u) = 0%nat) by (rewrite <- Hl; symmetry; apply O).
      cbn [flip]. destruct (inside_dec z u); [contradiction|]. rewrite Hl. cbn [Nat.eqb]. split; [constructor; [now apply mirror_w|exact F1]|]. split; [reflexivity|]. split.
      + destruct (mirror_attempt tape z M EV (u :: w1) (mirror u :: w1) w1 u (mirror u)) as [A _]; [now apply tape_draw|apply tape_draw; now apply mirror_w|exact O|].
        apply (A u). apply zig_tail with w1; [now apply tape_draw|exact Hi|exact Hl|exact Et].
      + cbn [flip]. destruct (inside_dec z (mirror u)); [contradiction|]. rewrite Hl'. cbn [Nat.eqb]. now rewrite mirror_invol.
    - apply tape_draw_inv in Eu; [|exact F]. destruct Eu as (-> & Wu & F1). destruct (tape_uniform_inv _ _ _ Ey) as (v & ->). inversion F1 as [|? ? Wv F2]; subst.
      destruct (IH F2 eq_refl NP) as (I1 & I2 & I3 & I4).
      assert (E1 : forall ws, (flip (u :: v :: ws) = u :: v :: flip ws) /\ exists y', Uniform0_1_Next tape (v :: ws) = Ret (y, ws) /\ y' = y).
      { intros ws. assert (Ey' : Uniform0_1_Next tape (v :: ws) = Ret (y, ws)).
        { revert Ey. unfold Uniform0_1_Next, tape. cbn [bind]. rewrite zeros_length, get64_8 by apply le_bytes_length. cbn [bind]. intros Ey. f_equal. f_equal. congruence. }
        split; [|eauto]. cbn [flip]. destruct (inside_dec z u); [contradiction|]. destruct (Nat.eqb_spec (layer u) 0); [contradiction|]. now rewrite Ey', Eb. }
      destruct (E1 w2) as [E2 _]. rewrite E2. split; [now repeat constructor|]. split; [cbn [length]; lia|]. split.
      + destruct (E1 (flip w2)) as [_ (_ & Ey' & _)]. apply zig_reject with u (v :: flip w2) y (flip w2); auto. now apply tape_draw.
      + destruct (E1 (flip w2)) as [E3 _]. rewrite E3, I4. reflexivity.
  Qed.
  (** The distribution of GenNext is symmetric, for every number k of 64-bit words drawn: equally many sequences of k words
      give x as give -x, leaving aside those whose deciding abscissa is 0 or -2^53. *)
  Theorem C34_mirrored_symmetric k x : exists c,
    has_exactly (fun ws => length ws = k /\ tape_result z (fun u => ~ no_partner u) ws x) c /\
    has_exactly (fun ws => length ws = k /\ tape_result z (fun u => ~ no_partner u) ws (fneg x)) c.
  Proof.
    destruct (finite_has_exactly (fun ws => length ws = k /\ Forall (fun j => (j < 2 ^ 64)%N) ws) (fun ws => length ws = k /\ tape_result z (fun u => ~ no_partner u) ws x) _ (draws_count (2 ^ 64) k)) as [c HC].
    { intros ws (L & F & _). split; assumption. }
    exists c. split; [exact HC|]. revert HC.
    assert (ST : forall x ws, length ws = k /\ tape_result z (fun u => ~ no_partner u) ws x -> length (flip ws) = k /\ tape_result z (fun u => ~ no_partner u) (flip ws) (fneg x)).
    { clear x. intros x ws (L & F & n & u & H & NP). destruct (flip_result n u ws x F H NP) as (I1 & I2 & I3 & I4). split; [lia|]. split; [exact I1|].
      exists n, (mirror u). split; [exact I3|]. destruct (mirror_opposite u NP) as (_ & A & B). pose proof (abscissa_range true u). unfold no_partner in *. lia. }
    assert (IV : forall x ws, length ws = k /\ tape_result z (fun u => ~ no_partner u) ws x -> flip (flip ws) = ws).
    { clear x. intros x ws (L & F & n & u & H & NP). apply (flip_result n u ws x F H NP). }
    apply (has_exactly_bij _ _ flip flip).
    - apply ST.
    - intros ws H. rewrite <- (fneg_invol x). now apply ST.
    - intros ws H. now apply (IV x).
    - intros ws H. now apply (IV (fneg x)).
  Qed.
End Flip.
End Compiler.
