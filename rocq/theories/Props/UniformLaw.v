(** C73: the distribution of the uniform variates (distr.go). *)
From Coq Require Import Reals Lia Lra Psatz ZifyN ZifyNat Bool.
From Coquelicot Require Import Coquelicot.
From Flocq Require Import Core BinarySingleNaN Relative.
From Verif Require Import Model.Base Model.Rng Model.Float Model.Distr Spec.Common Spec.Counting Spec.Floats Spec.Zig Spec.Prob Spec.Words Spec.UniformDist.
From Verif Require Import Proofs.WordLemmas Proofs.ReadProofs Proofs.SaveProofs Proofs.FloatProofs Proofs.SumN Proofs.ZigStep Proofs.ZigTape Proofs.GenTape Proofs.GenLaw Proofs.Independent Props.Rng Props.Uniform Props.Zig Props.Independence.
Local Open Scope R_scope.

(** for every choice of the compiler which x*y + z to fuse (Model/Fused.v) *)
Section Compiler.
Context {fpc : compiler}.

(** *** programs that draw one word *)
Lemma one_word {A} (m : list N -> outcome (A * list N)) (F : N -> A) (P : A -> Prop) (b : N -> bool) :
  m [] = OutOfFuel -> (forall u ws, w64 u -> m (u :: ws) = Ret (F u, ws)) -> (forall u, w64 u -> (P (F u) <-> b u = true)) ->
  draw_prob (fun _ => m) P (mean64 (fun u => ind (b u))).
Proof.
  intros H0 H1 HP. exists (fun n => match n with O => 0 | S _ => mean64 (fun u => ind (b u)) end). split.
  - intros [|n].
    + replace 0 with (pr 0 (fun _ => false)) by reflexivity. apply prob_pr. intros ws L _. destruct ws; [|discriminate L]. split; [|discriminate]. intros (_ & f & ws' & E & _). rewrite H0 in E. discriminate E.
    + replace (mean64 (fun u => ind (b u))) with (pr (S n) (fun ws => b (hd 0%N ws))).
      2:{ rewrite pr_S. apply mean64_ext. intros u _. cbn [hd]. apply pr_const. }
      apply prob_pr. intros ws L W. destruct ws as [|u ws]; [discriminate L|]. inversion W; subst. cbn [hd]. rewrite <- HP by assumption. split.
      * intros (_ & f & ws' & E & Pf). rewrite H1 in E by assumption. injection E as <- _. exact Pf.
      * intros Pf. exists O, (F u), ws. split; [now apply H1|exact Pf].
  - apply is_lim_seq_spec. intros eps. exists 1%nat. intros [|n] Hn; [lia|]. rewrite Rminus_eq_0, Rabs_R0. apply cond_pos.
Qed.
Lemma mean64_modp a (phi : N -> R) : (a <= 64)%N -> mean64 (fun u => phi (u mod 2 ^ a)%N) = sumN phi (2 ^ a) / NR (2 ^ a).
Proof.
  intros Ha. unfold mean64. replace (IZR (2 ^ 64)) with (NR W64) by apply NR_W64. set (B := (2 ^ a)%N). assert (B0 : (0 < B)%N) by (apply N.neq_0_lt_0, N.pow_nonzero; discriminate).
  assert (E64 : W64 = (2 ^ (64 - a) * B)%N) by (rewrite W64_eq; unfold B; rewrite <- N.pow_add_r; f_equal; lia). rewrite E64, sumN_mul.
  rewrite (sumN_ext _ (fun _ => sumN phi B)). 2:{ intros i _. apply sumN_ext. intros j Hj. f_equal. rewrite N.add_comm, N.mod_add by lia. now apply N.mod_small. }
  rewrite sumN_const. rewrite N2Z.inj_mul. rewrite mult_IZR. assert (0 < IZR (Z.of_N B)) by (apply IZR_lt; lia). assert (0 < IZR (Z.of_N (2 ^ (64 - a)))) by (apply IZR_lt; pose proof (N.pow_nonzero 2 (64 - a) ltac:(discriminate)); lia). field. lra.
Qed.
Lemma tape_read k u ws : tape (u :: ws) (zeros k) = Ret ((le_bytes k u, k, None), ws).
Proof. unfold tape. now rewrite zeros_length. Qed.
Lemma low7 u : (le_val (le_bytes 7 u) mod 2 ^ 52 = u mod 2 ^ 52)%N.
Proof. rewrite le_val_bytes. change (256 ^ N.of_nat 7)%N with (2 ^ 52 * 2 ^ 4)%N. rewrite N.mod_mul_r by discriminate. rewrite N.mul_comm, N.mod_add by discriminate. apply N.mod_mod. discriminate. Qed.

(** *** Uniform0_1 and Uniform1_2: every multiple of 2^-53 (2^-52) equally likely *)
Lemma uniform01_tape u ws : w64 u -> Uniform0_1_Next tape (u :: ws) = Ret (fmul (of_int (Z.of_N (u mod 2 ^ 53))) lit_scale, ws).
Proof. intros Hu. rewrite unif_u64, tape_draw by exact Hu. cbn [bind]. change 0x1fffffffffffff%N with (N.ones 53). now rewrite N.land_ones. Qed.
Lemma ind_eq_sum k n : (k < n)%N -> sumN (fun j => ind (j =? k)%N) n = 1.
Proof.
  revert k. induction n as [|n IH] using N.peano_ind; intros k Hk; [lia|]. rewrite sumN_S. destruct (N.eq_dec k n) as [->|Hn].
  - rewrite N.eqb_refl. rewrite (sumN_ext _ (fun _ => 0)); [rewrite sumN_const; cbn [ind]; ring|]. intros j Hj. rewrite (proj2 (N.eqb_neq j n)) by lia. reflexivity.
  - rewrite IH by lia. rewrite (proj2 (N.eqb_neq n k)) by lia. cbn [ind]. ring.
Qed.
Lemma frac_inj (M : Z) a b : (0 < M)%Z -> IZR a / IZR M = IZR b / IZR M -> a = b.
Proof. intros HM H. assert (0 < IZR M) by now apply IZR_lt. apply eq_IZR. apply Rmult_eq_reg_r with (/ IZR M); [exact H|]. apply Rgt_not_eq, Rinv_0_lt_compat. assumption. Qed.
Theorem C73_uniform0_1 k : (k < 2 ^ 53)%N -> draw_prob (fun _ => Uniform0_1_Next tape) (fun f => fvalue f (IZR (Z.of_N k) / IZR (2 ^ 53))) (/ IZR (2 ^ 53)).
Proof.
  intros Hk. assert (E : mean64 (fun u => ind (u mod 2 ^ 53 =? k)%N) = / IZR (2 ^ 53)).
  { rewrite (mean64_modp 53 (fun j => ind (j =? k)%N)) by lia. rewrite ind_eq_sum by exact Hk. change (Z.of_N (2 ^ 53)) with (2 ^ 53)%Z. unfold Rdiv. ring. }
  refine (eq_ind _ (draw_prob _ _) _ _ E). apply (one_word (Uniform0_1_Next tape) (fun u => fmul (of_int (Z.of_N (u mod 2 ^ 53))) lit_scale)); [reflexivity|apply uniform01_tape|].
  intros u Hu. destruct (scale_exact (u mod 2 ^ 53) ltac:(apply N.mod_lt; discriminate)) as [[Fu Vu] _]. rewrite N.eqb_eq. split.
  - intros [_ V]. rewrite Vu in V. apply frac_inj in V; [lia|reflexivity].
  - intros <-. now split.
Qed.
Lemma uniform12_tape u ws : Uniform1_2_Next tape (u :: ws) = Ret (Float64frombits (N.lor (le_val (le_bytes 7 u)) 0x3ff0000000000000), ws) /\
  fvalue (Float64frombits (N.lor (le_val (le_bytes 7 u)) 0x3ff0000000000000)) (1 + IZR (Z.of_N (u mod 2 ^ 52)) / IZR (2 ^ 52)).
Proof. destruct (uniform12_eq tape (u :: ws) _ _ _ _ tape_go (tape_read 7 u ws)) as [E B]. split; [exact E|]. rewrite <- (low7 u). now apply frombits_value. Qed.
Theorem C73_uniform1_2 k : (k < 2 ^ 52)%N -> draw_prob (fun _ => Uniform1_2_Next tape) (fun f => fvalue f (1 + IZR (Z.of_N k) / IZR (2 ^ 52))) (/ IZR (2 ^ 52)).
Proof.
  intros Hk. assert (E : mean64 (fun u => ind (u mod 2 ^ 52 =? k)%N) = / IZR (2 ^ 52)).
  { rewrite (mean64_modp 52 (fun j => ind (j =? k)%N)) by lia. rewrite ind_eq_sum by exact Hk. change (Z.of_N (2 ^ 52)) with (2 ^ 52)%Z. unfold Rdiv. ring. }
  refine (eq_ind _ (draw_prob _ _) _ _ E). apply (one_word (Uniform1_2_Next tape) (fun u => Float64frombits (N.lor (le_val (le_bytes 7 u)) 0x3ff0000000000000))); [reflexivity|intros u ws _; apply uniform12_tape|].
  intros u Hu. destruct (uniform12_tape u []) as [_ [Fu Vu]]. rewrite N.eqb_eq. split.
  - intros [_ V]. rewrite Vu in V. apply Rplus_eq_reg_l in V. apply frac_inj in V; [lia|reflexivity].
  - intros <-. now split.
Qed.

(** *** Uniform{Low, High}: uniform on [Low, Low + High), up to rounding *)
Lemma rnd_err x : Rabs (rnd x - x) <= / 2 ^ 53 * Rabs x + bpow radix2 (-1075).
Proof.
  destruct (error_N_FLT radix2 (-1074) 53 ltac:(lia) (fun t => negb (Z.even t)) x) as (e & t & He & Ht & _ & E). unfold rnd. rewrite E.
  replace (x * (1 + e) + t - x) with (x * e + t) by ring. apply Rle_trans with (1 := Rabs_triang _ _). rewrite Rabs_mult. apply Rplus_le_compat.
  - rewrite Rmult_comm. apply Rmult_le_compat_r; [apply Rabs_pos|]. apply Rle_trans with (1 := He). change (bpow radix2 (- (53) + 1)) with (/ 4503599627370496). lra.
  - apply Rle_trans with (1 := Ht). right. change (/ 2) with (bpow radix2 (-1)). rewrite <- bpow_plus. f_equal.
Qed.
Lemma clamp_shift a b : 0 <= b -> Rmax 0 (Rmin 1 (a + b)) <= Rmax 0 (Rmin 1 a) + b.
Proof. intros Hb. unfold Rmax, Rmin. repeat destruct Rle_dec; lra. Qed.
Lemma scale_clamp M y : 0 < M -> Rmax 0 (Rmin M (M * y)) / M = Rmax 0 (Rmin 1 y).
Proof.
  intros HM. assert (E : M * y / M = y) by (field; lra). assert (D : forall z, z / M = z * / M) by reflexivity. assert (I : 0 < / M) by now apply Rinv_0_lt_compat.
  destruct (Rle_dec y 0) as [Y0|Y0]; [|destruct (Rle_dec y 1) as [Y1|Y1]].
  - assert (M * y <= 0) by nra. rewrite !Rmax_left; [unfold Rdiv; ring|..]; eapply Rle_trans; try apply Rmin_r; lra.
  - assert (0 <= M * y <= M) by nra. rewrite (Rmin_right M), (Rmin_right 1), !Rmax_right by lra. exact E.
  - assert (M <= M * y) by nra. rewrite (Rmin_left M), (Rmin_left 1), !Rmax_right by lra. field. lra.
Qed.
Theorem C73_uniform low high l h x : fvalue low l -> fvalue high h -> 0 < h -> Rabs l + h <= bpow radix2 1022 ->
  exists p, draw_prob (fun _ => Uniform_Next tape low high) (at_most x) p /\
    Rabs (p - uniform_cdf l (l + h) x) <= / 2 ^ 52 + (/ 2 ^ 51 * (Rabs l + h) + bpow radix2 (-1072)) / h.
Proof.
  intros Vl Vh H0 HB. set (M := NR (2 ^ 52)). set (e := fun k : N => if fuses UniformSite then rnd (h * (NR k / M) + l) else rnd (rnd (h * (NR k / M)) + l)).
  set (dl := / 2 ^ 51 * (Rabs l + h) + bpow radix2 (-1072)).
  assert (HM : M = 4503599627370496) by reflexivity. assert (PM : 0 < M) by lra.
  assert (E1 : bpow radix2 (-1075) = bpow radix2 (-1072) / 8) by (change (bpow radix2 (-1075)) with (bpow radix2 (-1072 + -3)); rewrite bpow_plus; change (bpow radix2 (-3)) with (/ 8); reflexivity).
  assert (E0 : 0 < bpow radix2 (-1072)) by apply bpow_gt_0. assert (ESM : bpow radix2 (-1072) <= 1) by (change 1 with (bpow radix2 0); apply bpow_le; lia). pose proof (Rabs_pos l) as AL.
  assert (K : forall k, (k < 2 ^ 52)%N -> 0 <= NR k / M < 1). { intros k Hk. pose proof (NR_pos k). split; [apply Rmult_le_pos; [lra|left; now apply Rinv_0_lt_compat]|]. apply Rmult_lt_reg_r with M; [exact PM|]. unfold Rdiv. rewrite Rmult_assoc, Rinv_l, Rmult_1_r, Rmult_1_l by lra. apply IZR_lt. lia. }
  assert (ERR : forall k, (k < 2 ^ 52)%N -> Rabs (e k - (l + h * (NR k / M))) <= dl /\ Rabs (e k) < fmax).
  { intros k Hk. specialize (K k Hk). set (u := NR k / M) in *. assert (HU : 0 <= h * u <= h) by nra. pose proof (rnd_err (h * u)) as R1. rewrite (Rabs_pos_eq (h * u)) in R1 by lra. pose proof (rnd_err (rnd (h * u) + l)) as R2. rewrite E1 in R1, R2.
    assert (FIN : forall z, Rabs (z - (l + h * u)) <= dl -> Rabs z < fmax).
    { intros z TOT. unfold dl in TOT. clear - E0 ESM AL HB HU H0 TOT. apply Rle_lt_trans with (Rabs (z - (l + h * u)) + Rabs (l + h * u)); [replace z with ((z - (l + h * u)) + (l + h * u)) at 1 by ring; apply Rabs_triang|].
      assert (Rabs (l + h * u) <= Rabs l + h) by (eapply Rle_trans; [apply Rabs_triang|]; rewrite (Rabs_pos_eq (h * u)) by lra; lra).
      assert (B2 : bpow radix2 1022 * 4 = fmax) by (unfold fmax; change 1024%Z with (1022 + 2)%Z; rewrite bpow_plus; reflexivity). assert (1 <= bpow radix2 1022) by (change 1 with (bpow radix2 0); apply bpow_le; lia). set (bb := bpow radix2 1022) in *. set (c := bpow radix2 (-1072)) in *. clearbody bb c. lra. }
    unfold e. fold u. destruct (fuses UniformSite).
    { pose proof (rnd_err (h * u + l)) as R3. rewrite E1 in R3. set (z := rnd (h * u + l)) in *. cut (Rabs (z - (l + h * u)) <= dl); [intros TOT; split; [exact TOT|now apply FIN]|].
      unfold dl. rewrite (Rplus_comm l (h * u)). eapply Rle_trans; [exact R3|]. assert (YL : Rabs (h * u + l) <= h + Rabs l) by (eapply Rle_trans; [apply Rabs_triang|]; rewrite (Rabs_pos_eq (h * u)) by lra; lra).
      assert (/ 2 ^ 53 * Rabs (h * u + l) <= / 2 ^ 53 * (h + Rabs l)) by (apply Rmult_le_compat_l; [left; apply Rinv_0_lt_compat, pow_lt; lra|exact YL]). lra. }
    set (y := rnd (h * u)) in *. set (z := rnd (y + l)) in *. unfold dl in FIN |- *. set (c := bpow radix2 (-1072)) in *. clearbody y z c.
    assert (Y : Rabs (y + l) <= h + / 2 ^ 53 * h + c / 8 + Rabs l). { eapply Rle_trans; [apply Rabs_triang|]. apply Rplus_le_compat_r. apply Rabs_le_inv in R1. apply Rabs_le. assert (/ 2 ^ 53 * (h * u) <= / 2 ^ 53 * h) by (apply Rmult_le_compat_l; [left; apply Rinv_0_lt_compat, pow_lt|]; lra). lra. }
    assert (TOT : Rabs (z - (l + h * u)) <= / 2 ^ 51 * (Rabs l + h) + c).
    { replace (z - (l + h * u)) with ((z - (y + l)) + (y - h * u)) by ring. eapply Rle_trans; [apply Rabs_triang|]. eapply Rle_trans; [apply Rplus_le_compat; [exact R2|exact R1]|].
      assert (/ 2 ^ 53 * Rabs (y + l) <= / 2 ^ 53 * (h + / 2 ^ 53 * h + c / 8 + Rabs l)) by (apply Rmult_le_compat_l; [left; apply Rinv_0_lt_compat, pow_lt; lra|exact Y]). lra. }
    split; [exact TOT|]. now apply FIN. }
  set (cond := fun k => Rle_bool (e k) x). exists (mean64 (fun u => ind (cond (u mod 2 ^ 52)%N))). split.
  - assert (T : forall u ws, exists f, Uniform_Next tape low high (u :: ws) = Ret (f, ws) /\ fvalue f (e (u mod 2 ^ 52)%N)).
    { intros u ws. destruct (C32_uniform_value tape low high l h (u :: ws) _ _ _ _ tape_go (tape_read 7 u ws) Vl Vh) as (f & E & V & _). exists f. split; [exact E|]. rewrite low7 in V. apply V.
      apply (ERR (u mod 2 ^ 52)%N). apply N.mod_lt. discriminate. }
    assert (NOTAPE : forall u ws ws', match Uniform_Next tape low high (u :: ws) with Ret (f, _) => f | _ => low end = match Uniform_Next tape low high (u :: ws') with Ret (f, _) => f | _ => low end) by (intros; reflexivity).
    apply (one_word (Uniform_Next tape low high) (fun u => match Uniform_Next tape low high [u] with Ret (f, _) => f | _ => low end)); [reflexivity|..].
    + intros u ws _. destruct (T u ws) as (f & E & _). rewrite (NOTAPE u [] ws), E. reflexivity.
    + intros u _. destruct (T u []) as (f & E & [Ff Vf]). rewrite E. unfold cond, at_most. split.
      * intros (v & [_ Vv] & Hv). apply Rle_bool_true. congruence.
      * intros B. exists (e (u mod 2 ^ 52)%N). split; [now split|]. revert B. case Rle_bool_spec; [auto|discriminate].
  - rewrite (mean64_modp 52 (fun k => ind (cond k))) by lia. fold M. unfold uniform_cdf. replace (l + h - l) with h by ring. set (y := (x - l) / h). set (d := dl / h).
    assert (D0 : 0 <= d). { apply Rmult_le_pos; [unfold dl|left; now apply Rinv_0_lt_compat]. assert (0 <= / 2 ^ 51 * (Rabs l + h)) by (apply Rmult_le_pos; [left; apply Rinv_0_lt_compat, pow_lt|]; lra). lra. }
    assert (Y : h * y = x - l) by (unfold y; field; lra). assert (DH : h * d = dl) by (unfold d; field; lra).
    pose proof (sumN_count_low cond (M * (y - d)) (2 ^ 52)) as LO. pose proof (sumN_count_high cond (M * (y + d)) (2 ^ 52)) as HI. fold M in LO, HI.
    assert (LO' : Rmin M (M * (y - d)) <= sumN (fun k => ind (cond k)) (2 ^ 52)).
    { apply LO. intros k Hk Lk. apply Rle_bool_true. destruct (ERR k Hk) as [B _]. apply Rabs_le_inv in B. assert (NR k / M < y - d) by (apply Rmult_lt_reg_l with M; [exact PM|]; replace (M * (NR k / M)) with (NR k) by (field; lra); exact Lk).
      assert (h * (NR k / M) <= h * (y - d)) by (apply Rmult_le_compat_l; lra). lra. }
    assert (HI' : sumN (fun k => ind (cond k)) (2 ^ 52) <= Rmax 0 (Rmin M (M * (y + d) + 1))).
    { apply HI. intros k Hk C. destruct (ERR k Hk) as [B _]. apply Rabs_le_inv in B. unfold cond in C. revert C. case Rle_bool_spec; [|discriminate]. intros C _.
      assert (h * (NR k / M) <= h * (y + d)) by lra. apply Rmult_le_reg_l in H; [|exact H0]. replace (NR k) with (M * (NR k / M)) by (field; lra). apply Rmult_le_compat_l; lra. }
    assert (S0 : 0 <= sumN (fun k => ind (cond k)) (2 ^ 52)) by (apply sumN_nonneg; intros; apply ind_range).
    set (S := sumN (fun k => ind (cond k)) (2 ^ 52)) in *. clearbody S. assert (IM : 0 < / M) by now apply Rinv_0_lt_compat.
    assert (A1 : Rmax 0 (Rmin 1 (y - d)) <= S / M). { rewrite <- (scale_clamp M (y - d) PM). apply Rmult_le_compat_r; [lra|]. apply Rmax_lub; assumption. }
    assert (A2 : S / M <= Rmax 0 (Rmin 1 (y + d + / M))). { rewrite <- (scale_clamp M (y + d + / M) PM). apply Rmult_le_compat_r; [lra|]. replace (M * (y + d + / M)) with (M * (y + d) + 1) by (field; lra). exact HI'. }
    pose proof (clamp_shift (y - d) d D0) as C1. replace (y - d + d) with y in C1 by ring. pose proof (clamp_shift y (d + / M) ltac:(lra)) as C2. rewrite <- Rplus_assoc in C2.
    replace (/ 2 ^ 52) with (/ M) by (rewrite HM; lra). fold d. apply Rabs_le. lra.
Qed.
(** *** samples: successive draws are independent *)
Lemma le_bytes_low k j x : (k <= j)%nat -> le_bytes k (x mod 2 ^ (8 * N.of_nat j)) = le_bytes k x.
Proof.
  revert j x. induction k as [|k IH]; intros j x Hk; [reflexivity|]. destruct j as [|j]; [lia|]. cbn [le_bytes]. f_equal.
  - apply N.bits_inj. intros i. rewrite !N.land_spec. destruct (N.ltb_spec i 8) as [Hi|Hi].
    + rewrite N.mod_pow2_bits_low by lia. reflexivity.
    + change 255%N with (N.ones 8). rewrite (N.ones_spec_high 8) by exact Hi. now rewrite !andb_false_r.
  - rewrite <- (IH j (N.shiftr x 8)) by lia. f_equal. apply N.bits_inj. intros i. rewrite N.shiftr_spec by lia. destruct (N.ltb_spec i (8 * N.of_nat j)) as [Hi|Hi].
    + rewrite !N.mod_pow2_bits_low by lia. now rewrite N.shiftr_spec by lia.
    + now rewrite !N.mod_pow2_bits_high by lia.
Qed.
Lemma tape_word u ws : RNG_Uint64 tape (u :: ws) = Ret ((u mod 2 ^ 64)%N, ws).
Proof. unfold RNG_Uint64. rewrite tape_read. cbn [bind]. rewrite get64_8 by apply le_bytes_length. cbn [bind]. rewrite le_val_bytes. reflexivity. Qed.
Lemma uniform12_only : draws_only tape (Uniform1_2_Next tape) (Uniform1_2_Next tape).
Proof.
  intros ws v ws' E. destruct ws as [|u ws]; [discriminate E|]. rewrite (proj1 (uniform12_tape u ws)) in E. injection E as <- <-.
  exists [(u mod 2 ^ 64)%N]. split; [constructor; [|constructor]; apply N.mod_lt; discriminate|]. split.
  - econstructor; [apply tape_word|constructor].
  - intros rest _. cbn [app]. rewrite (proj1 (uniform12_tape _ rest)). change (2 ^ 64)%N with (2 ^ (8 * N.of_nat 8))%N. now rewrite le_bytes_low by lia.
Qed.
Lemma uniform_only low high : draws_only tape (Uniform_Next tape low high) (Uniform_Next tape low high).
Proof.
  intros ws v ws' E. unfold Uniform_Next in E. destruct (Uniform1_2_Next tape ws) as [[x w]| |] eqn:E1; try discriminate E. cbn [bind] in E. injection E as <- <-.
  destruct (uniform12_only _ _ _ E1) as (used & F & R & P). exists used. split; [exact F|]. split; [exact R|]. intros rest Fr. unfold Uniform_Next. now rewrite (P rest Fr).
Qed.
Lemma uniform01_only : draws_only tape (Uniform0_1_Next tape) (Uniform0_1_Next tape).
Proof.
  intros ws v ws' E. destruct ws as [|u ws]; [discriminate E|]. rewrite unif_u64, tape_word in E. cbn [bind] in E. injection E as <- <-.
  assert (W : w64 (u mod 2 ^ 64)) by (apply N.mod_lt; discriminate).
  exists [(u mod 2 ^ 64)%N]. split; [constructor; [exact W|constructor]|]. split; [econstructor; [apply tape_word|constructor]|].
  intros rest _. cbn [app]. now rewrite unif_u64, tape_draw.
Qed.
(** a sample of Uniform0_1: every list of n multiples of 2^-53 in [0, 1) is equally likely *)
Theorem C73_uniform0_1_sample ks : Forall (fun k => (k < 2 ^ 53)%N) ks ->
  draw_prob (draw_many (length ks) (fun _ => Uniform0_1_Next tape)) (Forall2 (fun k f => fvalue f (IZR (Z.of_N k) / IZR (2 ^ 53))) ks) (/ IZR (2 ^ 53) ^ length ks).
Proof.
  intros F. pose proof (C72_successive (fun _ => Uniform0_1_Next tape) (map (fun k f => fvalue f (IZR (Z.of_N k) / IZR (2 ^ 53))) ks) (map (fun _ => / IZR (2 ^ 53)) ks)) as D.
  rewrite map_length in D. assert (EP : fold_right Rmult 1 (map (fun _ => / IZR (2 ^ 53)) ks) = / IZR (2 ^ 53) ^ length ks).
  { clear. induction ks as [|k ks IH]; [cbn [map fold_right length pow]; lra|]. cbn [map fold_right length]. rewrite IH, <- !pow_inv. reflexivity. }
  rewrite EP in D. destruct D as (q & Hq & L).
  - intros f f' w r _ E. exact E.
  - intros _. apply uniform01_only.
  - clear EP. induction F as [|k ks Hk F IH]; cbn [map]; constructor; [now apply C73_uniform0_1|exact IH].
  - exists q. split; [|exact L]. intros n. destruct (Hq n) as (c & C & E). exists c. split; [|exact E]. revert C. apply Count.has_exactly_ext. intros ws. apply and_iff_compat_l. assert (X : forall l : list float64, Forall2 (fun P a => P a) (map (fun k f => fvalue f (IZR (Z.of_N k) / IZR (2 ^ 53))) ks) l <-> Forall2 (fun k f => fvalue f (IZR (Z.of_N k) / IZR (2 ^ 53))) ks l).
    { clear. induction ks as [|k ks IH]; intros l; cbn [map]; split; intros H; inversion H; subst; constructor; auto; now apply IH. }
    split; intros (f & v & ws' & E1 & P); exists f, v, ws'; (split; [exact E1|now apply X]).
Qed.
(** a sample of Uniform{Low, High} *)
Theorem C73_uniform_sample low high l h xs : fvalue low l -> fvalue high h -> 0 < h -> Rabs l + h <= bpow radix2 1022 ->
  exists ps, Forall2 (fun x p => Rabs (p - uniform_cdf l (l + h) x) <= / 2 ^ 52 + (/ 2 ^ 51 * (Rabs l + h) + bpow radix2 (-1072)) / h) xs ps /\
    draw_prob (draw_many (length xs) (fun _ => Uniform_Next tape low high)) (Forall2 at_most xs) (fold_right Rmult 1 ps).
Proof.
  intros Vl Vh H0 HB. set (dl := / 2 ^ 52 + (/ 2 ^ 51 * (Rabs l + h) + bpow radix2 (-1072)) / h).
  assert (H : exists ps, Forall2 (fun x p => draw_prob (fun _ => Uniform_Next tape low high) (at_most x) p /\ Rabs (p - uniform_cdf l (l + h) x) <= dl) xs ps).
  { induction xs as [|x xs (ps & IH)]; [exists []; constructor|]. destruct (C73_uniform low high l h x Vl Vh H0 HB) as (p & D & B). exists (p :: ps). constructor; auto. }
  clearbody dl. destruct H as (ps & H). exists ps. split; [clear - H; induction H as [|x p xs ps [_ B] _ IH]; constructor; auto|].
  pose proof (C72_successive (fun _ => Uniform_Next tape low high) (map at_most xs) ps (fun _ _ _ _ _ E => E) (fun _ => uniform_only low high)) as D. rewrite map_length in D.
  destruct D as (q & Hq & L); [clear - H; induction H as [|x p xs ps [D _] _ IH]; cbn [map]; constructor; auto|].
  exists q. split; [|exact L]. intros n. destruct (Hq n) as (c & C & E). exists c. split; [|exact E]. revert C. apply Count.has_exactly_ext. intros ws. apply and_iff_compat_l.
  assert (X : forall vs, Forall2 (fun (P : float64 -> Prop) a => P a) (map at_most xs) vs <-> Forall2 at_most xs vs).
  { clear. induction xs as [|x xs IH]; intros vs; cbn [map]; split; intros H; inversion H; subst; constructor; auto; now apply IH. }
  split; intros (fuel & vs & ws' & E1 & H1); exists fuel, vs, ws'; (split; [exact E1|]); now apply X.
Qed.
(** Uniform{-5, 10}: within 2^-49 of uniform on [-5, 5) *)
Example C73_nonvacuous x : fvalue (of_int (-5)) (-5) /\ fvalue (of_int 10) 10 /\
  exists p, draw_prob (fun _ => Uniform_Next tape (of_int (-5)) (of_int 10)) (at_most x) p /\ Rabs (p - uniform_cdf (-5) 5 x) <= / 2 ^ 49.
Proof.
  assert (V1 : fvalue (of_int (-5)) (-5)). { split; [reflexivity|]. cbn. unfold Defs.F2R. cbn. lra. }
  assert (V2 : fvalue (of_int 10) 10). { split; [reflexivity|]. cbn. unfold Defs.F2R. cbn. lra. }
  split; [exact V1|]. split; [exact V2|]. assert (A5 : Rabs (-5) = 5) by (rewrite Rabs_left; lra).
  destruct (C73_uniform (of_int (-5)) (of_int 10) (-5) 10 x V1 V2 ltac:(lra)) as (p & D & B).
  - rewrite A5. apply Rle_trans with (bpow radix2 4); [change (bpow radix2 4) with 16; lra|apply bpow_le; lia].
  - exists p. split; [exact D|]. replace (-5 + 10) with 5 in B by lra. apply Rle_trans with (1 := B). rewrite A5. assert (bpow radix2 (-1072) <= / 2 ^ 60) by (apply Rle_trans with (bpow radix2 (-60)); [apply bpow_le; lia|change (bpow radix2 (-60)) with (/ 1152921504606846976); lra]). lra.
Qed.
End Compiler.
