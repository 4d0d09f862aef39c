(** Verified fixed-point enclosures of exp(-x), by alternating Taylor sums and repeated squaring. *)
From Coq Require Import Reals ZArith Lia Lra Psatz List Bool.
Import ListNotations.
Local Open Scope R_scope.

(** ** Taylor sums *)
(** 1 - t/k * (1 - t/(k+1) * (...)), m levels *)
Fixpoint horner (t : R) (k m : nat) : R :=
  match m with O => 1 | S m' => 1 - t / INR k * horner t (S k) m' end.
Definition term (t : R) (i : nat) : R := / INR (fact i) * t ^ i.
Lemma term_S t i : term t (S i) = term t i * (t / INR (S i)).
Proof.
  unfold term. rewrite fact_simpl, mult_INR. cbn [pow]. assert (INR (S i) <> 0) by (apply not_0_INR; discriminate). assert (INR (fact i) <> 0) by apply INR_fact_neq_0.
  field. auto.
Qed.
Lemma horner_sum t m : forall k, sum_f_R0 (tg_alt (term t)) (k + m) - sum_f_R0 (tg_alt (term t)) k = tg_alt (term t) k * (horner t (S k) m - 1).
Proof.
  induction m as [|m IH]; intros k.
  - rewrite Nat.add_0_r. cbn [horner]. ring.
  - replace (k + S m)%nat with (S k + m)%nat by lia. specialize (IH (S k)). cbn [horner].
    assert (E : sum_f_R0 (tg_alt (term t)) (S k) = sum_f_R0 (tg_alt (term t)) k + tg_alt (term t) (S k)) by reflexivity.
    assert (T : tg_alt (term t) (S k) = - (tg_alt (term t) k * (t / INR (S k)))) by (unfold tg_alt; rewrite term_S; cbn [pow]; ring).
    rewrite E in IH. replace (sum_f_R0 (tg_alt (term t)) (S k + m)) with (sum_f_R0 (tg_alt (term t)) k + tg_alt (term t) (S k) + tg_alt (term t) (S k) * (horner t (S (S k)) m - 1)) by lra.
    rewrite T. ring.
Qed.
Lemma horner_taylor t m : sum_f_R0 (tg_alt (term t)) m = horner t 1 m.
Proof. pose proof (horner_sum t m 0) as H. cbn [Nat.add sum_f_R0] in H. unfold tg_alt at 2 3, term at 2 3 in H. cbn in H. lra. Qed.
Lemma term_cv t : Un_cv (term t) 0.
Proof.
  pose proof (cv_speed_pow_fact t) as H. intros e He. destruct (H e He) as [n Hn]. exists n. intros k Hk. specialize (Hn k Hk). unfold term.
  replace (/ INR (fact k) * t ^ k) with (t ^ k / INR (fact k)) by (unfold Rdiv; ring). exact Hn.
Qed.
Lemma taylor_bounds t N : 0 <= t <= 1 -> horner t 1 (S (2 * N)) <= exp (- t) <= horner t 1 (2 * N).
Proof.
  intros Ht. rewrite <- !horner_taylor. apply alternated_series_ineq.
  - intros n. rewrite term_S. assert (P : 0 <= term t n) by (unfold term; apply Rmult_le_pos; [left; apply Rinv_0_lt_compat, INR_fact_lt_0|apply pow_le; lra]).
    assert (Q : 0 <= t / INR (S n) <= 1).
    { assert (1 <= INR (S n)) by (rewrite S_INR; pose proof (pos_INR n); lra). split; [apply Rmult_le_pos; [lra|left; apply Rinv_0_lt_compat; lra]|].
      apply Rmult_le_reg_r with (INR (S n)); [lra|]. unfold Rdiv. rewrite Rmult_assoc, Rinv_l by lra. lra. }
    nra.
  - apply term_cv.
  - assert (E : exp_in (- t) (exp (- t))) by (unfold exp; apply proj2_sig). unfold exp_in, infinite_sum in E. intros e He. destruct (E e He) as [n Hn].
    exists n. intros k Hk. specialize (Hn k Hk). replace (sum_f_R0 (tg_alt (term t)) k) with (sum_f_R0 (fun i => / INR (fact i) * (- t) ^ i) k); [exact Hn|].
    apply sum_eq. intros i _. unfold tg_alt, term. replace (- t) with (-1 * t) by ring. rewrite Rpow_mult_distr. ring.
Qed.

(** ** Fixed point, in units of 2^-e *)
Local Open Scope Z_scope.
Definition cdiv (a b : Z) : Z := - (- a / b).
(** m levels of the sum above; the innermost factor is anything between 1 - t/k and 1 *)
Fixpoint hornerZ (e T k : Z) (m : nat) : Z * Z :=
  match m with
  | O => (2 ^ e - cdiv T k, 2 ^ e)
  | S m' => let (lo, hi) := hornerZ e T (k + 1) m' in (2 ^ e + Z.shiftr (- (T * hi)) e / k, 2 ^ e - Z.shiftr (T * lo) e / k)
  end.
Fixpoint squares (e : Z) (s : nat) (b : Z * Z) : Z * Z :=
  match s with O => b | S s' => let (lo, hi) := squares e s' b in (Z.shiftr (lo * lo) e, - Z.shiftr (- (hi * hi)) e) end.
Local Open Scope R_scope.
Lemma div_lower a b : (0 < b)%Z -> IZR (a / b) <= IZR a / IZR b.
Proof.
  intros H. apply IZR_lt in H as Hb. apply Rmult_le_reg_r with (IZR b); [exact Hb|]. unfold Rdiv. rewrite Rmult_assoc, Rinv_l, Rmult_1_r by lra.
  rewrite <- mult_IZR. apply IZR_le. pose proof (Z.mul_div_le a b H). lia.
Qed.
Lemma div_upper a b : (0 < b)%Z -> IZR a / IZR b <= IZR (cdiv a b).
Proof. intros H. unfold cdiv. rewrite opp_IZR. pose proof (div_lower (- a) b H) as D. rewrite opp_IZR in D. unfold Rdiv in *. lra. Qed.
Lemma shift_div a e k : (0 <= e)%Z -> (0 < k)%Z -> (Z.shiftr a e / k = a / (k * 2 ^ e))%Z.
Proof. intros He Hk. rewrite Z.shiftr_div_pow2 by exact He. rewrite Z.div_div, (Z.mul_comm (2 ^ e)); [reflexivity|apply Z.pow_nonzero; lia|exact Hk]. Qed.
Lemma hornerZ_bounds e T m : (0 <= e)%Z -> (0 <= T)%Z -> forall k, (0 < k)%nat ->
  (IZR (fst (hornerZ e T (Z.of_nat k) m)) <= IZR (2 ^ e) * horner (IZR T / IZR (2 ^ e)) k m <= IZR (snd (hornerZ e T (Z.of_nat k) m))) /\
  (IZR (fst (hornerZ e T (Z.of_nat k) m)) <= IZR (2 ^ e) * horner (IZR T / IZR (2 ^ e)) k (S m) <= IZR (snd (hornerZ e T (Z.of_nat k) m))).
Proof.
  intros He HT. assert (HP : (0 < 2 ^ e)%Z) by (apply Z.pow_pos_nonneg; lia). apply IZR_lt in HP as HP'. apply IZR_le in HT as HT'. induction m as [|m IH]; intros k Hk; cbn [hornerZ].
  - assert (Kr : 0 < INR k) by (apply lt_0_INR; lia). assert (HK : (0 < Z.of_nat k)%Z) by lia. cbn [fst snd horner]. rewrite minus_IZR. pose proof (div_upper T _ HK) as U. rewrite <- INR_IZR_INZ in U.
    assert (Q : 0 <= IZR T / INR k) by (apply Rmult_le_pos; [lra|left; now apply Rinv_0_lt_compat]).
    replace (IZR (2 ^ e) * (1 - IZR T / IZR (2 ^ e) / INR k * 1)) with (IZR (2 ^ e) - IZR T / INR k) by (field; lra). lra.
  - specialize (IH (S k) ltac:(lia)). replace (Z.of_nat k + 1)%Z with (Z.of_nat (S k)) by lia. destruct (hornerZ e T (Z.of_nat (S k)) m) as [lo hi]. cbn [fst snd] in *.
    set (P := (2 ^ e)%Z) in *. assert (KP : (0 < Z.of_nat k * P)%Z) by nia.
    assert (Kr : 0 < INR k) by (apply lt_0_INR; lia). pose proof (div_lower (- (T * hi)) _ KP) as U. pose proof (div_lower (T * lo) _ KP) as D.
    rewrite !shift_div by lia. fold P. rewrite plus_IZR, minus_IZR.
    rewrite opp_IZR in U. rewrite !mult_IZR, <- INR_IZR_INZ in U, D.
    assert (I : 0 < / (INR k * IZR P)) by (apply Rinv_0_lt_compat; nra).
    assert (STEP : forall g, IZR lo <= IZR P * g <= IZR hi -> IZR P + IZR (- (T * hi) / (Z.of_nat k * P)) <= IZR P * (1 - IZR T / IZR P / INR k * g) <= IZR P - IZR (T * lo / (Z.of_nat k * P))).
    { intros g Hg. assert (E : IZR P * (1 - IZR T / IZR P / INR k * g) = IZR P - IZR T * (IZR P * g) / (INR k * IZR P)) by (field; lra). rewrite E.
      assert (M : IZR T * IZR lo / (INR k * IZR P) <= IZR T * (IZR P * g) / (INR k * IZR P) <= IZR T * IZR hi / (INR k * IZR P)).
      { unfold Rdiv. split; apply Rmult_le_compat_r; try lra; apply Rmult_le_compat_l; lra. }
      unfold Rdiv in *. lra. }
    split; apply STEP; tauto.
Qed.
Lemma squares_bounds e s b x : (0 <= e)%Z -> 0 <= x -> (0 <= fst b)%Z -> IZR (fst b) <= IZR (2 ^ e) * x <= IZR (snd b) ->
  (0 <= fst (squares e s b))%Z /\ IZR (fst (squares e s b)) <= IZR (2 ^ e) * x ^ (2 ^ s) <= IZR (snd (squares e s b)).
Proof.
  intros He Hx Hb H. assert (HP : (0 < 2 ^ e)%Z) by (apply Z.pow_pos_nonneg; lia). apply IZR_lt in HP as HP'. induction s as [|s IH]; cbn [squares]; [cbn [Nat.pow pow]; rewrite Rmult_1_r; auto|].
  destruct (squares e s b) as [lo hi]. cbn [fst snd] in *. destruct IH as [L0 [L H']]. apply IZR_le in L0 as L0'. rewrite !Z.shiftr_div_pow2 by exact He. set (P := (2 ^ e)%Z) in *.
  split; [apply Z.div_pos; nia|]. set (y := x ^ (2 ^ s)) in *. replace (x ^ (2 ^ S s)) with (y * y) by (unfold y; rewrite <- pow_add; f_equal; cbn; lia).
  assert (Y : 0 <= y) by (apply pow_le; exact Hx). pose proof (div_lower (lo * lo) P HP) as D. pose proof (div_upper (hi * hi) P HP) as U. unfold cdiv in U. rewrite !mult_IZR in D, U.
  assert (E : IZR P * (y * y) = IZR P * y * (IZR P * y) / IZR P) by (field; lra). rewrite E.
  assert (PY : 0 <= IZR P * y) by nra.
  assert (M : IZR lo * IZR lo / IZR P <= IZR P * y * (IZR P * y) / IZR P <= IZR hi * IZR hi / IZR P).
  { assert (0 < / IZR P) by now apply Rinv_0_lt_compat. unfold Rdiv. split; apply Rmult_le_compat_r; try lra; apply Rmult_le_compat; lra. }
  lra.
Qed.
Lemma expZ_bounds e T N s : (0 <= e)%Z -> (0 <= T <= 2 ^ e)%Z -> (0 <= fst (hornerZ e T 1 (2 * N)))%Z ->
  IZR (fst (squares e s (hornerZ e T 1 (2 * N)))) <= IZR (2 ^ e) * exp (- (IZR (2 ^ Z.of_nat s * T) / IZR (2 ^ e))) <= IZR (snd (squares e s (hornerZ e T 1 (2 * N)))).
Proof.
  intros He HT H0. assert (HP : (0 < 2 ^ e)%Z) by (apply Z.pow_pos_nonneg; lia). apply IZR_lt in HP as HP'. destruct HT as [T0 T1]. apply IZR_le in T0 as T0'. apply IZR_le in T1 as T1'.
  pose proof (hornerZ_bounds e T (2 * N) He T0 1 ltac:(lia)) as [B1 B2]. change (Z.of_nat 1) with 1%Z in *. set (P := (2 ^ e)%Z) in *. set (t := IZR T / IZR P) in *.
  assert (Ht : 0 <= t <= 1).
  { unfold t. split; [apply Rmult_le_pos; [lra|left; now apply Rinv_0_lt_compat]|]. apply Rmult_le_reg_r with (IZR P); [lra|]. unfold Rdiv. rewrite Rmult_assoc, Rinv_l by lra. lra. }
  pose proof (taylor_bounds t N Ht) as TB.
  assert (Ex : exp (- (IZR (2 ^ Z.of_nat s * T) / IZR P)) = exp (- t) ^ (2 ^ s)).
  { replace (- (IZR (2 ^ Z.of_nat s * T) / IZR P)) with (INR (2 ^ s) * - t).
    - generalize (2 ^ s)%nat. intros n. induction n as [|n IH]; [cbn; rewrite Rmult_0_l; apply exp_0|]. rewrite S_INR, Rmult_plus_distr_r, Rmult_1_l, exp_plus, IH. cbn [pow]. ring.
    - rewrite mult_IZR, INR_IZR_INZ, Nat2Z.inj_pow. unfold t. change (Z.of_nat 2) with 2%Z. field. lra. }
  rewrite Ex. apply (squares_bounds e s _ (exp (- t)) He); [left; apply exp_pos|exact H0|]. fold P.
  assert (IZR P * horner t 1 (S (2 * N)) <= IZR P * exp (- t) <= IZR P * horner t 1 (2 * N)) by (split; apply Rmult_le_compat_l; lra). lra.
Qed.
(** one side only of [hornerZ]: a chain alternating between lower and upper ends *)
Fixpoint chainZ (up : bool) (e T k : Z) (m : nat) : Z :=
  match m with
  | O => if up then (2 ^ e)%Z else (2 ^ e - cdiv T k)%Z
  | S m' => let v := chainZ (negb up) e T (k + 1)%Z m' in
            if up then (2 ^ e - Z.shiftr (T * v) e / k)%Z else (2 ^ e + Z.shiftr (- (T * v)) e / k)%Z
  end.
Lemma chainZ_pair e T m : forall k, hornerZ e T k m = (chainZ false e T k m, chainZ true e T k m).
Proof. induction m as [|m IH]; intros k; cbn [hornerZ chainZ negb]; [reflexivity|]. rewrite IH. reflexivity. Qed.
Fixpoint sq_lo (e : Z) (s : nat) (v : Z) : Z := match s with O => v | S s' => let w := sq_lo e s' v in Z.shiftr (w * w) e end.
Fixpoint sq_hi (e : Z) (s : nat) (v : Z) : Z := match s with O => v | S s' => let w := sq_hi e s' v in (- Z.shiftr (- (w * w)) e)%Z end.
Lemma squares_pair e s b : squares e s b = (sq_lo e s (fst b), sq_hi e s (snd b)).
Proof. induction s as [|s IH]; cbn [squares sq_lo sq_hi]; [now destruct b|]. rewrite IH. reflexivity. Qed.
Lemma expZ_upper e T N s : (0 <= e)%Z -> (0 <= T <= 2 ^ e)%Z ->
  IZR (2 ^ e) * exp (- (IZR (2 ^ Z.of_nat s * T) / IZR (2 ^ e))) <= IZR (sq_hi e s (snd (hornerZ e T 1 (2 * N)))).
Proof.
  intros He HT. assert (HP : (0 < 2 ^ e)%Z) by (apply Z.pow_pos_nonneg; lia). apply IZR_lt in HP as HP'. destruct HT as [T0 T1]. apply IZR_le in T0 as T0'. apply IZR_le in T1 as T1'.
  pose proof (hornerZ_bounds e T (2 * N) He T0 1 ltac:(lia)) as [B1 _]. change (Z.of_nat 1) with 1%Z in *. set (P := (2 ^ e)%Z) in *. set (t := IZR T / IZR P) in *.
  assert (Ht : 0 <= t <= 1).
  { unfold t. split; [apply Rmult_le_pos; [lra|left; now apply Rinv_0_lt_compat]|]. apply Rmult_le_reg_r with (IZR P); [lra|]. unfold Rdiv. rewrite Rmult_assoc, Rinv_l by lra. lra. }
  pose proof (taylor_bounds t N Ht) as TB.
  assert (Ex : exp (- (IZR (2 ^ Z.of_nat s * T) / IZR P)) = exp (- t) ^ (2 ^ s)).
  { replace (- (IZR (2 ^ Z.of_nat s * T) / IZR P)) with (INR (2 ^ s) * - t).
    - generalize (2 ^ s)%nat. intros n. induction n as [|n IH]; [cbn; rewrite Rmult_0_l; apply exp_0|]. rewrite S_INR, Rmult_plus_distr_r, Rmult_1_l, exp_plus, IH. cbn [pow]. ring.
    - rewrite mult_IZR, INR_IZR_INZ, Nat2Z.inj_pow. unfold t. change (Z.of_nat 2) with 2%Z. field. lra. }
  rewrite Ex. pose proof (exp_pos (- t)) as EP.
  assert (M : IZR P * exp (- t) <= IZR P * horner t 1 (2 * N)) by (apply Rmult_le_compat_l; lra).
  assert (M0 : 0 <= IZR P * exp (- t)) by (apply Rmult_le_pos; lra).
  destruct (squares_bounds e s (0%Z, snd (hornerZ e T 1 (2 * N))) (exp (- t)) He) as [_ [_ U]]; [lra|cbn [fst]; lia|cbn [fst snd]; fold P; lra|].
  rewrite squares_pair in U. exact U.
Qed.
(** y/D is within relative error a/b of exp(-x) for every x between 2^s T/2^e and 2^s T'/2^e, as a check on integers *)
Definition exp_close (e T T' : Z) (m s : nat) (y D a b : Z) : bool :=
  let v := chainZ false e T' 1 (2 * m) in
  ((0 <=? T) && (T <=? T') && (T' <=? 2 ^ e) && (0 <=? v) &&
   (y * 2 ^ e * b <=? sq_lo e s v * D * (b + a)) && (sq_hi e s (chainZ true e T 1 (2 * m)) * D * (b - a) <=? y * 2 ^ e * b))%Z%bool.
Lemma exp_close_sound e T T' m s y D a b x : (0 <= e)%Z -> (0 < D)%Z -> (0 <= a <= b)%Z -> (0 < b)%Z -> exp_close e T T' m s y D a b = true ->
  IZR (2 ^ Z.of_nat s * T) / IZR (2 ^ e) <= x <= IZR (2 ^ Z.of_nat s * T') / IZR (2 ^ e) ->
  Rabs (IZR y / IZR D - exp (- x)) <= IZR a / IZR b * exp (- x).
Proof.
  intros H0 HD Ha Hb H Hx. unfold exp_close in H. cbv zeta in H. rewrite !andb_true_iff, !Z.leb_le in H. destruct H as (((((H1 & H2) & H2') & H3) & H4) & H5).
  pose proof (expZ_bounds e T' m s H0 ltac:(lia)) as B. pose proof (expZ_upper e T m s H0 ltac:(lia)) as B'.
  rewrite chainZ_pair in B, B'. rewrite squares_pair in B. cbn [fst snd] in B, B'. specialize (B H3). destruct B as [B _].
  assert (HP : (0 < 2 ^ e)%Z) by (apply Z.pow_pos_nonneg; lia). apply IZR_lt in HP as HP'.
  assert (X1 : exp (- (IZR (2 ^ Z.of_nat s * T') / IZR (2 ^ e))) <= exp (- x)).
  { destruct (Rle_lt_or_eq_dec x (IZR (2 ^ Z.of_nat s * T') / IZR (2 ^ e)) (proj2 Hx)) as [L|E]; [left; apply exp_increasing; lra|right; now rewrite E]. }
  assert (X2 : exp (- x) <= exp (- (IZR (2 ^ Z.of_nat s * T) / IZR (2 ^ e)))).
  { destruct (Rle_lt_or_eq_dec (IZR (2 ^ Z.of_nat s * T) / IZR (2 ^ e)) x (proj1 Hx)) as [L|E]; [left; apply exp_increasing; lra|right; now rewrite E]. }
  set (lo := sq_lo _ _ _) in *. set (hi := sq_hi _ _ _) in *. clearbody lo hi.
  apply (Rmult_le_compat_l (IZR (2 ^ e))) in X1; [|lra]. apply (Rmult_le_compat_l (IZR (2 ^ e))) in X2; [|lra].
  assert (C : IZR lo <= IZR (2 ^ e) * exp (- x) <= IZR hi) by lra. clear B B' X1 X2 Hx. set (ex := exp (- x)) in *. clearbody ex.
  apply IZR_lt in HD, Hb. destruct Ha as [A0 A1]. apply IZR_le in A0, A1, H4, H5. rewrite !mult_IZR, plus_IZR in H4. rewrite !mult_IZR, minus_IZR in H5.
  set (p := IZR (2 ^ e)) in *. set (d := IZR D) in *. set (yy := IZR y) in *. set (aa := IZR a) in *. set (bb := IZR b) in *. clearbody p d yy aa bb.
  assert (U : yy * p * bb <= p * ex * d * (bb + aa)). { apply Rle_trans with (1 := H4). apply Rmult_le_compat_r; [lra|]. apply Rmult_le_compat_r; lra. }
  assert (L : p * ex * d * (bb - aa) <= yy * p * bb). { apply Rle_trans with (2 := H5). apply Rmult_le_compat_r; [lra|]. apply Rmult_le_compat_r; lra. }
  assert (K : 0 < p * d * bb) by (apply Rmult_lt_0_compat; [apply Rmult_lt_0_compat; lra|lra]).
  apply Rabs_le. split; apply Rmult_le_reg_r with (p * d * bb); try exact K.
  - replace ((yy / d - ex) * (p * d * bb)) with (yy * p * bb - ex * (p * d * bb)) by (field; lra). replace (- (aa / bb * ex) * (p * d * bb)) with (- (aa * ex * p * d)) by (field; lra). lra.
  - replace ((yy / d - ex) * (p * d * bb)) with (yy * p * bb - ex * (p * d * bb)) by (field; lra). replace (aa / bb * ex * (p * d * bb)) with (aa * ex * p * d) by (field; lra). lra.
Qed.
