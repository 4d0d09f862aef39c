(** The distribution of normalTail on a tape of uniform words. *)
From Coq Require Import Reals Lia Lra Psatz ZifyN ZifyNat Bool.
From Coquelicot Require Import Coquelicot.
From Flocq Require Import Core BinarySingleNaN.
From Verif Require Import Model.Base Model.Rng Model.Float Model.Distr Model.Ziggurat Model.ExpoTable Model.NormalTable Model.ExpoNormal Spec.Common Spec.Floats Spec.Zig Spec.Tails Spec.Density Spec.Prob.
From Verif Require Import Proofs.WordLemmas Proofs.FloatProofs Proofs.RelError Proofs.ZigTables Proofs.SumN Proofs.Riemann Proofs.ZigAccept Proofs.ZigBody Proofs.ZigStep Proofs.ZigFloat Proofs.ZigInst Proofs.ZigTape Proofs.ZigHit Proofs.ExpoLaw Proofs.Gauss Props.Uniform Props.Zig Props.ExpoNormal Props.Tails Props.Density.
Local Open Scope R_scope.

Lemma mean53_le f g : (forall m, (m < M53)%N -> f m <= g m) -> mean53 f <= mean53 g.
Proof. pose proof (Rinv_0_lt_compat _ P53) as IP. intros H. unfold mean53. apply Rmult_le_compat_r; [lra|]. apply sumN_le. exact H. Qed.
Lemma mean53_plus f g : mean53 (fun k => f k + g k) = mean53 f + mean53 g.
Proof. unfold mean53. rewrite sumN_plus. field. pose proof P53. lra. Qed.
Lemma mean53_scal c f : mean53 (fun k => c * f k) = c * mean53 f.
Proof. unfold mean53. rewrite sumN_scal. field. pose proof P53. lra. Qed.
Lemma sumN_telescope (a : N -> R) n : sumN (fun j => a j - a (N.succ j)) n = a 0%N - a n.
Proof. induction n as [|n IH] using N.peano_ind; [rewrite sumN_0; ring|]. rewrite sumN_S, IH. ring. Qed.
(** a mean over draws of which the first alone can be large *)
Lemma mean53_first f g : (forall k, (0 < k < M53)%N -> f k <= g k) -> f 0%N <= g 0%N + 1 -> mean53 f <= mean53 g + / IZR (2 ^ 53).
Proof.
  intros H H0. pose proof P53 as PP. pose proof (Rinv_0_lt_compat _ PP) as IP. replace (/ IZR (2 ^ 53)) with (mean53 (fun k => if (k =? 0)%N then 1 else 0)).
  - rewrite <- mean53_plus. apply mean53_le. intros m Hm. destruct (N.eqb_spec m 0) as [->|N0]; [lra|]. specialize (H m ltac:(lia)). lra.
  - unfold mean53. replace M53 with (N.succ (M53 - 1)) by (rewrite M53_eq; lia). rewrite (sumN_first 1). field. lra.
Qed.

Lemma exp_int_gen (a cc : R) (x : R) : is_derive (fun x => - (cc * exp (- (a * x)))) x (a * exp (- (a * x)) * cc).
Proof. auto_derive; [trivial|ring]. Qed.

Section Tail.
  Variable math_log : float64 -> float64.
  Hypothesis AL : accurate_log math_log.
  Definition tx (k : N) : float64 := fdiv (fneg (math_log (unif k))) normalR.
  Definition tacc (k l : N) : bool := fge (fadd (fneg (math_log (unif l))) (fneg (math_log (unif l)))) (fmul (tx k) (tx k)).
  Definition tval (k : N) : float64 := fadd (tx k) normalR.
  Notation r := (B2R normalR).
  Lemma tail_step n u v ws : w64 u -> w64 v -> normalTail tape math_log (S n) (u :: v :: ws) =
    if tacc (u mod 2 ^ 53) (v mod 2 ^ 53) then Ret (tval (u mod 2 ^ 53), ws) else normalTail tape math_log n ws.
  Proof. intros Hu Hv. cbn [normalTail]. rewrite tape_unif by exact Hu. cbn [bind]. rewrite tape_unif by exact Hv. reflexivity. Qed.
  Lemma tail_mono a : forall b w x, (a <= b)%nat -> normalTail tape math_log a w = Ret x -> normalTail tape math_log b w = Ret x.
  Proof.
    induction a as [|a IH]; intros b w x Hb E; [discriminate E|]. destruct b as [|b]; [lia|]. cbn [normalTail] in *.
    destruct (Uniform0_1_Next tape w) as [[u w1]| |]; cbn [bind] in *; try discriminate E. destruct (Uniform0_1_Next tape w1) as [[v w2]| |]; cbn [bind] in *; try discriminate E.
    cbv zeta in *. destruct (fge _ _); [exact E|]. apply IH; [lia|exact E].
  Qed.
  Lemma tail_bound a : forall w x, normalTail tape math_log a w = Ret x -> normalTail tape math_log (S (length w)) w = Ret x.
  Proof.
    induction a as [|a IH]; intros w x E; [discriminate E|]. cbn [normalTail] in E |- *.
    destruct (Uniform0_1_Next tape w) as [[u w1]| |] eqn:U; cbn [bind] in *; try discriminate E. destruct (Uniform0_1_Next tape w1) as [[v w2]| |] eqn:V; cbn [bind] in *; try discriminate E.
    cbv zeta in *. destruct (fge _ _); [exact E|]. apply IH in E. apply tape_unif_inv in U, V. destruct U as [u0 ->]. destruct V as [v0 ->]. cbn [length]. apply tail_mono with (S (length w2)); [lia|exact E].
  Qed.

  (** *** One attempt *)
  Definition uk (k : N) : R := NR k / IZR (2 ^ 53).
  Definition q (k : N) : R := - ln (uk k) / r.
  Lemma draw_tape u ws x w' : w64 u -> uniform_draw tape (u :: ws) x w' -> x = uk (u mod 2 ^ 53) /\ w' = ws.
  Proof.
    intros Hu (g & E & V). rewrite tape_unif in E by exact Hu. assert (g = unif (u mod 2 ^ 53) /\ w' = ws) as [-> ->] by (split; congruence). split; [|reflexivity].
    destruct (scale_exact (u mod 2 ^ 53) ltac:(apply N.mod_lt; lia)) as [[_ VV] _]. fold (unif (u mod 2 ^ 53)) in VV. destruct V as [_ <-]. exact VV.
  Qed.
  Lemma marsaglia_shorter tol tol' rr w g w' : marsaglia_tail tape tol tol' rr w g w' -> (length w' < length w)%nat.
  Proof.
    intros H. induction H as [w u w1 v w2 g D1 D2|w u w1 v w2 g w' D1 D2 _ _ _ IH]; destruct D1 as (g1 & E1 & _); destruct D2 as (g2 & E2 & _); apply tape_unif_inv in E1, E2; destruct E1 as [a ->]; destruct E2 as [b ->]; cbn [length] in *; lia.
  Qed.
  Lemma attempt k l : (0 < k < 2 ^ 53)%N -> (l < 2 ^ 53)%N ->
    if tacc k l then (l = 0%N \/ q k ^ 2 <= - 2 * ln (uk l) + 2 / 10 ^ 13) /\ near (1 / 10 ^ 14) (tval k) (r + q k) else (0 < l)%N /\ - 2 * ln (uk l) <= q k ^ 2 + 2 / 10 ^ 13.
  Proof.
    intros Hk Hl. assert (Wk : w64 k) by (unfold w64; lia). assert (Wl : w64 l) by (unfold w64; lia).
    assert (Mk : (k mod 2 ^ 53 = k)%N) by (apply N.mod_small; lia). assert (Ml : (l mod 2 ^ 53 = l)%N) by (apply N.mod_small; lia).
    assert (T00 : normalTail tape math_log 1 [0; 0]%N = Ret (finf, [])).
    { pose proof uniform_zero as UZ. apply (proj1 (C37_tail_zero_attempt tape math_log math_log tape_go 0 [0; 0]%N [0]%N (B754_zero false) [] (accurate_bounded _ AL) ltac:(rewrite tape_uniform by apply w64_0; now rewrite UZ) ltac:(rewrite tape_uniform by apply w64_0; now rewrite UZ))). reflexivity. }
    pose proof P53 as PP. assert (UK : 0 < uk k) by (apply Rdiv_lt_0_compat; [apply IZR_lt; lia|exact PP]).
    assert (QS : (ln (uk k) / r) ^ 2 = q k ^ 2) by (unfold q, Rdiv; ring).
    pose proof (tail_step 1 k l [0; 0]%N Wk Wl) as S. rewrite Mk, Ml, T00 in S. destruct (tacc k l).
    - pose proof (C59_normal_tail tape math_log math_log tape_go 2 AL _ _ _ S) as M. inversion M as [w u w1 v w2 g D1 D2 C Z P|w u w1 v w2 g w' D1 D2 V0 C M']; subst.
      + apply draw_tape in D1; [|exact Wk]. destruct D1 as [-> ->]. apply draw_tape in D2; [|exact Wl]. destruct D2 as [-> _]. rewrite Mk, Ml in *. rewrite QS in C. split.
        * destruct C as [C|[_ C]]; [left|now right]. destruct (N.eq_dec l 0) as [E|E]; [exact E|exfalso]. assert (0 < uk l) by (apply Rdiv_lt_0_compat; [apply IZR_lt; lia|exact PP]). lra.
        * specialize (P UK). unfold q. replace (r + - ln (uk k) / r) with (r - ln (uk k) / r) by (unfold Rdiv; ring). exact P.
      + exfalso. apply draw_tape in D1; [|exact Wk]. destruct D1 as [-> ->]. apply draw_tape in D2; [|exact Wl]. destruct D2 as [-> ->]. apply marsaglia_shorter in M'. lia.
    - pose proof (C59_normal_tail tape math_log math_log tape_go 2 AL _ _ _ S) as M. inversion M as [w u w1 v w2 g D1 D2 C Z P|w u w1 v w2 g w' D1 D2 V0 C M']; subst.
      + exfalso. apply draw_tape in D1; [|exact Wk]. destruct D1 as [-> ->]. apply draw_tape in D2; [|exact Wl]. destruct D2 as [_ D2]. discriminate D2.
      + apply draw_tape in D1; [|exact Wk]. destruct D1 as [-> ->]. apply draw_tape in D2; [|exact Wl]. destruct D2 as [-> ->]. rewrite Mk, Ml in *. rewrite QS in C. split.
        * destruct (N.eq_dec l 0) as [E|E]; [exfalso|lia]. subst l. unfold uk in V0. change (NR 0) with 0 in V0. unfold Rdiv in V0. rewrite Rmult_0_l in V0. lra.
        * destruct C as [C|C]; [exfalso; lra|exact C].
  Qed.
  Lemma tval_near k : (0 < k < 2 ^ 53)%N -> near (1 / 10 ^ 14) (tval k) (r + q k).
  Proof.
    intros Hk. pose proof (attempt k 0 Hk eq_refl) as A. destruct (tacc k 0); [apply A|]. destruct A as [A _]. lia.
  Qed.
  (** chance that the second draw accepts the first *)
  Definition c (k : N) : R := mean53 (fun l => ind (tacc k l)).
  Definition g (k : N) : R := exp (- (q k ^ 2 / 2)).
  Lemma c_range k : 0 <= c k <= 1. Proof. apply mean53_range. intros. apply ind_range. Qed.
  Lemma c_value k : (0 < k < 2 ^ 53)%N -> Rabs (c k - g k) <= 21 / 10 ^ 14.
  Proof.
    intros Hk. pose proof small53 as S3. pose proof (inversion_count (fun l => negb (tacc k l)) 0 (q k ^ 2 / 2) (1 / 10 ^ 13)) as I.
    assert (E : mean53 (fun l => ind (negb (tacc k l))) = 1 - c k). { unfold c. rewrite <- (mean53_const 1) at 1. unfold mean53. replace (sumN (fun _ => 1) M53 / IZR (2 ^ 53) - sumN (fun l => ind (tacc k l)) M53 / IZR (2 ^ 53)) with ((sumN (fun _ => 1) M53 - sumN (fun l => ind (tacc k l)) M53) / IZR (2 ^ 53)) by (field; pose proof P53; lra). rewrite <- sumN_minus. f_equal. apply sumN_ext. intros l _. destruct (tacc k l); cbn; ring. }
    cbv beta in I. rewrite E in I. assert (G1 : Rmin 1 (exp (0 - q k ^ 2 / 2)) = g k). { unfold g. rewrite Rminus_0_l. apply Rmin_right. rewrite <- exp_0. assert (0 <= q k ^ 2 / 2) by (pose proof (pow2_ge_0 (q k)); lra). destruct (Req_dec (q k ^ 2 / 2) 0) as [->|N]; [rewrite Ropp_0; lra|left; apply exp_increasing; lra]. }
    rewrite G1 in I. rewrite (proj1 inv53) in I. assert (Q : Rabs (1 - c k - (1 - g k)) <= 2 * (1 / 10 ^ 13) + / 2 ^ 53).
    { apply I.
      - lra.
      - pose proof (attempt k 0 Hk eq_refl) as A. destruct (tacc k 0); [reflexivity|]. destruct A. lia.
      - intros l Hl Hb. rewrite M53_eq in Hl. pose proof (attempt k l Hk ltac:(lia)) as A. destruct (tacc k l); [discriminate Hb|]. destruct A as [_ A]. fold (uk l). lra.
      - intros l Hl Hb. rewrite M53_eq in Hl. pose proof (attempt k l Hk ltac:(lia)) as A. destruct (tacc k l); [|discriminate Hb]. destruct A as [[A|A] _]; [lia|]. fold (uk l). lra. }
    apply Rabs_le_inv in Q. apply Rabs_le. lra.
  Qed.

  (** *** The integral *)
  Lemma r_range : 4 <= r <= 5. Proof. apply normalR_value. Qed.
  Definition Psi (s : R) : R := r * exp (r ^ 2 / 2) * (G (r + s) - G r).
  Lemma Psi_deriv (s : R) : is_derive Psi s (r * exp (- (r * s)) * exp (- (s ^ 2 / 2))).
  Proof.
    assert (O : is_derive (fun s : R => r + s) s 1) by (auto_derive; [trivial|ring]).
    assert (C : is_derive (fun s => G (r + s)) s (scal 1 (normal_density (r + s)))) by exact (is_derive_comp G (fun s => r + s) s _ _ (G_deriv (r + s)) O).
    assert (C0 : is_derive (fun _ : R => G r) s 0) by apply (is_derive_const (G r)).
    pose proof (is_derive_minus (fun s => G (r + s)) (fun _ => G r) s _ _ C C0) as D. apply (is_derive_scal _ s (r * exp (r ^ 2 / 2))) in D.
    replace (r * exp (- (r * s)) * exp (- (s ^ 2 / 2))) with (scal (r * exp (r ^ 2 / 2)) (minus (scal 1 (normal_density (r + s))) 0)); [exact D|].
    change (r * exp (r ^ 2 / 2) * (1 * normal_density (r + s) - 0) = r * exp (- (r * s)) * exp (- (s ^ 2 / 2))). unfold normal_density. rewrite Rminus_0_r, Rmult_1_l, !Rmult_assoc, <- !exp_plus. f_equal. f_equal. field.
  Qed.
  Lemma Psi_0 : Psi 0 = 0. Proof. unfold Psi. rewrite Rplus_0_r. ring. Qed.
  Lemma exp_int (cc : R) (x : R) : is_derive (fun x => - (cc * exp (- (r * x)))) x (r * exp (- (r * x)) * cc).
  Proof. apply exp_int_gen. Qed.
  Lemma sq_mono a b : 0 <= a <= b -> exp (- (b ^ 2 / 2)) <= exp (- (a ^ 2 / 2)).
  Proof. intros H. apply exp_decr. assert (a * a <= b * b) by (apply Rmult_le_compat; lra). lra. Qed.
  Lemma Psi_step a b : 0 <= a <= b -> exp (- (b ^ 2 / 2)) * (exp (- (r * a)) - exp (- (r * b))) <= Psi b - Psi a <= exp (- (a ^ 2 / 2)) * (exp (- (r * a)) - exp (- (r * b))).
  Proof.
    intros H. pose proof r_range as R. split.
    - pose proof (deriv_le _ Psi _ (fun s => r * exp (- (r * s)) * exp (- (s ^ 2 / 2))) a b (proj2 H) (fun x _ => exp_int (exp (- (b ^ 2 / 2))) x) (fun x _ => Psi_deriv x)) as D. cbv beta in D. apply Rle_trans with (2 := D ltac:(intros x Hx; apply Rmult_le_compat_l; [apply Rmult_le_pos; [lra|left; apply exp_pos]|apply sq_mono; lra])). right. ring.
    - pose proof (deriv_le Psi _ (fun s => r * exp (- (r * s)) * exp (- (s ^ 2 / 2))) _ a b (proj2 H) (fun x _ => Psi_deriv x) (fun x _ => exp_int (exp (- (a ^ 2 / 2))) x)) as D. cbv beta in D. apply Rle_trans with (1 := D ltac:(intros x Hx; apply Rmult_le_compat_l; [apply Rmult_le_pos; [lra|left; apply exp_pos]|apply sq_mono; lra])). right. ring.
  Qed.
  Lemma Psi_mono a b : 0 <= a <= b -> Psi a <= Psi b.
  Proof.
    intros H. pose proof (Psi_step a b H) as [S _]. pose proof r_range as R. assert (0 <= exp (- (b ^ 2 / 2)) * (exp (- (r * a)) - exp (- (r * b)))); [|lra]. apply Rmult_le_pos; [left; apply exp_pos|]. assert (exp (- (r * b)) <= exp (- (r * a))) by (apply exp_decr; apply Rmult_le_compat_l; lra). lra.
  Qed.
  Lemma sq_le_1 a : exp (- (a ^ 2 / 2)) <= 1.
  Proof. rewrite <- exp_0 at 1. assert (0 <= a ^ 2 / 2) by (pose proof (pow2_ge_0 a); lra). destruct (Req_dec (a ^ 2 / 2) 0) as [->|N]; [rewrite Ropp_0; lra|left; apply exp_increasing; lra]. Qed.
  Lemma Psi_gap a b : 0 <= a <= b -> Psi b - Psi a <= exp (- (r * a)) - exp (- (r * b)).
  Proof.
    intros H. pose proof (Psi_step a b H) as [_ S]. pose proof r_range as R. apply Rle_trans with (1 := S). assert (exp (- (r * b)) <= exp (- (r * a))) by (apply exp_decr; apply Rmult_le_compat_l; lra). rewrite <- (Rmult_1_l (exp (- (r * a)) - exp (- (r * b)))) at 2. apply Rmult_le_compat_r; [lra|apply sq_le_1].
  Qed.
  Lemma Psi_lip a b : 0 <= a <= b -> Psi b - Psi a <= 5 * (b - a).
  Proof.
    intros H. pose proof r_range as R. pose proof (deriv_le Psi (fun x => 5 * x) (fun s => r * exp (- (r * s)) * exp (- (s ^ 2 / 2))) (fun _ => 5) a b (proj2 H) (fun x _ => Psi_deriv x)) as D. cbv beta in D. replace (5 * (b - a)) with (5 * b - 5 * a) by ring. apply D.
    - intros x _. auto_derive; [trivial|ring].
    - intros x Hx. pose proof (sq_le_1 x) as S. pose proof (exp_pos (- (x ^ 2 / 2))) as SP. assert (E : exp (- (r * x)) <= 1). { rewrite <- exp_0. assert (0 <= r * x) by (apply Rmult_le_pos; lra). destruct (Req_dec (r * x) 0) as [->|N]; [rewrite Ropp_0; lra|left; apply exp_increasing; lra]. } pose proof (exp_pos (- (r * x))) as EP.
      apply Rle_trans with (5 * 1 * 1); [|lra]. apply Rmult_le_compat; [apply Rmult_le_pos; lra|lra| |exact S]. apply Rmult_le_compat; lra.
  Qed.
  Lemma uk_pos k : (0 < k)%N -> 0 < uk k. Proof. intros H. apply Rdiv_lt_0_compat; [apply IZR_lt; lia|exact P53]. Qed.
  Lemma q_exp k : (0 < k)%N -> exp (- (r * q k)) = uk k.
  Proof. intros H. unfold q. pose proof r_range. replace (- (r * (- ln (uk k) / r))) with (ln (uk k)) by (field; lra). apply exp_ln. now apply uk_pos. Qed.
  Lemma q_mono k l : (0 < k <= l)%N -> q l <= q k.
  Proof.
    intros H. unfold q. pose proof r_range as R. unfold Rdiv. apply Rmult_le_compat_r; [left; apply Rinv_0_lt_compat; lra|]. apply Ropp_le_contravar. destruct (N.eq_dec k l) as [->|NE]; [lra|]. left. apply ln_increasing; [apply uk_pos; lia|]. unfold uk, Rdiv. apply Rmult_lt_compat_r; [apply Rinv_0_lt_compat, P53|apply IZR_lt; lia].
  Qed.
  Lemma uk_M : uk M53 = 1. Proof. unfold uk. rewrite NR_M53. pose proof P53. field. lra. Qed.
  Lemma q_M : q M53 = 0. Proof. unfold q. rewrite uk_M, ln_1. unfold Rdiv. ring. Qed.
  Lemma q_pos k : (0 < k <= M53)%N -> 0 <= q k. Proof. intros H. rewrite <- q_M. now apply q_mono. Qed.
  Lemma uk_succ k : uk (N.succ k) - uk k = / IZR (2 ^ 53).
  Proof. unfold uk. rewrite NR_succ. pose proof P53. field. lra. Qed.
  Definition summand (s : R) (k : N) : R := if (k =? 0)%N then 0 else ind (Rle_bool (q k) s) * g k.
  Lemma Psi_sum s : 0 <= s -> Rabs (mean53 (summand s) - Psi s) <= 2 / IZR (2 ^ 53).
  Proof.
    intros Hs. pose proof P53 as PP. pose proof (Rinv_0_lt_compat _ PP) as IP. set (h := fun k => Psi (Rmin s (q k))).
    assert (MQ : forall k, (0 < k <= M53)%N -> 0 <= Rmin s (q k)) by (intros k Hk; apply Rmin_glb; [exact Hs|now apply q_pos]).
    assert (Q1 : (0 < 1 <= M53)%N) by (rewrite M53_eq; lia).
    (* upper bound of one summand *)
    assert (U : forall k, (0 < k < M53)%N -> summand s k * / IZR (2 ^ 53) <= h k - h (N.succ k)).
    { intros k Hk. unfold summand. replace (k =? 0)%N with false by (symmetry; apply N.eqb_neq; lia). pose proof (q_mono k (N.succ k) ltac:(lia)) as QM. pose proof (q_pos (N.succ k) ltac:(lia)) as Q0. case Rle_bool_spec; intros C.
      - cbn [ind]. rewrite Rmult_1_l. unfold h. rewrite !Rmin_right by lra. destruct (Psi_step (q (N.succ k)) (q k) ltac:(lra)) as [P _]. rewrite !q_exp, uk_succ in P by lia. exact P.
      - cbn [ind]. rewrite !Rmult_0_l. unfold h. rewrite (Rmin_left s (q k)) by lra. assert (Psi (Rmin s (q (N.succ k))) <= Psi s); [|lra]. apply Psi_mono. split; [apply MQ; lia|apply Rmin_l]. }
    assert (L : forall k, (0 < k)%N -> (N.succ k <= M53)%N -> h k - h (N.succ k) <= summand s (N.succ k) * / IZR (2 ^ 53)).
    { intros k Hk Hk2. unfold summand. replace (N.succ k =? 0)%N with false by (symmetry; apply N.eqb_neq; lia). pose proof (q_mono k (N.succ k) ltac:(lia)) as QM. pose proof (q_pos (N.succ k) ltac:(lia)) as Q0. case Rle_bool_spec; intros C.
      - cbn [ind]. rewrite Rmult_1_l. unfold h. rewrite (Rmin_right s (q (N.succ k))) by lra. destruct (Psi_step (q (N.succ k)) (q k) ltac:(lra)) as [_ P]. rewrite !q_exp, uk_succ in P by lia. fold (g (N.succ k)) in P. assert (Psi (Rmin s (q k)) <= Psi (q k)); [|lra]. apply Psi_mono. split; [apply MQ; lia|apply Rmin_r].
      - cbn [ind]. rewrite !Rmult_0_l. unfold h. rewrite !Rmin_left by lra. lra. }
    assert (E : mean53 (summand s) = sumN (fun k => summand s k * / IZR (2 ^ 53)) M53).
    { unfold mean53. rewrite (sumN_ext (fun k => summand s k * / IZR (2 ^ 53)) (fun k => / IZR (2 ^ 53) * summand s k)) by (intros; ring). rewrite sumN_scal. unfold Rdiv. ring. }
    set (n := (M53 - 2)%N). assert (EM : M53 = N.succ (N.succ n)) by (unfold n; rewrite M53_eq; lia).
    assert (HM : h M53 = 0) by (unfold h; rewrite q_M, (Rmin_right s 0), Psi_0 by exact Hs; reflexivity).
    assert (H1 : h 1%N <= Psi s) by (unfold h; apply Psi_mono; split; [now apply MQ|apply Rmin_l]).
    assert (H1' : Psi s - / IZR (2 ^ 53) <= h 1%N).
    { unfold h. destruct (Rle_or_lt s (q 1)) as [C|C]; [rewrite Rmin_left by exact C; lra|]. rewrite Rmin_right by lra. pose proof (Psi_gap (q 1) s ltac:(split; [now apply q_pos|lra])) as P. rewrite q_exp in P by lia. pose proof (exp_pos (- (r * s))). replace (uk 1) with (/ IZR (2 ^ 53)) in P by (unfold uk; change (NR 1) with 1; field; lra). lra. }
    assert (HL : h (N.succ n) <= / IZR (2 ^ 53)).
    { apply Rle_trans with (h (N.succ n) - h M53); [rewrite HM; lra|]. rewrite EM at 1. apply Rle_trans with (1 := L (N.succ n) ltac:(lia) ltac:(rewrite <- EM; lia)). rewrite <- EM. rewrite <- (Rmult_1_l (/ _)) at 2. apply Rmult_le_compat_r; [lra|]. unfold summand. destruct (M53 =? 0)%N; [lra|]. pose proof (ind_range (Rle_bool (q M53) s)) as I. pose proof (sq_le_1 (q M53)) as S1. fold (g M53) in S1. assert (0 < g M53) by apply exp_pos. apply Rle_trans with (1 * 1); [apply Rmult_le_compat; lra|lra]. }
    assert (S0 : summand s 0 = 0) by reflexivity.
    assert (UP : mean53 (summand s) <= h 1%N - h M53).
    { rewrite E, EM, sumN_head, S0, Rmult_0_l, Rplus_0_l. apply Rle_trans with (sumN (fun j => h (N.succ j) - h (N.succ (N.succ j))) (N.succ n)); [apply sumN_le; intros j Hj; apply U; rewrite EM; lia|]. rewrite (sumN_telescope (fun j => h (N.succ j))). change (N.succ 0) with 1%N. lra. }
    assert (LO : h 1%N - h (N.succ n) <= mean53 (summand s)).
    { rewrite E, EM, sumN_head, S0, Rmult_0_l, Rplus_0_l, sumN_head. assert (T0 : 0 <= summand s (N.succ 0) * / IZR (2 ^ 53)). { apply Rmult_le_pos; [|lra]. unfold summand. destruct (N.succ 0 =? 0)%N; [lra|]. apply Rmult_le_pos; [apply ind_range|left; apply exp_pos]. }
      apply Rle_trans with (sumN (fun j => h (N.succ j) - h (N.succ (N.succ j))) n); [rewrite (sumN_telescope (fun j => h (N.succ j))); change (N.succ 0) with 1%N; lra|]. assert (sumN (fun j => h (N.succ j) - h (N.succ (N.succ j))) n <= sumN (fun k => summand s (N.succ (N.succ k)) * / IZR (2 ^ 53)) n); [|lra]. apply sumN_le. intros j Hj. apply L; [lia|rewrite EM; lia]. }
    unfold Rdiv. apply Rabs_le. lra.
  Qed.
End Tail.
