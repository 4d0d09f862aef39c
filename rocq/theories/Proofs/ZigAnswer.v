(** What the script's answer is good for: shape, uniqueness, the exact law of the ideal ziggurat, the tables. *)
From Coq Require Import Reals Lia Lra Psatz List Arith ZArith.
From Coquelicot Require Import Coquelicot.
From Flocq Require Import Core.
From Verif Require Import Model.ZigScript Spec.ZigBuild Proofs.Riemann Proofs.ZigBody Proofs.ZigSolve Proofs.ZigSearch.
Import ListNotations.
Local Open Scope R_scope.

Section Answer.
  Variables (f : R -> R) (total : R).
  Hypothesis DD : decreasing_density f total.
  Let f_dec := f_dec f total DD.
  Let f_dec_le := f_dec_le f total DD.
  Let f_pos := f_pos f total DD.
  Notation base := (base f total).

  (** ** shape of a list returned by solve *)
  Lemma solve_loop tol n r v xi : 0 <= tol -> 0 < r -> solve f tol n r v xi ->
    v = base r /\ length xi = n /\ exists y h, loop f tol (f 0) v [r] (f r) xi y h /\ almosteq tol y (f 0).
  Proof.
    intros T0 R0 HS. unfold solve in HS. assert (BP := base_pos f total DD r R0).
    remember 0 as m eqn:Em in HS. destruct HS as [A w xi y h QA Ew L Hl C|A w xi y h QA Ew L Hl C|A w xi y h QA Ew L Hl]; assert (Eb := base_inv f total DD r R0 A w QA Ew).
    - split; [exact Eb|]. split; [exact Hl|]. now exists y, h.
    - exfalso. apply C. replace y with (f 0) by lra. now apply almosteq_same.
    - exfalso. rewrite Eb in L. destruct (loop_chain f total DD tol (base r) BP _ _ _ _ _ L r [] eq_refl eq_refl) as (b & l & _ & Ch & _ & Eh & _); [exact R0|].
      apply chain_hd in Ch. assert (HP : 0 < h) by (rewrite Eh; apply Rdiv_lt_0_compat; lra).
      destruct (Nat.lt_gt_cases (length xi) n) as [Q _]. destruct (Q Hl) as [K|K]; apply lt_INR in K; [rewrite sign_eq_m1 in Em by lra|rewrite sign_eq_1 in Em by lra]; lra.
  Qed.
  Lemma solve_shape tol n r v xi : 0 <= tol -> 0 < r -> solve f tol n r v xi ->
    length xi = n /\ (2 <= n)%nat /\ nth 0 xi 0 = 0 /\ nth (n - 1) xi 0 = r /\ v = base r /\
    (forall i, (0 < i < n)%nat -> nth (i - 1) xi 0 < nth i xi 0) /\
    (forall i, (1 < i < n)%nat -> nth i xi 0 * (f (nth (i - 1) xi 0) - f (nth i xi 0)) = v) /\
    almosteq tol (f (nth 1 xi 0) + v / nth 1 xi 0) (f 0).
  Proof.
    intros T0 R0 HS. destruct (solve_loop tol n r v xi T0 R0 HS) as (Ev & Hl & y & h & L & C). assert (BP := base_pos f total DD r R0). rewrite <- Ev in BP.
    destruct (loop_chain f total DD tol v BP _ _ _ _ _ L r [] eq_refl eq_refl R0) as (b & l & -> & Ch & -> & _ & _ & La).
    assert (CN := chain_nth f v (b :: l) Ch). cbn [length] in Hl. split; [exact Hl|]. split; [lia|]. split; [reflexivity|]. split; [|split; [exact Ev|split; [|split; [|exact C]]]].
    - rewrite last_nth in La. cbn [last] in La. rewrite <- La. replace (n - 1)%nat with (S (length (b :: l) - 1)) by (cbn [length]; lia). reflexivity.
    - intros i Hi. destruct i as [|[|i]]; [lia|cbn; now apply chain_hd in Ch|]. replace (S (S i) - 1)%nat with (S i) by lia. apply (CN i). cbn [length]. lia.
    - intros i Hi. destruct i as [|[|i]]; [lia|lia|]. replace (S (S i) - 1)%nat with (S i) by lia. apply (CN i). cbn [length]. lia.
  Qed.
  (** with no tolerance it is the ziggurat *)
  Lemma solve_ziggurat n r v xi : 0 < r -> solve f 0 n r v xi -> length xi = n /\ ziggurat_of f n (fun i => nth i xi 0) v.
  Proof.
    intros R0 HS. destruct (solve_shape 0 n r v xi (Rle_refl 0) R0 HS) as (Hl & N2 & Z0 & Zr & Ev & ED & AR & TOP). split; [exact Hl|]. split; auto.
    - intros i Hi. destruct (Nat.eq_dec i 1) as [->|NE]; [|apply AR; lia]. cbn [Nat.sub]. rewrite Z0. apply almosteq_0 in TOP. rewrite <- TOP.
      assert (E := ED 1%nat Hi). cbn [Nat.sub] in E. rewrite Z0 in E. field. lra.
    - exists (total - RInt f 0 r). rewrite Zr. split; [apply (tail_area f total DD); lra|now symmetry].
  Qed.
  (** ** uniqueness *)
  Lemma edges_are n e v : (2 <= n)%nat -> ziggurat_of f n e v -> forall i, (i < n)%nat -> e i = edge f v i.
  Proof.
    intros N2 ZO i. induction i as [|i IH]; intros H; [apply (zo_zero _ _ _ _ ZO)|]. cbn [edge]. rewrite <- IH by lia.
    destruct (e_S f n e v N2 ZO i H) as [A B]. symmetry. apply (up_is f total DD); [apply (e_nonneg f n e v N2 ZO); lia|lra|exact B].
  Qed.
  Lemma edge_mono v w i : 0 < v < w -> edge f v (S i) < edge f w (S i).
  Proof.
    intros H. induction i as [|i IH].
    - cbn [edge]. apply (up_lt f total DD); try lra; [|].
      + apply (up_spec f total DD); lra.
      + destruct (up_spec f total DD w 0) as [_ E]; try lra.
    - change (up f v (edge f v (S i)) < edge f w (S (S i))). destruct (edge_step f total DD w (S i)) as [A B]; [lra|].
      assert (P := edge_nonneg f total DD v (S i)).
      apply (up_lt f total DD); try lra. unfold phi in *.
      assert (D := f_dec (edge f v (S i)) (edge f w (S i))). assert (Q : 0 < edge f w (S (S i))) by lra.
      apply Rlt_trans with w; [lra|]. apply Rle_lt_trans with (1 := Req_le _ _ (eq_sym B)). apply Rmult_lt_compat_l; [exact Q|]. lra.
  Qed.
  Lemma ziggurat_unique n e v e' v' : (2 <= n)%nat -> ziggurat_of f n e v -> ziggurat_of f n e' v' -> v = v' /\ forall i, (i < n)%nat -> e i = e' i.
  Proof.
    intros N2 Z1 Z2.
    assert (K : forall a x b y, ziggurat_of f n x a -> ziggurat_of f n y b -> ~ a < b).
    { intros a x b y ZA ZB L. assert (A := vs_base f total DD n x a N2 ZA). assert (B := vs_base f total DD n y b N2 ZB).
      rewrite (edges_are n x a N2 ZA) in A by lia. rewrite (edges_are n y b N2 ZB) in B by lia.
      assert (PA := vs_pos f total DD n x a N2 ZA). replace (n - 1)%nat with (S (n - 2)) in * by lia. assert (M := edge_mono a b (n - 2) (conj PA L)).
      assert (D := base_dec f total DD (edge f a (S (n - 2))) (edge f b (S (n - 2)))). assert (P := edge_nonneg f total DD a (S (n - 2))). lra. }
    assert (E : v = v') by (assert (X := K v e v' e' Z1 Z2); assert (Y := K v' e' v e Z2 Z1); lra). split; [exact E|].
    intros i Hi. rewrite (edges_are n e v N2 Z1 i Hi), (edges_are n e' v' N2 Z2 i Hi), E. reflexivity.
  Qed.
  (** ** the layers together are larger than the area under the curve *)
  Lemma int_upper_strict a b : 0 <= a < b -> RInt f a b < (b - a) * f a.
  Proof.
    intros H. replace ((b - a) * f a) with (RInt (fun _ => f a) a b) by (rewrite RInt_const; reflexivity). rewrite (RInt_fg f a b) by lra.
    apply RInt_lt; [lra|intros; apply continuous_const|intros; apply (dd_continuous _ _ DD)|]. intros x Hx. rewrite (Rmax_right 0 x) by lra. apply f_dec. lra.
  Qed.
  Lemma area_excess n e v : (2 <= n)%nat -> ziggurat_of f n e v -> total < INR n * v.
  Proof.
    intros N2 ZO.
    assert (K : forall i, (S i < n)%nat -> RInt f 0 (e (S i)) - e (S i) * f (e (S i)) < INR (S i) * v).
    { induction i as [|i IH]; intros Hi; destruct (e_S f n e v N2 ZO _ Hi) as [A B].
      - rewrite (zo_zero _ _ _ _ ZO) in *. assert (U := int_upper_strict 0 (e 1%nat)). change (INR 1) with 1. lra.
      - assert (P : 0 <= e (S i)) by (apply (e_nonneg f n e v N2 ZO); lia). assert (U := int_upper_strict (e (S i)) (e (S (S i))) (conj P A)).
        rewrite <- (chasles f total DD 0 (e (S i)) (e (S (S i)))) by lra. rewrite S_INR. assert (IH' := IH ltac:(lia)). nra. }
    assert (E := vs_base f total DD n e v N2 ZO). assert (Q := K (n - 2)%nat ltac:(lia)). replace (S (n - 2)) with (n - 1)%nat in Q by lia.
    unfold ZigSolve.base in E. replace (INR n) with (INR (n - 1) + 1) by (rewrite <- S_INR; f_equal; lia). lra.
  Qed.
  (** ** the initial guess *)
  Lemma guess_base n r : guess f n r -> 0 <= r /\ base r = total / INR n.
  Proof.
    intros (T & A & QT & R0 & QA & E). split; [exact R0|]. unfold ZigSolve.base. rewrite <- (tail_unique f total DD r A R0 QA).
    assert (ET := tail_unique f total DD 0 T (Rle_refl 0) QT). rewrite RInt_point in ET. unfold zero in ET; simpl in ET. replace T with total in E by lra. lra.
  Qed.
  Lemma guess_right n e v r : (2 <= n)%nat -> ziggurat_of f n e v -> guess f n r -> e (n - 1)%nat < r.
  Proof.
    intros N2 ZO G. destruct (guess_base n r G) as [R0 E]. apply Rnot_le_lt. intros L.
    assert (B : base (e (n - 1)%nat) <= base r) by (destruct L as [L|L]; [left; apply (base_dec f total DD); lra|rewrite L; lra]).
    rewrite <- (vs_base f total DD n e v N2 ZO), E in B. assert (X := area_excess n e v N2 ZO). assert (NP : 0 < INR n) by (apply lt_0_INR; lia).
    assert (total / INR n < v); [|lra]. apply Rmult_lt_reg_l with (INR n); [exact NP|]. replace (INR n * (total / INR n)) with total by (field; lra). exact X.
  Qed.
  Lemma base_small d : 0 < d -> exists r, 0 < r /\ base r < d.
  Proof.
    intros D. assert (L := lim0 f total DD). apply is_lim_spec in L. destruct (L (mkposreal (d / 2) ltac:(lra))) as [M HM]. simpl in HM.
    set (h := Rmax 1 (M + 1)). assert (H1 : 1 <= h) by apply Rmax_l. assert (H2 : M < h) by (assert (M + 1 <= h) by apply Rmax_r; lra).
    exists (2 * h). split; [lra|]. assert (Q := HM h H2). apply Rabs_lt_between in Q. unfold ZigSolve.base.
    assert (I := int_lower f total DD h (2 * h)). rewrite <- (chasles f total DD 0 h (2 * h)) by lra.
    assert (U := int_below f total DD (2 * h)). rewrite <- (chasles f total DD 0 h (2 * h)) in U by lra. lra.
  Qed.
  Lemma guess_exists n : (1 <= n)%nat -> exists r, guess f n r.
  Proof.
    intros N1. assert (TP := total_pos f total DD). assert (NP : 1 <= INR n) by (change 1 with (INR 1); now apply le_INR).
    assert (DP : 0 < total / INR n <= total).
    { split; [apply Rdiv_lt_0_compat; lra|]. apply Rmult_le_reg_l with (INR n); [lra|]. replace (INR n * (total / INR n)) with total by (field; lra). nra. }
    destruct (base_small (total / INR n)) as [b [B0 Bb]]; [lra|].
    assert (C : Ranalysis1.continuity (fun t => base (Rmax 0 t))) by (intros t; apply continuity_pt_filterlim; apply (base_cont f total DD)).
    destruct (IVT_gen _ 0 b (total / INR n) C) as [r [Hr Er]].
    { rewrite (Rmax_right 0 0), (Rmax_right 0 b) by lra. rewrite (base_0 f total). rewrite Rmin_right, Rmax_left; lra. }
    rewrite (Rmin_left 0 b), (Rmax_right 0 b) in Hr by lra. rewrite Rmax_right in Er by lra.
    exists r, total, (total - RInt f 0 r). split; [apply (dd_total _ _ DD)|]. split; [lra|]. split; [apply (tail_area f total DD); lra|].
    unfold ZigSolve.base in Er. lra.
  Qed.
  (** ** the exact law of the ideal ziggurat *)
  Section Law.
    Variables (n : nat) (e : nat -> R) (v : R).
    Hypothesis N2 : (2 <= n)%nat.
    Hypothesis ZO : ziggurat_of f n e v.
    Let g t := f (Rmax 0 t).
    Let c k t := clamp (f (e k) - f (e (k + 1)%nat)) (g t - f (e (k + 1)%nat)).
    Lemma c_cont k x : continuous (c k) x.
    Proof. unfold c. apply (clamp_continuous _ (fun t => minus (g t) (f (e (k + 1)%nat)))). apply @continuous_minus; [apply (dd_continuous _ _ DD)|apply continuous_const]. Qed.
    Lemma c_int k a b : ex_RInt (c k) a b. Proof. apply (ex_RInt_continuous (c k)). intros. apply c_cont. Qed.
    Lemma gap_pos k : (k + 1 < n)%nat -> 0 < f (e k) - f (e (k + 1)%nat).
    Proof. intros H. replace (k + 1)%nat with (S k) in * by lia. destruct (e_S f n e v N2 ZO k H) as [A _]. assert (P : 0 <= e k) by (apply (e_nonneg f n e v N2 ZO); lia). assert (D := f_dec (e k) (e (S k))). lra. Qed.
    Lemma one_layer k y : (k + 1 < n)%nat -> 0 <= y <= e (n - 1)%nat ->
      RInt (accept f e (k + 1)) 0 (Rmin y (e (k + 1)%nat)) / e (k + 1)%nat / INR n = RInt (c k) 0 y / (INR n * v).
    Proof.
      intros H Y. assert (G := gap_pos k H). assert (NP : 0 < INR n) by (apply lt_0_INR; lia). assert (VP := vs_pos f total DD n e v N2 ZO).
      assert (EP : 0 < e (k + 1)%nat) by (apply (e_pos f n e v N2 ZO); lia).
      assert (EV : e (k + 1)%nat * (f (e k) - f (e (k + 1)%nat)) = v) by (replace (k + 1)%nat with (S k) in * by lia; now destruct (e_S f n e v N2 ZO k H)).
      set (s := Rmin y (e (k + 1)%nat)). assert (S0 : 0 <= s <= y) by (split; [apply Rmin_glb; lra|apply Rmin_l]). assert (S1 : s <= e (k + 1)%nat) by apply Rmin_r.
      assert (AC : RInt (c k) 0 s = (f (e k) - f (e (k + 1)%nat)) * RInt (accept f e (k + 1)) 0 s).
      { assert (P : forall t, 0 < t < s -> (f (e k) - f (e (k + 1)%nat)) * accept f e (k + 1) t = c k t).
        { intros t Ht. unfold accept, c, g. replace (k + 1 - 1)%nat with k by lia. rewrite (Rmax_right 0 t) by lra. destruct Rlt_dec as [L|L].
          - rewrite Rmult_1_r. symmetry. apply clamp_full; [lra|]. assert (D := f_dec_le t (e k)). lra.
          - fold (clamp 1 ((f t - f (e (k + 1)%nat)) / (f (e k) - f (e (k + 1)%nat)))). apply clamp_scale. exact G. }
        transitivity (RInt (fun t => (f (e k) - f (e (k + 1)%nat)) * accept f e (k + 1) t) 0 s).
        - apply RInt_ext. intros t. rewrite Rmin_left, Rmax_right by lra. intros Ht. symmetry. exact (P t Ht).
        - apply (RInt_scal (V := R_CompleteNormedModule) (accept f e (k + 1)) 0 s (f (e k) - f (e (k + 1)%nat))).
          apply (ex_RInt_ext (fun t => scal (/ (f (e k) - f (e (k + 1)%nat))) (c k t))); [|apply (ex_RInt_scal (c k)), c_int].
          intros t. rewrite Rmin_left, Rmax_right by lra. intros Ht. rewrite <- (P t Ht). unfold scal; simpl; unfold mult; simpl. field. lra. }
      assert (Z : RInt (c k) 0 y = RInt (c k) 0 s).
      { rewrite <- (RInt_Chasles (c k) 0 s y) by apply c_int. replace (RInt (c k) s y) with 0; [apply Rplus_0_r|].
        rewrite (RInt_ext _ (fun _ => 0)); [rewrite RInt_const; symmetry; apply Rmult_0_r|]. intros t. rewrite Rmin_left, Rmax_right by lra. intros Ht.
        unfold c. apply clamp_zero; [lra|]. assert (T : e (k + 1)%nat <= t).
        { unfold s, Rmin in Ht. destruct Rle_dec in Ht; lra. }
        assert (D := f_dec_le (e (k + 1)%nat) t). unfold g. rewrite Rmax_right by lra. lra. }
      rewrite Z, AC. clear AC Z. set (I0 := RInt (accept f e (k + 1)) 0 s). clearbody I0. rewrite <- EV. field. repeat split; lra.
    Qed.
    Lemma layers_total m y : (m + 1 < n)%nat -> 0 <= y ->
      sum_f_R0 (fun k => RInt (c k) 0 y) m = RInt (fun t => Rmax 0 (g t - f (e (m + 1)%nat))) 0 y.
    Proof.
      intros Hm Y. assert (RC : forall j x, continuous (fun t => Rmax 0 (g t - f (e j))) x).
      { intros j x. apply (continuous_comp (fun t => minus (g t) (f (e j))) (Rmax 0)); [apply @continuous_minus; [apply (dd_continuous _ _ DD)|apply continuous_const]|].
        intros P [ep He]. exists ep. intros z Hz. apply He. set (w := minus (g x) (f (e j))) in *. change (Rabs (z - w) < ep) in Hz. change (Rabs (Rmax 0 z - Rmax 0 w) < ep).
        revert Hz. unfold Rmax. repeat destruct Rle_dec; unfold Rabs; repeat destruct Rcase_abs; lra. }
      induction m as [|m IH].
      - cbn [sum_f_R0]. apply RInt_ext. intros t. rewrite Rmin_left, Rmax_right by lra. intros Ht. unfold c. assert (G := gap_pos 0 Hm). rewrite (zo_zero _ _ _ _ ZO) in *.
        unfold g. rewrite (Rmax_right 0 t) by lra. assert (D := f_dec_le 0 t). unfold clamp. apply Rmin_right. apply Rmax_lub; lra.
      - cbn [sum_f_R0]. rewrite IH by lia. rewrite <- (RInt_plus (V := R_CompleteNormedModule) (fun t => Rmax 0 (g t - f (e (m + 1)%nat))) (c (S m))).
        + apply RInt_ext. intros t _. assert (G := gap_pos (S m) Hm). unfold c. change (S m + 1)%nat with (S (m + 1)). replace (S m) with (m + 1)%nat in * by lia. replace (m + 1 + 1)%nat with (S (m + 1)) in * by lia.
          unfold plus; simpl. unfold clamp, Rmin, Rmax. repeat destruct Rle_dec; lra.
        + apply (ex_RInt_continuous (fun t => Rmax 0 (g t - f (e (m + 1)%nat)))). intros; apply RC.
        + apply c_int.
    Qed.
    Lemma trial_body_low y : 0 <= y <= e (n - 1)%nat -> trial_body f n e v y = RInt f 0 y / (INR n * v).
    Proof.
      intros Y. assert (NP : 0 < INR n) by (apply lt_0_INR; lia). assert (VP := vs_pos f total DD n e v N2 ZO).
      assert (FP := f_pos (e (n - 1)%nat)). unfold trial_body. rewrite (Rmin_left y) by lra.
      rewrite (sum_eq _ (fun k => RInt (c k) 0 y * / (INR n * v))) by (intros k Hk; rewrite one_layer by (try lia; lra); reflexivity).
      rewrite <- scal_sum, layers_total by (try lia; lra). replace (n - 2 + 1)%nat with (n - 1)%nat by lia.
      assert (E : RInt (fun t => Rmax 0 (g t - f (e (n - 1)%nat))) 0 y = RInt f 0 y - y * f (e (n - 1)%nat)).
      { transitivity (RInt (fun t => f t - f (e (n - 1)%nat)) 0 y).
        - apply RInt_ext. intros t. rewrite Rmin_left, Rmax_right by lra. intros Ht. unfold g. rewrite (Rmax_right 0 t) by lra. assert (D := f_dec_le t (e (n - 1)%nat)). apply Rmax_right. lra.
        - replace (y * f (e (n - 1)%nat)) with (RInt (fun _ => f (e (n - 1)%nat)) 0 y) by (rewrite RInt_const, Rminus_0_r; reflexivity).
          apply (RInt_minus (V := R_CompleteNormedModule) f (fun _ => f (e (n - 1)%nat)) 0 y); [apply (f_int f total DD); lra|apply ex_RInt_const]. }
      rewrite E. field. repeat split; lra.
    Qed.
    Lemma trial_body_high y : e (n - 1)%nat <= y -> trial_body f n e v y = trial_body f n e v (e (n - 1)%nat).
    Proof.
      intros Y. unfold trial_body. rewrite (Rmin_right y), (Rmin_right (e (n - 1)%nat)) by lra. f_equal. apply sum_eq. intros k Hk. 
      assert (M : e (k + 1)%nat <= e (n - 1)%nat) by (apply (e_mono f n e v N2 ZO); lia). rewrite !Rmin_right by lra. reflexivity.
    Qed.
    Lemma trial_body_is y : 0 <= y -> trial_body f n e v y = RInt f 0 (Rmin y (e (n - 1)%nat)) / (INR n * v).
    Proof.
      intros Y. assert (P : 0 <= e (n - 1)%nat) by (apply (e_nonneg f n e v N2 ZO); lia). destruct (Rle_or_lt y (e (n - 1)%nat)) as [L|L].
      - rewrite Rmin_left by lra. apply trial_body_low. lra.
      - rewrite Rmin_right by lra. rewrite trial_body_high by lra. apply trial_body_low. lra.
    Qed.
    Lemma trial_tail_is : trial_tail f n e v = (total - RInt f 0 (e (n - 1)%nat)) / (INR n * v).
    Proof.
      assert (NP : 0 < INR n) by (apply lt_0_INR; lia). assert (VP := vs_pos f total DD n e v N2 ZO). assert (B := vs_base f total DD n e v N2 ZO).
      assert (FP : 0 < f (e (n - 1)%nat)) by (apply f_pos; apply (e_nonneg f n e v N2 ZO); lia). unfold trial_tail.
      replace (total - RInt f 0 (e (n - 1)%nat)) with (v - e (n - 1)%nat * f (e (n - 1)%nat)) by (rewrite B at 1; unfold ZigSolve.base; ring). field. repeat split; lra.
    Qed.
  End Law.
End Answer.
  (** ** the tables *)
  Lemma floor_cell (q : R) (j : Z) : (j < Zfloor q)%Z <-> IZR j + 1 <= q.
  Proof.
    split; intros H.
    - apply Rle_trans with (IZR (Zfloor q)); [|apply Zfloor_lb]. rewrite <- plus_IZR. apply IZR_le. lia.
    - assert (Q : (j + 1 <= Zfloor q)%Z) by (apply Zfloor_lub; rewrite plus_IZR; exact H). lia.
  Qed.
