(** The distribution of sequences of Uintn calls on a tape of uniform words. *)
From Coq Require Import Reals Lia Lra Psatz ZifyN ZifyNat ZifyBool Bool.
From Coquelicot Require Import Coquelicot.
From Verif Require Import Model.Base Model.Rng Spec.Common Spec.Counting Spec.Zig Spec.Prob.
From Verif Require Import Proofs.WordLemmas Proofs.ReadProofs Proofs.SaveProofs Proofs.SumN Proofs.ZigTape Props.Rng.
Local Open Scope R_scope.

(** *** sums *)
Lemma sum_below_S n f : sum_below (N.succ n) f = sum_below n f + f n.
Proof.
  unfold sum_below. rewrite N2Nat.inj_succ, seq_S, map_app, fold_right_app. cbn [map fold_right]. rewrite Nat.add_0_l, N2Nat.id.
  generalize (map (fun i => f (N.of_nat i)) (seq 0 (N.to_nat n))). intros l. rewrite Rplus_0_r.
  induction l as [|a l IH]; cbn [fold_right]; [ring|]. rewrite IH. ring.
Qed.
Lemma sum_below_sumN n f : sum_below n f = sumN f n.
Proof. induction n as [|n IH] using N.peano_ind; [reflexivity|]. rewrite sum_below_S, sumN_S, IH. reflexivity. Qed.
Lemma sumN_lim (f : nat -> N -> R) (l : N -> R) m : (forall j, (j < m)%N -> is_lim_seq (fun n => f n j) (l j)) ->
  is_lim_seq (fun n => sumN (f n) m) (sumN l m).
Proof.
  induction m as [|m IH] using N.peano_ind; intros H; [rewrite sumN_0; apply is_lim_seq_const|].
  rewrite sumN_S. apply is_lim_seq_ext with (fun n => sumN (f n) m + f n m); [intros n; now rewrite sumN_S|].
  apply (is_lim_seq_plus' (fun n => sumN (f n) m) (fun n => f n m) (sumN l m) (l m)); [apply IH; intros; apply H; lia|apply H; lia].
Qed.
(** x' = r x + y, with 0 <= r < 1 and y convergent *)
Lemma affine_lim (r : R) (x y : nat -> R) (l : R) : 0 <= r < 1 -> (forall n, x (S n) = r * x n + y n) -> is_lim_seq y l -> is_lim_seq x (l / (1 - r)).
Proof.
  intros Hr Hx Hy. set (L := l / (1 - r)). assert (EL : L = r * L + l) by (unfold L; field; lra).
  apply is_lim_seq_spec. intros eps. apply is_lim_seq_spec in Hy.
  set (e := pos eps / 2 * (1 - r)). assert (He : 0 < e) by (unfold e; pose proof (cond_pos eps); apply Rmult_lt_0_compat; lra).
  destruct (Hy (mkposreal e He)) as [N HN]. cbn [pos] in HN.
  assert (B : forall k, Rabs (x (N + k)%nat - L) <= r ^ k * Rabs (x N - L) + pos eps / 2).
  { induction k as [|k IH].
    - rewrite Nat.add_0_r. cbn [pow]. pose proof (cond_pos eps). lra.
    - rewrite Nat.add_succ_r, Hx. replace (r * x (N + k)%nat + y (N + k)%nat - L) with (r * (x (N + k)%nat - L) + (y (N + k)%nat - l)) by lra.
      eapply Rle_trans; [apply Rabs_triang|]. rewrite Rabs_mult, (Rabs_pos_eq r) by lra.
      pose proof (HN (N + k)%nat ltac:(lia)) as H1. cbn [pow].
      assert (H2 : r * Rabs (x (N + k)%nat - L) <= r * (r ^ k * Rabs (x N - L) + pos eps / 2)) by (apply Rmult_le_compat_l; lra).
      unfold e in H1. nra. }
  assert (G : is_lim_seq (fun k => r ^ k * Rabs (x N - L)) 0).
  { replace (Finite 0) with (Rbar_mult (Finite 0) (Finite (Rabs (x N - L)))) by (cbn; f_equal; ring).
    apply is_lim_seq_mult'; [|apply is_lim_seq_const]. apply is_lim_seq_geom. rewrite Rabs_pos_eq; lra. }
  apply is_lim_seq_spec in G. assert (H2 : 0 < pos eps / 2) by (pose proof (cond_pos eps); lra).
  destruct (G (mkposreal _ H2)) as [K HK]. cbn [pos] in HK. exists (N + K)%nat. intros n Hn.
  specialize (B (n - N)%nat). replace (N + (n - N))%nat with n in B by lia. specialize (HK (n - N)%nat ltac:(lia)).
  rewrite Rminus_0_r in HK. pose proof (Rle_abs (r ^ (n - N) * Rabs (x N - L))). lra.
Qed.

Section Law.
  Variable ub max : N.
  Hypothesis Hub : (ub <= 64)%N.
  Hypothesis Hmax : (0 < max < 2 ^ ub)%N.
  Definition q : N := ((2 ^ ub - 1) / max)%N.
  Definition rest : N := ((2 ^ ub - 1) mod max)%N.
  Lemma split_range : (2 ^ ub = q * max + 1 + rest)%N.
  Proof. clear Hub. pose proof (N.div_mod (2 ^ ub - 1) max ltac:(lia)). unfold q, rest. lia. Qed.
  Definition rejb (u : N) : bool := (q * max <? u mod 2 ^ ub)%N.
  Definition idx (u : N) : N := ((u mod 2 ^ ub) mod max)%N.
  Lemma idx_lt u : (idx u < max)%N. Proof. apply N.mod_lt. lia. Qed.
  Lemma rejb_iff u : rejb u = true <-> rejected ub max u.
  Proof. unfold rejb, rejected. fold q. apply N.ltb_lt. Qed.

  (** k draws on a tape *)
  Fixpoint seqE (ws : list N) (k : nat) (G : list N -> bool) : bool :=
    match k with
    | O => G []
    | S k' => match ws with
        | [] => false
        | u :: ws => if rejb u then seqE ws k G else seqE ws k' (fun js => G (idx u :: js))
        end
    end.
  Lemma uintn_cons fuel u ws : w64 u -> RNG_Uintn tape (S fuel) ub max (u :: ws) =
    if rejb u then RNG_Uintn tape fuel ub max ws else Ret (idx u, ws).
  Proof.
    intros Hu. unfold RNG_Uintn. rewrite (proj2 (N.eqb_neq max 0)) by lia. cbn [uintn_loop]. rewrite tape_draw by exact Hu. cbn [bind].
    rewrite N.land_ones. replace (N.ones ub - N.ones ub mod max)%N with (q * max)%N.
    2:{ rewrite N.ones_equiv, <- N.sub_1_r. pose proof (N.div_mod (2 ^ ub - 1) max ltac:(lia)). unfold q. lia. }
    unfold rejb, idx. destruct (q * max <? u mod 2 ^ ub)%N; reflexivity.
  Qed.
  Lemma uintn_nil fuel : RNG_Uintn tape fuel ub max [] = OutOfFuel.
  Proof. unfold RNG_Uintn. rewrite (proj2 (N.eqb_neq max 0)) by lia. destruct fuel; reflexivity. Qed.
  Lemma uintn_mono f f' ws r : (f <= f')%nat -> Forall w64 ws -> RNG_Uintn tape f ub max ws = Ret r -> RNG_Uintn tape f' ub max ws = Ret r.
  Proof.
    intros Hf F. revert f f' Hf. induction F as [|u ws Hu F IH]; intros f f' Hf E; [rewrite uintn_nil in E; discriminate|].
    destruct f as [|f].
    { unfold RNG_Uintn in E. rewrite (proj2 (N.eqb_neq max 0)) in E by lia. discriminate. }
    destruct f' as [|f']; [lia|]. rewrite uintn_cons in * by exact Hu. destruct (rejb u); [|exact E]. apply (IH f); [lia|exact E].
  Qed.
  Lemma uintn_rest f ws j ws' : Forall w64 ws -> RNG_Uintn tape f ub max ws = Ret (j, ws') -> Forall w64 ws'.
  Proof.
    intros F. revert f. induction F as [|u ws Hu F IH]; intros f E; [rewrite uintn_nil in E; discriminate|].
    destruct f as [|f].
    { unfold RNG_Uintn in E. rewrite (proj2 (N.eqb_neq max 0)) in E by lia. discriminate. }
    rewrite uintn_cons in E by exact Hu. destruct (rejb u); [now apply IH in E|]. inversion E; subst. exact F.
  Qed.
  Lemma runs_mono f f' ws js ws' : (f <= f')%nat -> Forall w64 ws -> runs (RNG_Uintn tape f ub max) ws js ws' -> runs (RNG_Uintn tape f' ub max) ws js ws'.
  Proof.
    intros Hf F R. induction R as [s|s x s1 xs s' Hx R IH]; [constructor|]. econstructor; [exact (uintn_mono f f' s (x, s1) Hf F Hx)|]. apply IH. exact (uintn_rest _ _ _ _ F Hx).
  Qed.
  Lemma seqE_iff ws : Forall w64 ws -> forall k G, seqE ws k G = true <->
    exists fuel js ws', runs (RNG_Uintn tape fuel ub max) ws js ws' /\ length js = k /\ G js = true.
  Proof.
    induction 1 as [|u ws Hu F IH]; intros k G.
    - destruct k as [|k]; cbn [seqE]; split.
      + intros H. exists O, [], []. split; [constructor|auto].
      + intros (f & js & ws' & R & L & H). destruct js; [exact H|discriminate].
      + discriminate.
      + intros (f & js & ws' & R & L & H). inversion R as [|? ? ? ? ? E]; subst; [discriminate L|]. rewrite uintn_nil in E. discriminate.
    - destruct k as [|k]; cbn [seqE].
      { split.
        + intros H. exists O, [], (u :: ws). split; [constructor|auto].
        + intros (f & js & ws' & R & L & H). destruct js; [exact H|discriminate]. }
      destruct (rejb u) eqn:Er.
      + rewrite IH. split; intros (f & js & ws' & R & L & H).
        * exists (S f), js, ws'. split; [|auto]. destruct js as [|j js]; [discriminate|]. inversion R as [|? ? s1 ? ? E R']; subst.
          econstructor; [rewrite uintn_cons, Er by exact Hu; exact E|]. apply (runs_mono f); [lia| |exact R']. exact (uintn_rest _ _ _ _ F E).
        * exists f, js, ws'. split; [|auto]. destruct js as [|j js]; [discriminate|]. inversion R as [|? ? s1 ? ? E R']; subst.
          destruct f as [|f].
          { unfold RNG_Uintn in E. rewrite (proj2 (N.eqb_neq max 0)) in E by lia. discriminate. }
          rewrite uintn_cons, Er in E by exact Hu. econstructor; [|exact R']. apply (uintn_mono f); [lia|exact F|exact E].
      + rewrite IH. split; intros (f & js & ws' & R & L & H).
        * exists (S f), (idx u :: js), ws'. split; [|cbn; auto]. econstructor; [rewrite uintn_cons, Er by exact Hu; reflexivity|]. apply (runs_mono f); [lia|exact F|exact R].
        * destruct js as [|j js]; [discriminate|]. inversion R as [|? ? s1 ? ? E R']; subst. exists f, js, ws'.
          destruct f as [|f].
          { unfold RNG_Uintn in E. rewrite (proj2 (N.eqb_neq max 0)) in E by lia. discriminate. }
          rewrite uintn_cons, Er in E by exact Hu. inversion E; subst. injection L as L. auto.
  Qed.

  (** average over one word *)
  Lemma word_mean (a : R) (h : N -> R) :
    / IZR (2 ^ 64) * sumN (fun u => if rejb u then a else h (idx u)) W64 =
    IZR (Z.of_N rest) / IZR (Z.of_N (2 ^ ub)) * a + / IZR (Z.of_N (2 ^ ub)) * sumN (fun j => IZR (Z.of_N (if (j =? 0)%N then q + 1 else q)) * h j) max.
  Proof.
    set (B := (2 ^ ub)%N) in *. assert (B0 : B <> 0%N) by lia.
    assert (E64 : W64 = (2 ^ (64 - ub) * B)%N) by (rewrite W64_eq; unfold B; rewrite <- N.pow_add_r; f_equal; lia).
    rewrite E64, sumN_mul.
    rewrite (sumN_ext _ (fun _ => sumN (fun x => if (q * max <? x)%N then a else h (x mod max)%N) B)).
    2:{ intros i _. apply sumN_ext. intros x Hx. unfold rejb, idx. fold B.
        replace ((i * B + x) mod B)%N with x; [reflexivity|]. rewrite N.add_comm, N.mod_add by exact B0. symmetry. now apply N.mod_small. }
    rewrite sumN_const. replace (IZR (2 ^ 64)) with (NR W64) by apply NR_W64. rewrite E64.
    set (S := sumN (fun x => if (q * max <? x)%N then a else h (x mod max)%N) B).
    assert (ES : S = IZR (Z.of_N rest) * a + sumN (fun j => IZR (Z.of_N (if (j =? 0)%N then q + 1 else q)) * h j) max).
    { unfold S. rewrite (split_range : B = _). rewrite !sumN_add.
      rewrite (sumN_ext _ (fun x => h (x mod max)%N) (q * max)). 2:{ intros x Hx. destruct (N.ltb_spec (q * max) x); [lia|reflexivity]. }
      rewrite sumN_mul. rewrite (sumN_ext _ (fun _ => sumN h max) q).
      2:{ intros i _. apply sumN_ext. intros x Hx. f_equal. rewrite N.add_comm, N.mod_add by lia. now apply N.mod_small. }
      rewrite sumN_const. rewrite (sumN_ext _ (fun _ => a) rest). 2:{ intros x Hx. destruct (N.ltb_spec (q * max) (q * max + 1 + x)); [reflexivity|lia]. }
      rewrite sumN_const. replace 1%N with (N.succ 0) by reflexivity. rewrite (sumN_S _ 0), sumN_0, N.add_0_r, N.ltb_irrefl, N.mod_mul by lia.
      rewrite (sumN_ext (fun j => IZR (Z.of_N (if (j =? 0)%N then q + N.succ 0 else q)) * h j) (fun j => IZR (Z.of_N q) * h j + (if (j =? 0)%N then 1 else 0) * h j)).
      2:{ intros j _. destruct (j =? 0)%N; [|ring]. rewrite N2Z.inj_add, plus_IZR. change (IZR (Z.of_N (N.succ 0))) with 1. ring. }
      rewrite sumN_plus, sumN_scal.
      assert (D : forall m, (0 < m)%N -> sumN (fun j => (if (j =? 0)%N then 1 else 0) * h j) m = h 0%N).
      { induction m as [|m IH] using N.peano_ind; [lia|]. intros _. rewrite sumN_S. destruct (N.eqb_spec m 0) as [->|Hm]; [rewrite sumN_0; ring|]. rewrite IH by lia. ring. }
      rewrite D by lia. ring. }
    rewrite ES, N2Z.inj_mul, mult_IZR. 
    assert (P1 : 0 < NR (2 ^ (64 - ub))) by (apply IZR_lt; assert (2 ^ (64 - ub) <> 0)%N by (now apply N.pow_nonzero); lia).
    assert (P2 : 0 < NR B) by (apply IZR_lt; lia). field. split; lra.
  Qed.

  Definition share : N -> R := uintn_share ub max.
  Lemma pr_step n k G : pr (S n) (fun ws => seqE ws (S k) G) =
    IZR (Z.of_N rest) / IZR (Z.of_N (2 ^ ub)) * pr n (fun ws => seqE ws (S k) G) +
    / IZR (Z.of_N (2 ^ ub)) * sumN (fun j => IZR (Z.of_N (if (j =? 0)%N then q + 1 else q)) * pr n (fun ws => seqE ws k (fun js => G (j :: js)))) max.
  Proof.
    cbn [pr]. rewrite <- (word_mean (pr n (fun ws => seqE ws (S k) G)) (fun j => pr n (fun ws => seqE ws k (fun js => G (j :: js))))).
    f_equal. apply sumN_ext. intros u _. cbn [seqE]. destruct (rejb u); reflexivity.
  Qed.
  Lemma law_lim k : forall G, is_lim_seq (fun n => pr n (fun ws => seqE ws k G)) (independent share max k G).
  Proof.
    induction k as [|k IH]; intros G; cbn [independent].
    - apply is_lim_seq_ext with (fun _ => ind (G [])); [intros n|apply is_lim_seq_const].
      rewrite <- (pr_const n (G [])). apply pr_ext. intros ws _ _. now destruct ws.
    - rewrite sum_below_sumN. pose proof split_range as SR.
      assert (PB : 0 < IZR (Z.of_N (2 ^ ub))) by (apply IZR_lt; lia).
      assert (EB : IZR (Z.of_N (2 ^ ub)) = IZR (Z.of_N (q * max + 1)) + IZR (Z.of_N rest)) by (rewrite <- plus_IZR; f_equal; lia).
      assert (PA : 0 < IZR (Z.of_N (q * max + 1))) by (apply IZR_lt; lia).
      assert (PR : 0 <= IZR (Z.of_N rest)) by (apply IZR_le; lia).
      replace (sumN (fun j => share j * independent share max k (fun js => G (j :: js))) max) with
        ((/ IZR (Z.of_N (2 ^ ub)) * sumN (fun j => IZR (Z.of_N (if (j =? 0)%N then q + 1 else q)) * independent share max k (fun js => G (j :: js))) max)
         / (1 - IZR (Z.of_N rest) / IZR (Z.of_N (2 ^ ub)))).
      + apply affine_lim with (y := fun n => / IZR (Z.of_N (2 ^ ub)) * sumN (fun j => IZR (Z.of_N (if (j =? 0)%N then q + 1 else q)) * pr n (fun ws => seqE ws k (fun js => G (j :: js)))) max).
        * split; [apply Rmult_le_pos; [exact PR|left; now apply Rinv_0_lt_compat]|]. apply Rmult_lt_reg_r with (IZR (Z.of_N (2 ^ ub))); [exact PB|].
          unfold Rdiv. rewrite Rmult_assoc, Rinv_l by lra. lra.
        * intros n. apply pr_step.
        * apply is_lim_seq_mult'; [apply is_lim_seq_const|]. apply sumN_lim. intros j _.
          apply is_lim_seq_mult'; [apply is_lim_seq_const|apply IH].
      + rewrite (sumN_ext (fun j => share j * _) (fun j => / IZR (Z.of_N (q * max + 1)) * (IZR (Z.of_N (if (j =? 0)%N then q + 1 else q)) * independent share max k (fun js => G (j :: js))))).
        2:{ intros j _. unfold share, uintn_share. fold q. field. lra. }
        rewrite sumN_scal. set (Sm := sumN _ max). field_simplify_eq; [rewrite EB; ring|]. repeat split; lra.
  Qed.
  (** a program that returns after k draws, with a value satisfying P just if the draws satisfy G *)
  Lemma law_of {A} (next : nat -> list N -> outcome (A * list N)) (P : A -> Prop) k G :
    (forall ws, Forall w64 ws -> (exists fuel a ws', next fuel ws = Ret (a, ws') /\ P a) <->
       (exists fuel js ws', runs (RNG_Uintn tape fuel ub max) ws js ws' /\ length js = k /\ G js = true)) ->
    draw_prob next P (independent (uintn_share ub max) max k G).
  Proof.
    intros H. exists (fun n => pr n (fun ws => seqE ws k G)). split; [|apply law_lim].
    intros n. apply prob_pr. intros ws L F. rewrite (seqE_iff ws F). now apply H.
  Qed.
  (** n words suffice for k <= n draws unless one of the first k is rejected, for one draw unless all are *)
  Definition rho : R := IZR (Z.of_N rest) / IZR (Z.of_N (2 ^ ub)).
  Lemma pr_step_true n k : pr (S n) (fun ws => seqE ws (S k) (fun _ => true)) = rho * pr n (fun ws => seqE ws (S k) (fun _ => true)) + (1 - rho) * pr n (fun ws => seqE ws k (fun _ => true)).
  Proof.
    rewrite pr_step. fold rho. f_equal. pose proof split_range as SR. assert (PB : 0 < IZR (Z.of_N (2 ^ ub))) by (apply IZR_lt; lia).
    assert (D : forall (Q : N) m (a : R), (0 < m)%N -> sumN (fun j => IZR (Z.of_N (if (j =? 0)%N then Q + 1 else Q)) * a) m = IZR (Z.of_N (Q * m + 1)) * a).
    { intros Q m a. induction m as [|m IH] using N.peano_ind; [lia|]. intros _. rewrite sumN_S. destruct (N.eqb_spec m 0) as [->|H0].
      - rewrite sumN_0. rewrite Rplus_0_l. f_equal. f_equal. f_equal. lia.
      - rewrite IH by lia. rewrite <- Rmult_plus_distr_r, <- plus_IZR. f_equal. f_equal. lia. }
    rewrite D by lia. unfold rho. rewrite <- Rmult_assoc. f_equal.
    assert (EB : IZR (Z.of_N (2 ^ ub)) = IZR (Z.of_N (q * max + 1)) + IZR (Z.of_N rest)) by (rewrite <- plus_IZR; f_equal; lia).
    rewrite EB in *. field. lra.
  Qed.
  Lemma rho_range : 0 <= rho <= / 2 /\ rho <= IZR (Z.of_N max) / IZR (Z.of_N (2 ^ ub)).
  Proof.
    pose proof split_range as SR. assert (R1 : (rest < max)%N) by (apply N.mod_lt; lia). assert (Q1 : (0 < q)%N) by (apply N.div_str_pos; lia).
    assert (R2 : (2 * rest <= 2 ^ ub)%N) by nia. assert (PB : 0 < IZR (Z.of_N (2 ^ ub))) by (apply IZR_lt; lia). pose proof (Rinv_0_lt_compat _ PB) as IB.
    unfold rho, Rdiv. split; [split|].
    - apply Rmult_le_pos; [apply IZR_le; lia|lra].
    - apply Rmult_le_reg_r with (IZR (Z.of_N (2 ^ ub))); [exact PB|]. rewrite Rmult_assoc, Rinv_l, Rmult_1_r by lra. apply Rmult_le_reg_l with 2; [lra|].
      rewrite <- Rmult_assoc, Rinv_r, Rmult_1_l by lra. rewrite <- mult_IZR. apply IZR_le. lia.
    - apply Rmult_le_compat_r; [lra|]. apply IZR_le. lia.
  Qed.
  Lemma enough k : forall n, (k <= n)%nat -> 1 - INR k * rho <= pr n (fun ws => seqE ws k (fun _ => true)).
  Proof.
    pose proof rho_range as [[R0 R1] _].
    induction k as [|k IH]; intros n Hn.
    - rewrite (pr_ext n _ (fun _ => true)) by (intros ws _ _; now destruct ws). rewrite pr_const. cbn. lra.
    - destruct n as [|n]; [lia|]. rewrite pr_step_true. specialize (IH n ltac:(lia)). pose proof (pr_range n (fun ws => seqE ws (S k) (fun _ => true))) as [P0 _].
      rewrite S_INR. pose proof (pos_INR k) as PK. assert (0 <= rho * pr n (fun ws => seqE ws (S k) (fun _ => true))) by (apply Rmult_le_pos; lra).
      assert ((1 - rho) * (1 - INR k * rho) <= (1 - rho) * pr n (fun ws => seqE ws k (fun _ => true))) by (apply Rmult_le_compat_l; lra).
      assert (0 <= rho * (INR k * rho)) by (apply Rmult_le_pos; [lra|]; apply Rmult_le_pos; lra). lra.
  Qed.
  Lemma enough1 n : pr n (fun ws => seqE ws 1 (fun _ => true)) = 1 - rho ^ n.
  Proof.
    induction n as [|n IH]; [cbn; lra|]. rewrite pr_step_true, IH. rewrite (pr_ext n _ (fun _ => true)) by (intros ws _ _; now destruct ws). rewrite pr_const. cbn [ind pow]. ring.
  Qed.
End Law.
