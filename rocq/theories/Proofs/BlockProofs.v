(** Sequences of Reads: when they repeat (C81). *)
From Coq Require Import Lia ZifyN ZifyNat ZifyBool.
From Verif Require Import Model.Base Model.GenRead Model.Rng Model.Xoroshiro Model.Xoshiro Model.Api Spec.Common Spec.States Spec.Kinds Spec.Counting Spec.Blocks.
From Verif Require Import Proofs.WordLemmas Proofs.ReadProofs Proofs.PureGen Proofs.Count Proofs.OrbitCount
  Proofs.XoroProofs Proofs.XoroSeed Proofs.XoshiProofs Proofs.XoshiSeed Proofs.KindProofs Props.Periods Props.LowBit Props.Equidist.
Local Open Scope N_scope.

(** ** calls that never fail *)
Section PureA.
  Context {S A : Type}.
  Variable u : S -> outcome (A * S).
  Variable ok : S -> Prop.
  Variable out : S -> A.
  Variable step : S -> S.
  Hypothesis pure : forall s, ok s -> u s = Ret (out s, step s).
  Hypothesis ok_step : forall s, ok s -> ok (step s).

  Lemma runsA_nth s xs s' : ok s -> runs u s xs s' -> forall k, (k < length xs)%nat ->
    nth_error xs k = Some (out (N.iter (N.of_nat k) step s)).
  Proof.
    intros Hs R. revert Hs. induction R as [s|s x s1 xs s' Hx _ IH]; intros Hs k Hk; cbn [length] in Hk; [lia|].
    rewrite pure in Hx by exact Hs. inversion Hx; subst.
    destruct k as [|k]; [reflexivity|]. cbn [nth_error].
    rewrite Nat2N.inj_succ, N.iter_succ_r. apply IH; [auto|lia].
  Qed.
  Lemma runsA_exist n s : ok s -> exists xs, length xs = n /\ runs u s xs (N.iter (N.of_nat n) step s).
  Proof.
    revert s. induction n as [|n IH]; intros s Hs.
    - exists []. split; [reflexivity|constructor].
    - destruct (IH (step s) (ok_step s Hs)) as (xs & L & R). exists (out s :: xs). split; [cbn; lia|].
      rewrite Nat2N.inj_succ, N.iter_succ_r. econstructor; [apply pure, Hs|exact R].
  Qed.
  Lemma repeats_iter s p : ok s ->
    repeats_after u s p <-> forall n, out (N.iter n step (N.iter p step s)) = out (N.iter n step s).
  Proof.
    intros Hs. split.
    - intros H n. destruct (runsA_exist (N.to_nat (n + p + 1)) s Hs) as (xs & L & R).
      specialize (H xs _ (N.to_nat n) R). rewrite !(runsA_nth s xs _ Hs R) in H by lia.
      rewrite <- N.iter_add. rewrite Nat2N.inj_add, !N2Nat.id in H. assert (G : Some (out (N.iter (n + p) step s)) = Some (out (N.iter n step s))) by (apply H; lia).
      now injection G.
    - intros H xs s' n R Hn. rewrite !(runsA_nth s xs _ Hs R) by lia.
      rewrite Nat2N.inj_add, !N2Nat.id, N.iter_add. f_equal. apply H.
  Qed.
End PureA.

(** ** one Read in terms of Uint64 *)
Section Block.
  Context {S : Type}.
  Variable out : S -> N.
  Variable step : S -> S.
  (** the values of c calls *)
  Fixpoint outs (c : nat) (s : S) : list N :=
    match c with O => [] | Datatypes.S c => out s :: outs c (step s) end.
  Lemma outs_length c s : length (outs c s) = c.
  Proof. revert s. induction c as [|c IH]; intros s; cbn; [reflexivity|]. now rewrite IH. Qed.
  Lemma outs_nth c s k : (k < c)%nat -> nth k (outs c s) 0 = out (N.iter (N.of_nat k) step s).
  Proof.
    revert s k. induction c as [|c IH]; intros s k Hk; [lia|]. destruct k as [|k]; [reflexivity|]. cbn [outs nth].
    rewrite Nat2N.inj_succ, N.iter_succ_r. apply IH. lia.
  Qed.
  Lemma runs_outs (u : S -> outcome (N * S)) (pure : forall s, u s = Ret (out s, step s)) s xs s' : runs u s xs s' ->
    xs = outs (length xs) s /\ s' = N.iter (N.of_nat (length xs)) step s.
  Proof.
    intros R. split; [|eapply runs_iter; eauto].
    induction R as [s|s x s1 xs s' Hx _ IH]; [reflexivity|]. rewrite pure in Hx. inversion Hx; subst. cbn [length outs]. now f_equal.
  Qed.
  Definition bout (n c : nat) (s : S) : list N := firstn n (stream_bytes (outs c s)).
  Lemma bout_eq n c s t : (n <= 8 * c)%nat -> bout n c s = bout n c t <->
    forall k, (k < n)%nat -> byte_of (out (N.iter (N.of_nat (k / 8)) step s)) (k mod 8) = byte_of (out (N.iter (N.of_nat (k / 8)) step t)) (k mod 8).
  Proof.
    intros Hn. assert (L : forall s, length (bout n c s) = n).
    { intros s0. unfold bout. rewrite firstn_length, stream_bytes_length, outs_length. lia. }
    assert (E : forall s k, (k < n)%nat -> nth k (bout n c s) 0 = byte_of (out (N.iter (N.of_nat (k / 8)) step s)) (k mod 8)).
    { intros s0 k Hk. assert (k / 8 < c)%nat by (apply Nat.div_lt_upper_bound; lia).
      rewrite <- (outs_nth c) by assumption. rewrite <- stream_bytes_nth by (rewrite outs_length; lia). unfold bout.
      rewrite <- (firstn_skipn n (stream_bytes (outs c s0))) at 2. symmetry. apply app_nth1.
      rewrite firstn_length, stream_bytes_length, outs_length. lia. }
    split.
    - intros H k Hk. now rewrite <- !E, H by exact Hk.
    - intros H. apply (nth_ext _ _ 0 0); [now rewrite !L|]. intros k Hk. rewrite L in Hk. rewrite !E by exact Hk. now apply H.
  Qed.
End Block.

Lemma iter_mul {S} (f : S -> S) c p s : N.iter p (fun s => N.iter c f s) s = N.iter (c * p) f s.
Proof.
  induction p as [|p IH] using N.peano_ind; [now rewrite N.mul_0_r|].
  rewrite N.iter_succ, IH, <- N.iter_add. f_equal. lia.
Qed.
Lemma block_pure k n s out step (pure : forall s, a_Uint64 (methods k) s = Ret (out s, step s)) : inv k s ->
  read_block k n s = Ret (bout out step n (read_calls k n) s, N.iter (N.of_nat (read_calls k n)) step s).
Proof.
  intros H. destruct (inv_read k s (zeros n) H) as (xs & s' & R & L & _ & E). unfold read_block. rewrite E. cbn [bind].
  unfold zeros in *. rewrite repeat_length in *. destruct (runs_outs out step _ pure _ _ _ R) as [-> ->]. rewrite outs_length in *. now rewrite L.
Qed.
(** the blocks repeat after p exactly if every visible byte repeats after p times the calls per block *)
Lemma block_repeats k n p s out step (pure : forall s, a_Uint64 (methods k) s = Ret (out s, step s))
  (okf : forall s, inv k s -> inv k (step s)) : inv k s ->
  let c := N.of_nat (read_calls k n) in
  repeats_after (read_block k n) s p <->
  forall j i, (i < n)%nat -> byte_of (out (N.iter (c * j + N.of_nat (i / 8)) step (N.iter (c * p) step s))) (i mod 8) =
    byte_of (out (N.iter (c * j + N.of_nat (i / 8)) step s)) (i mod 8).
Proof.
  intros H c.
  rewrite (repeats_iter _ (inv k) (bout out step n (read_calls k n)) (fun s => N.iter c step s)); [| |intros; now apply N.iter_invariant|exact H].
  2:{ intros s0 H0. now apply block_pure. }
  pose proof (read_calls_enough k n) as En. split; intros G j.
  - intros i Hi. specialize (G j). rewrite !iter_mul, bout_eq in G by exact En. specialize (G i Hi).
    now rewrite (N.add_comm (c * j)), !(N.iter_add (N.of_nat (i / 8))).
  - rewrite !iter_mul, bout_eq by exact En. intros i Hi. rewrite <- !(N.iter_add (N.of_nat (i / 8))).
    rewrite (N.add_comm _ (c * j)). now apply G.
Qed.

(** ** counting: an injection between initial segments *)
Lemma NoDup_map_inj {A B} (f : A -> B) l : (forall x y, In x l -> In y l -> f x = f y -> x = y) -> NoDup l -> NoDup (map f l).
Proof.
  intros H ND. induction ND as [|a l Ha ND IH]; cbn [map]; constructor.
  - intros I. apply in_map_iff in I. destruct I as (x & E & Hx). apply Ha. rewrite <- (H x a); cbn; auto.
  - apply IH. intros x y Hx Hy. apply H; cbn; auto.
Qed.
Lemma pigeon (f : N -> N) a b : (forall i, i < a -> f i < b) -> (forall i j, i < a -> j < a -> f i = f j -> i = j) -> a <= b.
Proof.
  intros Hb Hi.
  set (l := map (fun k => N.to_nat (f (N.of_nat k))) (seq 0 (N.to_nat a))).
  assert (ND : NoDup l).
  { unfold l. apply NoDup_map_inj; [|apply seq_NoDup]. intros x y Hx Hy E. apply in_seq in Hx, Hy.
    apply N2Nat.inj, Hi in E; lia. }
  assert (I : incl l (seq 0 (N.to_nat b))).
  { intros x Hx. unfold l in Hx. apply in_map_iff in Hx. destruct Hx as (k & <- & Hk). apply in_seq in Hk. apply in_seq.
    specialize (Hb (N.of_nat k)). lia. }
  apply NoDup_incl_length in I; [|exact ND]. unfold l in I. rewrite map_length, !seq_length in I. lia.
Qed.
Fixpoint bits_val (l : list bool) : N := match l with [] => 0 | b :: l => N.b2n b + 2 * bits_val l end.
Lemma bits_val_lt l : bits_val l < 2 ^ N.of_nat (length l).
Proof.
  induction l as [|b l IH]; [reflexivity|]. cbn [bits_val length]. rewrite Nat2N.inj_succ, N.pow_succ_r'.
  destruct b; cbn [N.b2n]; lia.
Qed.
Lemma bits_val_inj l l' : length l = length l' -> bits_val l = bits_val l' -> l = l'.
Proof.
  revert l'. induction l as [|b l IH]; intros [|b' l'] L E; try discriminate L; [reflexivity|].
  cbn [bits_val length] in *. injection L as L. assert (b = b' /\ bits_val l = bits_val l') as [-> E'] by (destruct b, b'; cbn [N.b2n] in E; split; try reflexivity; lia).
  f_equal. now apply IH.
Qed.

(** ** Xoroshiro: the low bits *)
Lemma byte0_odd x : N.odd (byte_of x 0) = N.odd x.
Proof.
  unfold byte_of. change (256 ^ N.of_nat 0) with 1. rewrite N.div_1_r. change 256 with (2 ^ 8).
  rewrite <- !N.bit0_odd. now apply N.mod_pow2_bits_low.
Qed.
Lemma xiter_typed n s : xoro_typed s -> xoro_typed (N.iter n xstep s).
Proof. intros T. apply (xiter_add n s s T T). Qed.
Lemma xadd_zero_eq s t : xadd s t = xzero -> s = t.
Proof.
  destruct s as [a b], t as [c d]. unfold xadd, xzero. cbn [xo0 xo1]. intros E. injection E as E1 E2. apply N.lxor_eq in E1, E2. congruence.
Qed.
(** all low bits of the stream visible *)
Lemma xoro_low_all s t : xoro_typed s -> xoro_typed t -> (forall i, xlow (N.iter i xstep t) = xlow (N.iter i xstep s)) -> t = s.
Proof.
  intros Hs Ht H. apply xadd_zero_eq. apply lows_zero; [now apply xadd_typed|]. intros n _.
  destruct (xiter_add (N.of_nat n) t s Ht Hs) as (A & _). rewrite A, xlow_add, H. apply xorb_nilpotent.
Qed.
(** of every c consecutive low bits only the first m are visible *)
Lemma xoro_low_some (m : nat) c d : (1 <= m)%nat -> c = N.of_nat m + 1 -> xoro_typed d ->
  (forall j q, (q < m)%nat -> xlow (N.iter (c * j + N.of_nat q) xstep d) = false) -> d = xzero.
Proof.
  intros Hm Hc T H. destruct (xoro_eq_dec d xzero) as [E|Z]; [exact E|exfalso].
  destruct (Nat.le_gt_cases 128 m) as [B|B].
  { apply Z, lows_zero; [exact T|]. intros n Hn. specialize (H 0 n). rewrite N.mul_0_r in H. apply H. lia. }
  set (P := 2 ^ 128 - 1). set (g := N.gcd c P).
  assert (P0 : P <> 0) by discriminate.
  assert (g0 : g <> 0) by (unfold g; rewrite N.gcd_eq_0; tauto).
  destruct (N.gcd_divide_l c P) as [c' Ec]. destruct (N.gcd_divide_r c P) as [P' EP]. fold g in Ec, EP.
  assert (Cop : N.gcd c' P' = 1).
  { pose proof (N.gcd_div_gcd c P g g0 eq_refl) as G. rewrite Ec, EP in G. rewrite !N.div_mul in G by exact g0. exact G. }
  assert (Le : P' <= 2 ^ N.of_nat (128 - m)).
  { apply (pigeon (fun j => bits_val (skipn m (lows (N.iter (c * j) xstep d) 128)))).
    - intros j _. eapply N.lt_le_trans; [apply bits_val_lt|]. rewrite skipn_length, lows_length. apply N.le_refl.
    - intros i j Hi Hj E. apply bits_val_inj in E; [|now rewrite !skipn_length, !lows_length].
      assert (Q : lows (N.iter (c * i) xstep d) 128 = lows (N.iter (c * j) xstep d) 128).
      { assert (G : forall j, firstn m (lows (N.iter (c * j) xstep d) 128) = repeat false m).
        { clear - H B. intros j. apply (nth_ext _ _ false false); [rewrite firstn_length, lows_length, repeat_length; lia|].
          intros q Hq. rewrite firstn_length, lows_length in Hq.
          transitivity (nth q (lows (N.iter (c * j) xstep d) 128) false).
          { rewrite <- (firstn_skipn m (lows (N.iter (c * j) xstep d) 128)) at 2. symmetry. apply app_nth1. rewrite firstn_length, lows_length. lia. }
          rewrite nth_repeat, lows_nth by lia. rewrite <- N.iter_add, N.add_comm. apply H. lia. }
        rewrite <- (firstn_skipn m (lows (N.iter (c * i) xstep d) 128)), <- (firstn_skipn m (lows (N.iter (c * j) xstep d) 128)), E, !G. reflexivity. }
      assert (St : N.iter (c * i) xstep d = N.iter (c * j) xstep d).
      { apply xadd_zero_eq, lows_zero; [apply xadd_typed; now apply xiter_typed|]. intros n Hn.
        destruct (xiter_add (N.of_nat n) (N.iter (c * i) xstep d) (N.iter (c * j) xstep d)) as (A & _); [now apply xiter_typed..|].
        rewrite A, xlow_add, <- (lows_nth _ 128), <- (lows_nth (N.iter (c * j) xstep d) 128), Q by exact Hn. apply xorb_nilpotent. }
      apply (orbit_eq xoro_nz xstep P ord128 xoro_nz_step xoro_nz_order d) in St; [|now split].
      (* c i = c j mod P, hence i = j mod P' *)
      assert (W : forall i j, i <= j -> i < P' -> j < P' -> (c * i) mod P = (c * j) mod P -> i = j).
      { clear - Cop Ec EP g0 P0. clearbody g P. intros i j L Hi Hj E. assert (D : (P | c * (j - i))).
        { exists (c * j / P - c * i / P). pose proof (N.div_mod (c * i) P P0). pose proof (N.div_mod (c * j) P P0).
          rewrite N.mul_sub_distr_l, N.mul_sub_distr_r. rewrite E in H. rewrite !(N.mul_comm _ P). lia. }
        rewrite Ec, EP in D. replace (c' * g * (j - i)) with (c' * (j - i) * g) in D by (rewrite <- !N.mul_assoc, (N.mul_comm g); reflexivity).
        apply N.mul_divide_cancel_r in D; [|exact g0]. apply N.gauss in D; [|rewrite N.gcd_comm; exact Cop].
        destruct (N.eq_dec (j - i) 0) as [Z|Z]; [lia|]. apply N.divide_pos_le in D; lia. }
      destruct (N.le_gt_cases i j); [now apply W|]. symmetry. apply W; try assumption; [lia|now symmetry]. }
  assert (gle : g <= c) by (apply N.divide_pos_le; [lia|now exists c']).
  assert (Q : P <= g * 2 ^ N.of_nat (128 - m)) by (rewrite EP, N.mul_comm; now apply N.mul_le_mono_l).
  assert (R : P <= (if (m =? 1)%nat then 1 else c) * 2 ^ N.of_nat (128 - m)).
  { eapply N.le_trans; [exact Q|]. apply N.mul_le_mono_r. destruct (Nat.eqb_spec m 1) as [->|_]; [|exact gle].
    unfold g. rewrite Hc. vm_compute. discriminate. }
  clear - R B Hm Hc. subst c. 
  assert (C : forallb (fun m => (if (m =? 1)%nat then 1 else N.of_nat m + 1) * 2 ^ N.of_nat (128 - m) <? P) (seq 1 127) = true) by (vm_compute; reflexivity).
  rewrite forallb_forall in C. specialize (C m ltac:(apply in_seq; lia)). apply N.ltb_lt in C. cbv beta in C. 
  apply N.le_ngt in R. exact (R C).
Qed.

(** ** Rexoroshiro: the top bit of the sum *)
Definition xtop (s : xoro) : bool := N.testbit (xout s) 63.
Definition xdelta : xoro := mkXoro (2 ^ 63) (2 ^ 63).
Lemma top_ge x : w64 x -> N.testbit x 63 = (2 ^ 63 <=? x).
Proof.
  intros H. unfold w64 in H. destruct (N.leb_spec (2 ^ 63) x) as [L|L].
  - rewrite N.testbit_true. replace (x / 2 ^ 63) with 1; [reflexivity|]. apply N.div_unique with (x - 2 ^ 63); lia.
  - rewrite N.testbit_false. rewrite N.div_small by exact L. reflexivity.
Qed.
(** flipping the top bits of both words changes nothing *)
Lemma xtop_add s : xoro_typed s -> xtop s = xorb (xorb (N.testbit (xo0 s) 63) (N.testbit (xo1 s) 63))
  (2 ^ 63 <=? (xo0 s) mod 2 ^ 63 + (xo1 s) mod 2 ^ 63).
Proof.
  intros [T0 T1]. unfold xtop. rewrite xout_add. rewrite !top_ge by (auto; apply add64_w). rewrite add64_mod. unfold w64 in *.
  set (a := xo0 s) in *. set (b := xo1 s) in *. clearbody a b.
  pose proof (N.div_mod a (2 ^ 63) ltac:(discriminate)) as Ea. pose proof (N.div_mod b (2 ^ 63) ltac:(discriminate)) as Eb.
  pose proof (N.mod_lt a (2 ^ 63) ltac:(discriminate)) as La. pose proof (N.mod_lt b (2 ^ 63) ltac:(discriminate)) as Lb.
  set (a1 := a mod 2 ^ 63) in *. set (b1 := b mod 2 ^ 63) in *. clearbody a1 b1.
  pose proof (N.div_mod (a + b) (2 ^ 64) ltac:(discriminate)) as Es. pose proof (N.mod_lt (a + b) (2 ^ 64) ltac:(discriminate)) as Ls.
  set (s1 := (a + b) mod 2 ^ 64) in *. clearbody s1.
  assert (a / 2 ^ 63 < 2) by (apply N.div_lt_upper_bound; lia). assert (b / 2 ^ 63 < 2) by (apply N.div_lt_upper_bound; lia).
  assert ((a + b) / 2 ^ 64 < 2) by (apply N.div_lt_upper_bound; lia).
  destruct (N.leb_spec (2 ^ 63) a), (N.leb_spec (2 ^ 63) b), (N.leb_spec (2 ^ 63) s1), (N.leb_spec (2 ^ 63) (a1 + b1)); try reflexivity; exfalso; lia.
Qed.
Lemma xtop_delta s : xoro_typed s -> xtop (xadd s xdelta) = xtop s.
Proof.
  intros T. assert (D : xoro_typed xdelta) by (split; reflexivity). rewrite !xtop_add by (auto using xadd_typed). unfold xadd, xdelta. cbn [xo0 xo1].
  assert (M : forall a, N.lxor a (2 ^ 63) mod 2 ^ 63 = a mod 2 ^ 63).
  { intros a. apply N.bits_inj. intros n. destruct (N.lt_ge_cases n 63) as [L|L].
    - rewrite !N.mod_pow2_bits_low, N.lxor_spec, N.pow2_bits_false by (exact L || lia). apply xorb_false_r.
    - now rewrite !N.mod_pow2_bits_high by exact L. }
  rewrite !M, !N.lxor_spec, N.pow2_bits_true.
  destruct (N.testbit (xo0 s) 63), (N.testbit (xo1 s) 63), (_ <=? _); reflexivity.
Qed.
Lemma xtop_fst x : w64 x -> xtop (mkXoro x 0) = N.testbit x 63.
Proof.
  intros H. rewrite xtop_add by (split; [exact H|reflexivity]). cbn [xo0 xo1]. rewrite N.bits_0, xorb_false_r. change (0 mod 2 ^ 63) with 0. rewrite N.add_0_r.
  destruct (N.leb_spec (2 ^ 63) (x mod 2 ^ 63)) as [L|L]; [|apply xorb_false_r]. pose proof (N.mod_lt x (2 ^ 63) ltac:(discriminate)). lia.
Qed.
Lemma xtop_swap a b : w64 a -> w64 b -> xtop (mkXoro a b) = xtop (mkXoro b a).
Proof.
  intros Ha Hb. rewrite !xtop_add by (split; assumption). cbn [xo0 xo1]. rewrite (N.add_comm (b mod _)). f_equal. apply xorb_comm.
Qed.
Lemma low63_0 x : w64 x -> x mod 2 ^ 63 = 0 -> x = if N.testbit x 63 then 2 ^ 63 else 0.
Proof.
  intros H E. rewrite top_ge by exact H. unfold w64 in H. pose proof (N.div_mod x (2 ^ 63) ltac:(discriminate)) as D. rewrite E in D.
  assert (x / 2 ^ 63 < 2) by (apply N.div_lt_upper_bound; lia).
  destruct (N.leb_spec (2 ^ 63) x); lia.
Qed.
(** and nothing else does *)
Lemma xtop_structures d : xoro_typed d -> (forall t, xoro_typed t -> xtop (xadd t d) = xtop t) -> d = xzero \/ d = xdelta.
Proof.
  destruct d as [x y]. intros [Tx Ty] H. cbn [xo0 xo1] in *.
  assert (G : forall x y, w64 x -> w64 y -> (forall a, w64 a -> xtop (mkXoro (N.lxor a x) 0) = xtop (mkXoro a y)) -> y mod 2 ^ 63 = 0 /\ N.testbit x 63 = N.testbit y 63).
  { clear. intros x y Hx Hy H. assert (E : N.testbit x 63 = N.testbit y 63).
    { specialize (H 0 eq_refl). rewrite N.lxor_0_l, xtop_fst, xtop_swap, xtop_fst in H by (assumption || reflexivity). exact H. }
    split; [|exact E]. assert (Hm : w64 (2 ^ 63 - 1)) by reflexivity. specialize (H _ Hm). rewrite xtop_fst in H by now apply lxor_w.
    rewrite xtop_add in H by (split; assumption). cbn [xo0 xo1] in H. rewrite N.lxor_spec in H. change (N.testbit (2 ^ 63 - 1) 63) with false in H.
    change ((2 ^ 63 - 1) mod 2 ^ 63) with (2 ^ 63 - 1) in H. rewrite !xorb_false_l, E in H.
    destruct (N.leb_spec (2 ^ 63) (2 ^ 63 - 1 + y mod 2 ^ 63)) as [L|L]; [|lia]. destruct (N.testbit y 63); discriminate. }
  destruct (G x y Tx Ty) as [Ey Eb].
  { intros a Ha. specialize (H (mkXoro a y) (conj Ha Ty)). unfold xadd in H. cbn [xo0 xo1] in H. now rewrite N.lxor_nilpotent in H. }
  destruct (G y x Ty Tx) as [Ex _].
  { intros a Ha. specialize (H (mkXoro x a) (conj Tx Ha)). unfold xadd in H. cbn [xo0 xo1] in H. rewrite N.lxor_nilpotent in H.
    rewrite xtop_swap by (try apply lxor_w; assumption || reflexivity). rewrite H. now apply xtop_swap. }
  apply low63_0 in Ex, Ey; try assumption. rewrite Ex, Ey, Eb. destruct (N.testbit y 63); [right|left]; reflexivity.
Qed.
(** so the top bits reveal a repetition *)
Lemma xoro_top_all s m : xoro_nz s -> (forall i, xtop (N.iter i xstep (N.iter m xstep s)) = xtop (N.iter i xstep s)) -> (2 ^ 128 - 1 | m).
Proof.
  intros Hs H. assert (D : xoro_typed xdelta) by (split; reflexivity). assert (Dz : xdelta <> xzero) by discriminate.
  assert (F : forall t, xoro_typed t -> xtop (N.iter m xstep t) = xtop t).
  { intros t Ht. destruct (xoro_eq_dec t xzero) as [->|Z]; [now rewrite xiter_0|].
    destruct (xoro_orbit s t Hs (conj Ht Z)) as (i & _ & <-). rewrite <- H, <- !N.iter_add. do 2 f_equal. lia. }
  assert (Inv : forall t, xoro_typed t -> exists t', xoro_typed t' /\ N.iter m xstep t' = t).
  { intros t Ht. exists (N.iter (m * (2 ^ 128 - 2)) xstep t). split; [now apply xiter_typed|].
    destruct (xoro_eq_dec t xzero) as [->|Z]; [now rewrite !xiter_0|]. rewrite <- N.iter_add. apply (xoro_order t Ht Z).
    exists m. replace (2 ^ 128 - 1) with (1 + (2 ^ 128 - 2)) by reflexivity. set (q := 2 ^ 128 - 2). clearbody q. lia. }
  apply (xoro_order xdelta D Dz).
  destruct (xtop_structures (N.iter m xstep xdelta)) as [E|E]; [now apply xiter_typed| | |exact E].
  - intros t Ht. destruct (Inv t Ht) as (t' & Ht' & <-). destruct (xiter_add m t' xdelta Ht' D) as (A & _).
    rewrite <- A, !F by auto using xadd_typed. now apply xtop_delta.
  - exfalso. assert (Q : xoro_nz (N.iter m xstep xdelta)) by (apply (iterN_wf xoro_nz xstep xoro_nz_step); now split). now apply Q.
Qed.
Lemma rev_byte0 x : w64 x -> N.testbit (byte_of (rev_bytes64 x) 0) 7 = N.testbit x 63.
Proof.
  intros H. assert (B : forall y, byte_of (rev_bytes64 y) 0 = (y / 2 ^ 56) mod 256).
  { intros y. unfold byte_of. change (256 ^ N.of_nat 0) with 1. rewrite N.div_1_r. unfold rev_bytes64.
    cbn [le_bytes rev app le_val]. rewrite !N.shiftr_shiftr. set (r := 256 * _) at 1.
    replace (N.land (N.shiftr y (8 + (8 + (8 + (8 + (8 + (8 + 8))))))) 255) with ((y / 2 ^ 56) mod 256).
    2:{ change 255 with (N.ones 8). rewrite N.land_ones, N.shiftr_div_pow2. reflexivity. }
    unfold r. rewrite (N.mul_comm 256), N.mod_add by discriminate. apply N.mod_mod. discriminate. }
  rewrite B. change 256 with (2 ^ 8). rewrite N.mod_pow2_bits_low by reflexivity. rewrite N.div_pow2_bits. reflexivity.
Qed.

(** ** Xoshiro: the low bit of the second word shows in the low byte *)
Lemma hout_low s : xoshi_typed s -> N.testbit ((57 * byte_of (hout s) 0) mod 256) 7 = N.odd (xx s).
Proof.
  intros (_ & T & _). unfold hout, byte_of. change (256 ^ N.of_nat 0) with 1. rewrite N.div_1_r. set (y := mul64 (xx s) 5).
  rewrite mul64_mod. assert (E : (57 * ((rotl64 y 7 * 9) mod 2 ^ 64 mod 256)) mod 256 = rotl64 y 7 mod 256).
  { set (r := rotl64 y 7). clearbody r. rewrite N.mul_mod_idemp_r by discriminate.
    replace (2 ^ 64) with (256 * 2 ^ 56) by reflexivity. rewrite N.mod_mul_r by discriminate.
    rewrite N.mul_add_distr_l, N.mul_assoc, (N.mul_comm 57 256), <- N.mul_assoc, N.mul_comm.
    replace ((r * 9) mod 256 * 57 + 256 * (57 * ((r * 9 / 256) mod 2 ^ 56))) with ((r * 9) mod 256 * 57 + 57 * ((r * 9 / 256) mod 2 ^ 56) * 256) by (f_equal; apply N.mul_comm).
    rewrite N.mod_add, N.mul_mod_idemp_l by discriminate. replace (r * 9 * 57) with (r + 2 * r * 256) by lia. now rewrite N.mod_add by discriminate. }
  rewrite E. change 256 with (2 ^ 8). rewrite N.mod_pow2_bits_low by reflexivity. unfold rotl64. rewrite N.lor_spec, testbit_shl64.
  unfold shr64. rewrite N.shiftr_spec by apply N.le_0_l. assert (Wy : w64 y) by apply trunc64_w.
  rewrite (testbit_w64 y (7 + (64 - 7)) Wy) by (vm_compute; discriminate). rewrite orb_false_r.
  change (7 <? 64) with true. change (7 <=? 7) with true. change (7 - 7) with 0. cbn [andb]. unfold y. rewrite mul64_mod, N.mod_pow2_bits_low by reflexivity.
  rewrite N.bit0_odd, N.odd_mul. change (N.odd 5) with true. apply andb_true_r.
Qed.
Lemma hiter_add n a b : xoshi_typed a -> xoshi_typed b -> N.iter n xoshi_step (hadd a b) = hadd (N.iter n xoshi_step a) (N.iter n xoshi_step b).
Proof.
  intros Ha Hb. induction n as [|n IH] using N.peano_ind; [reflexivity|]. rewrite !N.iter_succ, IH. apply hstep_add; now apply hiter_typed.
Qed.
Lemma hadd_zero_eq s t : hadd s t = hzero -> s = t.
Proof.
  destruct s, t. unfold hadd, hzero. cbn. intros E. injection E as E1 E2 E3 E4. apply N.lxor_eq in E1, E2, E3, E4. congruence.
Qed.
Lemma xoshi_low_all s t : xoshi_typed s -> xoshi_typed t ->
  (forall i, N.odd (xx (N.iter i xoshi_step t)) = N.odd (xx (N.iter i xoshi_step s))) -> t = s.
Proof.
  intros Hs Ht H. apply hadd_zero_eq. destruct (xoshi_eq_dec (hadd t s) hzero) as [E|Z]; [exact E|exfalso].
  destruct (xoshi_orbit (hadd t s) (mkXoshi 0 1 0 0)) as (n & _ & E).
  { split; [now apply hadd_typed|exact Z]. }
  { split; [repeat split; reflexivity|discriminate]. }
  rewrite hiter_add in E by assumption. apply (f_equal (fun s => N.odd (xx s))) in E. unfold hadd in E. cbn [xx] in E.
  rewrite odd_lxor, H, xorb_nilpotent in E. discriminate.
Qed.
