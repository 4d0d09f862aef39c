(** Properties of Xoroshiro, Rexoroshiro and Xoshiro as sequences: C10-C15. *)
From Coq Require Import Lia ZifyN ZifyNat ZifyBool.
From Verif Require Import Model.Base Model.Xoroshiro Model.Xoshiro Model.Api Spec.Common Spec.States.
From Verif Require Import Proofs.WordLemmas Proofs.ReadProofs Proofs.PureGen
  Proofs.XoroProofs Proofs.XoroSeed Proofs.XoshiProofs Proofs.XoshiSeed.
Local Open Scope N_scope.

(** streams of every length exist, also of lengths no program will ever run *)
Lemma runs_any {S} (u : S -> outcome (N * S)) out step (pure : forall s, u s = Ret (out s, step s)) (n : N) s :
  exists xs, N.of_nat (length xs) = n /\ runs u s xs (N.iter n step s).
Proof.
  destruct (runs_exist u out step pure (N.to_nat n) s) as (xs & L & R). exists xs. rewrite L, N2Nat.id in *.
  split; [reflexivity|exact R].
Qed.

(** ** C10 *)
Definition xoro_nz (s : xoro) : Prop := xoro_typed s /\ s <> xzero.
Lemma xoro_eq_dec (a b : xoro) : {a = b} + {a <> b}.
Proof. decide equality; apply N.eq_dec. Qed.
Lemma xstep_0 : xstep xzero = xzero. Proof. vm_compute. reflexivity. Qed.
Lemma xiter_0 n : N.iter n xstep xzero = xzero.
Proof. induction n as [|n IH] using N.peano_ind; [reflexivity|]. rewrite N.iter_succ, IH. apply xstep_0. Qed.
Lemma xiter_add n a b : xoro_typed a -> xoro_typed b ->
  N.iter n xstep (xadd a b) = xadd (N.iter n xstep a) (N.iter n xstep b) /\
  xoro_typed (N.iter n xstep a) /\ xoro_typed (N.iter n xstep b).
Proof.
  intros Ha Hb. induction n as [|n (IH & Ta & Tb)] using N.peano_ind; [auto|].
  rewrite !N.iter_succ, IH. split; [now apply xstep_add|]. split; now apply xstep_typed.
Qed.
Lemma ord128 : 2 ^ 128 - 1 <> 0. Proof. discriminate. Qed.
Lemma xoro_nz_step s : xoro_nz s -> xoro_nz (xstep s).
Proof.
  intros [T Z]. split; [now apply xstep_typed|]. intros E.
  assert (P : N.iter (2 ^ 128 - 1) xstep s = s) by (apply xoro_order; auto; apply N.divide_refl).
  replace (2 ^ 128 - 1) with (N.succ (2 ^ 128 - 2)) in P by reflexivity.
  rewrite N.iter_succ_r, E, xiter_0 in P. congruence.
Qed.
Lemma xoro_nz_order v : xoro_nz v -> forall n, N.iter n xstep v = v <-> (2 ^ 128 - 1 | n).
Proof. intros [T Z]. now apply xoro_order. Qed.
Lemma xcode_range a : xoro_nz a -> 1 <= xcode a <= 2 ^ 128 - 1.
Proof.
  intros [T Z]. pose proof (xcode_bound a T) as B. change (2 ^ N.of_nat 128) with (2 ^ 128) in B.
  assert (xcode a <> 0). { intros E. apply Z. apply xcode_inj; [exact T|apply xzero_typed|exact E]. }
  split; [lia|]. lia.
Qed.
Lemma xoro_orbit v w : xoro_nz v -> xoro_nz w -> exists n, n < 2 ^ 128 - 1 /\ N.iter n xstep v = w.
Proof.
  apply (orbit_full xoro_nz xstep (2 ^ 128 - 1) ord128 xoro_nz_step xoro_nz_order xcode).
  - intros a b [Ta _] [Tb _]. now apply xcode_inj.
  - apply xcode_range.
Qed.
(** low output bit is a linear functional *)
Definition xlow (s : xoro) : bool := xorb (N.odd (xo0 s)) (N.odd (xo1 s)).
Lemma odd_lxor a b : N.odd (N.lxor a b) = xorb (N.odd a) (N.odd b).
Proof. rewrite <- !N.bit0_odd. apply N.lxor_spec. Qed.
Lemma xlow_add a b : xlow (xadd a b) = xorb (xlow a) (xlow b).
Proof. unfold xlow, xadd. cbn [xo0 xo1]. rewrite !odd_lxor. destruct (N.odd (xo0 a)), (N.odd (xo0 b)), (N.odd (xo1 a)), (N.odd (xo1 b)); reflexivity. Qed.
Lemma xout_add s : xout s = add64 (xo0 s) (xo1 s).
Proof. destruct s; reflexivity. Qed.
Lemma odd_add64 a b : N.odd (add64 a b) = xorb (N.odd a) (N.odd b).
Proof.
  rewrite add64_mod, <- !N.bit0_odd, N.mod_pow2_bits_low by reflexivity. rewrite N.bit0_odd, N.odd_add, !N.bit0_odd. reflexivity.
Qed.
Lemma xlow_out s : N.odd (xout s) = xlow s.
Proof. rewrite xout_add. apply odd_add64. Qed.
Lemma xoro_observable s t : xoro_typed s -> xoro_typed t ->
  (forall n, xout (N.iter n xstep s) = xout (N.iter n xstep t)) -> s = t.
Proof.
  intros Hs Ht H. destruct (xoro_eq_dec (xadd s t) xzero) as [E|E].
  - destruct s as [a b], t as [c d]. unfold xadd, xzero in E. cbn [xo0 xo1] in E.
    injection E as E1 E2. apply N.lxor_eq in E1, E2. congruence.
  - exfalso. destruct (xoro_orbit (xadd s t) (mkXoro 1 0)) as (n & _ & En).
    { split; [now apply xadd_typed|exact E]. }
    { split; [split; reflexivity|discriminate]. }
    destruct (xiter_add n s t Hs Ht) as (A & _). rewrite A in En.
    assert (L : xlow (mkXoro 1 0) = true) by reflexivity. rewrite <- En, xlow_add, <- !xlow_out, H in L.
    destruct (N.odd (xout (N.iter n xstep t))); discriminate.
Qed.

Theorem C10_xoroshiro_state_period s xs s' : xoro_typed s -> s <> mkXoro 0 0 ->
  runs Xoroshiro_Uint64 s xs s' -> (s' = s <-> (2 ^ 128 - 1 | N.of_nat (length xs))).
Proof.
  intros T Z R. rewrite (runs_iter _ xout xstep xoro_pure _ _ _ R). now apply xoro_order.
Qed.
Theorem C10_rexoroshiro_state_period s xs s' : xoro_typed s -> s <> mkXoro 0 0 ->
  runs Rexoroshiro_Uint64 s xs s' -> (s' = s <-> (2 ^ 128 - 1 | N.of_nat (length xs))).
Proof.
  intros T Z R. rewrite (runs_iter _ (fun s => rev_bytes64 (xout s)) xstep rex_pure _ _ _ R). now apply xoro_order.
Qed.
Lemma stream_period_iter {S} (u : S -> outcome (N * S)) out step (pure : forall s, u s = Ret (out s, step s)) s p :
  stream_period u s p <-> forall n, out (N.iter n step (N.iter p step s)) = out (N.iter n step s).
Proof.
  split.
  - intros H n. destruct (runs_any u out step pure (n + p + 1) s) as (xs & L & R).
    specialize (H xs _ (N.to_nat n) R). rewrite L, N2Nat.id in H.
    rewrite !(runs_nth u out step pure s xs _ R) in H by lia.
    rewrite <- N.iter_add. rewrite Nat2N.inj_add, !N2Nat.id in H. apply H. lia.
  - intros H xs s' n R Hn. rewrite !(runs_nth u out step pure s xs _ R) by lia.
    rewrite Nat2N.inj_add, !N2Nat.id, N.iter_add. apply H.
Qed.
Theorem C10_xoroshiro_stream_period s p : xoro_typed s -> s <> mkXoro 0 0 ->
  (stream_period Xoroshiro_Uint64 s p <-> (2 ^ 128 - 1 | p)).
Proof.
  intros T Z. rewrite (stream_period_iter _ xout xstep xoro_pure), <- xoro_order with (s := s) by assumption. split.
  - intros H. apply xoro_observable; [|exact T|exact H]. apply (xiter_add p s s T T).
  - intros -> n. reflexivity.
Qed.
Theorem C10_rexoroshiro_stream_period s p : xoro_typed s -> s <> mkXoro 0 0 ->
  (stream_period Rexoroshiro_Uint64 s p <-> (2 ^ 128 - 1 | p)).
Proof.
  intros T Z. rewrite (stream_period_iter _ (fun s => rev_bytes64 (xout s)) xstep rex_pure), <- xoro_order with (s := s) by assumption. split.
  - intros H. apply xoro_observable; [|exact T|].
    + apply (xiter_add p s s T T).
    + intros n. specialize (H n). rewrite <- (rev_bytes64_invol (xout (N.iter n xstep (N.iter p xstep s)))) by apply xout_w.
      rewrite H. apply rev_bytes64_invol, xout_w.
  - intros -> n. reflexivity.
Qed.
Theorem C10_zero_state_is_stuck xs s' : 
  (runs Xoroshiro_Uint64 (mkXoro 0 0) xs s' \/ runs Rexoroshiro_Uint64 (mkXoro 0 0) xs s') ->
  s' = mkXoro 0 0 /\ Forall (eq 0) xs.
Proof.
  intros [R|R].
  - split; [rewrite (runs_iter _ xout xstep xoro_pure _ _ _ R); apply xiter_0|].
    apply Forall_forall. intros x Hx. apply In_nth with (d := 0) in Hx. destruct Hx as (k & Hk & <-).
    rewrite (runs_nth _ xout xstep xoro_pure _ _ _ R k Hk), xiter_0. reflexivity.
  - split; [rewrite (runs_iter _ _ xstep rex_pure _ _ _ R); apply xiter_0|].
    apply Forall_forall. intros x Hx. apply In_nth with (d := 0) in Hx. destruct Hx as (k & Hk & <-).
    rewrite (runs_nth _ _ xstep rex_pure _ _ _ R k Hk), xiter_0. reflexivity.
Qed.
(** the orbit of one non-zero state is all non-zero states *)
Theorem C10_xoroshiro_visits_every_state s t : xoro_typed s -> s <> mkXoro 0 0 -> xoro_typed t -> t <> mkXoro 0 0 ->
  exists xs, runs Xoroshiro_Uint64 s xs t /\ N.of_nat (length xs) < 2 ^ 128 - 1.
Proof.
  intros Ts Zs Tt Zt. destruct (xoro_orbit s t (conj Ts Zs) (conj Tt Zt)) as (n & Hn & <-).
  destruct (runs_any _ xout xstep xoro_pure n s) as (xs & <- & R). eauto.
Qed.
Example C10_nonvacuous : exists xs s', runs Xoroshiro_Uint64 (mkXoro 1 0) xs s' /\ N.of_nat (length xs) = 2 ^ 128 - 1 /\ s' = mkXoro 1 0.
Proof.
  destruct (runs_any _ xout xstep xoro_pure (2 ^ 128 - 1) (mkXoro 1 0)) as (xs & L & R). eexists _, _. split; [exact R|].
  split; [exact L|]. apply (C10_xoroshiro_state_period (mkXoro 1 0) xs); [split; reflexivity|discriminate|exact R|].
  rewrite L. apply N.divide_refl.
Qed.

(** ** C11 *)
Lemma hiter_0 n : N.iter n xoshi_step hzero = hzero.
Proof. induction n as [|n IH] using N.peano_ind; [reflexivity|]. rewrite N.iter_succ, IH. vm_compute. reflexivity. Qed.
Theorem C11_xoshiro_state_period s xs s' : xoshi_typed s -> s <> mkXoshi 0 0 0 0 ->
  runs Xoshiro_Uint64 s xs s' -> (s' = s <-> (2 ^ 256 - 1 | N.of_nat (length xs))).
Proof.
  intros T Z R. rewrite (runs_iter _ hout xoshi_step xoshi_pure _ _ _ R). now apply xoshi_order.
Qed.
Lemma hout_scr s : hout s = scr (xx s). Proof. reflexivity. Qed.
Lemma xoshi_observable s t : xoshi_typed s -> xoshi_typed t ->
  (forall n, hout (N.iter n xoshi_step s) = hout (N.iter n xoshi_step t)) -> s = t.
Proof.
  intros Hs Ht H.
  assert (X : forall n, xx (N.iter n xoshi_step s) = xx (N.iter n xoshi_step t)).
  { intros n. specialize (H n). rewrite !hout_scr in H. rewrite <- (unscr_scr (xx (N.iter n xoshi_step s))).
    - rewrite H. apply unscr_scr. apply (hiter_typed n t Ht).
    - apply (hiter_typed n s Hs). }
  rewrite <- (from4_xs4 s Hs), <- (from4_xs4 t Ht). unfold xs4.
  pose proof (X 0) as X0. pose proof (X 1) as X1. pose proof (X 2) as X2. pose proof (X 3) as X3.
  change (N.iter 0 xoshi_step s) with s in X0. change (N.iter 0 xoshi_step t) with t in X0.
  change (N.iter 1 xoshi_step s) with (xoshi_step s) in X1. change (N.iter 1 xoshi_step t) with (xoshi_step t) in X1.
  change (N.iter 2 xoshi_step s) with (xoshi_step (xoshi_step s)) in X2. change (N.iter 2 xoshi_step t) with (xoshi_step (xoshi_step t)) in X2.
  change (N.iter 3 xoshi_step s) with (xoshi_step (xoshi_step (xoshi_step s))) in X3.
  change (N.iter 3 xoshi_step t) with (xoshi_step (xoshi_step (xoshi_step t))) in X3.
  rewrite X0, X1, X2, X3. reflexivity.
Qed.
Theorem C11_xoshiro_stream_period s p : xoshi_typed s -> s <> mkXoshi 0 0 0 0 ->
  (stream_period Xoshiro_Uint64 s p <-> (2 ^ 256 - 1 | p)).
Proof.
  intros T Z. rewrite (stream_period_iter _ hout xoshi_step xoshi_pure), <- xoshi_order with (s := s) by assumption. split.
  - intros H. apply xoshi_observable; [now apply hiter_typed|exact T|exact H].
  - intros -> n. reflexivity.
Qed.
Theorem C11_zero_state_is_stuck xs s' : runs Xoshiro_Uint64 (mkXoshi 0 0 0 0) xs s' ->
  s' = mkXoshi 0 0 0 0 /\ Forall (eq 0) xs.
Proof.
  intros R. split; [rewrite (runs_iter _ hout xoshi_step xoshi_pure _ _ _ R); apply hiter_0|].
  apply Forall_forall. intros x Hx. apply In_nth with (d := 0) in Hx. destruct Hx as (k & Hk & <-).
  rewrite (runs_nth _ hout xoshi_step xoshi_pure _ _ _ R k Hk). change (mkXoshi 0 0 0 0) with hzero. rewrite hiter_0. reflexivity.
Qed.
Example C11_nonvacuous : exists xs s', runs Xoshiro_Uint64 (mkXoshi 1 0 0 0) xs s' /\ N.of_nat (length xs) = 2 ^ 256 - 1 /\ s' = mkXoshi 1 0 0 0.
Proof.
  destruct (runs_any _ hout xoshi_step xoshi_pure (2 ^ 256 - 1) (mkXoshi 1 0 0 0)) as (xs & L & R). eexists _, _. split; [exact R|].
  split; [exact L|]. apply (C11_xoshiro_state_period (mkXoshi 1 0 0 0) xs); [repeat split; reflexivity|discriminate|exact R|].
  rewrite L. apply N.divide_refl.
Qed.

(** ** C12 *)
Theorem C12_jump_is_2_192_steps s xs s' : xoshi_typed s ->
  runs Xoshiro_Uint64 s xs s' -> N.of_nat (length xs) = 2 ^ 192 -> Xoshiro_Jump s = s'.
Proof.
  intros T R L. rewrite (runs_iter _ hout xoshi_step xoshi_pure _ _ _ R), L. now apply Xoshiro_Jump_spec.
Qed.
Example C12_nonvacuous s : exists xs s', runs Xoshiro_Uint64 s xs s' /\ N.of_nat (length xs) = 2 ^ 192.
Proof. destruct (runs_any _ hout xoshi_step xoshi_pure (2 ^ 192) s) as (xs & L & R). eauto. Qed.

(** ** C13 *)
Definition hnz (s : xoshi) : Prop := xoshi_typed s /\ s <> hzero.
Lemma ord256 : 2 ^ 256 - 1 <> 0. Proof. discriminate. Qed.
Lemma hnz_step s : hnz s -> hnz (xoshi_step s).
Proof.
  intros [T Z]. split; [now apply hstep_typed|]. intros E. apply Z. rewrite <- (reverse_step s T), E. vm_compute. reflexivity.
Qed.
Lemma hnz_order v : hnz v -> forall n, N.iter n xoshi_step v = v <-> (2 ^ 256 - 1 | n).
Proof. intros [T Z]. now apply xoshi_order. Qed.
Lemma jumps_iter i s : xoshi_typed s -> times i Xoshiro_Jump s = N.iter (i * 2 ^ 192) xoshi_step s.
Proof.
  intros T. unfold times. induction i as [|i IH] using N.peano_ind; [reflexivity|].
  rewrite N.iter_succ, IH, Xoshiro_Jump_spec by now apply hiter_typed.
  rewrite <- N.iter_add. f_equal. lia.
Qed.
Lemma segments M J i j a b : 1 < M -> 1 < J -> i < M -> j < M -> a < J -> b < J ->
  (i * J + a) mod (M * J - 1) = (j * J + b) mod (M * J - 1) ->
  (i = j /\ a = b) \/ (i = 0 /\ a = 0 /\ j = M - 1 /\ b = J - 1) \/ (j = 0 /\ b = 0 /\ i = M - 1 /\ a = J - 1).
Proof.
  intros M0 J0 Hi Hj Ha Hb E.
  assert (U : forall i a j b, a < J -> b < J -> i * J + a = j * J + b -> i = j /\ a = b).
  { clear. intros i a j b Ha Hb E. rewrite !(N.mul_comm _ J) in E.
    pose proof (N.div_mod_unique J i j a b Ha Hb E). tauto. }
  assert (B : forall i a, i < M -> a < J -> i * J + a <= (M - 1) * J + (J - 1)).
  { clear - J0. intros i a Hi Ha. apply N.add_le_mono; [apply N.mul_le_mono_r; lia|lia]. }
  assert (P : M * J - 1 = (M - 1) * J + (J - 1)).
  { rewrite N.mul_sub_distr_r, N.mul_1_l. assert (J <= M * J) by (rewrite <- (N.mul_1_l J) at 1; apply N.mul_le_mono_r; clear - M0; lia). clear - H J0. lia. }
  assert (P0 : M * J - 1 <> 0).
  { rewrite P. clear - J0. lia. }
  assert (Ma : forall i a, i < M -> a < J -> (i = M - 1 /\ a = J - 1 /\ (i * J + a) mod (M * J - 1) = 0) \/ (i * J + a) mod (M * J - 1) = i * J + a).
  { intros i' a' Hi' Ha'. destruct (N.eq_dec (i' * J + a') (M * J - 1)) as [E'|E'].
    - left. rewrite E', N.mod_same by exact P0. rewrite P in E'. apply U in E'; [|assumption|clear - J0; lia]. tauto.
    - right. apply N.mod_small. specialize (B i' a' Hi' Ha'). rewrite <- P in B. clear - B E'. lia. }
  destruct (Ma i a Hi Ha) as [(E1 & E2 & E3)|E1], (Ma j b Hj Hb) as [(F1 & F2 & F3)|F1].
  - left. split; congruence.
  - right. right. rewrite E3, F1 in E. symmetry in E. apply N.eq_add_0 in E. destruct E as [E ->].
    apply N.eq_mul_0 in E. destruct E as [->|E]; [auto|clear - E J0; lia].
  - right. left. rewrite F3, E1 in E. apply N.eq_add_0 in E. destruct E as [E ->].
    apply N.eq_mul_0 in E. destruct E as [->|E]; [auto|clear - E J0; lia].
  - left. apply U; congruence.
Qed.
(** stream i: jump i times, then call Uint64. State a of stream i equals state b of stream j only if it
    is the same position, or for the one pair of positions where 2^64 streams of 2^192 states exceed
    the period by one state *)
Theorem C13_jumped_streams_disjoint s i j xs ys t t' : xoshi_typed s -> s <> mkXoshi 0 0 0 0 ->
  i < 2 ^ 64 -> j < 2 ^ 64 ->
  runs Xoshiro_Uint64 (times i Xoshiro_Jump s) xs t -> N.of_nat (length xs) < 2 ^ 192 ->
  runs Xoshiro_Uint64 (times j Xoshiro_Jump s) ys t' -> N.of_nat (length ys) < 2 ^ 192 ->
  t = t' ->
  (i = j /\ length xs = length ys) \/
  (i = 0 /\ length xs = O /\ j = 2 ^ 64 - 1 /\ N.of_nat (length ys) = 2 ^ 192 - 1) \/
  (j = 0 /\ length ys = O /\ i = 2 ^ 64 - 1 /\ N.of_nat (length xs) = 2 ^ 192 - 1).
Proof.
  intros T Z Hi Hj Rx Lx Ry Ly E.
  rewrite (runs_iter _ hout xoshi_step xoshi_pure _ _ _ Rx), (runs_iter _ hout xoshi_step xoshi_pure _ _ _ Ry) in E.
  rewrite !jumps_iter, <- !N.iter_add in E by exact T.
  apply (orbit_eq hnz xoshi_step (2 ^ 256 - 1) ord256 hnz_step hnz_order s) in E; [|split; assumption].
  rewrite !(N.add_comm (N.of_nat _)) in E.
  change (2 ^ 256) with (2 ^ 64 * 2 ^ 192) in E.
  apply segments in E; try assumption; try reflexivity.
  destruct E as [(E1 & E2)|[(E1 & E2 & E3 & E4)|(E1 & E2 & E3 & E4)]].
  - left. split; [exact E1|]. now apply Nat2N.inj.
  - right. left. repeat split; try assumption. now apply (Nat2N.inj _ O).
  - right. right. repeat split; try assumption. now apply (Nat2N.inj _ O).
Qed.
(** the exceptional pair is real: the last state of the last stream is the first state of the first *)
Theorem C13_last_stream_meets_first s ys t : xoshi_typed s -> s <> mkXoshi 0 0 0 0 ->
  runs Xoshiro_Uint64 (times (2 ^ 64 - 1) Xoshiro_Jump s) ys t -> N.of_nat (length ys) = 2 ^ 192 - 1 -> t = s.
Proof.
  intros T Z R L. rewrite (runs_iter _ hout xoshi_step xoshi_pure _ _ _ R), L, jumps_iter, <- N.iter_add by exact T.
  apply xoshi_order; [exact T|exact Z|]. exists 1. reflexivity.
Qed.
Example C13_nonvacuous : exists xs t, runs Xoshiro_Uint64 (times 3 Xoshiro_Jump (mkXoshi 1 0 0 0)) xs t /\ N.of_nat (length xs) = 2 ^ 192 - 5.
Proof. destruct (runs_any _ hout xoshi_step xoshi_pure (2 ^ 192 - 5) (times 3 Xoshiro_Jump (mkXoshi 1 0 0 0))) as (xs & L & R). eauto. Qed.

(** ** C14 *)
Theorem C14_reverse_undoes_uint64 s xs s' : xoshi_typed s -> runs Xoshiro_Uint64 s xs s' ->
  times (N.of_nat (length xs)) Xoshiro_Reverse s' = s.
Proof.
  intros T R. rewrite (runs_iter _ hout xoshi_step xoshi_pure _ _ _ R). unfold times.
  induction (N.of_nat (length xs)) as [|n IH] using N.peano_ind; [reflexivity|].
  rewrite N.iter_succ_r, N.iter_succ. rewrite reverse_step by now apply hiter_typed. exact IH.
Qed.
Theorem C14_uint64_undoes_reverse s : xoshi_typed s -> exists x, Xoshiro_Uint64 (Xoshiro_Reverse s) = Ret (x, s).
Proof. intros T. rewrite xoshi_pure, step_reverse by exact T. eauto. Qed.
Example C14_nonvacuous : exists x s', Xoshiro_Uint64 (mkXoshi 1 2 3 4) = Ret (x, s') /\ Xoshiro_Reverse s' = mkXoshi 1 2 3 4 /\ s' <> mkXoshi 1 2 3 4.
Proof. eexists _, _. split; [vm_compute; reflexivity|]. split; [vm_compute; reflexivity|discriminate]. Qed.

(** ** C15 *)
Lemma runs4 s : runs Xoshiro_Uint64 s
  [scr (xx s); scr (xx (xoshi_step s)); scr (xx (xoshi_step (xoshi_step s))); scr (xx (xoshi_step (xoshi_step (xoshi_step s))))]
  (xoshi_step (xoshi_step (xoshi_step (xoshi_step s)))).
Proof. repeat (eapply runs_cons; [apply xoshi_pure|]). apply runs_nil. Qed.
Lemma runs4_iff s a b c d : xoshi_typed s -> w64 a -> w64 b -> w64 c -> w64 d ->
  (exists s', runs Xoshiro_Uint64 s [a; b; c; d] s') <-> s = from4 (unscr a) (unscr b) (unscr c) (unscr d).
Proof.
  intros T Ha Hb Hc Hd. split.
  - intros [s' R]. pose proof (runs_det _ _ _ _ R _ _ (runs4 s) eq_refl) as [E _].
    assert (E0 := f_equal (fun l => nth 0 l 0) E). assert (E1 := f_equal (fun l => nth 1 l 0) E).
    assert (E2 := f_equal (fun l => nth 2 l 0) E). assert (E3 := f_equal (fun l => nth 3 l 0) E). cbn [nth] in E0, E1, E2, E3.
    rewrite E0, E1, E2, E3. 
    assert (Wx : forall t, xoshi_typed t -> w64 (xx t)) by (intros t Ht; apply Ht).
    rewrite !unscr_scr by (apply Wx; repeat apply hstep_typed; exact T).
    symmetry. apply (from4_xs4 s T).
  - intros ->. destruct (xs4_from4 (unscr a) (unscr b) (unscr c) (unscr d)) as [E _]; try apply unscr_w.
    unfold xs4 in E. eexists. pose proof (runs4 (from4 (unscr a) (unscr b) (unscr c) (unscr d))) as R.
    set (s := from4 (unscr a) (unscr b) (unscr c) (unscr d)) in *.
    assert (E0 : xx s = unscr a) by congruence. assert (E1 : xx (xoshi_step s) = unscr b) by congruence.
    assert (E2 : xx (xoshi_step (xoshi_step s)) = unscr c) by congruence.
    assert (E3 : xx (xoshi_step (xoshi_step (xoshi_step s))) = unscr d) by congruence.
    rewrite E0, E1, E2, E3, !scr_unscr in R by assumption. exact R.
Qed.
Theorem C15_every_4_tuple_has_one_state a b c d : w64 a -> w64 b -> w64 c -> w64 d ->
  exists! s, xoshi_typed s /\ exists s', runs Xoshiro_Uint64 s [a; b; c; d] s'.
Proof.
  intros Ha Hb Hc Hd. exists (from4 (unscr a) (unscr b) (unscr c) (unscr d)). split.
  - assert (T : xoshi_typed (from4 (unscr a) (unscr b) (unscr c) (unscr d))) by (apply xs4_from4; apply unscr_w).
    split; [exact T|]. now apply runs4_iff.
  - intros s [T R]. symmetry. now apply runs4_iff in R.
Qed.
Theorem C15_zero_state_iff_zero_tuple s a b c d s' : xoshi_typed s -> w64 a -> w64 b -> w64 c -> w64 d ->
  runs Xoshiro_Uint64 s [a; b; c; d] s' -> (s = mkXoshi 0 0 0 0 <-> (a = 0 /\ b = 0 /\ c = 0 /\ d = 0)).
Proof.
  intros T Ha Hb Hc Hd R. split.
  - intros ->. apply C11_zero_state_is_stuck in R. destruct R as [_ F].
    inversion F as [|? ? F1 F']; subst. inversion F' as [|? ? F2 F'']; subst. inversion F'' as [|? ? F3 F3']; subst.
    inversion F3'; subst. auto.
  - intros (-> & -> & -> & ->). assert (E : exists s', runs Xoshiro_Uint64 s [0; 0; 0; 0] s') by eauto.
    apply (proj1 (runs4_iff s 0 0 0 0 T Ha Hb Hc Hd)) in E.
    rewrite E. vm_compute. reflexivity.
Qed.
Lemma hcode_range a : hnz a -> 1 <= hcode a <= 2 ^ 256 - 1.
Proof.
  intros [T Z]. pose proof (hcode_bound a T) as B. change (2 ^ N.of_nat 256) with (2 ^ 256) in B.
  assert (hcode a <> 0). { intros E. apply Z. apply hcode_inj; [exact T|apply hzero_typed|exact E]. }
  split; [lia|]. lia.
Qed.
Theorem C15_4_equidistributed s a b c d : xoshi_typed s -> s <> mkXoshi 0 0 0 0 ->
  w64 a -> w64 b -> w64 c -> w64 d -> (a, b, c, d) <> (0, 0, 0, 0) ->
  exists! n, n < 2 ^ 256 - 1 /\ occurs_at Xoshiro_Uint64 s n [a; b; c; d].
Proof.
  intros T Z Ha Hb Hc Hd Hz. set (t := from4 (unscr a) (unscr b) (unscr c) (unscr d)).
  assert (Tt : xoshi_typed t) by (apply xs4_from4; apply unscr_w).
  assert (Rt : exists t', runs Xoshiro_Uint64 t [a; b; c; d] t') by now apply runs4_iff.
  assert (Nt : hnz t).
  { split; [exact Tt|]. intros E. destruct Rt as [t' Rt].
    apply (C15_zero_state_iff_zero_tuple t a b c d t' Tt Ha Hb Hc Hd Rt) in E. destruct E as (-> & -> & -> & ->). congruence. }
  destruct (orbit_full hnz xoshi_step (2 ^ 256 - 1) ord256 hnz_step hnz_order hcode
    (fun a b Ha Hb => hcode_inj a b (proj1 Ha) (proj1 Hb)) hcode_range s t (conj T Z) Nt) as (n & Hn & En).
  exists n. split.
  - split; [exact Hn|]. destruct (runs_any _ hout xoshi_step xoshi_pure n s) as (xs & L & R). rewrite En in R.
    destruct Rt as [t' Rt]. exists xs, t, t'. auto.
  - intros m (Hm & xs & t1 & t2 & L & R & R4).
    assert (T1 : xoshi_typed t1) by (rewrite (runs_iter _ hout xoshi_step xoshi_pure _ _ _ R); now apply hiter_typed).
    assert (E1 : t1 = t) by (apply runs4_iff; eauto).
    rewrite (runs_iter _ hout xoshi_step xoshi_pure _ _ _ R), L, <- En in E1. symmetry in E1.
    apply (orbit_inj hnz xoshi_step (2 ^ 256 - 1) ord256 hnz_step hnz_order s); auto. split; assumption.
Qed.
(** hence four consecutive values determine all later ones *)
Theorem C15_four_values_determine_the_stream s t xs ys zs s' t' : xoshi_typed s -> xoshi_typed t -> length xs = 4%nat ->
  runs Xoshiro_Uint64 s (xs ++ ys) s' -> runs Xoshiro_Uint64 t (xs ++ zs) t' -> length ys = length zs -> ys = zs /\ s' = t'.
Proof.
  intros Ts Tt L Rs Rt Ly. destruct xs as [|a [|b [|c [|d [|]]]]]; try discriminate L.
  destruct (runs_split _ _ [a; b; c; d] _ _ Rs) as (s1 & R1 & _). destruct (runs_split _ _ [a; b; c; d] _ _ Rt) as (t1 & R2 & _).
  assert (W : Forall w64 [a; b; c; d]).
  { pose proof (runs_det _ _ _ _ R1 _ _ (runs4 s) eq_refl) as [-> _]. auto using scr_w. }
  inversion W as [|? ? Wa W1]; subst. inversion W1 as [|? ? Wb W2]; subst. inversion W2 as [|? ? Wc W3]; subst. inversion W3 as [|? ? Wd _]; subst.
  assert (E1 : s = from4 (unscr a) (unscr b) (unscr c) (unscr d)) by (apply runs4_iff; eauto).
  assert (E2 : t = from4 (unscr a) (unscr b) (unscr c) (unscr d)) by (apply runs4_iff; eauto).
  assert (E : t = s) by congruence. rewrite E in Rt.
  destruct (runs_det _ _ _ _ Rs _ _ Rt) as [E3 ->]; [rewrite !app_length; lia|]. split; [|reflexivity].
  now apply app_inv_head in E3.
Qed.
Example C15_nonvacuous : exists s', runs Xoshiro_Uint64 (mkXoshi 1 2 3 4) [11520; 0; 1509978240; 1215971899390074240] s'.
Proof.
  eexists. do 4 (eapply runs_cons; [vm_compute; reflexivity|]). apply runs_nil.
Qed.

Print Assumptions C10_xoroshiro_state_period.
Print Assumptions C10_rexoroshiro_state_period.
Print Assumptions C10_xoroshiro_stream_period.
Print Assumptions C10_rexoroshiro_stream_period.
Print Assumptions C10_zero_state_is_stuck.
Print Assumptions C10_xoroshiro_visits_every_state.
Print Assumptions C11_xoshiro_state_period.
Print Assumptions C11_xoshiro_stream_period.
Print Assumptions C11_zero_state_is_stuck.
Print Assumptions C12_jump_is_2_192_steps.
Print Assumptions C13_jumped_streams_disjoint.
Print Assumptions C13_last_stream_meets_first.
Print Assumptions C14_reverse_undoes_uint64.
Print Assumptions C14_uint64_undoes_reverse.
Print Assumptions C15_every_4_tuple_has_one_state.
Print Assumptions C15_zero_state_iff_zero_tuple.
Print Assumptions C15_4_equidistributed.
Print Assumptions C15_four_values_determine_the_stream.
