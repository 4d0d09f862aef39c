(** Properties C64: the lowest output bit of Xoroshiro is a linear recurring sequence, and reveals the state. *)
From Coq Require Import Lia ZifyN ZifyNat ZifyBool.
From Verif Require Import Model.Base Model.Xoroshiro Model.Api Spec.Common Spec.States Spec.Lfsr.
From Verif Require Import Proofs.WordLemmas Proofs.ReadProofs Proofs.PureGen Proofs.Gf2 Proofs.PolyCert
  Proofs.XoroProofs Proofs.XoroSeed Props.Periods.
Local Open Scope N_scope.

(** polynomials, as lists of coefficients from the constant one up, in the transition function *)
Fixpoint lapp (c : list bool) (v : xoro) : xoro :=
  match c with [] => xzero | a :: c' => xadd (if a then v else xzero) (xstep (lapp c' v)) end.
Fixpoint lcode (c : list bool) : N :=
  match c with [] => 0 | true :: c' => N.succ_double (lcode c') | false :: c' => N.double (lcode c') end.
Lemma lapp_code c v : xoro_typed v -> lapp c v = pap xzero xadd xstep (lcode c) v.
Proof.
  intros Hv. induction c as [|[|] c IH]; cbn [lapp lcode]; [reflexivity| |]; rewrite IH.
  - symmetry. apply (pap_succ_double xzero xadd xoro_typed xstep xadd_comm xadd_0 xadd_self xzero_typed xstep_add).
  - rewrite xadd_0. symmetry. apply (pap_double xzero xadd xoro_typed xstep xadd_self xzero_typed xstep_add).
Qed.
Lemma lapp_typed c v : xoro_typed v -> xoro_typed (lapp c v).
Proof.
  intros Hv. induction c as [|a c IH]; cbn [lapp]; [apply xzero_typed|]. apply xadd_typed; [destruct a; [exact Hv|apply xzero_typed]|].
  now apply xstep_typed.
Qed.
Lemma lapp_step c v : xoro_typed v -> lapp c (xstep v) = xstep (lapp c v).
Proof.
  intros Hv. induction c as [|a c IH]; cbn [lapp]; [now rewrite xstep_0|]. rewrite IH.
  rewrite xstep_add; [|destruct a; [exact Hv|apply xzero_typed]|apply xstep_typed; now apply lapp_typed].
  destruct a; [reflexivity|]. now rewrite xstep_0.
Qed.
Lemma iter_typed n v : xoro_typed v -> xoro_typed (N.iter n xstep v).
Proof. intros T. apply (xiter_add n v v T T). Qed.
Lemma lapp_iter c n v : xoro_typed v -> lapp c (N.iter n xstep v) = N.iter n xstep (lapp c v).
Proof.
  intros Hv. induction n as [|n IH] using N.peano_ind; [reflexivity|].
  rewrite !N.iter_succ, lapp_step by (now apply iter_typed). now rewrite IH.
Qed.
(** the low bits from v on *)
Definition lows (v : xoro) (k : nat) : list bool := map (fun i => xlow (N.iter (N.of_nat i) xstep v)) (seq 0 k).
Lemma lows_S v k : lows v (S k) = xlow v :: lows (xstep v) k.
Proof.
  unfold lows. cbn [seq map]. f_equal. rewrite <- seq_shift, map_map. apply map_ext. intros i.
  now rewrite Nat2N.inj_succ, N.iter_succ_r.
Qed.
Lemma xlow_zero : xlow xzero = false. Proof. reflexivity. Qed.
Lemma xlow_lapp c v k : xoro_typed v -> (length c <= k)%nat -> xlow (lapp c v) = dot c (lows v k).
Proof.
  intros Hv. revert v k Hv. induction c as [|a c IH]; intros v k Hv Hk; cbn [lapp dot]; [reflexivity|].
  cbn [length] in Hk. destruct k as [|k]; [lia|]. rewrite lows_S. cbn [dot].
  rewrite <- lapp_step by exact Hv. rewrite xlow_add, (IH (xstep v) k) by (try apply xstep_typed; assumption || lia).
  destruct a; [reflexivity|]. now rewrite xlow_zero.
Qed.
Lemma dot_app c b bits : (length c < length bits)%nat -> dot (c ++ [b]) bits = xorb (dot c bits) (b && nth (length c) bits false).
Proof.
  revert bits. induction c as [|a c IH]; intros [|x bits] H; cbn [length] in H; try lia.
  - cbn. destruct b, x; reflexivity.
  - cbn [app dot length nth]. rewrite IH by lia. rewrite xorb_assoc. reflexivity.
Qed.
Lemma lows_length v k : length (lows v k) = k.
Proof. unfold lows. now rewrite map_length, seq_length. Qed.
Lemma lows_skip v k n : (n <= k)%nat -> skipn n (lows v k) = lows (N.iter (N.of_nat n) xstep v) (k - n).
Proof.
  revert v k. induction n as [|n IH]; intros v k H; [now rewrite Nat.sub_0_r|].
  destruct k as [|k]; [lia|]. rewrite lows_S. cbn [skipn]. rewrite IH by lia. rewrite Nat2N.inj_succ, N.iter_succ_r. reflexivity.
Qed.
Lemma lows_nth v k i : (i < k)%nat -> nth i (lows v k) false = xlow (N.iter (N.of_nat i) xstep v).
Proof.
  intros H. unfold lows. rewrite nth_indep with (d' := xlow (N.iter (N.of_nat 0) xstep v)) by now rewrite map_length, seq_length.
  rewrite (map_nth (fun i => xlow (N.iter (N.of_nat i) xstep v))), seq_nth by exact H. reflexivity.
Qed.
Lemma dot_firstn c bits k : (length c <= k)%nat -> dot c (firstn k bits) = dot c bits.
Proof.
  revert bits k. induction c as [|a c IH]; intros bits k H; [reflexivity|]. destruct k as [|k]; cbn [length] in H; [lia|].
  destruct bits as [|b bits]; [reflexivity|]. cbn [firstn dot]. now rewrite IH by lia.
Qed.
(** what following a recurrence means for the state *)
Lemma follows_iff c v k : xoro_typed v ->
  follows_recurrence c (lows v k) <-> forall n, (n + length c < k)%nat -> xlow (N.iter (N.of_nat n) xstep (lapp (c ++ [true]) v)) = false.
Proof.
  intros Hv. unfold follows_recurrence. rewrite lows_length.
  assert (E : forall n, (n + length c < k)%nat -> xlow (N.iter (N.of_nat n) xstep (lapp (c ++ [true]) v)) =
    xorb (dot c (skipn n (lows v k))) (nth (n + length c) (lows v k) false)).
  { intros n Hn. rewrite <- lapp_iter by exact Hv.
    rewrite (xlow_lapp (c ++ [true]) _ (k - n)); [|now apply iter_typed|rewrite app_length; change (length [true]) with 1%nat; lia].
    rewrite <- lows_skip by lia. rewrite dot_app by (rewrite skipn_length, lows_length; lia). cbn [andb].
    f_equal. rewrite <- (firstn_skipn n (lows v k)) at 2. rewrite app_nth2; rewrite firstn_length, lows_length, Nat.min_l by lia; [|lia].
    f_equal. lia. }
  split; intros H n Hn; specialize (H n Hn); specialize (E n Hn).
  - rewrite E, H. apply xorb_nilpotent.
  - rewrite E in H. apply xorb_eq in H. now symmetry.
Qed.
Lemma runs_lows s xs s' : runs Xoroshiro_Uint64 s xs s' -> map N.odd xs = lows s (length xs).
Proof.
  intros R. induction R as [s|s x s1 xs s' Hx _ IH]; [reflexivity|]. rewrite xoro_pure in Hx. inversion Hx; subst.
  cbn [map length]. rewrite lows_S, IH, xlow_out. reflexivity.
Qed.

(** the recurrence *)
Definition low_taps : list bool := map (fun i => N.testbit xoro_P (N.of_nat i)) (seq 0 128).
Lemma low_taps_code : lcode (low_taps ++ [true]) = xoro_P. Proof. vm_compute. reflexivity. Qed.
Lemma xoro_follows s k : xoro_typed s -> follows_recurrence low_taps (lows s k).
Proof.
  intros T. apply follows_iff; [exact T|]. intros n _.
  rewrite lapp_code, low_taps_code, xoro_kills by exact T. rewrite xiter_0. apply xlow_zero.
Qed.
(** 128 zero bits mean the zero state *)
Lemma lows_zero v : xoro_typed v -> (forall n, (n < 128)%nat -> xlow (N.iter (N.of_nat n) xstep v) = false) -> v = xzero.
Proof.
  intros T H.
  assert (A : forall n, xlow (N.iter (N.of_nat n) xstep v) = false).
  { intros n. induction n as [n IH] using lt_wf_ind. destruct (Nat.lt_ge_cases n 128) as [L|L]; [now apply H|].
    pose proof (xoro_follows v (S n) T (n - 128)%nat) as F. rewrite lows_length in F.
    change (length low_taps) with 128%nat in F. replace (n - 128 + 128)%nat with n in F by lia.
    rewrite lows_nth in F by lia. rewrite F by lia.
    assert (D : forall c bits, Forall (eq false) bits -> dot c bits = false).
    { clear. induction c as [|a c IH]; intros [|b bits] Fb; try reflexivity. inversion Fb; subst. cbn [dot]. rewrite IH by assumption. now destruct a. }
    rewrite <- (dot_firstn low_taps _ 128) by (cbn; lia). apply D. apply Forall_forall. intros b Hb.
    apply In_nth with (d := false) in Hb. destruct Hb as (i & Hi & <-).
    rewrite firstn_length, skipn_length, lows_length in Hi.
    rewrite <- (firstn_skipn 128 (skipn (n - 128) (lows v (S n)))) in *.
    replace (nth i (firstn 128 (firstn 128 (skipn (n - 128) (lows v (S n))) ++ skipn 128 (skipn (n - 128) (lows v (S n))))) false)
      with (nth i (skipn (n - 128) (lows v (S n))) false).
    2:{ rewrite firstn_skipn. rewrite <- (firstn_skipn 128 (skipn (n - 128) (lows v (S n)))) at 1. apply app_nth1.
        rewrite firstn_length, skipn_length, lows_length. lia. }
    rewrite lows_skip, lows_nth by lia. rewrite <- N.iter_add. rewrite <- Nat2N.inj_add. symmetry. apply IH. lia. }
  destruct (xoro_eq_dec v xzero) as [E|Z]; [exact E|exfalso].
  destruct (xoro_orbit v (mkXoro 1 0)) as (n & _ & En); [now split|split; [split; reflexivity|discriminate]|].
  specialize (A (N.to_nat n)). rewrite N2Nat.id, En in A. discriminate.
Qed.
(** a state whose first 127 low bits are 0 and the next 1 *)
Definition late : xoro := mkXoro 5886543427664187442 8020724265318011134.
Lemma late_lows : lows late 128 = repeat false 127 ++ [true]. Proof. vm_compute. reflexivity. Qed.
Lemma late_typed : xoro_typed late. Proof. split; reflexivity. Qed.
Lemma late_nz : late <> xzero. Proof. discriminate. Qed.
Lemma lapp_nonzero c s : xoro_typed s -> s <> xzero -> (length c < 128)%nat -> lapp (c ++ [true]) s <> xzero.
Proof.
  intros T Z L E. destruct (xoro_orbit s late (conj T Z) (conj late_typed late_nz)) as (n & _ & En).
  assert (K : lapp (c ++ [true]) late = xzero) by (rewrite <- En, lapp_iter, E by exact T; apply xiter_0).
  assert (F : xlow (N.iter (N.of_nat (127 - length c)) xstep (lapp (c ++ [true]) late)) = false) by (rewrite K, xiter_0; apply xlow_zero).
  rewrite <- lapp_iter in F by apply late_typed.
  rewrite (xlow_lapp _ _ (128 - (127 - length c))) in F; [|apply iter_typed, late_typed|rewrite app_length; change (length [true]) with 1%nat; lia].
  rewrite <- lows_skip in F by lia. rewrite late_lows in F.
  assert (Sk : skipn (127 - length c) (repeat false 127 ++ [true]) = repeat false (length c) ++ [true]).
  { rewrite skipn_app, repeat_length. replace (127 - length c - 127)%nat with 0%nat by lia. cbn [skipn]. f_equal.
    replace (repeat false 127) with (repeat false (127 - length c) ++ repeat false (length c)).
    - rewrite skipn_app, repeat_length, Nat.sub_diag. cbn [skipn].
      replace (skipn (127 - length c) (repeat false (127 - length c))) with (@nil bool); [reflexivity|].
      symmetry. apply skipn_all2. now rewrite repeat_length.
    - rewrite <- repeat_app. f_equal. lia. }
  rewrite Sk in F. clear - F. induction c as [|a c IH]; [discriminate|]. cbn [length app repeat dot] in F.
  rewrite andb_false_r, xorb_false_l in F. auto.
Qed.

(** ** C64 *)
Fixpoint collect (n : nat) (s : xoro) : list N * xoro :=
  match n with O => ([], s) | S n => let (xs, t) := collect n (xstep s) in (xout s :: xs, t) end.
(** one recurrence of order 128 holds for the low bits of every stream *)
Theorem C64_low_bits_follow_a_recurrence : exists c, length c = 128%nat /\
  forall s xs s', xoro_typed s -> runs Xoroshiro_Uint64 s xs s' -> follows_recurrence c (map N.odd xs).
Proof.
  exists low_taps. split; [reflexivity|]. intros s xs s' T R. rewrite (runs_lows s xs s' R). now apply xoro_follows.
Qed.
(** and no shorter one does, not even for 256 values of one stream *)
Theorem C64_no_shorter_recurrence s xs s' c : xoro_typed s -> s <> mkXoro 0 0 ->
  runs Xoroshiro_Uint64 s xs s' -> (256 <= length xs)%nat -> follows_recurrence c (map N.odd xs) -> (128 <= length c)%nat.
Proof.
  intros T Z R L F. destruct (Nat.lt_ge_cases (length c) 128) as [H|H]; [exfalso|exact H].
  rewrite (runs_lows s xs s' R), follows_iff in F by exact T.
  apply (lapp_nonzero c s T Z H). apply lows_zero; [now apply lapp_typed|]. intros n Hn. apply F. lia.
Qed.
(** the low bits of 128 consecutive values determine the state, hence all values *)
Theorem C64_low_bits_reveal_the_state s t xs ys s' t' : xoro_typed s -> xoro_typed t ->
  runs Xoroshiro_Uint64 s xs s' -> runs Xoroshiro_Uint64 t ys t' -> length xs = 128%nat -> length ys = 128%nat ->
  map N.odd xs = map N.odd ys -> s = t.
Proof.
  intros Ts Tt Rs Rt Ls Lt E. rewrite (runs_lows s xs s' Rs), (runs_lows t ys t' Rt), Ls, Lt in E.
  assert (Z : xadd s t = xzero).
  { apply lows_zero; [now apply xadd_typed|]. intros n Hn. destruct (xiter_add (N.of_nat n) s t Ts Tt) as (A & _).
    rewrite A, xlow_add, <- (lows_nth s 128), <- (lows_nth t 128), E by exact Hn. apply xorb_nilpotent. }
  destruct s as [a b], t as [c d]. unfold xadd, xzero in Z. cbn [xo0 xo1] in Z.
  injection Z as E1 E2. apply N.lxor_eq in E1, E2. congruence.
Qed.

(** ** Rexoroshiro: the same bit, moved to position 56 *)
Lemma le_val_snoc l b : le_val (l ++ [b]) = le_val l + 256 ^ N.of_nat (length l) * b.
Proof.
  induction l as [|a l IH]; [cbn [app le_val length]; change (256 ^ N.of_nat 0) with 1; lia|].
  cbn [app le_val length]. rewrite IH, pow256_S. lia.
Qed.
Lemma rev_low_bit x : N.testbit (rev_bytes64 x) 56 = N.odd x.
Proof.
  unfold rev_bytes64. change (le_bytes 8 x) with (N.land x 255 :: le_bytes 7 (N.shiftr x 8)). cbn [rev].
  rewrite le_val_snoc. set (l := rev (le_bytes 7 (N.shiftr x 8))).
  assert (L : length l = 7%nat) by (unfold l; now rewrite rev_length, le_bytes_length).
  assert (B : le_val l < 256 ^ N.of_nat (length l)) by (apply le_val_bound, Forall_rev, le_bytes_isbyte).
  rewrite L in *. change (256 ^ N.of_nat 7) with (2 ^ 56) in *.
  rewrite <- (N.add_0_l 56) at 2. rewrite <- N.div_pow2_bits.
  rewrite N.mul_comm, N.div_add, N.div_small, N.add_0_l by (exact B || discriminate).
  rewrite N.land_spec. change (N.testbit 255 0) with true. rewrite andb_true_r. apply N.bit0_odd.
Qed.
Lemma rex_runs s xs s' : runs Rexoroshiro_Uint64 s xs s' ->
  exists ys, runs Xoroshiro_Uint64 s ys s' /\ length ys = length xs /\ map (fun x => N.testbit x 56) xs = map N.odd ys.
Proof.
  intros R. induction R as [s|s x s1 xs s' Hx _ (ys & Ry & L & E)]; [exists []; repeat split; constructor|].
  rewrite rex_pure in Hx. inversion Hx; subst. exists (xout s :: ys). split; [econstructor; [apply xoro_pure|exact Ry]|].
  cbn [length map]. split; [now rewrite L|]. now rewrite rev_low_bit, E.
Qed.
Theorem C64_rexoroshiro_bit_56 : exists c, length c = 128%nat /\
  (forall s xs s', xoro_typed s -> runs Rexoroshiro_Uint64 s xs s' -> follows_recurrence c (map (fun x => N.testbit x 56) xs)) /\
  (forall s xs s' c', xoro_typed s -> s <> mkXoro 0 0 -> runs Rexoroshiro_Uint64 s xs s' -> (256 <= length xs)%nat ->
     follows_recurrence c' (map (fun x => N.testbit x 56) xs) -> (128 <= length c')%nat).
Proof.
  destruct C64_low_bits_follow_a_recurrence as (c & L & H). exists c. split; [exact L|]. split.
  - intros s xs s' T R. destruct (rex_runs s xs s' R) as (ys & Ry & Ly & ->). eauto.
  - intros s xs s' c' T Z R Lx F. destruct (rex_runs s xs s' R) as (ys & Ry & Ly & E). rewrite E in F.
    apply (C64_no_shorter_recurrence s ys s' c' T Z Ry); [now rewrite Ly|exact F].
Qed.
(** a concrete stream the hypotheses cover, and a recurrence of order 128 that it does not follow *)
Example C64_nonvacuous : exists xs s', runs Xoroshiro_Uint64 (mkXoro 1 2) xs s' /\ length xs = 300%nat /\
  firstn 6 xs = [3; 36029003177443331; 78883775479546723; 11565523463456473958; 4242646275387589636; 256749404433942852] /\
  ~ follows_recurrence (repeat false 128) (map N.odd xs).
Proof.
  exists (fst (collect 300 (mkXoro 1 2))), (snd (collect 300 (mkXoro 1 2))).
  assert (G : forall n s, runs Xoroshiro_Uint64 s (fst (collect n s)) (snd (collect n s)) /\ length (fst (collect n s)) = n).
  { induction n as [|n IH]; intros s; cbn [collect]; [split; [constructor|reflexivity]|].
    destruct (IH (xstep s)) as [R L]. destruct (collect n (xstep s)) as [ys t]. cbn [fst snd] in *.
    split; [econstructor; [apply xoro_pure|exact R]|cbn; now rewrite L]. }
  split; [apply G|]. split; [apply G|]. split; [vm_compute; reflexivity|].
  intros F. specialize (F 2%nat ltac:(apply Nat.ltb_lt; vm_compute; reflexivity)). vm_compute in F. discriminate F.
Qed.
