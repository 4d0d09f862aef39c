(** Properties of LFG: C18, C19, C20, C51. *)
From Coq Require Import Lia ZifyN ZifyNat ZifyBool.
From Verif Require Import Model.Base Model.Xoroshiro Model.LfgTable Model.Lfg Model.Api Spec.Common Spec.States Spec.Kinds.
From Verif Require Import Proofs.WordLemmas Proofs.ReadProofs Proofs.LfgProofs Proofs.LfgSave Proofs.LfgStream Proofs.KindProofs.
Local Open Scope nat_scope.

Lemma useq_recN g n : lfg_ok g -> useq g (n + 335)%N = ((useq g (n + 334) + useq g n) mod 2 ^ 64)%N.
Proof. intros H. rewrite useq_rec by exact H. apply add64_mod. Qed.

(** ** C18 *)
Theorem C18_real_recurrence g xs g' n : reachable gLFG g -> runs LFG_Uint64 g xs g' -> 335 <= n < length xs ->
  nth n xs 0%N = ((nth (n - 1) xs 0 + nth (n - 335) xs 0) mod 2 ^ 64)%N.
Proof.
  intros Hg R Hn. apply lfg_reach_ok in Hg. destruct (runs_useq g xs g' Hg R) as [_ H].
  rewrite !H by lia. rewrite useq_recN by exact Hg. f_equal. f_equal; f_equal; lia.
Qed.
(** hence 335 consecutive values determine everything that follows *)
Theorem C18_335_values_determine_the_stream g h xs ys zs g' h' : reachable gLFG g -> reachable gLFG h ->
  length xs = 335 -> runs LFG_Uint64 g (xs ++ ys) g' -> runs LFG_Uint64 h (xs ++ zs) h' -> length ys = length zs -> ys = zs.
Proof.
  intros Hg Hh L Rg Rh Ly. pose proof (C18_real_recurrence g (xs ++ ys) g') as Cg. pose proof (C18_real_recurrence h (xs ++ zs) h') as Ch.
  assert (E : forall n, n < length (xs ++ ys) -> nth n (xs ++ ys) 0%N = nth n (xs ++ zs) 0%N).
  { intros n. induction n as [n IH] using lt_wf_ind. intros Hn. destruct (Nat.lt_ge_cases n 335) as [H|H].
    - rewrite !app_nth1 by lia. reflexivity.
    - rewrite (Cg n Hg Rg) by lia. rewrite (Ch n Hh Rh) by (rewrite app_length in *; lia).
      rewrite (IH (n - 1)) by lia. rewrite (IH (n - 335)) by lia. reflexivity. }
  apply (list_eq_nth 0%N); [exact Ly|]. intros j Hj. specialize (E (335 + j)).
  rewrite !app_nth2 in E by lia. replace (335 + j - length xs) with j in E by lia. apply E. rewrite app_length. lia.
Qed.
(** the first values returned from a state, computed *)
Fixpoint first_values (n : nat) (g : lfg) : list N * lfg :=
  match n with
  | O => ([], g)
  | S n => match LFG_Uint64 g with Ret (x, g) => let (xs, g') := first_values n g in (x :: xs, g') | _ => ([], g) end
  end.
Lemma first_values_runs n : forall g, runs LFG_Uint64 g (fst (first_values n g)) (snd (first_values n g)).
Proof.
  induction n as [|n IH]; intros g; cbn [first_values]; [constructor|].
  destruct (LFG_Uint64 g) as [[x g1]| |] eqn:E; [|constructor|constructor].
  specialize (IH g1). destruct (first_values n g1) as [xs g2]. cbn [fst snd] in *. econstructor; eauto.
Qed.
Lemma doc_check : match LFG_SeedIV NewLFG [] with
  | Ret g => let xs := fst (first_values 608 g) in
      (length xs =? 608) && negb (nth 607 xs 0 =? (nth (607 - 273) xs 0 + nth (607 - 607) xs 0) mod 2 ^ 64)%N &&
      N.odd (nth 0 xs 0%N)
  | _ => false end = true.
Proof. vm_cast_no_check (eq_refl true). Qed.
Lemma lfg_seednil : exists g, LFG_SeedIV NewLFG [] = Ret g /\ reachable gLFG g /\ exists xs g', runs LFG_Uint64 g xs g' /\
  length xs = 608 /\ nth 607 xs 0%N <> ((nth (607 - 273) xs 0 + nth (607 - 607) xs 0) mod 2 ^ 64)%N /\ N.odd (nth 0 xs 0%N) = true.
Proof.
  pose proof doc_check as C. destruct (LFG_SeedIV NewLFG []) as [g| |] eqn:E; try discriminate C.
  exists g. split; [reflexivity|]. split.
  { apply (reach_step apiLFG NewLFG (OpSeedIV []) ObsNone g (reach_new apiLFG)); [constructor|].
    cbn [exec a_SeedIV apiLFG]. rewrite E. reflexivity. }
  pose proof (first_values_runs 608 g) as R. destruct (first_values 608 g) as [xs g']. cbn [fst snd] in *.
  apply andb_prop in C. destruct C as [C Co]. apply andb_prop in C. destruct C as [Cl Cn].
  exists xs, g'. split; [exact R|]. split; [now apply Nat.eqb_eq|]. split; [|exact Co].
  apply negb_true_iff in Cn. now apply N.eqb_neq.
Qed.
(** lfg.go:13-16: "S[n] = f(S[n-j], S[n-k])" with f addition, j = 273, k = 607 *)
Theorem C18_documented_recurrence_false : exists g xs g' n, LFG_SeedIV NewLFG [] = Ret g /\ reachable gLFG g /\
  runs LFG_Uint64 g xs g' /\ 607 <= n < length xs /\
  nth n xs 0%N <> ((nth (n - 273) xs 0 + nth (n - 607) xs 0) mod 2 ^ 64)%N.
Proof.
  destruct lfg_seednil as (g & E & Hg & xs & g' & R & L & D & _). exists g, xs, g', 607.
  split; [exact E|]. split; [exact Hg|]. split; [exact R|]. split; [lia|exact D].
Qed.
Example C18_nonvacuous : exists g xs g', reachable gLFG g /\ runs LFG_Uint64 g xs g' /\ length xs = 608 /\ nth 0 xs 0%N <> 0%N.
Proof.
  destruct lfg_seednil as (g & _ & Hg & xs & g' & R & L & _ & O). exists g, xs, g'.
  repeat (split; [assumption|]). intros Z. rewrite Z in O. discriminate O.
Qed.

(** ** C19 *)
Theorem C19_seediv_ignores_positions old iv iv' : any_value gLFG old -> length iv = length iv' ->
  (forall i, i < length iv -> i mod 607 = 0 \/ 273 <= i mod 607 -> nth i iv 0%N = nth i iv' 0%N) ->
  LFG_SeedIV old iv = LFG_SeedIV old iv'.
Proof. intros [L _] E H. apply LFG_SeedIV_collide; auto. Qed.
Theorem C19_seed_uses_only_8_bits old old' x y : any_value gLFG old -> any_value gLFG old' -> w64 x -> w64 y ->
  (x mod 256 = y mod 256)%N -> LFG_Seed old x = LFG_Seed old' y.
Proof.
  intros [L W] [L' W'] Hx Hy E. unfold LFG_Seed. rewrite (LFG_SeedIV_history old' old) by assumption.
  apply C19_seediv_ignores_positions; [split; assumption|reflexivity|].
  intros i Hi Hp. change (length (seed_bytes x)) with 8 in Hi.
  assert (i = 0) by lia. subst i. cbn [seed_bytes le_bytes nth]. change 255%N with (N.ones 8). rewrite !N.land_ones. exact E.
Qed.
(** at most 256 generators are reachable through Seed *)
Theorem C19_seed_gives_at_most_256_generators old : any_value gLFG old -> exists l, length l = 256 /\
  forall x, w64 x -> In (LFG_Seed old x) l.
Proof.
  intros H. exists (map (fun k => LFG_Seed old (N.of_nat k)) (seq 0 256)). split; [now rewrite map_length, seq_length|].
  intros x Hx. apply in_map_iff. exists (N.to_nat (x mod 256)). rewrite N2Nat.id. split.
  - apply C19_seed_uses_only_8_bits; auto. { pose proof (N.mod_lt x 256). unfold w64. lia. } now rewrite N.mod_mod.
  - apply in_seq. pose proof (N.mod_lt x 256). lia.
Qed.
Example C19_nonvacuous : any_value gLFG NewLFG /\ LFG_SeedIV NewLFG [1; 2; 3]%N = LFG_SeedIV NewLFG [1; 200; 7]%N.
Proof.
  assert (T : any_value gLFG NewLFG) by (split; apply lfg_new_ok). split; [exact T|].
  apply C19_seediv_ignores_positions; [exact T|reflexivity|]. intros i Hi Hp. cbn [length] in Hi.
  assert (i = 0) by lia. now subst i.
Qed.

(** ** C20 *)
Theorem C20_never_panics os : Forall op_ok os -> exists bs g, exec_all apiLFG NewLFG os = Ret (bs, g).
Proof.
  intros H. destruct (lfg_sim_exec_all os NewLFG NewLFG (lfg_sim_refl _ lfg_new_ok) H) as (bs & g & h & E & _). eauto.
Qed.
(** a zero-value LFG works once it has been seeded or restored *)
Theorem C20_zero_value_seeded iv : Forall isbyte iv -> LFG_SeedIV LFG_zero iv = LFG_SeedIV NewLFG iv.
Proof. intros _. apply LFG_SeedIV_history; apply zeros_length. Qed.
Lemma zero_step k : k < 606 -> LFG_Uint64 (mkLFG k k (zeros 607)) = Ret (0%N, mkLFG (S k) (S k) (zeros 607)).
Proof.
  intros Hk. unfold LFG_Uint64. cbn [ls lf lt].
  assert (G : forall n i, i < n -> aget (zeros n) i = Ret 0%N).
  { intros n i Hi. unfold aget, zeros. rewrite nth_error_repeat by exact Hi. reflexivity. }
  rewrite G by lia. cbn [bind]. rewrite (proj2 (Nat.leb_gt lfgK (S k))) by (unfold lfgK; lia).
  unfold aset. rewrite zeros_length, (proj2 (Nat.ltb_lt (S k) 607)) by lia. cbn [bind]. f_equal. f_equal. f_equal.
  generalize (S k), 607. intros a b. revert a. induction b as [|b IH]; intros [|a]; cbn [zeros repeat lupd]; [reflexivity..|].
  f_equal. apply IH.
Qed.
Lemma zero_runs j : forall k, j + k = 606 -> runs LFG_Uint64 (mkLFG k k (zeros 607)) (repeat 0%N j) (mkLFG 606 606 (zeros 607)).
Proof.
  induction j as [|j IH]; intros k Hk; cbn [repeat].
  - replace k with 606 by lia. constructor.
  - econstructor; [apply zero_step; lia|]. apply IH. lia.
Qed.
Theorem C20_zero_value_panics_on_call_608 :
  exists g, runs LFG_Uint64 LFG_zero (repeat 0%N 607) g /\ LFG_Uint64 g = Panic.
Proof.
  eexists. split.
  - change 607 with (606 + 1). rewrite repeat_app. apply runs_app with (mkLFG 606 606 (zeros 607)); [apply zero_runs; lia|].
    econstructor; [reflexivity|constructor].
  - reflexivity.
Qed.
Example C20_nonvacuous : Forall op_ok [OpSeedIV [255; 0]%N; OpRead (zeros 5); OpSave; OpSeed 7; OpUint64;
  OpRestore (fun p => (map (fun _ => 255%N) p, lfgK * 8, Some EOF)); OpUint64].
Proof.
  repeat (apply Forall_cons; [solve [repeat constructor]|]). apply Forall_cons; [|repeat constructor].
  intros p Hp. cbn [fst]. split; [apply map_length|].
  apply Forall_forall. intros x Hx. apply in_map_iff in Hx. destruct Hx as (y & <- & _). reflexivity.
Qed.

(** ** C51 *)
Lemma lfgT_small : (0 <? lfgT)%N && (lfgT <? 2 ^ 362)%N = true.
Proof. vm_cast_no_check (eq_refl true). Qed.
Theorem C51_actual_period : exists p, (0 < p < 2 ^ 362)%N /\ forall g, reachable gLFG g -> stream_period LFG_Uint64 g p.
Proof.
  exists lfgT. pose proof lfgT_small as C. apply andb_prop in C. destruct C as [C1 C2]. apply N.ltb_lt in C1, C2.
  split; [split; assumption|]. clear C1 C2. intros g Hg xs s' n R Hn. apply lfg_reach_ok in Hg.
  destruct (runs_useq g xs s' Hg R) as [_ H]. pose proof (fun m => useq_period g m Hg) as P.
  revert P Hn. generalize lfgT. intros T P Hn. rewrite !H by lia. rewrite <- (P (N.of_nat n + 335)%N). f_equal. lia.
Qed.
Lemma lfg_gcd_check : (N.gcd (Npos lfgE) (2 ^ 670 - 2 ^ 63) =? 1)%N = true.
Proof. vm_cast_no_check (eq_refl true). Qed.
Lemma coprime_periods_const (v : N -> bool) a b : (0 < a)%N -> N.gcd a b = 1%N ->
  (forall n, v (n + a)%N = v n) -> (forall n, v (n + b)%N = v n) -> forall n, v (n + 1)%N = v n.
Proof.
  intros Ha G Pa Pb.
  assert (M : forall c, (forall n, v (n + c)%N = v n) -> forall k n, v (n + k * c)%N = v n).
  { intros c Pc k. induction k as [|k IH] using N.peano_ind; intros n; [f_equal; lia|].
    replace (n + N.succ k * c)%N with (n + k * c + c)%N by lia. now rewrite Pc, IH. }
  destruct (N.gcd_bezout_pos a b Ha) as (x & y & B). rewrite G in B. intros n.
  rewrite <- (M b Pb y (n + 1)%N), <- (M a Pa x n), B. f_equal. lia.
Qed.
Lemma runs_exist_lfg (n : nat) g : lfg_ok g -> exists xs g', runs LFG_Uint64 g xs g' /\ length xs = n.
Proof. intros H. destruct (runs_total LFG_Uint64 lfg_ok lfg_total n g H) as (xs & g' & R & L & _). eauto. Qed.
(** lfg.go:16: "This yields a period of (2**k - 1) * m/2 = 2**670 - 2**63." It is not even a multiple of the
    period, unless the stream consists of even numbers only. *)
Theorem C51_documented_period_is_not_a_period g xs g' x : reachable gLFG g -> runs LFG_Uint64 g xs g' ->
  In x xs -> N.odd x = true -> ~ stream_period LFG_Uint64 g (2 ^ 670 - 2 ^ 63).
Proof.
  intros Hg R Hx Ho P. apply lfg_reach_ok in Hg.
  set (v := fun n => N.odd (useq g (n + 335))).
  assert (Rec : forall n, v (n + 335)%N = xorb (v (n + 334)%N) (v n)).
  { intros n. unfold v. replace (n + 334 + 335)%N with (n + 335 + 334)%N by lia. rewrite useq_recN by exact Hg.
    rewrite <- N.odd_add, <- !N.bit0_odd, N.mod_pow2_bits_low by lia. reflexivity. }
  pose proof (lfg_bits_period v Rec) as PE. pose proof lfg_gcd_check as G. apply N.eqb_eq in G.
  assert (PD : forall n, v (n + (2 ^ 670 - 2 ^ 63))%N = v n).
  { revert P. clear G. generalize (2 ^ 670 - 2 ^ 63)%N. intros D P n. unfold v.
    destruct (runs_exist_lfg (N.to_nat (n + D + 1)) g Hg) as (ys & h & Ry & Ly).
    specialize (P ys h (N.to_nat n) Ry). rewrite Ly in P. destruct (runs_useq g ys h Hg Ry) as [_ H].
    rewrite !H in P by lia. f_equal. rewrite Nat2N.inj_add, !N2Nat.id in P. apply P. lia. }
  pose proof (coprime_periods_const v _ _ (eq_refl : 0 < Npos lfgE)%N G PE PD) as C.
  assert (C0 : forall n, v n = v 0%N).
  { intros n. induction n as [|n IH] using N.peano_ind; [reflexivity|]. rewrite <- N.add_1_r, C. exact IH. }
  apply In_nth with (d := 0%N) in Hx. destruct Hx as (k & Hk & <-). destruct (runs_useq g xs g' Hg R) as [_ H].
  rewrite H in Ho by exact Hk. fold (v (N.of_nat k)) in Ho. specialize (Rec 0%N).
  rewrite (C0 (0 + 335)%N), (C0 (0 + 334)%N) in Rec. rewrite C0 in Ho. rewrite Ho in Rec. discriminate Rec.
Qed.
Example C51_nonvacuous : exists g xs g' x, reachable gLFG g /\ runs LFG_Uint64 g xs g' /\ In x xs /\ N.odd x = true.
Proof.
  destruct lfg_seednil as (g & _ & Hg & xs & g' & R & L & _ & O). exists g, xs, g', (nth 0 xs 0%N).
  split; [exact Hg|]. split; [exact R|]. split; [apply nth_In; lia|exact O].
Qed.

Print Assumptions C18_real_recurrence.
Print Assumptions C18_335_values_determine_the_stream.
Print Assumptions C18_documented_recurrence_false.
Print Assumptions C19_seediv_ignores_positions.
Print Assumptions C19_seed_uses_only_8_bits.
Print Assumptions C19_seed_gives_at_most_256_generators.
Print Assumptions C20_never_panics.
Print Assumptions C20_zero_value_panics_on_call_608.
Print Assumptions C20_zero_value_seeded.
Print Assumptions C51_actual_period.
Print Assumptions C51_documented_period_is_not_a_period.
