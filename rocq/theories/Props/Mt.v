(** Properties of MT64: C16, C17, C21, C50 (and MT64's part of C22, C23). *)
From Coq Require Import Lia ZifyN ZifyNat ZifyBool.
From Verif Require Import Model.Base Model.Lfg Model.Mt64 Model.Api Spec.Common Spec.States Spec.Kinds Spec.MtRef.
From Verif Require Import Proofs.WordLemmas Proofs.ReadProofs Proofs.MtProofs Proofs.MtSeed Proofs.KindProofs Proofs.XoroSeed.
Local Open Scope nat_scope.

Lemma mt_new_length : length (ms NewMT64) = 312.
Proof. reflexivity. Qed.

(** ** C16 *)
Theorem C16_outputs_are_tempered_recurrence g : mt_typed g -> exists u,
  mt_recurrence u /\ (forall n, n < 312 -> u n = nth n (ms g) 0%N) /\
  forall xs g', runs MT64_Uint64 g xs g' -> forall k, k < length xs ->
    nth k xs 0%N = ref_temper (u (Nat.min (N.to_nat (mi g)) 312 + k)).
Proof.
  intros Hg. destruct (mt_typed_seq g Hg) as (u & R & W & E). exists u. split; [exact R|]. split; [exact E|].
  intros xs g' Hr k Hk. destruct (mt_at_runs u R W _ g xs g' (mt_typed_at u g Hg E) Hr) as [_ H].
  rewrite H by exact Hk. apply temper_ref.
Qed.
(** the recurrence determines the sequence, so there is only one such u *)
Theorem C16_recurrence_determines_sequence u v : mt_recurrence u -> mt_recurrence v ->
  (forall n, n < 312 -> u n = v n) -> forall n, u n = v n.
Proof. intros Ru Rv H n. apply (rec_unique u v 0 Ru Rv); [exact H|lia]. Qed.
Lemma mt_default_vector : match MT64_Seed NewMT64 5489 with Ret g => match MT64_Uint64 g with Ret (x, _) => (x =? 14514284786278117030)%N | _ => false end | _ => false end = true.
Proof. vm_cast_no_check (eq_refl true). Qed.
Example C16_nonvacuous : exists g x g', MT64_Seed NewMT64 5489 = Ret g /\ mt_typed g /\ MT64_Uint64 g = Ret (x, g') /\ x = 14514284786278117030%N.
Proof.
  pose proof mt_default_vector as C. pose proof (MT64_Seed_closed NewMT64 5489 (mt_new_length)) as E.
  assert (T : mt_typed (mkMT 312 (seed_state 5489))) by (split; [apply seed_state_length|apply seed_state_w; reflexivity]).
  destruct (MT64_Seed NewMT64 5489) as [g| |]; try discriminate C.
  destruct (MT64_Uint64 g) as [[x g']| |] eqn:U; try discriminate C.
  exists g, x, g'. split; [reflexivity|]. split; [congruence|]. split; [exact U|]. now apply N.eqb_eq.
Qed.

(** ** C17 *)
Theorem C17_temper_bijective y : w64 y -> exists! x, w64 x /\ ref_temper x = y.
Proof.
  intros Hy. exists (mt_untemper y). split.
  - split; [now apply mt_untemper_w|]. rewrite <- temper_ref. now apply temper_untemper.
  - intros x [Hx E]. rewrite <- E, <- temper_ref. now apply untemper_temper.
Qed.
Theorem C17_312_values_determine_the_stream g h xs ys zs g' h' : mt_typed g -> mt_typed h -> length xs = 312 ->
  runs MT64_Uint64 g (xs ++ ys) g' -> runs MT64_Uint64 h (xs ++ zs) h' -> length ys = length zs -> ys = zs.
Proof.
  intros Tg Th L Rg Rh Ly. destruct (mt_typed_seq g Tg) as (u & Ru & Wu & Eu). destruct (mt_typed_seq h Th) as (v & Rv & Wv & Ev).
  set (a := Nat.min (N.to_nat (mi g)) 312). set (b := Nat.min (N.to_nat (mi h)) 312).
  destruct (mt_at_runs u Ru Wu a _ _ _ (mt_typed_at u g Tg Eu) Rg) as [_ Hu].
  destruct (mt_at_runs v Rv Wv b _ _ _ (mt_typed_at v h Th Ev) Rh) as [_ Hv].
  rewrite app_length in Hu, Hv.
  assert (Ru' : mt_recurrence (fun n => u (a + n))). { intros n. rewrite !Nat.add_assoc. apply Ru. }
  assert (Rv' : mt_recurrence (fun n => v (b + n))). { intros n. rewrite !Nat.add_assoc. apply Rv. }
  assert (E : forall n, u (a + n) = v (b + n)).
  { intros n. apply (rec_unique _ _ 0 Ru' Rv'); [|lia]. intros j Hj. cbn [Nat.add]. apply mt_temper_inj; auto.
    specialize (Hu j). specialize (Hv j). rewrite app_nth1 in Hu, Hv by lia. rewrite <- Hu, <- Hv by lia. reflexivity. }
  apply (list_eq_nth 0%N); [exact Ly|]. intros j Hj.
  specialize (Hu (312 + j)). specialize (Hv (312 + j)). rewrite app_nth2 in Hu, Hv by lia.
  replace (312 + j - length xs) with j in Hu, Hv by lia. rewrite Hu, Hv, E by lia. reflexivity.
Qed.
(** after 312 zero values only zeros follow: no 313-tuple of values that is zero except at the end
    ever occurs, so the README's "every tuple of 623 values appears" is false *)
Theorem C17_zeros_stay_zero g n ys g' : mt_typed g ->
  runs MT64_Uint64 g (repeat 0%N n ++ ys) g' -> 312 <= n -> Forall (eq 0%N) ys.
Proof.
  intros Tg R Hn. destruct (mt_typed_seq g Tg) as (u & Ru & Wu & Eu).
  destruct (mt_at_runs u Ru Wu _ _ _ _ (mt_typed_at u g Tg Eu) R) as [_ Hu].
  set (a := Nat.min (N.to_nat (mi g)) 312) in *. rewrite app_length, repeat_length in Hu.
  assert (Z : zwin u a).
  { intros j Hj. specialize (Hu j). rewrite app_nth1, nth_repeat in Hu by (rewrite repeat_length; lia).
    apply mt_temper_inj; [apply Wu|reflexivity|]. rewrite <- Hu by lia. reflexivity. }
  apply Forall_forall. intros x Hx. apply In_nth with (d := 0%N) in Hx. destruct Hx as (k & Hk & <-).
  specialize (Hu (n + k)). rewrite app_nth2 in Hu by (rewrite repeat_length; lia). rewrite repeat_length in Hu.
  replace (n + k - n) with k in Hu by lia. rewrite Hu by lia. rewrite (zwin_zero u Ru Wu a) by (auto; lia). reflexivity.
Qed.
Theorem C17_readme_623_tuples_false : exists tuple, length tuple = 623 /\ Forall w64 tuple /\ tuple <> repeat 0%N 623 /\
  forall g xs g', mt_typed g -> ~ runs MT64_Uint64 g (xs ++ tuple) g'.
Proof.
  exists (repeat 0%N 622 ++ [1%N]). split; [rewrite app_length, repeat_length; reflexivity|]. split.
  { apply Forall_app. split; [apply Forall_forall; intros x Hx; apply repeat_spec in Hx; subst; reflexivity|].
    repeat constructor. }
  split.
  { intros E. apply (f_equal (fun l => nth 622 l 0%N)) in E. rewrite nth_repeat, app_nth2, repeat_length in E by (rewrite repeat_length; lia).
    replace (622 - 622) with 0 in E by lia. discriminate E. }
  intros g xs g' Tg R. apply runs_split in R. destruct R as (g1 & R1 & R2).
  assert (T1 : mt_typed g1) by (apply (runs_inv MT64_Uint64 mt_typed mt_total g xs g1 R1 Tg)).
  apply C17_zeros_stay_zero in R2; [|exact T1|lia]. inversion R2; discriminate.
Qed.
(** every 312-tuple of values is produced by exactly one state with index 0 *)
Theorem C17_every_312_tuple_occurs ys : length ys = 312 -> Forall w64 ys ->
  exists! s, mt_typed (mkMT 0 s) /\ exists g', runs MT64_Uint64 (mkMT 0 s) ys g'.
Proof.
  intros L W. assert (Wn : forall j, j < 312 -> w64 (nth j ys 0%N)).
  { intros j Hj. rewrite Forall_forall in W. apply W, nth_In. lia. }
  exists (map mt_untemper ys). split.
  - assert (T : mt_typed (mkMT 0 (map mt_untemper ys))).
    { split; cbn [ms]; [now rewrite map_length|]. apply Forall_forall. intros x Hx. apply in_map_iff in Hx.
      destruct Hx as (y & <- & Hy). rewrite Forall_forall in W. apply mt_untemper_w, W, Hy. }
    split; [exact T|]. destruct (runs_total MT64_Uint64 mt_typed mt_total 312 _ T) as (xs & g' & R & Lx & _).
    exists g'. assert (Ex : xs = ys); [|rewrite Ex in R; exact R].
    destruct (mt_typed_seq _ T) as (u & Ru & Wu & Eu).
    destruct (mt_at_runs u Ru Wu _ _ _ _ (mt_typed_at u _ T Eu) R) as [_ Hu].
    apply (list_eq_nth 0%N); [lia|]. intros j Hj. rewrite Hu by exact Hj. cbn [mi].
    change (Nat.min (N.to_nat 0) 312 + j) with j. rewrite Eu by lia. cbn [ms].
    rewrite nth_indep with (d' := mt_untemper 0) by (rewrite map_length; lia). rewrite map_nth.
    apply temper_untemper, Wn. lia.
  - intros s [T (g' & R)]. destruct (mt_typed_seq _ T) as (u & Ru & Wu & Eu).
    destruct (mt_at_runs u Ru Wu _ _ _ _ (mt_typed_at u _ T Eu) R) as [_ Hu].
    assert (Ls : length s = 312) by apply T.
    apply (list_eq_nth 0%N); [rewrite map_length; lia|]. intros j Hj. rewrite map_length in Hj.
    rewrite nth_indep with (d' := mt_untemper 0) by (rewrite map_length; lia). rewrite map_nth, Hu by lia. cbn [mi].
    change (Nat.min (N.to_nat 0) 312 + j) with j. rewrite untemper_temper by apply Wu. rewrite Eu by lia. reflexivity.
Qed.
Example C17_nonvacuous : exists g xs g', mt_typed g /\ length xs = 312 /\ runs MT64_Uint64 g xs g' /\ nth 3 xs 0%N = 7%N.
Proof.
  set (ys := repeat 0%N 3 ++ [7%N] ++ repeat 1%N 308).
  destruct (C17_every_312_tuple_occurs ys) as (s & (T & g' & R) & _).
  - reflexivity.
  - apply Forall_forall. intros x Hx. apply in_app_or in Hx. destruct Hx as [Hx|Hx]; [apply repeat_spec in Hx; subst x; reflexivity|].
    apply in_app_or in Hx. destruct Hx as [[<-|[]]|Hx]; [reflexivity|]. apply repeat_spec in Hx. subst x. reflexivity.
  - exists (mkMT 0 s), ys, g'. split; [exact T|]. split; [reflexivity|]. split; [exact R|reflexivity].
Qed.

(** ** C21 *)
Theorem C21_never_panics os : Forall op_ok os -> exists bs g, exec_all apiMT64 NewMT64 os = Ret (bs, g) /\ length bs = length os.
Proof.
  intros H. destruct (exec_all_ok apiMT64 mt_ok mt_exec_ok os NewMT64 mt_new_ok H) as (bs & g & E & _ & L). eauto.
Qed.
Example C21_nonvacuous : Forall op_ok [OpRestore (fun p => (map (fun _ => 255%N) p, 3, None)); OpUint64; OpSeedIV [1;2;3]%N; OpSave].
Proof.
  apply Forall_cons; [|repeat constructor].
  intros p Hp. cbn [fst]. split; [apply map_length|].
  apply Forall_forall. intros x Hx. apply in_map_iff in Hx. destruct Hx as (y & <- & _). reflexivity.
Qed.

(** ** C50 *)
Theorem C50_seed_is_init_genrand64 old x : length (ms old) = 312 -> exists s,
  MT64_Seed old x = Ret (mkMT 312 s) /\ is_init_genrand64 x s.
Proof. intros L. rewrite MT64_Seed_closed by exact L. eauto using seed_state_ref. Qed.
Theorem C50_init_genrand64_unique x s s' : is_init_genrand64 x s -> is_init_genrand64 x s' -> s = s'.
Proof. apply init_genrand64_unique. Qed.
Theorem C50_empty_iv_is_default_seed old : length (ms old) = 312 -> MT64_SeedIV old [] = MT64_Seed old 19650218.
Proof. apply MT64_SeedIV_nil. Qed.
(** The reference test vector: init_by_array64({0x12345,0x23456,0x34567,0x45678}) gives
    7266447313870364031 first (mt19937-64.out.txt); MT64.SeedIV with the same four little-endian words
    does not. *)
Lemma ref_vector_check :
  (ref_first_output (ref_init_by_array64 [0x12345; 0x23456; 0x34567; 0x45678]%N) =? 7266447313870364031)%N = true.
Proof. vm_cast_no_check (eq_refl true). Qed.
Lemma go_vector_check :
  match MT64_SeedIV NewMT64 (stream_bytes [0x12345; 0x23456; 0x34567; 0x45678]%N) with
  | Ret g => match MT64_Uint64 g with Ret (x, _) => negb (x =? 7266447313870364031)%N | _ => false end
  | _ => false end = true.
Proof. vm_cast_no_check (eq_refl true). Qed.
Theorem C50_seediv_is_not_init_by_array64 : exists key g x g',
  MT64_SeedIV NewMT64 (flat_map (le_bytes 8) key) = Ret g /\ MT64_Uint64 g = Ret (x, g') /\
  x <> ref_first_output (ref_init_by_array64 key).
Proof.
  exists [0x12345; 0x23456; 0x34567; 0x45678]%N. pose proof go_vector_check as C.
  fold (stream_bytes [0x12345; 0x23456; 0x34567; 0x45678]%N).
  destruct (MT64_SeedIV NewMT64 (stream_bytes [0x12345; 0x23456; 0x34567; 0x45678]%N)) as [g| |]; try discriminate C.
  destruct (MT64_Uint64 g) as [[x g']| |] eqn:E; try discriminate C.
  exists g, x, g'. split; [reflexivity|]. split; [exact E|].
  rewrite (proj1 (N.eqb_eq _ _) ref_vector_check). apply N.eqb_neq. destruct (x =? 7266447313870364031)%N; [discriminate C|reflexivity].
Qed.
Example C50_nonvacuous : exists s, is_init_genrand64 5489 s /\ nth 0 s 0%N = 5489%N.
Proof. exists (seed_state 5489). split; [apply seed_state_ref|reflexivity]. Qed.

(** ** MT64 part of C22 and C23 *)
Theorem C22_mt64_seed_never_dead old x g : length (ms old) = 312 -> w64 x -> MT64_Seed old x = Ret g ->
  forall xs g', runs MT64_Uint64 g xs g' -> 312 <= length xs -> ~ Forall (eq 0%N) xs.
Proof.
  intros L Wx E xs g' R Lx F. rewrite MT64_Seed_closed in E by exact L. injection E as <-.
  assert (T : mt_typed (mkMT 312 (seed_state x))) by (split; [apply seed_state_length|now apply seed_state_w]).
  destruct (mt_typed_seq _ T) as (u & Ru & Wu & Eu).
  destruct (mt_at_runs u Ru Wu _ _ _ _ (mt_typed_at u _ T Eu) R) as [_ Hu]. cbn [mi] in Hu.
  change (Nat.min (N.to_nat 312) 312) with 312 in Hu.
  assert (Z : zwin u 312).
  { intros j Hj. specialize (Hu j). rewrite Forall_forall in F.
    apply mt_temper_inj; [apply Wu|reflexivity|]. rewrite <- Hu by lia. rewrite <- (F (nth j xs 0%N)) by (apply nth_In; lia). reflexivity. }
  destruct (seed_not_zero x) as [H|H]; apply H; rewrite <- seed_state_nth by lia;
    [change (seed_state x) with (ms (mkMT 312 (seed_state x))) | change (seed_state x) with (ms (mkMT 312 (seed_state x)))];
    rewrite <- Eu by lia; apply (zwin_all u Ru Wu 312); (exact Z || lia).
Qed.
Theorem C23_mt64_seed_injective old old' x y g : length (ms old) = 312 -> length (ms old') = 312 ->
  MT64_Seed old x = Ret g -> MT64_Seed old' y = Ret g -> x = y.
Proof. apply MT64_Seed_inj. Qed.

Print Assumptions C16_outputs_are_tempered_recurrence.
Print Assumptions C16_recurrence_determines_sequence.
Print Assumptions C17_temper_bijective.
Print Assumptions C17_312_values_determine_the_stream.
Print Assumptions C17_zeros_stay_zero.
Print Assumptions C17_readme_623_tuples_false.
Print Assumptions C17_every_312_tuple_occurs.
Print Assumptions C21_never_panics.
Print Assumptions C50_seed_is_init_genrand64.
Print Assumptions C50_init_genrand64_unique.
Print Assumptions C50_empty_iv_is_default_seed.
Print Assumptions C50_seediv_is_not_init_by_array64.
Print Assumptions C22_mt64_seed_never_dead.
Print Assumptions C23_mt64_seed_injective.
