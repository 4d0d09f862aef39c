(** Xoshiro: linearity, exact period, Jump, Reverse, equidistribution. *)
From Coq Require Import Lia ZifyN ZifyNat ZifyBool Znumtheory ZArith.
From Verif Require Import Proofs.WordLemmas Proofs.ReadProofs Proofs.SaveProofs Proofs.Gf2 Proofs.Gf2Order
  Proofs.Primes Proofs.PolyCert Proofs.PureGen Proofs.SplitMix Proofs.XoroProofs
  Model.GenRead Model.Xoroshiro Model.Xoshiro Model.Api Spec.States.
Local Open Scope N_scope.

Definition hzero : xoshi := mkXoshi 0 0 0 0.
Definition hadd (a b : xoshi) : xoshi :=
  mkXoshi (N.lxor (xw a) (xw b)) (N.lxor (xx a) (xx b)) (N.lxor (xy a) (xy b)) (N.lxor (xz a) (xz b)).
Definition hout (s : xoshi) : N := mul64 (rotl64 (mul64 (xx s) 5) 7) 9.
Lemma xoshi_pure s : Xoshiro_Uint64 s = Ret (hout s, xoshi_step s).
Proof. destruct s. reflexivity. Qed.

Lemma hadd_comm a b : hadd a b = hadd b a.
Proof. unfold hadd. f_equal; apply N.lxor_comm. Qed.
Lemma hadd_assoc a b c : hadd a (hadd b c) = hadd (hadd a b) c.
Proof. unfold hadd; cbn. f_equal; symmetry; apply N.lxor_assoc. Qed.
Lemma hadd_0 a : hadd hzero a = a.
Proof. destruct a. reflexivity. Qed.
Lemma hadd_self a : hadd a a = hzero.
Proof. unfold hadd, hzero. f_equal; apply N.lxor_nilpotent. Qed.
Lemma hzero_typed : xoshi_typed hzero. Proof. repeat split; reflexivity. Qed.
Lemma hadd_typed a b : xoshi_typed a -> xoshi_typed b -> xoshi_typed (hadd a b).
Proof. intros (? & ? & ? & ?) (? & ? & ? & ?). repeat split; apply lxor_w; assumption. Qed.
Lemma hstep_typed a : xoshi_typed a -> xoshi_typed (xoshi_step a).
Proof. destruct a. intros (? & ? & ? & ?). cbn in *. repeat split; cbn; auto 10 using lxor_w, rotl64_w, shl64_w. Qed.
Lemma hout_w a : w64 (hout a). Proof. apply mul64_w. Qed.
Lemma hstep_add a b : xoshi_typed a -> xoshi_typed b -> xoshi_step (hadd a b) = hadd (xoshi_step a) (xoshi_step b).
Proof.
  destruct a, b. intros (? & ? & ? & ?) (? & ? & ? & ?). unfold xoshi_step, hadd. cbn in *. f_equal.
  - xor_bits.
  - xor_bits.
  - rewrite !shl64_lxor. xor_bits.
  - rewrite <- rotl64_lxor by (try apply lxor_w; assumption || lia). f_equal. xor_bits.
Qed.

Definition hunpack (n : N) : xoshi :=
  mkXoshi (trunc64 n) (trunc64 (N.shiftr n 64)) (trunc64 (N.shiftr n 128)) (trunc64 (N.shiftr n 192)).
Lemma hunpack_add a b : hunpack (N.lxor a b) = hadd (hunpack a) (hunpack b).
Proof. unfold hunpack, hadd; cbn. now rewrite !N.shiftr_lxor, !trunc64_lxor. Qed.
Lemma hunpack_0 : hunpack 0 = hzero. Proof. reflexivity. Qed.
Lemma hunpack_typed n : xoshi_typed (hunpack n).
Proof. repeat split; apply trunc64_w. Qed.
Definition hcode (s : xoshi) : N := xw s + 2 ^ 64 * (xx s + 2 ^ 64 * (xy s + 2 ^ 64 * xz s)).
Lemma trunc_low a m : w64 a -> trunc64 (a + 2 ^ 64 * m) = a.
Proof. intros H. rewrite trunc64_mod, N.mul_comm, N.mod_add by discriminate. now apply N.mod_small. Qed.
Lemma shift_low a m : w64 a -> N.shiftr (a + 2 ^ 64 * m) 64 = m.
Proof.
  intros H. rewrite N.shiftr_div_pow2, N.mul_comm, N.div_add by discriminate.
  rewrite N.div_small by exact H. reflexivity.
Qed.
Lemma hunpack_code s : xoshi_typed s -> hunpack (hcode s) = s.
Proof.
  intros (H0 & H1 & H2 & H3). destruct s as [a b c d]. unfold hunpack, hcode. cbn [xw xx xy xz] in *.
  change 192 with (64 + (64 + 64)). change 128 with (64 + 64). rewrite <- !N.shiftr_shiftr.
  rewrite !shift_low, !trunc_low, trunc64_id by assumption. reflexivity.
Qed.
Lemma hcode_bound s : xoshi_typed s -> hcode s < 2 ^ N.of_nat 256.
Proof.
  intros (H0 & H1 & H2 & H3). unfold hcode, w64 in *.
  change (2 ^ N.of_nat 256) with (2 ^ 64 * (2 ^ 64 * (2 ^ 64 * 2 ^ 64))). change (2 ^ 64) with 18446744073709551616 in *. lia.
Qed.
Lemma hcode_inj a b : xoshi_typed a -> xoshi_typed b -> hcode a = hcode b -> a = b.
Proof. intros Ha Hb E. rewrite <- (hunpack_code a Ha), <- (hunpack_code b Hb). now f_equal. Qed.

Definition xoshi_eqb (a b : xoshi) : bool :=
  (xw a =? xw b) && (xx a =? xx b) && (xy a =? xy b) && (xz a =? xz b).
Lemma xoshi_eqb_eq a b : xoshi_eqb a b = true -> a = b.
Proof.
  unfold xoshi_eqb. rewrite !andb_true_iff, !N.eqb_eq. destruct a, b; cbn. now intros [[[-> ->] ->] ->].
Qed.
Lemma xoshi_basis_check :
  forallb (fun i => xoshi_eqb (pap hzero hadd xoshi_step xoshi_P (hunpack (2 ^ N.of_nat i))) hzero) (seq 0 256) = true.
Proof. vm_cast_no_check (eq_refl true). Qed.
Lemma xoshi_kills s : xoshi_typed s -> pap hzero hadd xoshi_step xoshi_P s = hzero.
Proof.
  intros Hs. rewrite <- (hunpack_code s Hs).
  apply (basis_ext hadd (fun n => pap hzero hadd xoshi_step xoshi_P (hunpack n)) (fun _ => hzero) 256).
  - intros a b. rewrite hunpack_add.
    apply (pap_add hzero hadd xoshi_typed xoshi_step hadd_comm hadd_assoc hadd_0 hadd_typed hstep_typed hstep_add);
      apply hunpack_typed.
  - intros. now rewrite hadd_self.
  - cbv beta. rewrite hunpack_0. apply (pap_zero hzero hadd xoshi_typed xoshi_step hadd_0 hadd_self hzero_typed hstep_add).
  - intros i Hi. pose proof xoshi_basis_check as C.
    rewrite forallb_forall in C. apply xoshi_eqb_eq. apply C. apply in_seq. lia.
  - apply hcode_bound, Hs.
Qed.

Lemma xoshi_order s : xoshi_typed s -> s <> hzero ->
  forall n, N.iter n xoshi_step s = s <-> (2 ^ 256 - 1 | n).
Proof.
  apply (cert_order hzero hadd xoshi_typed xoshi_step hadd_comm hadd_assoc hadd_0 hadd_self hzero_typed hadd_typed
    hstep_typed hstep_add xoshi_P 256 xoshi_kills (2 ^ 256 - 1) xoshi_steps _ xoshi_primes xoshi_cert).
  - unfold xoshi_primes; cbn [map fst].
    repeat first [apply Forall_nil | apply Forall_cons; [first [exact pr3|exact pr5|exact pr17|exact pr257|exact pr65537|exact pr641|exact pr6700417|exact pr274177|exact pr67280421310721|exact pr59649589127497217|exact pr5704689200685129054721]|]].
  - reflexivity.
  - discriminate.
Qed.

(** ** Jump *)
Lemma xoshi_jump_acts s : xoshi_typed s ->
  pap hzero hadd xoshi_step xoshi_jump_poly s = N.iter (2 ^ 192) xoshi_step s.
Proof.
  pose proof (acts_ppow hzero hadd xoshi_typed xoshi_step hadd_comm hadd_assoc hadd_0 hadd_self hzero_typed hadd_typed
    hstep_typed hstep_add xoshi_P 256 xoshi_kills 2 1 (2 ^ 192) (acts_x hzero hadd xoshi_typed xoshi_step)) as A.
  pose proof xoshi_jump_cert as C. apply N.eqb_eq in C. rewrite C in A. clear C.
  intros Hs. specialize (A s Hs). rewrite N.mul_1_l in A. exact A.
Qed.
Lemma hadd_0_r a : hadd a hzero = a. Proof. now rewrite hadd_comm, hadd_0. Qed.
Local Notation hpap := (pap hzero hadd xoshi_step).
Lemma hiter_typed n s : xoshi_typed s -> xoshi_typed (N.iter n xoshi_step s).
Proof. intros H. apply N.iter_invariant; auto using hstep_typed. Qed.
Lemma hpap_typed p s : xoshi_typed s -> xoshi_typed (hpap p s).
Proof. apply pap_wf; auto using hzero_typed, hadd_typed, hstep_typed. Qed.
Lemma hpap_f p s : xoshi_typed s -> hpap p (xoshi_step s) = xoshi_step (hpap p s).
Proof.
  apply (pap_f hzero hadd xoshi_typed xoshi_step hadd_self hzero_typed hadd_typed hstep_typed hstep_add).
Qed.
Lemma hpap_double p v : hpap (N.double p) v = xoshi_step (hpap p v).
Proof. apply (pap_double hzero hadd xoshi_typed xoshi_step hadd_self hzero_typed hstep_add). Qed.
Lemma hpap_succ_double p v : hpap (N.succ_double p) v = hadd v (xoshi_step (hpap p v)).
Proof. apply (pap_succ_double hzero hadd xoshi_typed xoshi_step hadd_comm hadd_0 hadd_self hzero_typed hstep_add). Qed.

Lemma jump_bits_spec k : forall j acc s, xoshi_typed s ->
  jump_bits k j acc s = (hadd acc (hpap (j mod 2 ^ N.of_nat k) s), N.iter (N.of_nat k) xoshi_step s).
Proof.
  induction k as [|k IH]; intros j acc s Hs.
  - cbn [jump_bits]. cbn [N.of_nat N.iter]. rewrite N.pow_0_r, N.mod_1_r. cbn [pap]. now rewrite hadd_0_r.
  - cbn [jump_bits]. rewrite IH by now apply hstep_typed.
    rewrite Nat2N.inj_succ, <- N.iter_succ_r. f_equal.
    assert (Ej : j mod 2 ^ N.succ (N.of_nat k) = (j mod 2) + 2 * ((shr64 j 1) mod 2 ^ N.of_nat k)).
    { rewrite N.pow_succ_r'. rewrite N.mod_mul_r by (try apply N.pow_nonzero; lia).
      unfold shr64. now rewrite N.shiftr_div_pow2. }
    rewrite Ej. set (q := shr64 j 1 mod 2 ^ N.of_nat k).
    rewrite hpap_f by exact Hs. change (N.land j 1) with (N.land j (N.ones 1)). rewrite N.land_ones.
    change (2 ^ 1) with 2.
    assert (Hb : j mod 2 = 0 \/ j mod 2 = 1) by (pose proof (N.mod_lt j 2); lia).
    destruct Hb as [-> | ->]; cbn [N.eqb negb].
    + rewrite N.add_0_l, <- N.double_spec, hpap_double. reflexivity.
    + rewrite N.add_comm, <- N.succ_double_spec, hpap_succ_double, hadd_assoc. reflexivity.
Qed.
Lemma hpap_lxor p q v : xoshi_typed v -> hpap (N.lxor p q) v = hadd (hpap p v) (hpap q v).
Proof.
  apply (pap_lxor hzero hadd xoshi_typed xoshi_step hadd_comm hadd_assoc hadd_0 hadd_self hzero_typed hadd_typed hstep_typed hstep_add).
Qed.
Lemma hpap_shift p n v : xoshi_typed v -> hpap p (N.iter n xoshi_step v) = hpap (N.shiftl p n) v.
Proof.
  intros Hv. induction n as [|n IH] using N.peano_ind.
  - now rewrite N.shiftl_0_r.
  - rewrite N.iter_succ, N.shiftl_succ_r, hpap_double, hpap_f by now apply hiter_typed. now rewrite IH.
Qed.
Lemma jump4 a b c d s : xoshi_typed s ->
  fst (fold_left (fun '(acc, st) j => jump_bits 64 j acc st) [a; b; c; d] (hzero, s)) =
  hpap (N.lxor (a mod 2 ^ 64) (N.lxor (N.shiftl (b mod 2 ^ 64) 64)
         (N.lxor (N.shiftl (c mod 2 ^ 64) 128) (N.shiftl (d mod 2 ^ 64) 192)))) s.
Proof.
  intros Hs. unfold fold_left. remember 64%nat as k eqn:Ek.
  rewrite (jump_bits_spec k a _ s Hs), hadd_0.
  assert (H1 : xoshi_typed (N.iter (N.of_nat k) xoshi_step s)) by now apply hiter_typed.
  rewrite (jump_bits_spec k b _ _ H1), <- N.iter_add.
  assert (H2 : xoshi_typed (N.iter (N.of_nat k + N.of_nat k) xoshi_step s)) by now apply hiter_typed.
  rewrite (jump_bits_spec k c _ _ H2), <- N.iter_add.
  assert (H3 : xoshi_typed (N.iter (N.of_nat k + (N.of_nat k + N.of_nat k)) xoshi_step s)) by now apply hiter_typed.
  rewrite (jump_bits_spec k d _ _ H3). cbn [fst].
  rewrite !hpap_shift, !hpap_lxor, !hadd_assoc by exact Hs.
  replace (N.of_nat k) with 64 by (subst k; reflexivity). reflexivity.
Qed.
Lemma jump_poly_words :
  N.lxor (0x76e15d3efefdcbbf mod 2 ^ 64) (N.lxor (N.shiftl (0xc5004e441c522fb3 mod 2 ^ 64) 64)
         (N.lxor (N.shiftl (0x77710069854ee241 mod 2 ^ 64) 128) (N.shiftl (0x39109bb02acbe635 mod 2 ^ 64) 192)))
  = xoshi_jump_poly.
Proof. vm_compute. reflexivity. Qed.
Lemma Xoshiro_Jump_spec s : xoshi_typed s -> Xoshiro_Jump s = N.iter (2 ^ 192) xoshi_step s.
Proof.
  intros Hs. pose proof (xoshi_jump_acts s Hs) as E. rewrite <- jump_poly_words in E.
  rewrite <- jump4 in E by exact Hs. exact E.
Qed.

(** ** Reverse *)
Definition inv17 (x : N) : N :=
  let x := N.lxor x (shl64 x 17) in N.lxor x (shl64 x 34).
Lemma shl64_shl64 x j k : shl64 (shl64 x j) k = shl64 x (j + k).
Proof.
  apply N.bits_inj. intros n. rewrite !testbit_shl64.
  destruct (N.ltb_spec n 64), (N.leb_spec k n), (N.leb_spec (j + k) n), (N.leb_spec j (n - k)),
    (N.ltb_spec (n - k) 64); cbn; try lia; try reflexivity. f_equal. lia.
Qed.
Lemma shl64_big x k : 64 <= k -> shl64 x k = 0.
Proof.
  intros H. apply N.bits_inj_0. intros n. rewrite testbit_shl64.
  destruct (N.ltb_spec n 64), (N.leb_spec k n); cbn; try lia; reflexivity.
Qed.
Ltac norm_shl := repeat match goal with |- context [shl64 ?x (?a + ?b)] =>
  let v := eval compute in (a + b) in change (shl64 x (a + b)) with (shl64 x v) end.
Lemma inv17_l x : inv17 (N.lxor x (shl64 x 17)) = x.
Proof.
  unfold inv17. cbv zeta. rewrite !shl64_lxor, !shl64_shl64. norm_shl.
  rewrite (shl64_big x 68) by lia. xor_bits.
Qed.
Lemma inv17_r x : N.lxor (inv17 x) (shl64 (inv17 x) 17) = x.
Proof.
  unfold inv17. cbv zeta. rewrite !shl64_lxor, !shl64_shl64. norm_shl.
  rewrite (shl64_big x 68) by lia. xor_bits.
Qed.
Lemma inv17_lxor a b : inv17 (N.lxor a b) = N.lxor (inv17 a) (inv17 b).
Proof. unfold inv17. cbv zeta. rewrite !shl64_lxor. xor_bits. Qed.
Lemma rotl_rotl x j k : w64 x -> 0 < j -> 0 < k -> j + k = 64 -> rotl64 (rotl64 x j) k = x.
Proof.
  intros Hx Hj Hk Hjk. apply N.bits_inj. intros n.
  rewrite testbit_rotl64 by (auto using rotl64_w; lia).
  destruct (N.ltb_spec n 64) as [Hn|Hn]; [|symmetry; apply testbit_w64; assumption]. cbn [andb].
  destruct (N.ltb_spec n k) as [H1|H1]; rewrite testbit_rotl64 by (assumption || lia).
  - destruct (N.ltb_spec (n + 64 - k) 64), (N.ltb_spec (n + 64 - k) j); try lia; cbn [andb]. f_equal. lia.
  - destruct (N.ltb_spec (n - k) 64), (N.ltb_spec (n - k) j); try lia; cbn [andb]. f_equal. lia.
Qed.
Lemma Xoshiro_Reverse_alt s : Xoshiro_Reverse s =
  let z1 := rotl64 (xz s) 19 in
  let x := inv17 (N.lxor (xx s) (xy s)) in
  let z := N.lxor z1 x in
  mkXoshi (N.lxor (xw s) z1) x (N.lxor (N.lxor (xw s) (xx s)) z) z.
Proof. destruct s. cbv zeta. rewrite inv17_lxor. reflexivity. Qed.
Lemma reverse_step s : xoshi_typed s -> Xoshiro_Reverse (xoshi_step s) = s.
Proof.
  destruct s as [w x y z]. intros (? & ? & ? & ?). rewrite Xoshiro_Reverse_alt.
  unfold xoshi_step. cbn [Xoshiro_next snd xw xx xy xz] in *. cbv zeta.
  rewrite (rotl_rotl (N.lxor z x) 45 19) by (try apply lxor_w; assumption || reflexivity).
  replace (N.lxor (N.lxor x (N.lxor y w)) (N.lxor (N.lxor y w) (shl64 x 17))) with (N.lxor x (shl64 x 17)) by xor_bits.
  rewrite inv17_l. f_equal; xor_bits.
Qed.
Lemma reverse_typed s : xoshi_typed s -> xoshi_typed (Xoshiro_Reverse s).
Proof.
  destruct s. intros (? & ? & ? & ?). cbn in *. repeat split; cbn; auto 10 using lxor_w, rotl64_w, shl64_w.
Qed.
Lemma step_reverse s : xoshi_typed s -> xoshi_step (Xoshiro_Reverse s) = s.
Proof.
  destruct s as [w x y z]. intros (? & ? & ? & ?). rewrite Xoshiro_Reverse_alt. cbn [xw xx xy xz] in *. cbv zeta.
  unfold xoshi_step. cbn [Xoshiro_next snd xw xx xy xz].
  set (v := inv17 (N.lxor x y)). pose proof (inv17_r (N.lxor x y)) as E. fold v in E.
  assert (Es : shl64 v 17 = N.lxor v (N.lxor x y)) by (rewrite <- E; xor_bits).
  rewrite Es. f_equal; try xor_bits.
  replace (N.lxor (N.lxor (rotl64 z 19) v) v) with (rotl64 z 19) by xor_bits. apply rotl_rotl; [assumption|reflexivity..].
Qed.

(** ** equidistribution *)
Definition scr (x : N) : N := mul64 (rotl64 (mul64 x 5) 7) 9.
Definition unscr (r : N) : N := mul64 (rotl64 (mul64 r 0x8e38e38e38e38e39) 57) 0xcccccccccccccccd.
Lemma unscr_scr x : w64 x -> unscr (scr x) = x.
Proof.
  intros H. unfold unscr, scr.
  rewrite mul64_inv by (reflexivity || apply rotl64_w, mul64_w).
  rewrite (rotl_rotl _ 7 57) by (apply mul64_w || reflexivity). apply mul64_inv; [reflexivity|exact H].
Qed.
Lemma scr_unscr x : w64 x -> scr (unscr x) = x.
Proof.
  intros H. unfold unscr, scr.
  rewrite mul64_inv by (reflexivity || apply rotl64_w, mul64_w).
  rewrite (rotl_rotl _ 57 7) by (apply mul64_w || reflexivity). apply mul64_inv; [reflexivity|exact H].
Qed.
Lemma scr_w x : w64 (scr x). Proof. apply mul64_w. Qed.
Lemma unscr_w x : w64 (unscr x). Proof. apply mul64_w. Qed.
Lemma x1_eq s : xx (xoshi_step s) = N.lxor (xx s) (N.lxor (xy s) (xw s)).
Proof. destruct s; reflexivity. Qed.
Lemma x2_eq s : xx (xoshi_step (xoshi_step s)) = N.lxor (N.lxor (xw s) (xz s)) (shl64 (xx s) 17).
Proof. destruct s. cbn. xor_bits. Qed.
Lemma x3_eq s : xx (xoshi_step (xoshi_step (xoshi_step s))) =
  N.lxor (N.lxor (N.lxor (xw s) (xz s)) (xx s))
    (N.lxor (rotl64 (N.lxor (xz s) (xx s)) 45) (shl64 (N.lxor (xx s) (N.lxor (xy s) (xw s))) 17)).
Proof. rewrite x2_eq. destruct s; cbn. xor_bits. Qed.
(** the state whose next four x-words are a b c d *)
Definition from4 (a b c d : N) : xoshi :=
  let wz := N.lxor c (shl64 a 17) in
  let z := N.lxor a (rotl64 (N.lxor d (N.lxor (N.lxor wz a) (shl64 b 17))) 19) in
  let w := N.lxor wz z in
  mkXoshi w a (N.lxor (N.lxor a b) w) z.
Definition xs4 (s : xoshi) : N * N * N * N :=
  (xx s, xx (xoshi_step s), xx (xoshi_step (xoshi_step s)), xx (xoshi_step (xoshi_step (xoshi_step s)))).
Lemma from4_xs4 s : xoshi_typed s -> (let '(a, b, c, d) := xs4 s in from4 a b c d) = s.
Proof.
  intros (Hw & Hx & Hy & Hz). unfold xs4. rewrite (x3_eq s), (x2_eq s), (x1_eq s). unfold from4.
  destruct s as [w x y z]; cbn [xw xx xy xz] in *. cbv zeta.
  set (k := shl64 x 17). set (l := shl64 (N.lxor x (N.lxor y w)) 17).
  match goal with |- context [rotl64 (N.lxor ?A ?B) 19] =>
    replace (N.lxor A B) with (rotl64 (N.lxor z x) 45) by xor_bits end.
  rewrite (rotl_rotl (N.lxor z x) 45 19) by (try apply lxor_w; assumption || reflexivity).
  f_equal; xor_bits.
Qed.
Lemma xs4_from4 a b c d : w64 a -> w64 b -> w64 c -> w64 d ->
  xs4 (from4 a b c d) = (a, b, c, d) /\ xoshi_typed (from4 a b c d).
Proof.
  intros Ha Hb Hc Hd. split.
  - unfold xs4. rewrite (x3_eq (from4 a b c d)), (x2_eq (from4 a b c d)), (x1_eq (from4 a b c d)). unfold from4. cbv zeta. cbn [xw xx xy xz].
    set (k := shl64 a 17).
    set (v := N.lxor d (N.lxor (N.lxor (N.lxor c k) a) (shl64 b 17))).
    assert (Wv : w64 v) by (unfold v, k; auto 10 using lxor_w, shl64_w).
    f_equal; [f_equal; [f_equal|]|].
    + xor_bits.
    + xor_bits.
    + replace (N.lxor (N.lxor a (rotl64 v 19)) a) with (rotl64 v 19) by xor_bits.
      rewrite (rotl_rotl v 19 45) by (assumption || reflexivity).
      match goal with |- context [shl64 (N.lxor a ?B) 17] => replace (N.lxor a B) with b by xor_bits end.
      unfold v. xor_bits.
  - unfold from4. repeat split; cbn; auto 15 using lxor_w, shl64_w, rotl64_w.
Qed.
