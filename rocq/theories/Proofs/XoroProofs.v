(** Xoroshiro: linearity, exact period, state save/restore, seeding. *)
From Coq Require Import Lia ZifyN ZifyNat ZifyBool Znumtheory ZArith.
From Verif Require Import Proofs.WordLemmas Proofs.ReadProofs Proofs.SaveProofs Proofs.Gf2 Proofs.Gf2Order
  Proofs.Primes Proofs.PolyCert Proofs.PureGen Model.GenRead Model.Xoroshiro Model.Lfg Model.Api Spec.States.
Local Open Scope N_scope.

Definition xzero : xoro := mkXoro 0 0.
Definition xadd (a b : xoro) : xoro := mkXoro (N.lxor (xo0 a) (xo0 b)) (N.lxor (xo1 a) (xo1 b)).
Definition xstep (s : xoro) : xoro := snd (Xoroshiro_next s).
Definition xout (s : xoro) : N := fst (Xoroshiro_next s).
Lemma xoro_pure s : Xoroshiro_Uint64 s = Ret (xout s, xstep s).
Proof. unfold Xoroshiro_Uint64, xout, xstep. now rewrite <- surjective_pairing. Qed.

Lemma xadd_comm a b : xadd a b = xadd b a.
Proof. unfold xadd. f_equal; apply N.lxor_comm. Qed.
Lemma xadd_assoc a b c : xadd a (xadd b c) = xadd (xadd a b) c.
Proof. unfold xadd; cbn. f_equal; symmetry; apply N.lxor_assoc. Qed.
Lemma xadd_0 a : xadd xzero a = a.
Proof. destruct a. reflexivity. Qed.
Lemma xadd_self a : xadd a a = xzero.
Proof. unfold xadd, xzero. f_equal; apply N.lxor_nilpotent. Qed.
Lemma xzero_typed : xoro_typed xzero. Proof. split; reflexivity. Qed.
Lemma xadd_typed a b : xoro_typed a -> xoro_typed b -> xoro_typed (xadd a b).
Proof. intros [] []. split; apply lxor_w; assumption. Qed.
Lemma xstep_typed a : xoro_typed a -> xoro_typed (xstep a).
Proof. intros []. split; cbn; auto using lxor_w, rotl64_w, shl64_w. Qed.
Lemma xout_w a : w64 (xout a). Proof. apply add64_w. Qed.
Lemma xstep_add a b : xoro_typed a -> xoro_typed b -> xstep (xadd a b) = xadd (xstep a) (xstep b).
Proof.
  intros [] []. unfold xstep, xadd. cbn. f_equal.
  - rewrite rotl64_lxor, !shl64_lxor by (assumption || lia). xor_bits.
  - rewrite <- rotl64_lxor by (try apply lxor_w; assumption || lia). f_equal. xor_bits.
Qed.

Definition xunpack (n : N) : xoro := mkXoro (trunc64 n) (trunc64 (N.shiftr n 64)).
Lemma trunc64_lxor a b : trunc64 (N.lxor a b) = N.lxor (trunc64 a) (trunc64 b).
Proof.
  apply N.bits_inj. intros n. rewrite N.lxor_spec, !testbit_trunc64, N.lxor_spec. destruct (n <? 64); reflexivity.
Qed.
Lemma xunpack_add a b : xunpack (N.lxor a b) = xadd (xunpack a) (xunpack b).
Proof. unfold xunpack, xadd; cbn. now rewrite N.shiftr_lxor, !trunc64_lxor. Qed.
Lemma xunpack_0 : xunpack 0 = xzero. Proof. reflexivity. Qed.
Lemma xunpack_typed n : xoro_typed (xunpack n).
Proof. split; apply trunc64_w. Qed.
Definition xcode (s : xoro) : N := xo0 s + 2 ^ 64 * xo1 s.
Lemma xunpack_code s : xoro_typed s -> xunpack (xcode s) = s.
Proof.
  intros [H0 H1]. destruct s as [a b]. unfold xunpack, xcode, w64 in *. cbn [xo0 xo1] in *.
  rewrite N.shiftr_div_pow2, !trunc64_mod. f_equal.
  - rewrite N.mul_comm, N.mod_add by discriminate. now apply N.mod_small.
  - rewrite N.mul_comm, N.div_add by discriminate. rewrite N.div_small by exact H0. now apply N.mod_small.
Qed.
Lemma xcode_bound s : xoro_typed s -> xcode s < 2 ^ N.of_nat 128.
Proof. intros [H0 H1]. unfold xcode, w64 in *. change (2 ^ N.of_nat 128) with (2 ^ 64 * 2 ^ 64). nia. Qed.
Lemma xcode_inj a b : xoro_typed a -> xoro_typed b -> xcode a = xcode b -> a = b.
Proof. intros Ha Hb E. rewrite <- (xunpack_code a Ha), <- (xunpack_code b Hb). now f_equal. Qed.

Definition xoro_eqb (a b : xoro) : bool := (xo0 a =? xo0 b) && (xo1 a =? xo1 b).
Lemma xoro_eqb_eq a b : xoro_eqb a b = true -> a = b.
Proof.
  unfold xoro_eqb. rewrite andb_true_iff, !N.eqb_eq. destruct a, b; cbn. now intros [-> ->].
Qed.
Lemma xoro_basis_check :
  forallb (fun i => xoro_eqb (pap xzero xadd xstep xoro_P (xunpack (2 ^ N.of_nat i))) xzero) (seq 0 128) = true.
Proof. vm_cast_no_check (eq_refl true). Qed.
Lemma xoro_kills s : xoro_typed s -> pap xzero xadd xstep xoro_P s = xzero.
Proof.
  intros Hs. rewrite <- (xunpack_code s Hs).
  apply (basis_ext xadd (fun n => pap xzero xadd xstep xoro_P (xunpack n)) (fun _ => xzero) 128).
  - intros a b. rewrite xunpack_add.
    apply (pap_add xzero xadd xoro_typed xstep xadd_comm xadd_assoc xadd_0 xadd_typed xstep_typed xstep_add);
      apply xunpack_typed.
  - intros. now rewrite xadd_self.
  - cbv beta. rewrite xunpack_0. apply (pap_zero xzero xadd xoro_typed xstep xadd_0 xadd_self xzero_typed xstep_add).
  - intros i Hi. pose proof xoro_basis_check as C.
    rewrite forallb_forall in C. apply xoro_eqb_eq. apply C. apply in_seq. lia.
  - apply xcode_bound, Hs.
Qed.

Lemma xoro_order s : xoro_typed s -> s <> xzero ->
  forall n, N.iter n xstep s = s <-> (2 ^ 128 - 1 | n).
Proof.
  apply (cert_order xzero xadd xoro_typed xstep xadd_comm xadd_assoc xadd_0 xadd_self xzero_typed xadd_typed
    xstep_typed xstep_add xoro_P 128 xoro_kills (2 ^ 128 - 1) xoro_steps _ xoro_primes xoro_cert).
  - unfold xoro_primes; cbn [map fst].
    repeat first [apply Forall_nil | apply Forall_cons; [first [exact pr3|exact pr5|exact pr17|exact pr257|exact pr65537|exact pr641|exact pr6700417|exact pr274177|exact pr67280421310721]|]].
  - reflexivity.
  - discriminate.
Qed.
