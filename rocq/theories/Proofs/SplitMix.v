(** SplitMix64's output function is a bijection of 64-bit words. *)
From Coq Require Import Lia ZifyN ZifyNat ZifyBool.
From Verif Require Import Proofs.WordLemmas Proofs.PureGen Model.Xoroshiro.
Local Open Scope N_scope.

Lemma shr64_big x k : w64 x -> 64 <= k -> shr64 x k = 0.
Proof.
  intros Hx Hk. apply N.bits_inj_0. intros n. rewrite testbit_shr64. apply testbit_w64; [exact Hx|lia].
Qed.
Lemma shr64_shr64 x j k : shr64 (shr64 x j) k = shr64 x (j + k).
Proof. unfold shr64. now rewrite N.shiftr_shiftr. Qed.

Definition unxs (k y : N) : N := N.lxor y (N.lxor (shr64 y k) (shr64 y (k + k))).
Lemma unxs_l k x : 64 <= k + (k + k) -> w64 x -> unxs k (N.lxor x (shr64 x k)) = x.
Proof.
  intros Hk Hx. unfold unxs. rewrite !shr64_lxor, !shr64_shr64, (shr64_big x (k + (k + k))) by assumption.
  xor_bits.
Qed.
Lemma unxs_r k y : 64 <= k + (k + k) -> w64 y -> N.lxor (unxs k y) (shr64 (unxs k y) k) = y.
Proof.
  intros Hk Hx. unfold unxs. rewrite !shr64_lxor, !shr64_shr64.
  replace (k + k + k) with (k + (k + k)) by lia. rewrite (shr64_big y (k + (k + k))) by assumption.
  xor_bits.
Qed.
Lemma unxs_w k y : w64 y -> w64 (unxs k y).
Proof. intros H. unfold unxs. auto using lxor_w, shr64_w. Qed.
Lemma mul64_inv c c' x : mul64 c c' = 1 -> w64 x -> mul64 (mul64 x c) c' = x.
Proof.
  intros Hc Hx. rewrite !mul64_mod in *. rewrite N.mul_mod_idemp_l by discriminate.
  rewrite <- N.mul_assoc, <- N.mul_mod_idemp_r, Hc, N.mul_1_r by discriminate. now apply N.mod_small.
Qed.

Definition sm_unmix (y : N) : N :=
  unxs 30 (mul64 (unxs 27 (mul64 (unxs 31 y) 0x319642b2d24d8ec3)) 0x96de1b173f119089).
Lemma sm_mix_w x : w64 x -> w64 (sm_mix x).
Proof. intros H. unfold sm_mix. auto using lxor_w, shr64_w, mul64_w. Qed.
Lemma sm_unmix_w x : w64 x -> w64 (sm_unmix x).
Proof. intros H. unfold sm_unmix. auto using unxs_w, mul64_w. Qed.
Lemma sm_unmix_mix x : w64 x -> sm_unmix (sm_mix x) = x.
Proof.
  intros H. unfold sm_unmix, sm_mix.
  rewrite unxs_l by (auto using mul64_w || lia).
  rewrite mul64_inv by (reflexivity || auto using mul64_w, lxor_w, shr64_w).
  rewrite unxs_l by (auto using mul64_w || lia).
  rewrite mul64_inv by (reflexivity || auto using mul64_w, lxor_w, shr64_w).
  rewrite unxs_l by (auto using mul64_w || lia). reflexivity.
Qed.
Lemma sm_mix_unmix y : w64 y -> sm_mix (sm_unmix y) = y.
Proof.
  intros H. unfold sm_unmix, sm_mix.
  rewrite unxs_r by (auto using mul64_w || lia).
  rewrite mul64_inv by (reflexivity || auto using mul64_w, unxs_w).
  rewrite unxs_r by (auto using mul64_w || lia).
  rewrite mul64_inv by (reflexivity || auto using mul64_w, unxs_w).
  rewrite unxs_r by (auto using mul64_w || lia). reflexivity.
Qed.
Lemma sm_mix_inj x y : w64 x -> w64 y -> sm_mix x = sm_mix y -> x = y.
Proof. intros Hx Hy E. rewrite <- (sm_unmix_mix x Hx), <- (sm_unmix_mix y Hy). now f_equal. Qed.
Lemma sm_mix_0 x : w64 x -> sm_mix x = 0 -> x = 0.
Proof. intros Hx E. apply sm_mix_inj; [exact Hx|reflexivity|exact E]. Qed.

Lemma add64_inj_l a b c : w64 b -> w64 c -> add64 a b = add64 a c -> b = c.
Proof.
  unfold w64. intros Hb Hc E. rewrite !add64_mod in E.
  pose proof (N.div_mod (a + b) (2 ^ 64)). pose proof (N.div_mod (a + c) (2 ^ 64)).
  change (2 ^ 64) with 18446744073709551616 in *. lia.
Qed.
Lemma add64_comm a b : add64 a b = add64 b a.
Proof. unfold add64. now rewrite N.add_comm. Qed.
Lemma add64_inj_r a b c : w64 b -> w64 c -> add64 b a = add64 c a -> b = c.
Proof. intros Hb Hc E. rewrite !(add64_comm _ a) in E. eapply add64_inj_l; eauto. Qed.
Lemma add64_sub64 a b : w64 a -> w64 b -> add64 (sub64 a b) b = a.
Proof.
  unfold w64. intros Ha Hb. unfold sub64. rewrite add64_mod, trunc64_mod, N.add_mod_idemp_l by discriminate.
  replace (a + 18446744073709551616 - b + b) with (a + 1 * 2 ^ 64).
  - rewrite N.mod_add by discriminate. now apply N.mod_small.
  - change (2 ^ 64) with 18446744073709551616 in *. lia.
Qed.
Lemma add64_assoc a b c : add64 a (add64 b c) = add64 (add64 a b) c.
Proof.
  rewrite !add64_mod, N.add_mod_idemp_r, N.add_mod_idemp_l by discriminate. now rewrite N.add_assoc.
Qed.
