(** Certificates for the exact period of the LFG. [lfgEo] is the order of x modulo x^335 + x^334 + 1 over
    GF(2); modulo 4, x^lfgEo = 1 + 2 [lfgU]; [p108] and [p187] are irreducible factors with cofactors [c108]
    and [c187]; each (q, a) certifies that x^(order/q) - 1 is invertible modulo the factor. *)
From Coq Require Import ZArith Znumtheory List Lia.
From Verif Require Import Proofs.Gf2 Proofs.Gf2Seq Proofs.LfgStream Proofs.LfgPow4.
Import ListNotations.
Local Open Scope bool_scope.
Local Open Scope N_scope.
Definition lfgEo : positive := 0x1f81f81f81f81f81f81f81f81f7ffffffffffffffffffffc0fc0fc0fc0fc0fc0fc0fc0fc1.
Definition lfgU : N := 0xc00000000000000000000000000000000000000000.
Definition c108 : N := 0xa8a6478c926a64c238fa3a64bbed258e3fd2be38df2f237764abde0b3.
Definition c187 : N := 0x1a39756d3130e579b9c0e3bc5569dc21362ab7.
Definition inv2 : N := 0xa721c69ec98f5efa3ab838c05c7.
Definition p108 : N := 0x1e66be54eca75dfa19c63743858f.
Definition certs108 : list (positive * N) := [(3%positive, 0xd4abb436fd80b8b8d7537db9aea);
  (7%positive, 0x4c7ebf4dfc0f38f830c1f969eda);
  (19%positive, 0xa2db550556bb3c13fe4a3d6bc2e);
  (37%positive, 0xb9515b341f963d9fb730ee6da78);
  (73%positive, 0x47da416b6d3bffd0ead9d9ad3a);
  (109%positive, 0xfef8cfe41932dc5f0c56f187ea7);
  (87211%positive, 0xfc447326abe83c615e0cafbbeb1);
  (246241%positive, 0x84e932c26d033764bf9e3d12576);
  (262657%positive, 0x4fb61514e9be3f72db69fa56098);
  (279073%positive, 0x6d5737e58aec2aeed09fd50434d)].
Definition p187 : N := 0x9c4e0fea9d00d7d6398eaeb848e7209a916a2abfbd431ab.
Definition certs187 : list (positive * N) := [(23%positive, 0x3622a8a639c1d95cc205f8cd4c0028d0d7819cfdd999ca2);
  (89%positive, 0x333adb40d994aa6dbd1f65ee3ed61700004a2c90f1ef9cc);
  (131071%positive, 0x5052f0f4d83dad75dd675e4d3d8449498627eb55e7d78ca);
  (707983%positive, 0x7106dc61f558d8cc2caac1b731c93d30bc77f971ecb634);
  (1032670816743843860998850056278950666491537%positive, 0x6a0033fbce66936fa6a41efd9279878bbcbfddbcdba17c5)].
Definition o108 : N := (2 ^ 108 - 1) / 65.
Definition o187 : N := 2 ^ 187 - 1.
Definition inv_ok (c r a : N) : bool := mulmod lfgP 335 c (mulmod lfgP 335 a r) =? c.
(** x^(o/q) - 1 is invertible modulo p, and o/q = gcd (E/q) o *)
Definition cert_ok (p deg o : N) (qa : positive * N) : bool :=
  match o / N.pos (fst qa) with
  | N0 => false
  | Npos e => (N.gcd (N.pos lfgEo / N.pos (fst qa)) o =? Npos e) &&
              (mulmod p deg (snd qa) (N.lxor (ppow p deg (tab p deg) 2 e) 1) =? 1)
  end.
Definition order_ok (p deg o c : N) : bool :=
  match o with N0 => false | Npos e => (ppow p deg (tab p deg) 2 e =? 1) && (mulmod lfgP 335 p c =? 0) end.
Lemma lfgEo_value : (N.pos lfgEo =? o187 * o108) = true.
Proof. vm_cast_no_check (eq_refl true). Qed.
Lemma lfgEo_check : (ppow lfgP 335 (tab lfgP 335) 2 lfgEo =? 1) = true.
Proof. vm_cast_no_check (eq_refl true). Qed.
Lemma pow4_check : match lfgEo with
  | xI e => let r := oddpow4 (ppow lfgP 335 (tab lfgP 335) 2 e) in (fst r =? 1) && (snd r =? lfgU)
  | _ => false end = true.
Proof. vm_cast_no_check (eq_refl true). Qed.
Lemma inv2_check : inv_ok c108 (N.lxor lfgU (mulmod lfgP 335 lfgU lfgU)) inv2 = true.
Proof. vm_cast_no_check (eq_refl true). Qed.
Lemma o108_check : order_ok p108 108 o108 c108 = true.
Proof. vm_cast_no_check (eq_refl true). Qed.
Lemma o187_check : order_ok p187 187 o187 c187 = true.
Proof. vm_cast_no_check (eq_refl true). Qed.
Lemma certs187_check : forallb (cert_ok p187 187 o187) certs187 = true.
Proof. vm_cast_no_check (eq_refl true). Qed.
Lemma certs108_check : forallb (cert_ok p108 108 o108) certs108 = true.
Proof. vm_cast_no_check (eq_refl true). Qed.
Lemma pow4_split : exists e, lfgEo = xI e /\ oddpow4 (ppow lfgP 335 (tab lfgP 335) 2 e) = (1, lfgU).
Proof.
  pose proof pow4_check as C. revert C. generalize lfgEo. intros [e|e|] C; try discriminate.
  exists e. split; [reflexivity|]. cbv zeta in C. apply andb_prop in C. destruct C as [C1 C2]. apply N.eqb_eq in C1, C2.
  rewrite <- C1, <- C2. apply surjective_pairing.
Qed.
