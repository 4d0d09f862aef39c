(** GF(2)-linear maps, polynomials over GF(2) acting on them, and orders. *)
From Coq Require Import Lia ZifyN ZifyNat ZifyBool Znumtheory ZArith.
From Verif Require Import Model.Base Proofs.WordLemmas.
Local Open Scope N_scope.

(** ** A GF(2) vector space, an additive endomorphism, and polynomials (bit i of an [N] is the
    coefficient of x^i) applied to it. *)
Section Poly.
  Context {V : Type}.
  Variable zero : V.
  Variable add : V -> V -> V.
  Variable wf : V -> Prop.           (* the vectors of the space *)
  Variable f : V -> V.
  Hypothesis add_comm : forall a b, add a b = add b a.
  Hypothesis add_assoc : forall a b c, add a (add b c) = add (add a b) c.
  Hypothesis add_0 : forall a, add zero a = a.
  Hypothesis add_self : forall a, add a a = zero.
  Hypothesis wf_0 : wf zero.
  Hypothesis wf_add : forall a b, wf a -> wf b -> wf (add a b).
  Hypothesis wf_f : forall a, wf a -> wf (f a).
  Hypothesis f_add : forall a b, wf a -> wf b -> f (add a b) = add (f a) (f b).

  Lemma f_zero : f zero = zero.
  Proof.
    rewrite <- (add_self zero) at 1. rewrite f_add by exact wf_0. apply add_self.
  Qed.

  (** Horner evaluation of the polynomial at f, applied to v *)
  Fixpoint papp (p : positive) (v : V) : V :=
    match p with
    | xH => v
    | xO q => f (papp q v)
    | xI q => add v (f (papp q v))
    end.
  Definition pap (p : N) (v : V) : V :=
    match p with N0 => zero | Npos q => papp q v end.

  Lemma papp_wf p v : wf v -> wf (papp p v).
  Proof. induction p; cbn; auto. Qed.
  Lemma pap_wf p v : wf v -> wf (pap p v).
  Proof. destruct p; cbn; auto using papp_wf. Qed.
  Lemma pap_double p v : pap (N.double p) v = f (pap p v).
  Proof. destruct p; cbn; [now rewrite f_zero|reflexivity]. Qed.
  Lemma pap_succ_double p v : pap (N.succ_double p) v = add v (f (pap p v)).
  Proof. destruct p; cbn; [|reflexivity]. now rewrite f_zero, add_comm, add_0. Qed.

  Lemma add_xx_y a b : add a (add a b) = b.
  Proof. now rewrite add_assoc, add_self, add_0. Qed.

  Lemma papp_lxor p q v : wf v -> pap (Pos.lxor p q) v = add (papp p v) (papp q v).
  Proof.
    intros Hv. revert q. induction p as [p IH|p IH|]; intros [q|q|]; cbn [Pos.lxor papp].
    - rewrite pap_double, IH, f_add by auto using papp_wf.
      rewrite (add_comm v (f (papp q v))), <- (add_assoc v), (add_assoc _ _ v), (add_comm _ v).
      now rewrite add_xx_y.
    - rewrite pap_succ_double, IH, f_add by auto using papp_wf. apply add_assoc.
    - cbn. now rewrite (add_comm v), <- add_assoc, add_self, add_comm, add_0.
    - rewrite pap_succ_double, IH, f_add by auto using papp_wf.
      now rewrite add_assoc, (add_comm v), <- add_assoc.
    - rewrite pap_double, IH, f_add by auto using papp_wf. reflexivity.
    - cbn. apply add_comm.
    - cbn. now rewrite add_xx_y.
    - cbn. reflexivity.
    - cbn. now rewrite add_self.
  Qed.
  Lemma pap_lxor p q v : wf v -> pap (N.lxor p q) v = add (pap p v) (pap q v).
  Proof.
    intros Hv. destruct p as [|p], q as [|q]; cbn [pap].
    - cbn. now rewrite add_0.
    - cbn. now rewrite add_0.
    - cbn. now rewrite add_comm, add_0.
    - apply papp_lxor, Hv.
  Qed.

  Lemma papp_add p a b : wf a -> wf b -> papp p (add a b) = add (papp p a) (papp p b).
  Proof.
    intros Ha Hb. induction p as [p IH|p IH|]; cbn [papp].
    - rewrite IH, f_add by auto using papp_wf.
      rewrite <- !add_assoc. f_equal. rewrite !add_assoc. f_equal. apply add_comm.
    - rewrite IH. apply f_add; auto using papp_wf.
    - reflexivity.
  Qed.
  Lemma pap_add p a b : wf a -> wf b -> pap p (add a b) = add (pap p a) (pap p b).
  Proof.
    intros Ha Hb. destruct p; cbn [pap]; [now rewrite add_0|]. apply papp_add; assumption.
  Qed.
  Lemma papp_f p v : wf v -> papp p (f v) = f (papp p v).
  Proof.
    intros Hv. induction p as [p IH|p IH|]; cbn [papp].
    - rewrite IH, f_add by auto using papp_wf. reflexivity.
    - now rewrite IH.
    - reflexivity.
  Qed.
  Lemma pap_f p v : wf v -> pap p (f v) = f (pap p v).
  Proof. intros Hv. destruct p; cbn [pap]; [now rewrite f_zero|]. now apply papp_f. Qed.
  Lemma pap_zero p : pap p zero = zero.
  Proof.
    destruct p as [|p]; cbn [pap]; [reflexivity|].
    induction p as [p IH|p IH|]; cbn [papp]; rewrite ?IH, ?f_zero, ?add_0; reflexivity.
  Qed.

  (** *** arithmetic modulo P, where P annihilates f *)
  Variable P : N.
  Variable deg : N.
  Hypothesis P_kills : forall v, wf v -> pap P v = zero.

  Definition xtime (a : N) : N :=
    let b := N.double a in if N.testbit b deg then N.lxor b P else b.
  Lemma pap_xtime a v : wf v -> pap (xtime a) v = f (pap a v).
  Proof.
    intros Hv. unfold xtime. destruct (N.testbit _ _).
    - rewrite pap_lxor, P_kills, add_comm, add_0 by exact Hv. apply pap_double.
    - apply pap_double.
  Qed.
  Fixpoint pmulmod (a : positive) (b : N) : N :=
    match a with
    | xH => b
    | xO a' => xtime (pmulmod a' b)
    | xI a' => N.lxor b (xtime (pmulmod a' b))
    end.
  Definition mulmod (a b : N) : N := match a with N0 => 0 | Npos a' => pmulmod a' b end.
  Lemma pap_mulmod a b v : wf v -> pap (mulmod a b) v = pap a (pap b v).
  Proof.
    intros Hv. destruct a as [|a]; cbn [mulmod]; [reflexivity|]. cbn [pap].
    induction a as [a IH|a IH|]; cbn [pmulmod papp].
    - rewrite pap_lxor, pap_xtime, IH by exact Hv. reflexivity.
    - rewrite pap_xtime, IH by exact Hv. reflexivity.
    - reflexivity.
  Qed.

  (** fast squaring: table of x^(2i) mod P *)
  Fixpoint mk_tab (n : nat) (cur : N) : list N :=
    match n with O => [] | S n' => cur :: mk_tab n' (xtime (xtime cur)) end.
  Fixpoint psqt (T : list N) (a : positive) : N :=
    match T with
    | [] => 0
    | t :: T' =>
        match a with
        | xH => t
        | xO a' => psqt T' a'
        | xI a' => N.lxor t (psqt T' a')
        end
    end.
  Definition sq (T : list N) (a : N) : N :=
    match a with
    | N0 => 0
    | Npos a' => if (Pos.size_nat a' <=? length T)%nat then psqt T a' else mulmod a a
    end.
  (** a^n mod P *)
  Fixpoint ppow (T : list N) (a : N) (n : positive) : N :=
    match n with
    | xH => a
    | xO n' => sq T (ppow T a n')
    | xI n' => mulmod a (sq T (ppow T a n'))
    end.
  Definition tab : list N := mk_tab (N.to_nat deg) 1.

  Lemma iter_wf n v : wf v -> wf (N.iter n f v).
  Proof. intros Hv. apply N.iter_invariant; auto. Qed.

  (** [a] acts as f^k  ->  a^n acts as f^(k n) *)
  Definition acts (a : N) (k : N) : Prop := forall v, wf v -> pap a v = N.iter k f v.
  Lemma acts_mul a b k l : acts a k -> acts b l -> acts (mulmod a b) (k + l).
  Proof.
    intros Ha Hb v Hv. rewrite pap_mulmod, Hb, Ha by auto using iter_wf.
    now rewrite N.iter_add.
  Qed.
  Lemma acts_1 : acts 1 0. Proof. intros v _. reflexivity. Qed.
  Lemma acts_x : acts 2 1. Proof. intros v _. reflexivity. Qed.
  Lemma psqt_spec n a : forall cur v, wf v -> (Pos.size_nat a <= n)%nat ->
    pap (psqt (mk_tab n cur) a) v = pap cur (papp a (papp a v)).
  Proof.
    revert a; induction n as [|n IH]; intros a cur v Hv Hs; [destruct a; cbn in Hs; lia|].
    destruct a as [a|a|]; cbn [mk_tab psqt Pos.size_nat papp] in *.
    - rewrite pap_lxor, IH by (auto; lia).
      assert (Hp : wf (papp a v)) by auto using papp_wf.
      assert (Hq : wf (papp a (papp a v))) by auto using papp_wf.
      rewrite pap_xtime, pap_xtime, <- !pap_f by auto using papp_wf.
      rewrite (papp_add a), papp_f, f_add by auto using papp_wf.
      rewrite <- (add_assoc v), add_xx_y, pap_add by auto using papp_wf. reflexivity.
    - rewrite IH by (auto; lia). rewrite pap_xtime, pap_xtime, <- !pap_f by auto using papp_wf.
      rewrite papp_f by auto using papp_wf. reflexivity.
    - reflexivity.
  Qed.
  Lemma mk_tab_length n cur : length (mk_tab n cur) = n.
  Proof. revert cur; induction n; intros; cbn; auto. Qed.
  Lemma pap_sq a v : wf v -> pap (sq tab a) v = pap a (pap a v).
  Proof.
    intros Hv. destruct a as [|a]; cbn [sq]; [reflexivity|].
    unfold tab. rewrite mk_tab_length.
    destruct (Nat.leb_spec (Pos.size_nat a) (N.to_nat deg)) as [H|H].
    - rewrite psqt_spec by assumption. reflexivity.
    - apply pap_mulmod, Hv.
  Qed.
  Lemma acts_sq a k : acts a k -> acts (sq tab a) (k + k).
  Proof.
    intros Ha v Hv. rewrite pap_sq, (Ha v Hv), Ha by auto using iter_wf. now rewrite N.iter_add.
  Qed.
  Lemma acts_ppow a k n : acts a k -> acts (ppow tab a n) (k * Npos n).
  Proof.
    intros Ha. induction n as [n IH|n IH|]; cbn [ppow].
    - replace (k * N.pos n~1) with (k + (k * Npos n + k * Npos n)) by lia.
      apply acts_mul; [exact Ha|]. apply acts_sq; exact IH.
    - replace (k * N.pos n~0) with (k * Npos n + k * Npos n) by lia.
      apply acts_sq; exact IH.
    - now rewrite N.mul_1_r.
  Qed.

  (** Bezout certificate: no non-zero vector is fixed by f^k *)
  Lemma no_fixpoint a k inv v : acts a k -> mulmod inv (N.lxor a 1) = 1 -> wf v ->
    N.iter k f v = v -> v = zero.
  Proof.
    intros Ha Hi Hv Hfix.
    assert (H0 : pap (N.lxor a 1) v = zero).
    { rewrite pap_lxor by exact Hv. rewrite Ha by exact Hv. rewrite Hfix. apply add_self. }
    assert (H1 : pap (mulmod inv (N.lxor a 1)) v = v) by (now rewrite Hi).
    rewrite pap_mulmod, H0, pap_zero in H1 by exact Hv. now symmetry.
  Qed.
End Poly.

(** ** Additive maps on bit vectors are determined by the basis 2^0, ..., 2^(d-1) *)
Section Basis.
  Context {V : Type}.
  Variable add : V -> V -> V.
  Lemma basis_ext (g h : N -> V) (d : nat) :
    (forall a b, g (N.lxor a b) = add (g a) (g b)) ->
    (forall a b, h (N.lxor a b) = add (h a) (h b)) ->
    g 0 = h 0 ->
    (forall i, (i < d)%nat -> g (2 ^ N.of_nat i) = h (2 ^ N.of_nat i)) ->
    forall n, n < 2 ^ N.of_nat d -> g n = h n.
  Proof.
    intros Hg Hh H0. induction d as [|d IH]; intros Hb n Hn.
    - cbn in Hn. assert (n = 0) by lia. now subst.
    - rewrite Nat2N.inj_succ, N.pow_succ_r' in Hn.
      destruct (N.lt_ge_cases n (2 ^ N.of_nat d)) as [Hl|Hge].
      + apply IH; [|exact Hl]. intros i Hi. apply Hb. lia.
      + set (m := N.lxor n (2 ^ N.of_nat d)).
        assert (Hm : m < 2 ^ N.of_nat d).
        { apply bits_bound. intros k Hk. unfold m. rewrite N.lxor_spec, N.pow2_bits_eqb.
          destruct (N.eqb_spec (N.of_nat d) k) as [<-|Hne].
          - rewrite <- (N.add_0_l (N.of_nat d)) at 1. rewrite <- N.div_pow2_bits.
            replace (n / 2 ^ N.of_nat d) with 1; [reflexivity|].
            apply N.div_unique with (n - 2 ^ N.of_nat d); lia.
          - rewrite xorb_false_r. apply testbit_above with (N.succ (N.of_nat d)); [|lia].
            rewrite N.pow_succ_r'. exact Hn. }
        assert (Hnm : n = N.lxor m (2 ^ N.of_nat d)).
        { unfold m. rewrite N.lxor_assoc, N.lxor_nilpotent, N.lxor_0_r. reflexivity. }
        rewrite Hnm, Hg, Hh, (Hb d) by lia. f_equal. apply IH; [|exact Hm].
        intros i Hi. apply Hb. lia.
  Qed.
End Basis.

(** ** Exact order from its prime factors *)
Section Order.
  Context {V : Type}.
  Variable f : V -> V.
  Variable v : V.
  Variable ps : list Z.
  Variable Ord : N.
  Hypothesis ps_prime : Forall prime ps.
  Hypothesis ord_prod : Z.of_N Ord = fold_right Z.mul 1%Z ps.
  Hypothesis ord_pos : Ord <> 0.
  Hypothesis ord_fix : N.iter Ord f v = v.
  Hypothesis ord_min : forall p, In p ps -> N.iter (Z.to_N (Z.of_N Ord / p)) f v <> v.

  Lemma iter_mul_fix k m : N.iter k f v = v -> N.iter (k * m) f v = v.
  Proof.
    intros H. rewrite N.mul_comm. induction m as [|m IH] using N.peano_ind; [reflexivity|].
    rewrite N.mul_succ_l, N.iter_add, H. exact IH.
  Qed.

  Lemma iter_gcd_fix a : N.iter a f v = v -> N.iter (N.gcd a Ord) f v = v.
  Proof.
    intros Ha.
    destruct (N.eq_dec a 0) as [->|Ha0]; [rewrite N.gcd_0_l; exact ord_fix|].
    destruct (N.gcd_bezout_pos a Ord) as (x & y & Hxy); [lia|].
    (* x*a = g + y*Ord *)
    assert (H1 : N.iter (a * x) f v = v) by (apply iter_mul_fix; exact Ha).
    assert (H2 : N.iter (Ord * y) f v = v) by (apply iter_mul_fix; exact ord_fix).
    rewrite (N.mul_comm a x), Hxy, N.iter_add, (N.mul_comm y), H2 in H1. exact H1.
  Qed.

  Lemma prime_in_list p : prime p -> (p | fold_right Z.mul 1%Z ps)%Z -> In p ps.
  Proof.
    intros Hp. clear ord_min ord_prod. induction ps as [|q qs IH]; cbn [fold_right]; intros Hd.
    - exfalso. destruct Hp as [H1 _]. apply Z.divide_1_r_nonneg in Hd; lia.
    - apply prime_mult in Hd; [|exact Hp]. inversion ps_prime as [|? ? Hq Hqs]; subst.
      destruct Hd as [Hd|Hd].
      + left. symmetry. apply prime_div_prime; assumption.
      + right. apply IH; assumption.
  Qed.

  Theorem order_exact n : N.iter n f v = v <-> (Ord | n).
  Proof.
    split.
    - intros Hn. pose proof (iter_gcd_fix n Hn) as Hg.
      set (g := N.gcd n Ord) in *.
      destruct (N.gcd_divide_r n Ord) as [c Hc]. fold g in Hc.
      destruct (N.eq_dec c 1) as [->|Hc1].
      + rewrite Hc, N.mul_1_l. apply N.gcd_divide_l.
      + exfalso.
        assert (Hc2 : (1 < Z.of_N c)%Z) by lia.
        destruct (Z_lt_le_dec 1 (Z.of_N c)) as [_|]; [|lia].
        assert (Hex : exists p, prime p /\ (p | Z.of_N c)%Z).
        { clear - Hc2. remember (Z.of_N c) as z eqn:E. clear E c.
          assert (Hz : (0 <= z)%Z) by lia.
          revert Hc2. pattern z. apply Zlt_0_ind; [|exact Hz].
          intros y IH _ Hy. destruct (prime_dec y) as [Hp|Hnp]; [exists y; split; [exact Hp|apply Z.divide_refl]|].
          apply not_prime_divide in Hnp; [|lia]. destruct Hnp as (d & Hd1 & Hd2).
          destruct (IH d) as (p & Hp & Hpd); [lia|lia|].
          exists p. split; [exact Hp|]. eapply Z.divide_trans; eassumption. }
        destruct Hex as (p & Hp & Hpc).
        assert (Hin : In p ps).
        { apply prime_in_list; [exact Hp|]. rewrite <- ord_prod, Hc, N2Z.inj_mul.
          apply Z.divide_mul_l. exact Hpc. }
        apply (ord_min p Hin).
        destruct Hpc as [e He].
        assert (Hp1 : (1 < p)%Z) by (destruct Hp; assumption).
        assert (Heq : Z.to_N (Z.of_N Ord / p) = g * Z.to_N e).
        { rewrite Hc, N2Z.inj_mul, He.
          replace (e * p * Z.of_N g)%Z with ((e * Z.of_N g) * p)%Z by ring.
          rewrite Z.div_mul by lia.
          assert (0 <= e)%Z by nia.
          rewrite Z2N.inj_mul, N2Z.id by lia. apply N.mul_comm. }
        rewrite Heq. apply iter_mul_fix. exact Hg.
    - intros [m Hm]. rewrite Hm, N.mul_comm. apply iter_mul_fix. exact ord_fix.
  Qed.
End Order.
