(** Order certificates: a chain of powers of x modulo P and one Bezout inverse per prime. *)
From Coq Require Import Lia ZifyN ZifyNat ZifyBool Znumtheory ZArith.
From Verif Require Import Proofs.WordLemmas Proofs.Gf2.
Local Open Scope N_scope.

(** node = (value, exponent): value = x^exponent mod P; step = (source node, exponent, value) *)
Fixpoint chain (P deg : N) (T : list N) (nodes : list (N * N)) (steps : list (nat * positive * N)) : option (list (N * N)) :=
  match steps with
  | [] => Some nodes
  | (i, e, b) :: steps =>
      match nth_error nodes i with
      | Some (a, k) =>
          if ppow P deg T a e =? b then chain P deg T (nodes ++ [(b, k * Npos e)]) steps else None
      | None => None
      end
  end.
Definition cert_check (P deg Ord : N) (steps : list (nat * positive * N)) (fin : nat)
    (primes : list (Z * nat * N)) : bool :=
  match chain P deg (tab P deg) [(2, 1)] steps with
  | None => false
  | Some nodes =>
      match nth_error nodes fin with
      | Some (a, k) => (a =? 1) && (k =? Ord)
      | None => false
      end &&
      forallb (fun '(p, i, inv) =>
        match nth_error nodes i with
        | Some (a, k) => (Z.of_N k =? Z.of_N Ord / p)%Z && (mulmod P deg inv (N.lxor a 1) =? 1)
        | None => false
        end) primes
  end.

Section OrderCert.
  Context {V : Type}.
  Variable zero : V.
  Variable add : V -> V -> V.
  Variable wf : V -> Prop.
  Variable f : V -> V.
  Hypothesis add_comm : forall a b, add a b = add b a.
  Hypothesis add_assoc : forall a b c, add a (add b c) = add (add a b) c.
  Hypothesis add_0 : forall a, add zero a = a.
  Hypothesis add_self : forall a, add a a = zero.
  Hypothesis wf_0 : wf zero.
  Hypothesis wf_add : forall a b, wf a -> wf b -> wf (add a b).
  Hypothesis wf_f : forall a, wf a -> wf (f a).
  Hypothesis f_add : forall a b, wf a -> wf b -> f (add a b) = add (f a) (f b).
  Variable P deg : N.
  Hypothesis P_kills : forall v, wf v -> pap zero add f P v = zero.

  Let acts := acts zero add wf f.

  Lemma chain_acts steps : forall nodes out, chain P deg (tab P deg) nodes steps = Some out ->
    Forall (fun '(a, k) => acts a k) nodes -> Forall (fun '(a, k) => acts a k) out.
  Proof.
    induction steps as [|[[i e] b] steps IH]; cbn [chain]; intros nodes out H HF.
    - inversion H; subst. exact HF.
    - destruct (nth_error nodes i) as [[a k]|] eqn:En; [|discriminate].
      destruct (N.eqb_spec (ppow P deg (tab P deg) a e) b) as [<-|]; [|discriminate].
      apply (IH _ _ H). apply Forall_app. split; [exact HF|]. constructor; [|constructor].
      apply (acts_ppow zero add wf f add_comm add_assoc add_0 add_self wf_0 wf_add wf_f f_add P deg P_kills).
      apply nth_error_In in En. rewrite Forall_forall in HF. apply (HF _ En).
  Qed.

  Lemma cert_order Ord steps fin primes :
    cert_check P deg Ord steps fin primes = true ->
    Forall prime (map (fun t => fst (fst t)) primes) ->
    Z.of_N Ord = fold_right Z.mul 1%Z (map (fun t => fst (fst t)) primes) -> Ord <> 0 ->
    forall v, wf v -> v <> zero -> forall n, N.iter n f v = v <-> (Ord | n).
  Proof.
    intros Hc Hp Hprod H0 v Hv Hnz. unfold cert_check in Hc.
    destruct (chain P deg (tab P deg) [(2, 1)] steps) as [nodes|] eqn:Ech; [|discriminate].
    pose proof (chain_acts _ _ _ Ech) as HA.
    assert (HF : Forall (fun '(a, k) => acts a k) nodes).
    { apply HA. constructor; [apply acts_x|constructor]. }
    apply andb_true_iff in Hc. destruct Hc as [Hfin Hpr].
    destruct (nth_error nodes fin) as [[a k]|] eqn:Ef; [|discriminate].
    apply andb_true_iff in Hfin. destruct Hfin as [Ha Hk]. apply N.eqb_eq in Ha, Hk. subst a k.
    apply (order_exact f v (map (fun t => fst (fst t)) primes)); auto.
    - apply nth_error_In in Ef. rewrite Forall_forall in HF. specialize (HF _ Ef v Hv).
      rewrite <- HF. reflexivity.
    - intros p Hin Efix. apply in_map_iff in Hin. destruct Hin as ([[p' i] inv] & <- & Hin). cbn [fst] in *.
      rewrite forallb_forall in Hpr. specialize (Hpr _ Hin). cbn in Hpr.
      destruct (nth_error nodes i) as [[a k]|] eqn:Ei; [|discriminate].
      apply andb_true_iff in Hpr. destruct Hpr as [Hk Hinv]. apply Z.eqb_eq in Hk. apply N.eqb_eq in Hinv.
      rewrite <- Hk, N2Z.id in Efix. apply Hnz.
      apply (no_fixpoint zero add wf f add_comm add_assoc add_0 add_self wf_0 wf_add wf_f f_add P deg P_kills a k inv v);
        auto.
      apply nth_error_In in Ei. rewrite Forall_forall in HF. apply (HF _ Ei).
  Qed.
End OrderCert.
