(** A staircase whose layers have nearly the same area is near the ziggurat. *)
From Coq Require Import Reals Lia Lra Psatz List Arith.
From Coquelicot Require Import Coquelicot.
From Verif Require Import Model.ZigScript Spec.ZigBuild Proofs.ZigSolve Proofs.ZigSearch.
Local Open Scope R_scope.
Section Near.
  Variables (f : R -> R) (total : R).
  Hypothesis DD : decreasing_density f total.
  Variables (n : nat) (e : nat -> R) (v : R).
  Hypothesis N2 : (2 <= n)%nat.
  Hypothesis ZO : ziggurat_of f n e v.
  Variables (X : nat -> R) (lo hi : R).
  Hypothesis X0 : X 0%nat = 0.
  Hypothesis XS : forall i, (S i < n)%nat -> X i < X (S i).
  Let f_dec_le := f_dec_le f total DD.
  Lemma X_nonneg i : (i < n)%nat -> 0 <= X i.
  Proof. induction i as [|i IH]; intros H; [lra|]. assert (A := XS i H). assert (B : 0 <= X i) by (apply IH; lia). lra. Qed.
  Lemma near_high : (forall i, (S i < n)%nat -> X (S i) * (f (X i) - f (X (S i))) <= hi) -> base f total (X (n - 1)%nat) <= hi -> v <= hi.
  Proof.
    intros HA HB. apply Rnot_lt_le. intros L.
    assert (K : forall i, (i < n)%nat -> X i <= e i).
    { induction i as [|i IH]; intros Hi; [rewrite X0, (zo_zero _ _ _ _ ZO); lra|]. apply Rnot_lt_le. intros Q.
      destruct (e_S f n e v N2 ZO i Hi) as [E1 E2]. assert (I : X i <= e i) by (apply IH; lia). assert (P := X_nonneg i ltac:(lia)).
      assert (D := f_dec_le (X i) (e i) (conj P I)). assert (M := phi_mono f total DD (X i) (e (S i)) (X (S i))). unfold phi in M.
      assert (A := HA i Hi). assert (e (S i) * (f (e i) - f (e (S i))) <= e (S i) * (f (X i) - f (e (S i)))) by (apply Rmult_le_compat_l; lra). lra. }
    assert (B := vs_base f total DD n e v N2 ZO). assert (P := X_nonneg (n - 1) ltac:(lia)).
    destruct (K (n - 1)%nat ltac:(lia)) as [Q|Q]; [assert (D := base_dec f total DD _ _ (conj P Q)); lra|rewrite Q in HB; lra].
  Qed.
  Lemma near_low : (forall i, (S i < n)%nat -> lo <= X (S i) * (f (X i) - f (X (S i)))) -> lo <= base f total (X (n - 1)%nat) -> lo <= v.
  Proof.
    intros HA HB. apply Rnot_lt_le. intros L.
    assert (K : forall i, (i < n)%nat -> e i <= X i).
    { induction i as [|i IH]; intros Hi; [rewrite X0, (zo_zero _ _ _ _ ZO); lra|]. apply Rnot_lt_le. intros Q.
      destruct (e_S f n e v N2 ZO i Hi) as [E1 E2]. assert (I : e i <= X i) by (apply IH; lia). assert (P := e_nonneg f n e v N2 ZO i ltac:(lia)).
      assert (S1 := XS i Hi).
      assert (D := f_dec_le (e i) (X i) (conj P I)). assert (M := phi_mono f total DD (e i) (X (S i)) (e (S i))). unfold phi in M.
      assert (A := HA i Hi). assert (X (S i) * (f (X i) - f (X (S i))) <= X (S i) * (f (e i) - f (X (S i)))) by (apply Rmult_le_compat_l; lra). lra. }
    assert (B := vs_base f total DD n e v N2 ZO). assert (P := e_nonneg f n e v N2 ZO (n - 1) ltac:(lia)).
    destruct (K (n - 1)%nat ltac:(lia)) as [Q|Q]; [assert (D := base_dec f total DD _ _ (conj P Q)); lra|rewrite <- Q in HB; lra].
  Qed.
  Lemma base_gap a b : 0 <= a < b -> a * (f a - f b) <= base f total a - base f total b.
  Proof.
    intros H. unfold base. rewrite <- (chasles f total DD 0 a b) by lra. assert (I := int_lower f total DD a b H). nra.
  Qed.
  (** and so is its base edge, when f falls fast enough there *)
  Lemma near_r r d : 0 < d -> d <= r -> lo <= v <= hi -> lo <= base f total r <= hi ->
    hi - lo < r * (f r - f (r + d)) -> hi - lo < (r - d) * (f (r - d) - f r) -> Rabs (e (n - 1)%nat - r) < d.
  Proof.
    intros D0 DR HV HB H1 H2. assert (B := vs_base f total DD n e v N2 ZO). assert (P := e_nonneg f n e v N2 ZO (n - 1) ltac:(lia)).
    apply Rabs_def1; apply Rnot_le_lt; intros Q.
    - assert (G := base_gap r (r + d)). assert (M : base f total (e (n - 1)%nat) <= base f total (r + d)); [|lra].
      destruct (Rle_lt_or_eq_dec (r + d) (e (n - 1)%nat)) as [L|L]; [lra|left; apply (base_dec f total DD); lra|rewrite L; lra].
    - assert (G := base_gap (r - d) r). assert (M : base f total (r - d) <= base f total (e (n - 1)%nat)); [|lra].
      destruct (Rle_lt_or_eq_dec (e (n - 1)%nat) (r - d)) as [L|L]; [lra|left; apply (base_dec f total DD); lra|rewrite L; lra].
  Qed.
End Near.
