(** Property C35, exactly: how far each K entry of the shipped tables is from the floor of the ratio of the widths, and how
    equal the areas of the layers are. *)
From Coq Require Import Reals Lia Lra List ZArith NArith.
From Flocq Require Import Core BinarySingleNaN.
From Verif Require Import Model.Base Model.Rng Model.Float Model.Ziggurat Model.ExpoTable Model.NormalTable Model.ExpoNormal Spec.Floats Spec.Zig Proofs.ZigTables.
Local Open Scope R_scope.

(** K[i] minus the number of whole cells of layer i to the left of the edge of layer i-1 *)
Definition K_error {W} (z : Ziggurat W) (i : nat) : Z := (Z.of_N (tK z i) - Zfloor (IZR (2 ^ 53) * edge z (i - 1) / edge z i))%Z.
(** in how many of the layers 2 to 1023 it is d *)
Definition K_errors {W} (z : Ziggurat W) (d : Z) : nat := count_occ Z.eq_dec (map (K_error z) (seq 2 1022)) d.

Definition k_err (K : list N) (w : list Z) (i : nat) : Z := (Z.of_N (nth i K 0%N) - 2 ^ 53 * nz w (i - 1) / nz w i)%Z.
(** the number of layers with each error from -2 to 2 *)
Definition k_hist (K : list N) (w : list Z) : list nat := let l := map (k_err K w) (seq 2 1022) in map (count_occ Z.eq_dec l) [-2; -1; 0; 1; 2]%Z.
Definition nats_eqb (a b : list nat) : bool := if list_eq_dec Nat.eq_dec a b then true else false.
Lemma expo_hist_ok : nats_eqb (k_hist expoK (map (scale 112) expoW_bin)) [10; 223; 544; 234; 11]%nat = true. Proof. vm_cast_no_check (eq_refl true). Qed.
Lemma normal_hist_ok : nats_eqb (k_hist normalK (map (scale 112) normalW_bin)) [13; 218; 554; 224; 13]%nat = true. Proof. vm_cast_no_check (eq_refl true). Qed.

Section Hist.
  Context {W : Type} (z : Ziggurat W) (K : list N) (Wb Fb : list (Z * Z)) (d : Z).
  Hypothesis (EK : zK z = K) (EW : zW z = floats Wb) (EF : zF z = floats Fb) (OK : table_ok K Wb Fb d = true).
  Lemma hist a b c e g : nats_eqb (k_hist K (map (scale 112) Wb)) [a; b; c; e; g] = true ->
    K_errors z (-2) = a /\ K_errors z (-1) = b /\ K_errors z 0 = c /\ K_errors z 1 = e /\ K_errors z 2 = g.
  Proof.
    unfold nats_eqb. destruct list_eq_dec as [H|]; [|discriminate]. intros _.
    assert (E : map (K_error z) (seq 2 1022) = map (k_err K (map (scale 112) Wb)) (seq 2 1022)).
    { apply map_ext_in. intros i Hi. apply in_seq in Hi. unfold K_error, k_err, tK. rewrite EK. f_equal. apply (ratio_floor z K Wb Fb d EW OK _ (map (scale 68) Fb) eq_refl eq_refl); lia. }
    unfold K_errors. rewrite E. unfold k_hist in H. cbv zeta in H. set (l := map (k_err _ _) _) in *. clearbody l. clear E. cbn [map] in H. injection H as ? ? ? ? ?. repeat split; assumption.
  Qed.
End Hist.

Section Tables.
  Context {W : Type} (read : reader W) (math_exp math_log : float64 -> float64).
  (** The exponential tables: about half the entries are the floor itself, the others are off by one, 21 of them by two; ... *)
  Theorem C35_expo_K_errors : let z := expoZig read math_exp math_log in
    K_errors z (-2) = 10%nat /\ K_errors z (-1) = 223%nat /\ K_errors z 0 = 544%nat /\ K_errors z 1 = 234%nat /\ K_errors z 2 = 11%nat.
  Proof. exact (hist (expoZig read math_exp math_log) expoK expoW_bin expoF_bin 0 eq_refl eq_refl expo_table_ok _ _ _ _ _ expo_hist_ok). Qed.
  (** ... likewise the normal tables. *)
  Theorem C35_normal_K_errors tf : let z := normalZig read math_exp math_log tf in
    K_errors z (-2) = 13%nat /\ K_errors z (-1) = 218%nat /\ K_errors z 0 = 554%nat /\ K_errors z 1 = 224%nat /\ K_errors z 2 = 13%nat.
  Proof. exact (hist (normalZig read math_exp math_log tf) normalK normalW_bin normalF_bin 1 eq_refl eq_refl normal_table_ok _ _ _ _ _ normal_hist_ok). Qed.
  (** All layers of the shipped tables have the same area to 1.1e-13. *)
  Theorem C35_expo_areas : let z := expoZig read math_exp math_log in
    forall i, (1 <= i < 1024)%nat -> Rabs (edge z i * (height z (i - 1) - height z i) - strip z) <= 11 / 10 ^ 14 * strip z.
  Proof. exact (areas_sharp (expoZig read math_exp math_log) expoK expoW_bin expoF_bin 0 eq_refl eq_refl expo_table_ok _ _ eq_refl eq_refl). Qed.
  Theorem C35_normal_areas tf : let z := normalZig read math_exp math_log tf in
    forall i, (1 <= i < 1024)%nat -> Rabs (edge z i * (height z (i - 1) - height z i) - strip z) <= 11 / 10 ^ 14 * strip z.
  Proof. exact (areas_sharp (normalZig read math_exp math_log tf) normalK normalW_bin normalF_bin 1 eq_refl eq_refl normal_table_ok _ _ eq_refl eq_refl). Qed.
End Tables.
