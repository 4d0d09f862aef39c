(** C78: ziggurat.py finds the ziggurat of every decreasing density, and its tables are right. *)
From Coq Require Import Reals Lia Lra Psatz List Arith ZArith NArith String.
From Coquelicot Require Import Coquelicot.
From Flocq Require Import Core BinarySingleNaN.
From Verif Require Import Model.ZigScript Spec.ZigBuild Spec.Literals.
From Verif Require Import Proofs.ZigSolve Proofs.ZigSearch Proofs.ZigAnswer Proofs.ZigNear Proofs.Printing.
Import ListNotations.
Local Open Scope R_scope.

Section C78.
  Variables (f : R -> R) (total : R).
  Hypothesis DD : decreasing_density f total.

  (** Every number of layers from 2 on has exactly one ziggurat. *)
  Theorem C78_ziggurat_exists n : (2 <= n)%nat -> exists x v, ziggurat_of f n x v.
  Proof. apply (ziggurat_exists f total DD). Qed.
  Theorem C78_ziggurat_unique n x v x' v' : (2 <= n)%nat -> ziggurat_of f n x v -> ziggurat_of f n x' v' ->
    v = v' /\ forall i, (i < n)%nat -> x i = x' i.
  Proof. apply (ziggurat_unique f total DD). Qed.
  (** The function whose root the script seeks is defined for every r > 0: its loop ends, and with one value. *)
  Theorem C78_mini_defined tol n r : 0 < r -> exists m xi v, mini f tol n r m xi v.
  Proof.
    intros R0. assert (BP := base_pos f total DD r R0). destruct (loop_terminates f total DD tol (base f total r) BP r R0) as (xi & y & h & L).
    assert (QA := tail_area f total DD r ltac:(lra)). destruct (Nat.eq_dec (List.length xi) n) as [E|E].
    - destruct (almosteq_dec tol (f 0) y) as [C|C]; [exists 0|exists (f 0 - y)]; exists xi, (base f total r); econstructor; eauto; reflexivity.
    - eexists _, xi, (base f total r). eapply mini_other; eauto.
  Qed.
  Theorem C78_mini_function tol n r m xi v m' xi' v' : 0 < r -> mini f tol n r m xi v -> mini f tol n r m' xi' v' -> m = m' /\ xi = xi' /\ v = v'.
  Proof.
    intros R0 M M'.
    assert (K : forall A w x y h A' w' x' y' h', quad_inf f r A -> w = r * f r + A -> loop f tol (f 0) w [r] (f r) x y h ->
      quad_inf f r A' -> w' = r * f r + A' -> loop f tol (f 0) w' [r] (f r) x' y' h' -> w = w' /\ x = x' /\ y = y' /\ h = h').
    { intros A w x y h A' w' x' y' h' Q E L Q' E' L'. assert (A = A') by (rewrite (tail_unique f total DD r A), (tail_unique f total DD r A'); auto; lra).
      subst A' w'. subst w. split; [reflexivity|]. assert (BP := base_pos f total DD r R0). rewrite (tail_unique f total DD r A ltac:(lra) Q) in *.
      destruct (loop_det f total DD tol (base f total r) _ _ _ _ _ L _ _ _ L') as (? & ? & ?). auto. }
    destruct M as [A w xi y h Q E L Hl C|A w xi y h Q E L Hl C|A w xi y h Q E L Hl]; destruct M' as [A' w' xi' y' h' Q' E' L' Hl' C'|A' w' xi' y' h' Q' E' L' Hl' C'|A' w' xi' y' h' Q' E' L' Hl'].
    all: destruct (K _ _ _ _ _ _ _ _ _ _ Q E L Q' E' L') as (? & ? & ? & ?); subst xi' y' h' w'; auto; contradiction.
  Qed.
  (** Its sign tells on which side of the base edge it is asked: exactly, without a tolerance; ... *)
  Theorem C78_sign n x vs r m xi v : (2 <= n)%nat -> ziggurat_of f n x vs -> 0 < r -> mini f 0 n r m xi v ->
    (m < 0 <-> r < x (n - 1)%nat) /\ (m = 0 <-> r = x (n - 1)%nat) /\ (0 < m <-> x (n - 1)%nat < r).
  Proof. intros N2 ZO. now apply (mini_sign f total DD n x vs). Qed.
  (** ... with a tolerance that is smaller than the top layer is high, it is never wrong, and it is 0 at the base edge. *)
  Theorem C78_sign_tolerance tol n x vs r m xi v : (2 <= n)%nat -> ziggurat_of f n x vs -> 0 <= tol ->
    tol * Rmax 1 (f 0) < f 0 - f (x 1%nat) -> 0 < r -> mini f tol n r m xi v ->
    (m < 0 -> r < x (n - 1)%nat) /\ (r = x (n - 1)%nat -> m = 0) /\ (0 < m -> x (n - 1)%nat < r).
  Proof.
    intros N2 ZO T0 SM R0 M. destruct (mini_at f total DD n x vs N2 ZO tol T0 SM r m xi v M R0) as (A & B & C).
    split; [|split; [exact B|]].
    - intros H. apply Rnot_le_lt. intros [L|L]; [destruct (C L) as [Q|[Q _]]; lra|assert (Q := B (eq_sym L)); lra].
    - intros H. apply Rnot_le_lt. intros [L|L]; [destruct (A L) as [Q|[Q _]]; lra|assert (Q := B L); lra].
  Qed.
  (** What is returned is the ziggurat: without a tolerance exactly that of nseg layers, and it is always found at its r; ... *)
  Theorem C78_solve n r v xi : (2 <= n)%nat -> 0 < r ->
    solve f 0 n r v xi <-> List.length xi = n /\ ziggurat_of f n (fun i => nth i xi 0) v /\ r = nth (n - 1) xi 0.
  Proof.
    intros N2 R0. split.
    - intros HS. destruct (solve_ziggurat f total DD n r v xi R0 HS) as [A B]. split; [exact A|]. split; [exact B|].
      destruct (solve_shape f total DD 0 n r v xi (Rle_refl 0) R0 HS) as (_ & _ & _ & E & _). now symmetry.
    - intros (Hl & ZO & ->).
      assert (SM : 0 * Rmax 1 (f 0) < f 0 - f (nth 1 xi 0)).
      { assert (P := e_pos f n _ v N2 ZO 1). assert (D := f_dec f total DD 0 (nth 1 xi 0)). rewrite Rmult_0_l. assert (0 < nth 1 xi 0) by (apply P; lia). lra. }
      assert (M := mini_exact_at f total DD n (fun i => nth i xi 0) v N2 ZO 0 (Rle_refl 0) SM).
      replace (map (fun i => nth i xi 0) (seq 0 n)) with xi in M; [exact M|].
      apply nth_ext with (d := 0) (d' := nth 0 xi 0); [now rewrite map_length, seq_length|]. intros i Hi. rewrite (map_nth (fun i => nth i xi 0) (seq 0 n) 0%nat i), seq_nth by lia. reflexivity.
  Qed.
  (** ... with a tolerance: the edges increase from 0 to r, the base layer and all layers but the top one have the area v, and
      the top layer reaches the maximum of f up to the tolerance. *)
  Theorem C78_solve_tolerance tol n r v xi : 0 <= tol -> 0 < r -> solve f tol n r v xi ->
    List.length xi = n /\ (2 <= n)%nat /\ nth 0 xi 0 = 0 /\ nth (n - 1) xi 0 = r /\
    (exists A, area_right f r A /\ r * f r + A = v) /\
    (forall i, (0 < i < n)%nat -> nth (i - 1) xi 0 < nth i xi 0) /\
    (forall i, (1 < i < n)%nat -> nth i xi 0 * (f (nth (i - 1) xi 0) - f (nth i xi 0)) = v) /\
    almosteq tol (f (nth 1 xi 0) + v / nth 1 xi 0) (f 0).
  Proof.
    intros T0 R0 HS. destruct (solve_shape f total DD tol n r v xi T0 R0 HS) as (A & B & C & D & E & F & G & H). repeat (split; auto).
    exists (total - RInt f 0 r). split; [apply (tail_area f total DD); lra|now symmetry].
  Qed.
  (** fewer than two layers are never found *)
  Theorem C78_no_single_layer tol n r v xi : 0 <= tol -> 0 < r -> (n < 2)%nat -> ~ solve f tol n r v xi.
  Proof. intros T0 R0 N HS. destruct (solve_shape f total DD tol n r v xi T0 R0 HS) as (_ & A & _). lia. Qed.
  (** The n layers together cover more than the area under f; the initial guess exists and is always to the right of the
      base edge (so mini is positive there). *)
  Theorem C78_layers_cover n x v : (2 <= n)%nat -> ziggurat_of f n x v -> total < INR n * v.
  Proof. apply (area_excess f total DD). Qed.
  Theorem C78_guess n : (2 <= n)%nat -> (exists r, guess f n r) /\ forall x v r, ziggurat_of f n x v -> guess f n r -> x (n - 1)%nat < r.
  Proof. intros N2. split; [apply (guess_exists f total DD); lia|]. intros x v r ZO. now apply (guess_right f total DD n x v). Qed.
  (** The method is exact: a trial returns a number up to y with the probability of the area under f up to y (in units of
      the n layers), goes to the tail with that of the area beyond r, and so an accepted number is distributed like f. *)
  Theorem C78_exact_body n x v y : (2 <= n)%nat -> ziggurat_of f n x v -> 0 <= y ->
    trial_body f n x v y = RInt f 0 (Rmin y (x (n - 1)%nat)) / (INR n * v).
  Proof. intros. now apply (trial_body_is f total DD). Qed.
  Theorem C78_exact_tail n x v : (2 <= n)%nat -> ziggurat_of f n x v -> exists A, area_right f (x (n - 1)%nat) A /\ trial_tail f n x v = A / (INR n * v).
  Proof.
    intros N2 ZO. exists (total - RInt f 0 (x (n - 1)%nat)). split; [|now apply (trial_tail_is f total DD)].
    apply (tail_area f total DD). apply (e_nonneg f n x v N2 ZO). lia.
  Qed.
  Theorem C78_exact_law n x v y : (2 <= n)%nat -> ziggurat_of f n x v -> 0 <= y <= x (n - 1)%nat ->
    trial_body f n x v y / (trial_body f n x v (x (n - 1)%nat) + trial_tail f n x v) = RInt f 0 y / total.
  Proof.
    intros N2 ZO Y. rewrite !(trial_body_is f total DD n x v N2 ZO) by lra. rewrite (trial_tail_is f total DD n x v N2 ZO).
    rewrite (Rmin_left y), (Rmin_left (x (n - 1)%nat)) by lra. assert (NP : 0 < INR n) by (apply lt_0_INR; lia). assert (VP := vs_pos f total DD n x v N2 ZO). assert (TP := total_pos f total DD).
    field. repeat split; lra.
  Qed.
  (** ** The tables.  im is the number of abscissae; layer i is cut into im cells of width W[i]. K[i] counts exactly the cells
      that lie to the left of the edge of the layer above (for the base layer: of r), so that accepting a number below K[i]
      without looking at f is right, and no larger bound would be. *)
  Theorem C78_tables symmetric is64 n r v xi : 0 < r -> solve f 0 n r v xi ->
    let M := im symmetric is64 n in
    let width i := match i with O => v / f r | S _ => nth i xi 0 end in
    let inner i := match i with O => r | S j => nth j xi 0 end in
    0 < M /\ forall i, (i < n)%nat ->
      0 < width i /\ script_W f r v xi M i * M = width i /\ script_F f xi i = f (nth i xi 0) /\
      (0 <= script_K f r v xi M i)%Z /\ IZR (script_K f r v xi M i) < M /\
      forall j : Z, (0 <= j)%Z -> (j < script_K f r v xi M i)%Z <-> (IZR j + 1) * script_W f r v xi M i <= inner i.
  Proof.
    intros R0 HS M width inner. destruct (solve_ziggurat f total DD n r v xi R0 HS) as [Hl ZO]. destruct (solve_shape f total DD 0 n r v xi (Rle_refl 0) R0 HS) as (_ & N2 & _ & Er & Ev & _).
    assert (MP : 0 < M) by (unfold M, im; destruct is64; [apply bpow_gt_0|destruct symmetric; apply pow_lt; lra]). split; [exact MP|]. intros i Hi.
    assert (FP := f_pos f total DD r ltac:(lra)). assert (VP := vs_pos f total DD n _ v N2 ZO).
    assert (WI : 0 < width i /\ 0 <= inner i < width i).
    { destruct i as [|i]; cbn [width inner].
      - assert (B := base_pos f total DD r R0). assert (TA := tail_area f total DD r ltac:(lra)). 
        assert (LT : r < v / f r).
        { apply Rmult_lt_reg_r with (f r); [exact FP|]. replace (v / f r * f r) with v by (field; lra). rewrite Ev. unfold base.
          assert (I := int_below f total DD (r + 1)). rewrite <- (chasles f total DD 0 r (r + 1)) in I by lra. assert (J := int_lower f total DD r (r + 1)). assert (FP1 := f_pos f total DD (r + 1)). lra. }
        split; lra.
      - destruct (e_S f n _ v N2 ZO i Hi) as [A _]. assert (P := e_nonneg f n _ v N2 ZO i ltac:(lia)). cbn beta in *. lra. }
    assert (KE : script_K f r v xi M i = Zfloor (inner i / (width i / M))).
    { destruct i as [|i]; cbn [script_K width inner] in *; f_equal; field; repeat split; lra. }
    assert (WE : script_W f r v xi M i = width i / M) by (destruct i; reflexivity).
    destruct WI as [WP [IP IW]]. assert (CP : 0 < width i / M) by now apply Rdiv_lt_0_compat.
    assert (QN : 0 <= inner i / (width i / M)) by now apply Rdiv_le_0_compat.
    assert (QM : inner i / (width i / M) < M).
    { apply Rmult_lt_reg_r with (width i / M); [exact CP|]. replace (inner i / (width i / M) * (width i / M)) with (inner i) by (field; lra).
      replace (M * (width i / M)) with (width i) by (field; lra). exact IW. }
    rewrite KE, WE. split; [exact WP|]. split; [field; lra|]. split; [reflexivity|]. split; [now apply Zfloor_lub|]. split; [apply Rle_lt_trans with (2 := QM); apply Zfloor_lb|].
    intros j _. rewrite floor_cell. split; intros H.
    - apply (Rmult_le_compat_r (width i / M)) in H; [|lra]. replace (inner i / (width i / M) * (width i / M)) with (inner i) in H by (field; lra). exact H.
    - apply Rmult_le_reg_r with (width i / M); [exact CP|]. replace (inner i / (width i / M) * (width i / M)) with (inner i) by (field; lra). exact H.
  Qed.
End C78.
(** 64-bit tables: abscissa, layer number and sign make up 64 bits; with the 1024 layers of crazy.Ziggurat the abscissa has the
    53 bits its documentation asks for. *)
Theorem C78_bits symmetric n : (1 <= n)%nat ->
  exists b : N, (N.of_nat n <= 2 ^ b)%N /\ (forall c : N, (N.of_nat n <= 2 ^ c)%N -> (b <= c)%N) /\ im symmetric true n * bpow radix2 (Z.of_N b) * 2 = bpow radix2 64.
Proof.
  intros N1. exists (N.size (N.of_nat (n - 1))). split; [|split].
  - assert (S := N.size_gt (N.of_nat (n - 1))). lia.
  - intros c H. destruct (N.eq_dec (N.of_nat (n - 1)) 0) as [E|E]; [rewrite E; cbn; lia|]. rewrite N.size_log2 by exact E. apply N.le_succ_l. apply N.log2_lt_pow2; lia.
  - unfold im. rewrite <- bpow_plus. replace (63 - Z.of_N (N.size (N.of_nat (n - 1))) + Z.of_N (N.size (N.of_nat (n - 1))))%Z with 63%Z by lia. rewrite (bpow_plus radix2 63 1 : bpow radix2 64 = _). reflexivity.
Qed.
Theorem C78_bits_1024 symmetric : im symmetric true 1024 = 2 ^ 53.
Proof. unfold im. change (63 - Z.of_N (N.size (N.of_nat (1024 - 1))))%Z with 53%Z. rewrite (pow_IZR 2 53). reflexivity. Qed.
(** On every command line that is accepted the script works with symmetric = True: the option -symmetric changes nothing. *)
Theorem C78_symmetric (mpf : Type) to_mpf to_int args (o : options mpf) : parseargs mpf to_mpf to_int args = Some o -> o_symmetric o = true.
Proof.
  unfold parseargs. destruct (parse_loop mpf to_mpf to_int args (initial_options mpf)) as [o'|] eqn:E; [|discriminate].
  assert (S : o_symmetric o' = true).
  { assert (K : forall n args o o', (List.length args <= n)%nat -> o_symmetric o = true -> parse_loop mpf to_mpf to_int args o = Some o' -> o_symmetric o' = true).
    { clear. induction n as [|n IH]; intros [|a rest] o o' Hn HS; cbn [parse_loop].
      - now intros [= <-].
      - cbn in Hn. lia.
      - now intros [= <-].
      - cbn in Hn. destruct o as [fn sy x0 ns i64 pf pc vb he]. cbn in HS. subst sy.
        repeat (match goal with |- context [if ?c then _ else _] => destruct c end); try (apply IH; [lia|reflexivity]).
        all: destruct rest as [|b rest]; try discriminate; cbn in Hn.
        all: repeat (match goal with |- context [match ?c with Some _ => _ | None => _ end] => destruct c; try discriminate end); try (apply IH; [cbn; lia|reflexivity]). }
    apply (K _ _ _ _ (le_n _)) in E; [exact E|reflexivity]. }
  destruct (o_fn o'); [intros [= <-]; exact S|]. destruct (o_helped o'); [intros [= <-]; exact S|discriminate].
Qed.
(** Printed numbers are read back as the same numbers by the Go compiler. *)
Theorem C78_printed_K width k : hex_value (hex_digits width k) = k /\ List.Forall (fun d => (d < 16)%N) (hex_digits width k) /\ (width <= List.length (hex_digits width k))%nat.
Proof. apply hex_roundtrip. Qed.
Theorem C78_printed_float x d : is_float64 x -> prints x d -> to_float64 d = x.
Proof. apply decimal_roundtrip. Qed.
(** the command line of the script's own documentation, with and without the option *)
Example C78_command_line :
  let parse := parseargs unit (fun _ => None) (fun s => if String.eqb s "1024" then Some 1024%Z else None) in
  exists o, parse ["-nseg"; "1024"; "-symmetric"; "exp(-0.5*x*x)"]%string = Some o /\ parse ["-nseg"; "1024"; "exp(-0.5*x*x)"]%string = Some o /\
    o_nseg o = 1024%Z /\ o_fn o = Some "exp(-0.5*x*x)"%string /\ parse ["-nseg"]%string = None.
Proof. eexists. repeat split; reflexivity. Qed.
(** one third is printed as 3.33333333333333315e-01 *)
Example C78_printed : let x := 6004799503160661 / 2 ^ 54 in let d := 333333333333333315 / 10 ^ 18 in is_float64 x /\ prints x d /\ d <> x.
Proof.
  cbv zeta. split; [|split].
  - unfold is_float64. replace (6004799503160661 / 2 ^ 54) with (F2R (Float radix2 6004799503160661 (-54))).
    + apply generic_format_FLT. exists (Float radix2 6004799503160661 (-54)); [reflexivity| |]; cbn; lia.
    + unfold F2R. cbn [Fnum Fexp]. change (bpow radix2 (-54)) with (/ IZR (2 ^ 54)). rewrite (pow_IZR 2 54). reflexivity.
  - right. exists (-1)%Z, 333333333333333315%Z. change (-1 + 1)%Z with 0%Z. change (-1 - 17)%Z with (-18)%Z. change (powerRZ 10 (-18)) with (/ 10 ^ 18). change (powerRZ 10 (-1)) with (/ 10 ^ 1). change (powerRZ 10 0) with 1.
    rewrite (Rabs_right (6004799503160661 / 2 ^ 54)) by lra. split; [lra|]. split; [reflexivity|]. apply Rabs_le. lra.
  - lra.
Qed.
Print Assumptions C78_solve.
Print Assumptions C78_exact_law.
