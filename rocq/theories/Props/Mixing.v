(** C75: what is drawn through XorCompose and SelectCompose (util.go:9-41). *)
From Coq Require Import Reals Lia Lra Bool ZifyN ZifyNat.
From Coquelicot Require Import Coquelicot.
From Flocq Require Import Core BinarySingleNaN.
From Verif Require Import Model.Base Model.Rng Model.Util Model.Utf8 Model.Float Model.Distr Model.Ziggurat Model.ExpoNormal Model.Xoshiro Model.GenRead Model.Api Spec.Common Spec.Counting Spec.Floats Spec.Zig Spec.Tails Spec.Prob Spec.Words Spec.Mixing Spec.Kinds.
From Verif Require Import Proofs.WordLemmas Proofs.ReadProofs Proofs.SaveProofs Proofs.IvWords Proofs.Count Proofs.SumN Proofs.ZigTape Proofs.GenTape Proofs.GenLaw Proofs.KindProofs.
From Verif Require Import Props.Rng Props.Compose Props.Zig Props.Draws Props.ExpoLaw Props.NormalLaw Props.Gens.
Local Open Scope R_scope.

(** for every choice of the compiler which x*y + z to fuse (Model/Fused.v) *)
Section Compiler.
Context {fpc : compiler}.

(** *** readers *)
Lemma fst_go {U V} (read : reader U) : go_reader read -> go_reader (@on_fst U V read).
Proof. intros G [u v] p p' n e [u' v'] E. unfold on_fst in E. cbn [fst snd] in E. destruct (read u p) as [[r u1]| |] eqn:ER; try discriminate E. cbn [bind] in E. injection E as -> -> ->. exact (G _ _ _ _ _ _ ER). Qed.
Lemma snd_go {U V} (read : reader V) : go_reader read -> go_reader (@on_snd U V read).
Proof. intros G [u v] p p' n e [u' v'] E. unfold on_snd in E. cbn [fst snd] in E. destruct (read v p) as [[r v1]| |] eqn:ER; try discriminate E. cbn [bind] in E. injection E as -> -> ->. exact (G _ _ _ _ _ _ ER). Qed.
Lemma xor_go {W} (a b : reader W) : go_reader a -> go_reader b -> go_reader (XorCompose_Read a b).
Proof.
  intros GA GB w p q n e w' E. destruct (a w p) as [[[[pa na] ea] w1]| |] eqn:EA; [|unfold XorCompose_Read in E; rewrite EA in E; discriminate E..].
  destruct (b w1 (zeros (length p))) as [[[[pb nb] eb] w2]| |] eqn:EB; [|unfold XorCompose_Read in E; rewrite EA in E; cbn [bind] in E; rewrite EB in E; discriminate E..].
  destruct (C38_xor_bytes a b _ _ _ _ _ _ _ _ _ _ GA GB EA EB) as (q' & Eq & L & V). rewrite E in Eq. injection Eq as -> -> -> ->. split; [exact L|].
  intros B. apply isbyte_nth. intros i Hi. rewrite V by lia. destruct (GA _ _ _ _ _ _ EA) as [_ BA]. destruct (GB _ _ _ _ _ _ EB) as [_ BB].
  apply (lxor_bound _ _ 8); apply nth_isbyte; [now apply BA|]. apply BB, zeros_isbyte.
Qed.
Lemma select_go {W} (s a b : reader W) : go_reader s -> go_reader a -> go_reader b -> go_reader (SelectCompose_Read s a b).
Proof.
  intros GS GA GB w p q n e w' E.
  destruct (s w (zeros (length p))) as [[[[ps ns] es] w0]| |] eqn:ES; [|unfold SelectCompose_Read in E; rewrite ES in E; discriminate E..].
  destruct (a w0 p) as [[[[pa na] ea] w1]| |] eqn:EA; [|unfold SelectCompose_Read in E; rewrite ES in E; cbn [bind] in E; rewrite EA in E; discriminate E..].
  destruct (b w1 (zeros (length p))) as [[[[pb nb] eb] w2]| |] eqn:EB; [|unfold SelectCompose_Read in E; rewrite ES in E; cbn [bind] in E; rewrite EA in E; cbn [bind] in E; rewrite EB in E; discriminate E..].
  destruct (C39_select_bits s a b _ _ _ _ _ _ _ _ _ _ _ _ _ _ GS GA GB ES EA EB) as (q' & Eq & L & V). rewrite E in Eq. injection Eq as -> -> -> ->. split; [exact L|].
  intros B. destruct (GA _ _ _ _ _ _ EA) as [_ BA]. destruct (GB _ _ _ _ _ _ EB) as [_ BB]. specialize (BA B). specialize (BB (zeros_isbyte _)).
  apply isbyte_nth. intros i Hi. apply (bits_bound _ 8). intros j Hj. rewrite V by lia. destruct (N.testbit (nth i ps 0%N) j); apply (testbit_above _ 8); auto; now apply nth_isbyte.
Qed.
(** *** words *)
Definition mux (s a b : N) : N := N.lxor a (N.land (N.lxor a b) s).
Lemma lxor_bytes k : forall x y, xor_all (le_bytes k x) (le_bytes k y) = le_bytes k (N.lxor x y).
Proof.
  induction k as [|k IH]; intros x y; [reflexivity|]. cbn [le_bytes]. unfold xor_all. cbn [combine map fst snd]. f_equal.
  - apply N.bits_inj. intros j. rewrite N.lxor_spec, !N.land_spec, N.lxor_spec. now destruct (N.testbit x j), (N.testbit y j), (N.testbit 255 j).
  - rewrite N.shiftr_lxor. apply IH.
Qed.
Lemma mux_bytes k : forall s a b, mux_all (le_bytes k s) (le_bytes k b) (le_bytes k a) = le_bytes k (mux s a b).
Proof.
  induction k as [|k IH]; intros s a b; [reflexivity|]. cbn [le_bytes]. unfold mux_all. cbn [combine map fst snd]. f_equal.
  - unfold mux. apply N.bits_inj. intros j. rewrite N.land_spec, !N.lxor_spec, !N.land_spec, !N.lxor_spec, !N.land_spec. now destruct (N.testbit a j), (N.testbit b j), (N.testbit s j), (N.testbit 255 j).
  - unfold mux. rewrite N.shiftr_lxor, N.shiftr_land, N.shiftr_lxor. apply IH.
Qed.
Lemma mux_w s a b : w64 a -> w64 b -> w64 (mux s a b).
Proof. intros Ha Hb. apply (bits_bound _ 64). intros j Hj. unfold mux. rewrite mux_bit. destruct (N.testbit s j); now apply (testbit_above _ 64). Qed.
(** what an 8-byte read delivers *)
Lemma word_read {G} (read : reader G) g b g' : go_reader read -> RNG_Uint64 read g = Ret (b, g') ->
  w64 b /\ exists n e, read g (zeros 8) = Ret ((le_bytes 8 b, n, e), g').
Proof.
  intros GO E. unfold RNG_Uint64 in E. destruct (read g (zeros 8)) as [[[[p n] e] g1]| |] eqn:ER; try discriminate E. cbn [bind] in E.
  destruct (GO _ _ _ _ _ _ ER) as [L B]. rewrite zeros_length in L. specialize (B (zeros_isbyte 8)). rewrite get64_8 in E by exact L. cbn [bind] in E. injection E as <- <-.
  split; [now apply le_val_w64|]. exists n, e. rewrite <- (le_bytes_val p B) at 1. now rewrite L.
Qed.
Lemma tape8 x ws : tape (x :: ws) (zeros 8) = Ret ((le_bytes 8 x, 8%nat, None), ws).
Proof. cbn [tape]. now rewrite zeros_length. Qed.
Lemma word_of {S} (read : reader S) s y n e s' : w64 y -> read s (zeros 8) = Ret ((le_bytes 8 y, n, e), s') -> RNG_Uint64 read s = Ret (y, s').
Proof. intros Hy E. unfold RNG_Uint64. rewrite E. cbn [bind]. rewrite get64_8 by apply le_bytes_length. cbn [bind]. now rewrite le_val_bytes8. Qed.

Section Words.
  Context {G : Type} (read : reader G) (GO : go_reader read).
  Lemma xor_word1 x ws g b g' : w64 x -> RNG_Uint64 read g = Ret (b, g') ->
    RNG_Uint64 (XorCompose_Read (on_fst tape) (on_snd read)) (x :: ws, g) = Ret (N.lxor x b, (ws, g')).
  Proof using GO.
    intros Hx E. destruct (word_read read g b g' GO E) as (Hb & n & e & ER). apply word_of with 8%nat None; [now apply lxor_w|].
    unfold XorCompose_Read, on_fst, on_snd. cbn [fst snd]. rewrite tape8. cbn [bind fst snd]. rewrite zeros_length, ER. cbn [bind fst snd].
    pose proof (xor_into_spec (le_bytes 8 b) [] (le_bytes 8 x)) as K. rewrite !le_bytes_length in K. specialize (K eq_refl). cbn [app length] in K. rewrite K. cbn [bind].
    rewrite lxor_bytes, le_bytes_length. reflexivity.
  Qed.
  Lemma xor_word2 x ws g b g' : w64 x -> RNG_Uint64 read g = Ret (b, g') ->
    RNG_Uint64 (XorCompose_Read (on_fst read) (on_snd tape)) (g, x :: ws) = Ret (N.lxor x b, (g', ws)).
  Proof using GO.
    intros Hx E. destruct (word_read read g b g' GO E) as (Hb & n & e & ER). apply word_of with 8%nat None; [now apply lxor_w|].
    unfold XorCompose_Read, on_fst, on_snd. cbn [fst snd]. rewrite ER. cbn [bind fst snd]. rewrite zeros_length, tape8. cbn [bind fst snd].
    pose proof (xor_into_spec (le_bytes 8 x) [] (le_bytes 8 b)) as K. rewrite !le_bytes_length in K. specialize (K eq_refl). cbn [app length] in K. rewrite K. cbn [bind].
    rewrite lxor_bytes, le_bytes_length, N.lxor_comm. reflexivity.
  Qed.
  Definition sel : reader (G * (list N * list N)) := SelectCompose_Read (on_fst read) (on_snd (on_fst tape)) (on_snd (on_snd tape)).
  Lemma sel_word x ws y vs g s g' : w64 x -> w64 y -> RNG_Uint64 read g = Ret (s, g') ->
    RNG_Uint64 sel (g, (x :: ws, y :: vs)) = Ret (mux s x y, (g', (ws, vs))).
  Proof using GO.
    intros Hx Hy E. destruct (word_read read g s g' GO E) as (Hb & n & e & ER). apply word_of with 8%nat None; [now apply mux_w|].
    unfold sel, SelectCompose_Read, on_fst, on_snd. cbn [fst snd]. rewrite zeros_length. rewrite ER. cbn [bind fst snd]. rewrite tape8. cbn [bind fst snd]. rewrite tape8. cbn [bind fst snd].
    pose proof (select_into_spec (le_bytes 8 x) [] [] (le_bytes 8 s) [] (le_bytes 8 y) eq_refl eq_refl) as K. rewrite !le_bytes_length in K. specialize (K eq_refl eq_refl). cbn [app length] in K. rewrite le_bytes_length, K. cbn [bind].
    rewrite mux_bytes, le_bytes_length. reflexivity.
  Qed.
  Lemma xor_dry1 g : forall v, RNG_Uint64 (XorCompose_Read (on_fst tape) (on_snd read)) ([], g) <> Ret v.
  Proof using. intros v. unfold RNG_Uint64, XorCompose_Read, on_fst. cbn. discriminate. Qed.
  Lemma xor_dry2 g : forall v, RNG_Uint64 (XorCompose_Read (on_fst read) (on_snd tape)) (g, []) <> Ret v.
  Proof using. intros v. unfold RNG_Uint64, XorCompose_Read, on_fst, on_snd. cbn [fst snd]. destruct (read g (zeros 8)) as [[[[p n] e] g1]| |]; cbn; discriminate. Qed.
  Lemma sel_dry g : forall v, RNG_Uint64 sel (g, ([], [])) <> Ret v.
  Proof using. intros v. unfold RNG_Uint64, sel, SelectCompose_Read, on_fst, on_snd. cbn [fst snd]. destruct (read g (zeros (length (zeros 8)))) as [[[[p n] e] g1]| |]; cbn; discriminate. Qed.
End Words.
(** wordwise *)
Definition zip (f : N -> N -> N) (xs ys : list N) : list N := map (fun p => f (fst p) (snd p)) (combine xs ys).
Lemma zip_length f xs ys : length xs = length ys -> length (zip f xs ys) = length xs.
Proof. intros L. unfold zip. rewrite map_length, combine_length. lia. Qed.
Lemma zip_lxor xs : forall ys, length xs = length ys -> zip N.lxor (zip N.lxor xs ys) ys = xs.
Proof.
  induction xs as [|x xs IH]; intros [|y ys] L; try discriminate L; [reflexivity|]. unfold zip. cbn [combine map fst snd]. f_equal; [rewrite N.lxor_assoc, N.lxor_nilpotent; apply N.lxor_0_r|]. apply IH. now injection L.
Qed.
Lemma zip_w xs : forall ys, Forall w64 xs -> Forall w64 ys -> Forall w64 (zip N.lxor xs ys).
Proof. induction xs as [|x xs IH]; intros [|y ys] F1 F2; try constructor; inversion F1; inversion F2; subst; [cbn [fst snd]; now apply lxor_w|now apply IH]. Qed.
Lemma runs_words {G} (read : reader G) g xs t : go_reader read -> runs (RNG_Uint64 read) g xs t -> Forall w64 xs.
Proof. intros GO R. induction R as [s|s x s1 xs s' E R IH]; constructor; [exact (proj1 (word_read read _ _ _ GO E))|exact IH]. Qed.
Lemma xor_runs1 {G} (read : reader G) : go_reader read -> forall g bs t, runs (RNG_Uint64 read) g bs t -> forall ws, length ws = length bs -> Forall w64 ws ->
  runs (RNG_Uint64 (XorCompose_Read (on_fst tape) (on_snd read))) (ws, g) (zip N.lxor ws bs) ([], t).
Proof.
  intros GO g bs t R. induction R as [s|s x s1 xs s' E R IH]; intros [|w ws] L F; try discriminate L; [constructor|]. inversion F; subst. unfold zip. cbn [combine map fst snd].
  econstructor; [eapply xor_word1; eassumption|]. apply IH; [now injection L|assumption].
Qed.
Lemma xor_runs2 {G} (read : reader G) : go_reader read -> forall g bs t, runs (RNG_Uint64 read) g bs t -> forall ws, length ws = length bs -> Forall w64 ws ->
  runs (RNG_Uint64 (XorCompose_Read (on_fst read) (on_snd tape))) (g, ws) (zip N.lxor ws bs) (t, []).
Proof.
  intros GO g bs t R. induction R as [s|s x s1 xs s' E R IH]; intros [|w ws] L F; try discriminate L; [constructor|]. inversion F; subst. unfold zip. cbn [combine map fst snd].
  econstructor; [eapply xor_word2; eassumption|]. apply IH; [now injection L|assumption].
Qed.
Fixpoint zip3 (ss xs ys : list N) : list N := match ss, xs, ys with s :: ss, x :: xs, y :: ys => mux s x y :: zip3 ss xs ys | _, _, _ => [] end.
Lemma sel_runs {G} (read : reader G) : go_reader read -> forall g ss t, runs (RNG_Uint64 read) g ss t -> forall xs ys, length xs = length ss -> length ys = length ss -> Forall w64 xs -> Forall w64 ys ->
  runs (RNG_Uint64 (sel read)) (g, (xs, ys)) (zip3 ss xs ys) (t, ([], [])).
Proof.
  intros GO g bs t R. induction R as [s|s x s1 ss s' E R IH]; intros [|w ws] [|v vs] L1 L2 F1 F2; try discriminate L1; try discriminate L2; [constructor|]. inversion F1; inversion F2; subst. cbn [zip3].
  econstructor; [eapply sel_word; eassumption|]. apply IH; try assumption; [now injection L1|now injection L2].
Qed.
Lemma zip3_length ss : forall xs ys, length xs = length ss -> length ys = length ss -> length (zip3 ss xs ys) = length ss.
Proof. induction ss as [|s ss IH]; intros [|x xs] [|y ys] L1 L2; try discriminate L1; try discriminate L2; [reflexivity|]. cbn [zip3 length]. f_equal. apply IH; [now injection L1|now injection L2]. Qed.
Lemma zip3_w ss : forall xs ys, Forall w64 xs -> Forall w64 ys -> Forall w64 (zip3 ss xs ys).
Proof. induction ss as [|s ss IH]; intros [|x xs] [|y ys] F1 F2; cbn [zip3]; try constructor; inversion F1; inversion F2; subst; [now apply mux_w|now apply IH]. Qed.
Lemma mux_mux s a b : mux s (mux s a b) (mux s b a) = a /\ mux s (mux s a b) b = mux s a b.
Proof. assert (B : forall a b j, N.testbit (mux s a b) j = if N.testbit s j then N.testbit b j else N.testbit a j) by (intros; apply mux_bit). split; apply N.bits_inj; intros j; rewrite !B; now destruct (N.testbit s j). Qed.
Lemma zip3_zip3 ss : forall xs ys, length xs = length ss -> length ys = length ss -> zip3 ss (zip3 ss xs ys) (zip3 ss ys xs) = xs.
Proof. induction ss as [|s ss IH]; intros [|x xs] [|y ys] L1 L2; try discriminate L1; try discriminate L2; [reflexivity|]. cbn [zip3]. f_equal; [apply mux_mux|]. apply IH; [now injection L1|now injection L2]. Qed.

(** *** the law *)
Lemma runs_det {S} (u : S -> outcome (N * S)) s xs t : runs u s xs t -> forall ys t', runs u s ys t' -> (forall v, u t <> Ret v) -> exists rest, xs = ys ++ rest.
Proof.
  induction 1 as [s|s x s1 xs s' E R IH]; intros ys t' R' D.
  - inversion R' as [|? y s2 ys' ? E' R'']; subst; [exists []; reflexivity|]. now apply D in E'.
  - inversion R' as [|? y s2 ys' ? E' R'']; subst; [eexists; reflexivity|]. rewrite E in E'. injection E' as <- <-. destruct (IH _ _ R'' D) as [rest ->]. exists rest. reflexivity.
Qed.
Section Law.
  Context {A S : Type} (src : reader S) (pt : nat -> list N -> outcome (A * list N)) (p : nat -> S -> outcome (A * S)).
  Hypothesis (SD : forall f, same_draws src (pt f) (p f)) (DO : forall f, draws_only src (pt f) (p f)).
  Lemma same_event s out t P : Forall w64 out -> runs (RNG_Uint64 src) s out t -> (forall v, RNG_Uint64 src t <> Ret v) ->
    (exists fuel v s', p fuel s = Ret (v, s') /\ P v) <-> (exists fuel v ws', pt fuel out = Ret (v, ws') /\ P v).
  Proof using SD DO.
    intros F R D. split.
    - intros (fuel & v & s' & E & H). destruct (DO fuel _ _ _ E) as (used & FU & RU & T). destruct (runs_det _ _ _ _ R _ _ RU D) as [rest ->].
      exists fuel, v, rest. split; [apply T; now apply Forall_app in F|exact H].
    - intros (fuel & v & ws' & E & H). destruct (SD fuel _ _ _ _ _ F R E) as (used & s' & _ & E' & _). exists fuel, v, s'. auto.
  Qed.
End Law.

(** A program p (or RNG method, or distribution) reading from the XorCompose of a source of uniform words and of any other source,
    in either order and in whatever state the other one is, has the distribution it has when it reads from the uniform source
    alone. *)
Lemma xor_count (bs : list N) (Q : list N -> Prop) c : Forall w64 bs -> has_exactly (fun ws => (length ws = length bs /\ Forall w64 ws) /\ Q ws) c ->
  has_exactly (fun ws => (length ws = length bs /\ Forall w64 ws) /\ Q (zip N.lxor ws bs)) c.
Proof.
  intros FB. assert (Z : forall ws, length ws = length bs /\ Forall w64 ws -> length (zip N.lxor ws bs) = length bs /\ Forall w64 (zip N.lxor ws bs)).
  { intros ws [L F]. split; [now rewrite zip_length|now apply zip_w]. }
  apply (has_exactly_bij _ _ (fun ws => zip N.lxor ws bs) (fun ws => zip N.lxor ws bs)).
  - intros ws [W H]. split; [now apply Z|]. now rewrite zip_lxor by apply W.
  - intros ws [W H]. split; [now apply Z|exact H].
  - intros ws [[L F] _]. now apply zip_lxor.
  - intros ws [[L F] _]. now apply zip_lxor.
Qed.
Theorem C75_xor {A G} (other : reader G) g (pt : nat -> list N -> outcome (A * list N)) (p : nat -> list N * G -> outcome (A * (list N * G))) P q :
  go_reader other -> endless other g -> let src := XorCompose_Read (on_fst tape) (on_snd other) in
  (forall f, same_draws src (pt f) (p f)) -> (forall f, draws_only src (pt f) (p f)) ->
  draw_prob pt P q -> source_draw_prob 1 (fun n ws => (ws, g)) p P q.
Proof.
  intros GO EN src SD DO (qn & H & L). exists qn. split; [|exact L]. intros n. rewrite Nat.mul_1_l. destruct (H n) as (c & C & E). exists c. split; [|exact E].
  destruct (EN n) as (bs & t & R & LB). subst n. pose proof (runs_words other g bs t GO R) as FB.
  apply xor_count with (1 := FB) in C. revert C. apply has_exactly_ext. intros ws. split; intros [[LW FW] HW]; (split; [now split|]).
  - apply (same_event src pt p SD DO (ws, g) (zip N.lxor ws bs) ([], t)); [now apply zip_w|now apply xor_runs1|apply xor_dry1|exact HW].
  - apply (same_event src pt p SD DO (ws, g) (zip N.lxor ws bs) ([], t)); [now apply zip_w|now apply xor_runs1|apply xor_dry1|exact HW].
Qed.
Theorem C75_xor_swapped {A G} (other : reader G) g (pt : nat -> list N -> outcome (A * list N)) (p : nat -> G * list N -> outcome (A * (G * list N))) P q :
  go_reader other -> endless other g -> let src := XorCompose_Read (on_fst other) (on_snd tape) in
  (forall f, same_draws src (pt f) (p f)) -> (forall f, draws_only src (pt f) (p f)) ->
  draw_prob pt P q -> source_draw_prob 1 (fun n ws => (g, ws)) p P q.
Proof.
  intros GO EN src SD DO (qn & H & L). exists qn. split; [|exact L]. intros n. rewrite Nat.mul_1_l. destruct (H n) as (c & C & E). exists c. split; [|exact E].
  destruct (EN n) as (bs & t & R & LB). subst n. pose proof (runs_words other g bs t GO R) as FB.
  apply xor_count with (1 := FB) in C. revert C. apply has_exactly_ext. intros ws. split; intros [[LW FW] HW]; (split; [now split|]).
  - apply (same_event src pt p SD DO (g, ws) (zip N.lxor ws bs) (t, [])); [now apply zip_w|now apply xor_runs2|apply xor_dry2|exact HW].
  - apply (same_event src pt p SD DO (g, ws) (zip N.lxor ws bs) (t, [])); [now apply zip_w|now apply xor_runs2|apply xor_dry2|exact HW].
Qed.
(** The same for the SelectCompose of two independent sources of uniform words, whatever the selector. *)
Lemma words_number n : has_exactly (fun ws : list N => length ws = n /\ Forall w64 ws) (N.pow (2 ^ 64) (N.of_nat n)).
Proof.
  induction n as [|n IH].
  - exists [[]]. split; [constructor; [intros []|constructor]|]. split; [|reflexivity]. intros [|a l]; cbn; split; try tauto; try discriminate; [intros _; now split|intros [E|[]]; discriminate E|intros [E _]; discriminate E].
  - replace (N.pow (2 ^ 64) (N.of_nat (S n))) with (2 ^ 64 * N.pow (2 ^ 64) (N.of_nat n))%N by (rewrite Nat2N.inj_succ, N.pow_succ_r'; reflexivity).
    pose proof (has_exactly_pair _ _ _ _ (has_exactly_below (2 ^ 64)) IH) as K. revert K.
    apply (has_exactly_bij _ _ (fun p : N * list N => fst p :: snd p) (fun l : list N => (@List.hd N 0%N l, @List.tl N l))).
    + intros [a l] (Ha & L & F). cbn [fst snd] in *. split; [cbn; now rewrite L|now constructor].
    + intros [|a l] [L F]; [discriminate L|]. inversion F; subst. cbn [List.hd List.tl fst snd]. injection L as L. auto.
    + now intros [a l] _.
    + intros [|a l] [L F]; [discriminate L|reflexivity].
Qed.
Lemma sel_count (ss : list N) (Q : list N -> Prop) c : has_exactly (fun ws => (length ws = length ss /\ Forall w64 ws) /\ Q ws) c ->
  has_exactly (fun ws => (length ws = (2 * length ss)%nat /\ Forall w64 ws) /\ Q (zip3 ss (firstn (length ss) ws) (skipn (length ss) ws))) (c * N.pow (2 ^ 64) (N.of_nat (length ss)))%N.
Proof.
  intros C. pose proof (has_exactly_pair _ _ _ _ C (words_number (length ss))) as K. revert K. set (n := length ss).
  assert (SP : forall ws : list N, length ws = (2 * n)%nat /\ Forall w64 ws -> (length (firstn n ws) = n /\ Forall w64 (firstn n ws)) /\ (length (skipn n ws) = n /\ Forall w64 (skipn n ws))).
  { intros ws [L F]. rewrite <- (firstn_skipn n ws) in F. apply Forall_app in F. destruct F as [F1 F2]. repeat split; auto; [rewrite firstn_length|rewrite skipn_length]; lia. }
  apply (has_exactly_bij _ _ (fun p => zip3 ss (fst p) (snd p) ++ zip3 ss (snd p) (fst p)) (fun ws => (zip3 ss (firstn n ws) (skipn n ws), zip3 ss (skipn n ws) (firstn n ws)))); cbn [fst snd].
  - intros [zs fs] [[[LZ FZ] H] [LF FF]]. cbn [fst snd] in *. assert (L1 : length (zip3 ss zs fs) = n) by (apply zip3_length; assumption). assert (L2 : length (zip3 ss fs zs) = n) by (apply zip3_length; assumption).
    split; [split; [rewrite app_length; lia|apply Forall_app; split; now apply zip3_w]|].
    rewrite firstn_app, L1, Nat.sub_diag, firstn_O, app_nil_r, skipn_app, L1, Nat.sub_diag, skipn_O.
    rewrite (firstn_all2 (zip3 ss zs fs)), (skipn_all2 (zip3 ss zs fs)) by (rewrite L1; lia). cbn [app]. now rewrite zip3_zip3.
  - intros ws [W H]. destruct (SP ws W) as [[L1 F1] [L2 F2]]. split; [split; [split; [now apply zip3_length|now apply zip3_w]|exact H]|]. split; [now apply zip3_length|now apply zip3_w].
  - intros [zs fs] [[[LZ FZ] H] [LF FF]]. cbn [fst snd] in *. assert (L1 : length (zip3 ss zs fs) = n) by (apply zip3_length; assumption).
    rewrite firstn_app, L1, Nat.sub_diag, firstn_O, app_nil_r, skipn_app, L1, Nat.sub_diag, skipn_O.
    rewrite (firstn_all2 (zip3 ss zs fs)), (skipn_all2 (zip3 ss zs fs)) by (rewrite L1; lia). cbn [app]. now rewrite !zip3_zip3.
  - intros ws [W H]. destruct (SP ws W) as [[L1 F1] [L2 F2]]. rewrite !zip3_zip3 by assumption. apply firstn_skipn.
Qed.
Theorem C75_select {A G} (selector : reader G) g (pt : nat -> list N -> outcome (A * list N)) (p : nat -> G * (list N * list N) -> outcome (A * (G * (list N * list N)))) P q :
  go_reader selector -> endless selector g -> let src := SelectCompose_Read (on_fst selector) (on_snd (on_fst tape)) (on_snd (on_snd tape)) in
  (forall f, same_draws src (pt f) (p f)) -> (forall f, draws_only src (pt f) (p f)) ->
  draw_prob pt P q -> source_draw_prob 2 (fun n ws => (g, (firstn n ws, skipn n ws))) p P q.
Proof.
  intros GO EN src SD DO (qn & H & L). exists qn. split; [|exact L]. intros n. destruct (H n) as (c & C & E).
  destruct (EN n) as (ss & t & R & LS). subst n. exists (c * N.pow (2 ^ 64) (N.of_nat (length ss)))%N. split.
  - apply sel_count in C. revert C. apply has_exactly_ext. intros ws.
    assert (X : length ws = (2 * length ss)%nat /\ Forall w64 ws -> (exists fuel v s', p fuel (g, (firstn (length ss) ws, skipn (length ss) ws)) = Ret (v, s') /\ P v) <->
      (exists fuel v ws', pt fuel (zip3 ss (firstn (length ss) ws) (skipn (length ss) ws)) = Ret (v, ws') /\ P v)).
    { intros [LW FW]. rewrite <- (firstn_skipn (length ss) ws) in FW. apply Forall_app in FW. destruct FW as [F1 F2].
      apply (same_event src pt p SD DO _ _ (t, ([], []))); [now apply zip3_w|apply (sel_runs selector GO); try assumption; [rewrite firstn_length|rewrite skipn_length]; lia|apply sel_dry]. }
    split; intros [W HW]; (split; [exact W|]); now apply X.
  - rewrite E, N2Z.inj_mul, mult_IZR, Nat.mul_succ_l, Nat.mul_1_l, pow_add, N2Z.inj_pow, nat_N_Z, <- pow_IZR. change (Z.of_N (2 ^ 64)) with (2 ^ 64)%Z. field. apply pow_nonzero, not_0_IZR. discriminate.
Qed.

(** *** the other source: any generator of the package *)
Lemma copy_go p x : length (go_copy p (le_bytes 8 x)) = length p /\ (Forall isbyte p -> Forall isbyte (go_copy p (le_bytes 8 x))).
Proof.
  unfold go_copy. split.
  - rewrite app_length, firstn_length, skipn_length, le_bytes_length. lia.
  - intros B. apply Forall_app. split; [apply firstn_isbyte, le_bytes_isbyte|]. rewrite <- (firstn_skipn (length (le_bytes 8 x)) p) in B. now apply Forall_app in B.
Qed.
Lemma skip8_bytes p : Forall isbyte p -> Forall isbyte (skipn 8 p).
Proof. intros B. rewrite <- (firstn_skipn 8 p) in B. now apply Forall_app in B. Qed.
Lemma gt8_go {S} (u : S -> outcome (N * S)) : go_reader (read_gt8 u).
Proof.
  intros s p p' n e s' E. unfold read_gt8 in E. destruct (read_gt8_loop u (Datatypes.S (length p)) p s) as [[q s1]| |] eqn:E1; try discriminate E. cbn [bind] in E. injection E as <- _ _ _.
  revert E1. generalize (Datatypes.S (length p)). intros f. revert p s q s1. induction f as [|f IH]; intros q s q' s1 E1; [discriminate E1|]. cbn [read_gt8_loop] in E1. destruct (Nat.ltb_spec 8 (length q)) as [L|L]; destruct (u s) as [[x s2]| |]; try discriminate E1; cbn [bind] in E1.
  - destruct (read_gt8_loop u f (skipn 8 q) s2) as [[r s3]| |] eqn:E2; try discriminate E1. cbn [bind] in E1. assert (q' = le_bytes 8 x ++ r) as -> by congruence. destruct (IH _ _ _ _ E2) as [L1 B1]. rewrite skipn_length in L1. split.
    + rewrite app_length, le_bytes_length. lia.
    + intros B. apply Forall_app. split; [apply le_bytes_isbyte|]. apply B1. now apply skip8_bytes.
  - assert (q' = go_copy q (le_bytes 8 x)) as -> by congruence. apply copy_go.
Qed.
Lemma ge8_go {S} (u : S -> outcome (N * S)) : go_reader (read_ge8 u).
Proof.
  intros s p p' n e s' E. unfold read_ge8 in E. destruct (read_ge8_loop u (Datatypes.S (length p)) p s) as [[q s1]| |] eqn:E1; try discriminate E. cbn [bind] in E. injection E as <- _ _ _.
  revert E1. generalize (Datatypes.S (length p)). intros f. revert p s q s1. induction f as [|f IH]; intros q s q' s1 E1; [discriminate E1|]. cbn [read_ge8_loop] in E1. destruct (Nat.leb_spec 8 (length q)) as [L|L]; destruct (u s) as [[x s2]| |]; try discriminate E1; cbn [bind] in E1.
  - destruct (read_ge8_loop u f (skipn 8 q) s2) as [[r s3]| |] eqn:E2; try discriminate E1. cbn [bind] in E1. assert (q' = le_bytes 8 x ++ r) as -> by congruence. destruct (IH _ _ _ _ E2) as [L1 B1]. rewrite skipn_length in L1. split.
    + rewrite app_length, le_bytes_length. lia.
    + intros B. apply Forall_app. split; [apply le_bytes_isbyte|]. apply B1. now apply skip8_bytes.
  - assert (q' = go_copy q (le_bytes 8 x)) as -> by congruence. apply copy_go.
Qed.
Theorem C75_generators k s : go_reader (a_Read (methods k)) /\ (reachable k s -> endless (a_Read (methods k)) s).
Proof.
  assert (GO : go_reader (a_Read (methods k))) by (destruct k; [apply gt8_go|apply gt8_go|apply ge8_go|apply gt8_go|apply gt8_go]).
  split; [exact GO|]. intros H n. apply reachable_inv in H. revert s H. induction n as [|n IH]; intros s H; [exists [], s; split; [constructor|reflexivity]|].
  destruct (inv_read k s (zeros 8) H) as (xs & s1 & _ & _ & H1 & E). destruct (GO _ _ _ _ _ _ E) as [L _]. rewrite zeros_length in L.
  destruct (IH s1 H1) as (ys & t & R & LY). eexists (_ :: ys), t. split; [|cbn; now rewrite LY]. econstructor; [|exact R].
  unfold RNG_Uint64. rewrite E. cbn [bind]. rewrite get64_8 by exact L. reflexivity.
Qed.

(** So, for instance: Uintn, exponential and normal variates drawn from XorCompose(uniform source, any generator in any state) *)
Lemma tape_fst_go {G} (other : reader G) : go_reader other -> go_reader (XorCompose_Read (on_fst tape) (on_snd other)).
Proof. intros GO. apply xor_go; [apply fst_go, tape_go|now apply snd_go]. Qed.
Theorem C75_xor_uintn k s b max r : reachable k s -> b = 32%N \/ b = 64%N -> (0 < max < 2 ^ b)%N -> (r < max)%N ->
  source_draw_prob 1 (fun n ws => (ws, s)) (fun fuel => RNG_Uintn (XorCompose_Read (on_fst tape) (on_snd (a_Read (methods k)))) fuel b max) (fun x => x = r) (uintn_share b max r).
Proof.
  intros H Hb Hm Hr. destruct (C75_generators k s) as [GO EN].
  apply (C75_xor (a_Read (methods k)) s (fun fuel => RNG_Uintn tape fuel b max)); [exact GO|now apply EN|intros f; apply same_uintn|intros f; apply only_uintn; now apply tape_fst_go|now apply C65_uintn_distribution].
Qed.
Theorem C75_xor_exponential k s math_exp math_log rate r x : reachable k s -> accurate_exp math_exp -> accurate_log math_log -> fvalue rate r -> 0 < r -> x <= 2 ^ 1023 ->
  exists p, source_draw_prob 1 (fun n ws => (ws, s)) (Exponential_Next (XorCompose_Read (on_fst tape) (on_snd (a_Read (methods k)))) math_exp math_log rate) (at_most x) p /\
    Rabs (p - exponential_cdf r x) <= 2 / 10 ^ 11.
Proof.
  intros H AE AL V R X. destruct (C75_generators k s) as [GO EN]. destruct (C61_exponential_distribution math_exp math_log rate r x AE AL V R X) as (p & D & B). exists p. split; [|exact B].
  apply (C75_xor (a_Read (methods k)) s (Exponential_Next tape math_exp math_log rate)); [exact GO|now apply EN|intros f; apply same_exponential|intros f; apply only_exponential; now apply tape_fst_go|exact D].
Qed.
Theorem C75_xor_normal k g math_exp math_log mean m sd s x : reachable k g -> accurate_exp math_exp -> accurate_log math_log -> fvalue mean m -> fvalue sd s -> 0 < s ->
  Rabs m <= bpow radix2 1022 -> Rabs x <= bpow radix2 1022 -> rounding_margin x <= s / 10 ^ 12 ->
  exists p A, source_draw_prob 1 (fun n ws => (ws, g)) (fun fuel => Normal_Next (XorCompose_Read (on_fst tape) (on_snd (a_Read (methods k)))) math_exp math_log mean sd fuel fuel) (not_above x) p /\
    area_up_to (normal_curve m s) x A /\ Rabs (p - A) <= 4 / 10 ^ 11.
Proof.
  intros H AE AL Vm Vs S M X RM. destruct (C75_generators k g) as [GO EN]. destruct (C62_normal_distribution_tight math_exp math_log AE AL mean m sd s x Vm Vs S M X RM) as (p & A & D & AR & B). exists p, A. split; [|split; [exact AR|exact B]].
  apply (C75_xor (a_Read (methods k)) g (normal_draws math_exp math_log mean sd)); [exact GO|now apply EN|intros f; apply same_normal|intros f; apply only_normal; now apply tape_fst_go|exact D].
Qed.
Theorem C75_select_uintn k s b max r : reachable k s -> b = 32%N \/ b = 64%N -> (0 < max < 2 ^ b)%N -> (r < max)%N ->
  source_draw_prob 2 (fun n ws => (s, (firstn n ws, skipn n ws)))
    (fun fuel => RNG_Uintn (SelectCompose_Read (on_fst (a_Read (methods k))) (on_snd (on_fst tape)) (on_snd (on_snd tape))) fuel b max) (fun x => x = r) (uintn_share b max r).
Proof.
  intros H Hb Hm Hr. destruct (C75_generators k s) as [GO EN].
  apply (C75_select (a_Read (methods k)) s (fun fuel => RNG_Uintn tape fuel b max)); [exact GO|now apply EN|intros f; apply same_uintn| |now apply C65_uintn_distribution].
  intros f. apply only_uintn. apply select_go; [now apply fst_go|apply snd_go, fst_go, tape_go|apply snd_go, snd_go, tape_go].
Qed.
(** Xoshiro in state (1,2,3,4), whose first Uint64 value is 11520, mixed with the word 11748 = 11520 xor 228: Uintn(100) sees 228 *)
Example C75_nonvacuous : reachable gXoshiro (mkXoshi 1 2 3 4) /\
  exists t, RNG_Uintn (XorCompose_Read (on_fst tape) (on_snd (a_Read (methods gXoshiro)))) 1 64 100 ([11748]%N, mkXoshi 1 2 3 4) = Ret (28%N, t).
Proof. split; [apply C00_xoshiro_all_states_reachable; repeat split; reflexivity|]. eexists. vm_compute. reflexivity. Qed.
End Compiler.
