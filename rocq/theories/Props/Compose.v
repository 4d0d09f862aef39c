(** Source composition (util.go:9-41): C38, C39. *)
From Coq Require Import Lia ZifyN ZifyNat ZifyBool.
From Verif Require Import Model.Base Model.Rng Model.Util Spec.Common Spec.Counting.
From Verif Require Import Proofs.WordLemmas Proofs.ReadProofs Proofs.SaveProofs Proofs.IvWords Proofs.Count.
Local Open Scope N_scope.

Definition xor_all (p b : list N) : list N := map (fun x => N.lxor (fst x) (snd x)) (combine p b).
Lemma aget_here {A} (a : list A) x b : aget (a ++ x :: b) (length a) = Ret x.
Proof. unfold aget. rewrite nth_error_app2 by lia. now rewrite Nat.sub_diag. Qed.
Lemma aset_here {A} (a : list A) x b v : aset (a ++ x :: b) (length a) v = Ret (a ++ v :: b).
Proof.
  unfold aset. rewrite app_length. cbn [length]. destruct (Nat.ltb_spec (length a) (length a + S (length b))); [|lia].
  f_equal. clear. induction a as [|y a IH]; cbn; [reflexivity|]. now rewrite IH.
Qed.
Lemma xor_into_spec buf : forall a p, length p = length buf ->
  xor_into (length a) buf (a ++ p) = Ret (a ++ xor_all p buf).
Proof.
  induction buf as [|v buf IH]; intros a p L; destruct p as [|x p]; try discriminate L; cbn [xor_into].
  - reflexivity.
  - rewrite aget_here. cbn [bind]. rewrite aset_here. cbn [bind].
    replace (a ++ N.lxor x v :: p) with ((a ++ [N.lxor x v]) ++ p) by (rewrite <- app_assoc; reflexivity).
    replace (S (length a)) with (length (a ++ [N.lxor x v])) by (rewrite app_length; cbn; lia).
    rewrite IH by (cbn in L; lia). now rewrite <- app_assoc.
Qed.
Lemma xor_all_length p b : length p = length b -> length (xor_all p b) = length p.
Proof. intros H. unfold xor_all. rewrite map_length, combine_length. lia. Qed.
Lemma xor_all_nth p b i : length p = length b -> nth i (xor_all p b) 0 = N.lxor (nth i p 0) (nth i b 0).
Proof. intros H. unfold xor_all. rewrite (map_nth (fun x => N.lxor (fst x) (snd x)) (combine p b) (0, 0)). rewrite combine_nth by exact H. reflexivity. Qed.
Lemma nth_isbyte p i : Forall isbyte p -> nth i p 0 < 256.
Proof.
  intros H. destruct (Nat.lt_ge_cases i (length p)) as [Hi|Hi]; [|rewrite nth_overflow by exact Hi; reflexivity].
  rewrite Forall_forall in H. apply H, nth_In, Hi.
Qed.
Lemma isbyte_nth p : (forall i, (i < length p)%nat -> nth i p 0 < 256) -> Forall isbyte p.
Proof.
  intros H. apply Forall_forall. intros x Hx. destruct (In_nth p x 0 Hx) as (i & Hi & <-). now apply H.
Qed.

(** ** C38: byte i of the result is A's byte i xor B's byte i; A is read first, into the caller's buffer,
    then B into a zeroed buffer of the same length (the sources act on the same world, so they may share
    state); the counts and errors they report are dropped. *)
Section C38.
  Context {W : Type} (readA readB : reader W).
  Theorem C38_xor_bytes w p pa na ea w1 pb nb eb w2 : go_reader readA -> go_reader readB ->
    readA w p = Ret ((pa, na, ea), w1) -> readB w1 (zeros (length p)) = Ret ((pb, nb, eb), w2) ->
    exists q, XorCompose_Read readA readB w p = Ret ((q, length p, None), w2) /\ length q = length p /\
      forall i, (i < length p)%nat -> nth i q 0 = N.lxor (nth i pa 0) (nth i pb 0).
  Proof.
    intros GA GB EA EB. destruct (GA _ _ _ _ _ _ EA) as [LA _]. destruct (GB _ _ _ _ _ _ EB) as [LB _]. rewrite zeros_length in LB.
    exists (xor_all pa pb). unfold XorCompose_Read. rewrite EA. cbn [bind]. rewrite EB. cbn [bind].
    pose proof (xor_into_spec pb [] pa) as K. cbn [app length] in K. rewrite K by congruence. cbn [bind]. rewrite xor_all_length by congruence. rewrite LA.
    split; [reflexivity|]. split; [reflexivity|]. intros i _. apply xor_all_nth. congruence.
  Qed.
  (** it panics only if one of the sources does *)
  Theorem C38_never_fails_by_itself : go_reader readA -> go_reader readB -> total_reader readA -> total_reader readB ->
    go_reader (XorCompose_Read readA readB) /\ total_reader (XorCompose_Read readA readB).
  Proof.
    intros GA GB TA TB. assert (K : forall w p, exists pa na ea w1 pb nb eb w2, readA w p = Ret ((pa, na, ea), w1) /\ readB w1 (zeros (length p)) = Ret ((pb, nb, eb), w2)).
    { intros w p. destruct (TA w p) as ([[pa na] ea] & w1 & EA). destruct (TB w1 (zeros (length p))) as ([[pb nb] eb] & w2 & EB).
      exists pa, na, ea, w1, pb, nb, eb, w2. auto. }
    split.
    - intros w p p' n e w' E. destruct (K w p) as (pa & na & ea & w1 & pb & nb & eb & w2 & EA & EB).
      destruct (C38_xor_bytes _ _ _ _ _ _ _ _ _ _ GA GB EA EB) as (q & Eq & L & N). rewrite E in Eq. injection Eq as -> -> -> ->.
      split; [exact L|]. intros B. apply isbyte_nth. intros i Hi. rewrite N by lia.
      destruct (GA _ _ _ _ _ _ EA) as [_ BA]. destruct (GB _ _ _ _ _ _ EB) as [_ BB].
      apply (lxor_bound _ _ 8); apply nth_isbyte; [now apply BA|]. apply BB, zeros_isbyte.
    - intros w p. destruct (K w p) as (pa & na & ea & w1 & pb & nb & eb & w2 & EA & EB).
      destruct (C38_xor_bytes _ _ _ _ _ _ _ _ _ _ GA GB EA EB) as (q & Eq & _). eauto.
  Qed.
End C38.
Lemma xor_all_invol p b : length p = length b -> xor_all p (xor_all p b) = b.
Proof.
  intros L. apply (list_eq_nth 0); [rewrite xor_all_length; rewrite ?xor_all_length; congruence|].
  intros i _. rewrite xor_all_nth by (rewrite xor_all_length; congruence). rewrite xor_all_nth by exact L.
  rewrite <- N.lxor_assoc, N.lxor_nilpotent. apply N.lxor_0_l.
Qed.
Lemma xor_all_bytes p b : length p = length b -> Forall isbyte p -> Forall isbyte b -> Forall isbyte (xor_all p b).
Proof. intros L Bp Bb. apply isbyte_nth. intros i _. rewrite xor_all_nth by exact L. apply (lxor_bound _ _ 8); now apply nth_isbyte. Qed.
Lemma xor_source a b : length a = length b ->
  XorCompose_Read (source_of a) (source_of b) tt (zeros (length a)) = Ret ((xor_all a b, length a, None), tt).
Proof.
  intros L. unfold XorCompose_Read, source_of. cbn [bind]. pose proof (xor_into_spec b [] a L) as K. cbn [app length] in K. rewrite K. cbn [bind].
  now rewrite xor_all_length by exact L.
Qed.
(** One uniform source suffices: whatever bytes A delivers, each result comes from exactly one byte string of B. *)
Theorem C38_one_uniform_source_suffices k a q : bytes_of_length k a -> bytes_of_length k q ->
  has_exactly (fun b => bytes_of_length k b /\
    exists n e, XorCompose_Read (source_of a) (source_of b) tt (zeros (length a)) = Ret ((q, n, e), tt)) 1.
Proof.
  intros [La Ba] [Lq Bq]. apply (has_exactly_ext (fun b => b = xor_all a q)).
  - intros b. split.
    + intros ->. split; [split; [rewrite xor_all_length by lia; lia|apply xor_all_bytes; auto; lia]|].
      exists (length a), None. rewrite xor_source by (rewrite xor_all_length; lia). now rewrite xor_all_invol by lia.
    + intros [[Lb Bb] (n & e & E)]. rewrite xor_source in E by lia. injection E as <- _ _. now rewrite xor_all_invol by lia.
  - exists [xor_all a q]. split; [repeat constructor; intros []|]. split; [|reflexivity]. intros b. cbn. intuition congruence.
Qed.
Example C38_nonvacuous : XorCompose_Read (source_of [1; 2; 255]) (source_of [3; 2; 16]) tt (zeros 3) = Ret (([2; 0; 239], 3%nat, None), tt)
  /\ bytes_of_length 3 [1; 2; 255].
Proof. split; [reflexivity|]. split; [reflexivity|]. repeat constructor. Qed.
(** errors are dropped: A fails without writing, B delivers; the result is reported complete *)
Example C38_error_dropped : XorCompose_Read (fun w p => Ret ((p, 0%nat, Some EOF), w)) (source_of [3; 2; 16]) tt (zeros 3)
  = Ret (([3; 2; 16], 3%nat, None), tt).
Proof. reflexivity. Qed.

(** ** C39 *)
Definition mux_all (s b p : list N) : list N :=
  map (fun x => N.lxor (snd x) (N.land (N.lxor (snd x) (snd (fst x))) (fst (fst x)))) (combine (combine s b) p).
Lemma select_into_spec : forall p a sa s ba b, length sa = length a -> length ba = length a -> length s = length p -> length b = length p ->
  select_into (length p) (length a) (sa ++ s) (ba ++ b) (a ++ p) = Ret (a ++ mux_all s b p).
Proof.
  induction p as [|x p IH]; intros a sa s ba b Ha Hb Ls Lb; destruct s as [|sx s]; try discriminate Ls; destruct b as [|bx b]; try discriminate Lb; cbn [length select_into].
  - reflexivity.
  - rewrite aget_here. cbn [bind]. rewrite <- Hb at 1. rewrite aget_here. cbn [bind]. rewrite <- Ha at 1. rewrite aget_here. cbn [bind].
    rewrite aset_here. cbn [bind]. set (y := N.lxor x (N.land (N.lxor x bx) sx)).
    replace (a ++ y :: p) with ((a ++ [y]) ++ p) by (rewrite <- app_assoc; reflexivity).
    replace (sa ++ sx :: s) with ((sa ++ [sx]) ++ s) by (rewrite <- app_assoc; reflexivity).
    replace (ba ++ bx :: b) with ((ba ++ [bx]) ++ b) by (rewrite <- app_assoc; reflexivity).
    replace (S (length a)) with (length (a ++ [y])) by (rewrite app_length; cbn; lia).
    rewrite IH by (rewrite ?app_length; cbn in *; lia). now rewrite <- app_assoc.
Qed.
Lemma mux_all_length s b p : length s = length p -> length b = length p -> length (mux_all s b p) = length p.
Proof. intros. unfold mux_all. rewrite map_length, !combine_length. lia. Qed.
Lemma mux_all_nth s b p i : length s = length p -> length b = length p ->
  nth i (mux_all s b p) 0 = N.lxor (nth i p 0) (N.land (N.lxor (nth i p 0) (nth i b 0)) (nth i s 0)).
Proof.
  intros Hs Hb. unfold mux_all.
  rewrite (map_nth (fun x => N.lxor (snd x) (N.land (N.lxor (snd x) (snd (fst x))) (fst (fst x)))) (combine (combine s b) p) ((0, 0), 0)).
  rewrite !combine_nth by (rewrite ?combine_length; lia). reflexivity.
Qed.
Lemma mux_bit a b s j : N.testbit (N.lxor a (N.land (N.lxor a b) s)) j = if N.testbit s j then N.testbit b j else N.testbit a j.
Proof. rewrite N.lxor_spec, N.land_spec, N.lxor_spec. now destruct (N.testbit s j), (N.testbit a j), (N.testbit b j). Qed.
(** S is read first, then A (into the caller's buffer), then B, each once and for len(p) bytes. Bit j of byte i of
    the result is B's bit where S's bit is 1 and A's bit where it is 0. *)
Section C39.
  Context {W : Type} (readS readA readB : reader W).
  Theorem C39_select_bits w p ps ns es w1 pa na ea w2 pb nb eb w3 : go_reader readS -> go_reader readA -> go_reader readB ->
    readS w (zeros (length p)) = Ret ((ps, ns, es), w1) -> readA w1 p = Ret ((pa, na, ea), w2) ->
    readB w2 (zeros (length p)) = Ret ((pb, nb, eb), w3) ->
    exists q, SelectCompose_Read readS readA readB w p = Ret ((q, length p, None), w3) /\ length q = length p /\
      forall i j, (i < length p)%nat ->
        N.testbit (nth i q 0) j = if N.testbit (nth i ps 0) j then N.testbit (nth i pb 0) j else N.testbit (nth i pa 0) j.
  Proof.
    intros GS GA GB ES EA EB. destruct (GS _ _ _ _ _ _ ES) as [LS _]. destruct (GA _ _ _ _ _ _ EA) as [LA _].
    destruct (GB _ _ _ _ _ _ EB) as [LB _]. rewrite zeros_length in LS, LB.
    exists (mux_all ps pb pa). unfold SelectCompose_Read. rewrite ES. cbn [bind]. rewrite EA. cbn [bind]. rewrite EB. cbn [bind].
    pose proof (select_into_spec pa [] [] ps [] pb eq_refl eq_refl) as K. cbn [app length] in K. rewrite K by congruence. cbn [bind].
    rewrite mux_all_length by congruence. rewrite LA. split; [reflexivity|]. split; [reflexivity|].
    intros i j _. rewrite mux_all_nth by congruence. apply mux_bit.
  Qed.
  Theorem C39_never_fails_by_itself : go_reader readS -> go_reader readA -> go_reader readB ->
    total_reader readS -> total_reader readA -> total_reader readB ->
    go_reader (SelectCompose_Read readS readA readB) /\ total_reader (SelectCompose_Read readS readA readB).
  Proof.
    intros GS GA GB TS TA TB.
    assert (K : forall w p, exists ps ns es w1 pa na ea w2 pb nb eb w3, readS w (zeros (length p)) = Ret ((ps, ns, es), w1) /\
      readA w1 p = Ret ((pa, na, ea), w2) /\ readB w2 (zeros (length p)) = Ret ((pb, nb, eb), w3)).
    { intros w p. destruct (TS w (zeros (length p))) as ([[ps ns] es] & w1 & ES). destruct (TA w1 p) as ([[pa na] ea] & w2 & EA).
      destruct (TB w2 (zeros (length p))) as ([[pb nb] eb] & w3 & EB). exists ps, ns, es, w1, pa, na, ea, w2, pb, nb, eb, w3. auto. }
    split.
    - intros w p p' n e w' E. destruct (K w p) as (ps & ns & es & w1 & pa & na & ea & w2 & pb & nb & eb & w3 & ES & EA & EB).
      destruct (C39_select_bits _ _ _ _ _ _ _ _ _ _ _ _ _ _ GS GA GB ES EA EB) as (q & Eq & L & N). rewrite E in Eq. injection Eq as -> -> -> ->.
      split; [exact L|]. intros B. destruct (GA _ _ _ _ _ _ EA) as [_ BA]. destruct (GB _ _ _ _ _ _ EB) as [_ BB].
      specialize (BA B). specialize (BB (zeros_isbyte _)).
      apply isbyte_nth. intros i Hi. apply (bits_bound _ 8). intros j Hj. rewrite N by lia.
      destruct (N.testbit (nth i ps 0) j); apply (testbit_above _ 8); auto; now apply nth_isbyte.
    - intros w p. destruct (K w p) as (ps & ns & es & w1 & pa & na & ea & w2 & pb & nb & eb & w3 & ES & EA & EB).
      destruct (C39_select_bits _ _ _ _ _ _ _ _ _ _ _ _ _ _ GS GA GB ES EA EB) as (q & Eq & _). eauto.
  Qed.
End C39.
Lemma mux_source s a b : length s = length a -> length b = length a ->
  SelectCompose_Read (source_of s) (source_of a) (source_of b) tt (zeros (length a)) = Ret ((mux_all s b a, length a, None), tt).
Proof.
  intros Ls Lb. unfold SelectCompose_Read, source_of. cbn [bind].
  pose proof (select_into_spec a [] [] s [] b eq_refl eq_refl) as K. cbn [app length] in K. rewrite K by congruence. cbn [bind].
  now rewrite mux_all_length by congruence.
Qed.
(** the bits that stay unconstrained when the result is known: A's where S is 1 and B's where S is 0. So for
    every selector string S each result comes from exactly 256^k of the 256^(2k) pairs (A, B). *)
Theorem C39_uniform_for_every_selector k s q : bytes_of_length k s -> bytes_of_length k q ->
  has_exactly (fun ab => bytes_of_length k (fst ab) /\ bytes_of_length k (snd ab) /\
    exists n e, SelectCompose_Read (source_of s) (source_of (fst ab)) (source_of (snd ab)) tt (zeros (length (fst ab))) = Ret ((q, n, e), tt)) (256 ^ k).
Proof.
  intros [Ls Bs] [Lq Bq].
  (* free bytes f  <->  pair: A takes q where S=0 and f where S=1; B takes q where S=1 and f where S=0 *)
  assert (B0 : has_exactly (bytes_of_length k) (256 ^ k)).
  { apply (has_exactly_ext (fun bs => bytes_of_length k bs /\ True)); [tauto|]. apply (bytes_number k (fun _ => True)).
    apply (has_exactly_ext (fun x => x < 256 ^ k)); [tauto|]. apply has_exactly_below. }
  assert (MB : forall s b p, length s = length p -> length b = length p -> Forall isbyte b -> Forall isbyte p -> Forall isbyte (mux_all s b p)).
  { intros s' b' p' H1 H2 H3 H4. apply isbyte_nth. intros i _. rewrite mux_all_nth by assumption. apply (bits_bound _ 8). intros j Hj. rewrite mux_bit.
    destruct (N.testbit (nth i s' 0) j); apply (testbit_above _ 8); auto; now apply nth_isbyte. }
  revert B0. apply (has_exactly_bij _ _ (fun f => (mux_all s f q, mux_all s q f)) (fun ab => mux_all s (fst ab) (snd ab))); cbn [fst snd].
  - intros f [Lf Bf]. assert (La : length (mux_all s f q) = length q) by (apply mux_all_length; lia).
    assert (Lb : length (mux_all s q f) = length f) by (apply mux_all_length; lia).
    split; [split; [lia|apply MB; auto; lia]|]. split; [split; [lia|apply MB; auto; lia]|]. exists (length (mux_all s f q)), None.
    rewrite mux_source by lia. do 4 f_equal. apply (list_eq_nth 0); [rewrite mux_all_length; lia|]. intros i _.
    rewrite !mux_all_nth by lia. apply N.bits_inj. intros j. rewrite !mux_bit. now destruct (N.testbit (nth i s 0) j).
  - intros [a b] ([La Ba] & [Lb Bb] & _). cbn [fst snd] in *. split; [rewrite mux_all_length; lia|apply MB; auto; lia].
  - intros f [Lf Bf]. apply (list_eq_nth 0); [rewrite !mux_all_length; rewrite ?mux_all_length; lia|]. intros i _.
    rewrite mux_all_nth by (rewrite ?mux_all_length; lia). rewrite !mux_all_nth by lia. apply N.bits_inj. intros j. rewrite !mux_bit.
    now destruct (N.testbit (nth i s 0) j).
  - intros [a b] ([La Ba] & [Lb Bb] & (n & e & E)). cbn [fst snd] in *. rewrite mux_source in E by lia. injection E as E _ _.
    f_equal; (apply (list_eq_nth 0); [rewrite !mux_all_length; rewrite ?mux_all_length; lia|]; intros i _;
      rewrite mux_all_nth by (rewrite ?mux_all_length; lia); rewrite !mux_all_nth by lia; subst q; rewrite mux_all_nth by lia;
      apply N.bits_inj; intros j; rewrite !mux_bit; now destruct (N.testbit (nth i s 0) j)).
Qed.
Example C39_nonvacuous : SelectCompose_Read (source_of [15; 240]) (source_of [170; 170]) (source_of [85; 85]) tt (zeros 2)
  = Ret (([165; 90], 2%nat, None), tt) /\ bytes_of_length 2 [15; 240].
Proof. split; [reflexivity|]. split; [reflexivity|]. repeat constructor. Qed.
