(** RandString (util.go:139-150): C44. *)
From Coq Require Import Lia ZifyN ZifyNat ZifyBool.
From Verif Require Import Model.Base Model.Rng Model.Util Model.Utf8 Spec.Common.
From Verif Require Import Proofs.WordLemmas Proofs.ReadProofs Proofs.SaveProofs Proofs.Utf8Proofs Props.Rng.
Local Open Scope N_scope.

Section C44.
  Context {W : Type} (read : reader W).
  (** one Uintn(len(alphabet)) call *)
  Notation pick fuel ub a := (RNG_Uintn read fuel ub (N.of_nat (length a))).

  Lemma randstring_loop_iff ub fuel a : forall k w r w', randstring_loop read ub fuel k a w = Ret (r, w') <->
    exists js, runs (pick fuel ub a) w js w' /\ length js = k /\ r = map (fun j => nth (N.to_nat j) a 0) js.
  Proof.
    induction k as [|k IH]; intros w r w'; cbn [randstring_loop].
    - split.
      + intros E. injection E as <- <-. exists []. repeat split. constructor.
      + intros (js & R & L & ->). destruct js; [|discriminate L]. inversion R; subst. reflexivity.
    - split.
      + intros E. destruct (pick fuel ub a w) as [[j w1]| |] eqn:Ej; cbn [bind] in E; try discriminate E.
        pose proof (C26_uintn_in_range read _ _ _ _ _ _ Ej) as Hj. rewrite (aget_nth _ _ 0) in E by lia. cbn [bind] in E.
        destruct (randstring_loop read ub fuel k a w1) as [[r1 w2]| |] eqn:Er; cbn [bind] in E; try discriminate E. injection E as <- <-.
        apply IH in Er. destruct Er as (js & R & L & ->). exists (j :: js). split; [econstructor; eassumption|]. split; [cbn; lia|reflexivity].
      + intros (js & R & L & ->). destruct js as [|j js]; [discriminate L|]. inversion R as [|s x s1 xs s2 Ej Rj]; subst. rewrite Ej. cbn [bind].
        pose proof (C26_uintn_in_range read _ _ _ _ _ _ Ej) as Hj. rewrite (aget_nth _ _ 0) by lia. cbn [bind].
        rewrite (proj2 (IH s1 (map (fun j => nth (N.to_nat j) a 0) js) w')); [reflexivity|]. exists js. split; [exact Rj|]. split; [cbn in L; lia|reflexivity].
  Qed.

  (** What RandString(rng, alphabet, n) returns. A string is its byte sequence; its runes are what a range loop
      over it yields (string_runes). With [a] the runes of the alphabet, the result's runes are the runes of [a]
      at the indices returned by n successive Uintn(len(a)) calls: exactly n runes, in order. *)
  Theorem C44_randstring ub fuel alphabet n w s w' :
    RandString read ub fuel alphabet n w = Ret (s, w') ->
    let a := string_runes alphabet in
    (0 <= n)%Z /\ exists js, runs (pick fuel ub a) w js w' /\ length js = Z.to_nat n /\
      Forall (fun j => j < N.of_nat (length a)) js /\ string_runes s = map (fun j => nth (N.to_nat j) a 0) js.
  Proof.
    intros E a. unfold RandString, RandRunes in E. fold a in E. destruct (Z.ltb_spec n 0) as [Hn|Hn]; [discriminate E|]. split; [exact Hn|].
    destruct (randstring_loop read ub fuel (Z.to_nat n) a w) as [[p w1]| |] eqn:El; cbn [bind] in E; try discriminate E. injection E as <- <-.
    apply randstring_loop_iff in El. destruct El as (js & R & L & ->). exists js. split; [exact R|]. split; [exact L|].
    assert (F : Forall (fun j => j < N.of_nat (length a)) js).
    { clear - R. induction R as [|w x w1 xs w' Ex _ IH]; constructor; auto. exact (C26_uintn_in_range read _ _ _ _ _ _ Ex). }
    split; [exact F|]. apply runes_roundtrip. apply Forall_forall. intros c Hc. apply in_map_iff in Hc. destruct Hc as (j & <- & Hj).
    rewrite Forall_forall in F. specialize (F j Hj). pose proof (string_runes_scalar alphabet) as S. fold a in S. rewrite Forall_forall in S. apply S, nth_In. lia.
  Qed.
  (** the length in runes, and where they come from *)
  Theorem C44_length_and_alphabet ub fuel alphabet n w s w' : RandString read ub fuel alphabet n w = Ret (s, w') ->
    Z.of_nat (length (string_runes s)) = n /\ incl (string_runes s) (string_runes alphabet).
  Proof.
    intros E. apply C44_randstring in E. destruct E as (Hn & js & _ & L & F & ->). rewrite map_length, L. split; [lia|].
    intros c Hc. apply in_map_iff in Hc. destruct Hc as (j & <- & Hj). rewrite Forall_forall in F. specialize (F j Hj). apply nth_In. lia.
  Qed.
  (** whenever the Uintn calls return, so does RandString (converse of the first theorem) *)
  Theorem C44_randstring_returns ub fuel alphabet n w js w' : (0 <= n)%Z ->
    runs (pick fuel ub (string_runes alphabet)) w js w' -> length js = Z.to_nat n ->
    exists s, RandString read ub fuel alphabet n w = Ret (s, w').
  Proof.
    intros Hn R L. unfold RandString, RandRunes. destruct (Z.ltb_spec n 0); [lia|].
    rewrite (proj2 (randstring_loop_iff ub fuel (string_runes alphabet) (Z.to_nat n) w (map (fun j => nth (N.to_nat j) (string_runes alphabet) 0) js) w')); [eexists; reflexivity|]. eauto.
  Qed.
  (** panics: negative length, or an empty alphabet with something to draw *)
  Theorem C44_panics_iff ub fuel alphabet n w : go_reader read -> total_reader read ->
    (RandString read ub fuel alphabet n w = Panic <-> (n < 0)%Z \/ alphabet = [] /\ (0 < n)%Z).
  Proof.
    intros G T. unfold RandString, RandRunes. destruct (Z.ltb_spec n 0) as [Hn|Hn]; [cbn; split; auto|].
    assert (A : string_runes alphabet = [] <-> alphabet = []).
    { split; [|intros ->; reflexivity]. destruct alphabet as [|b bs]; [reflexivity|]. unfold string_runes. cbn [length runes_loop]. destruct (decode_rune b bs). discriminate. }
    set (a := string_runes alphabet) in *.
    assert (K : forall k w, randstring_loop read ub fuel k a w = Panic <-> a = [] /\ (0 < k)%nat).
    { induction k as [|k IH]; intros v; cbn [randstring_loop]; [split; [discriminate|intros [_ H]; lia]|].
      pose proof (C26_uintn_panics_iff read fuel ub (N.of_nat (length a)) v G T) as P. destruct (pick fuel ub a v) as [[j v1]| |] eqn:Ej; cbn [bind].
      - pose proof (C26_uintn_in_range read _ _ _ _ _ _ Ej) as Hj. rewrite (aget_nth _ _ 0) by lia. cbn [bind].
        assert (a <> []) by (intros Ha; rewrite Ha in Hj; cbn in Hj; lia).
        specialize (IH v1). destruct (randstring_loop read ub fuel k a v1) as [[r v2]| |]; cbn [bind]; split; try discriminate; try tauto.
      - split; [|reflexivity]. intros _. split; [|lia]. assert (H : N.of_nat (length a) = 0) by (apply P; reflexivity). destruct a; [reflexivity|cbn in H; lia].
      - split; [discriminate|]. intros [Ha _]. assert (E : @OutOfFuel (N * W) = Panic) by (apply P; rewrite Ha; reflexivity). discriminate E. }
    specialize (K (Z.to_nat n) w). destruct (randstring_loop read ub fuel (Z.to_nat n) a w) as [[r w1]| |]; cbn [bind]; split; try discriminate.
    - intros [H|[H1 H2]]; [lia|]. apply A in H1. assert (E : Ret (r, w1) = Panic) by (apply K; split; [exact H1|lia]). discriminate E.
    - intros _. right. destruct (proj1 K eq_refl) as [H1 H2]. split; [now apply A|lia].
    - reflexivity.
    - intros [H|[H1 H2]]; [lia|]. apply A in H1. assert (E : @OutOfFuel (list N * W) = Panic) by (apply K; split; [exact H1|lia]). discriminate E.
  Qed.
End C44.
(** A string made of ASCII characters only: one byte per character, and string and runes coincide *)
Theorem C44_ascii_length {W} (read : reader W) ub fuel alphabet n w s w' : Forall (fun b => b < 128) alphabet ->
  RandString read ub fuel alphabet n w = Ret (s, w') -> Z.of_nat (length s) = n /\ incl s alphabet.
Proof.
  intros A E. assert (D : forall l, Forall (fun b => b < 128) l -> string_runes l = l).
  { intros l H. unfold string_runes. assert (K : forall fuel, (length l <= fuel)%nat -> runes_loop fuel l = l); [|apply K; lia].
    induction H as [|b l Hb _ IH]; intros f Hf; [destruct f; reflexivity|]. destruct f as [|f]; [cbn in Hf; lia|]. cbn [runes_loop].
    unfold decode_rune, utf8_first. destruct (N.ltb_spec b 0x80); [|lia]. cbn [skipn]. f_equal. apply IH. cbn in Hf. lia. }
  pose proof (C44_length_and_alphabet read _ _ _ _ _ _ _ E) as [L I]. rewrite (D alphabet A) in *.
  assert (S : s = string_runes s).
  { unfold RandString, RandRunes in E. destruct (n <? 0)%Z; [discriminate E|]. rewrite (D alphabet A) in E.
    destruct (randstring_loop read ub fuel (Z.to_nat n) alphabet w) as [[p w1]| |] eqn:El; cbn [bind] in E; try discriminate E. injection E as <- <-.
    apply randstring_loop_iff in El. destruct El as (js & R & Lj & ->). 
    assert (F : Forall (fun b => b < 128) (map (fun j => nth (N.to_nat j) alphabet 0) js)).
    { apply Forall_forall. intros c Hc. apply in_map_iff in Hc. destruct Hc as (j & <- & _). destruct (nth_in_or_default (N.to_nat j) alphabet 0) as [Hin| ->]; [|lia].
      rewrite Forall_forall in A. now apply A. }
    set (l := map _ js) in *. assert (Q : runes_string l = l).
    { clear - F. induction F as [|b l Hb _ IH]; [reflexivity|]. change (runes_string (b :: l)) with (encode_rune b ++ runes_string l). unfold encode_rune.
      destruct (N.leb_spec b 0x7F); [|lia]. cbn [app]. now rewrite IH. }
    rewrite Q. symmetry. now apply D. }
  rewrite <- S in L, I. auto.
Qed.
(** "héé", drawn with a source that returns 1, 0, 2: "éhé" (5 bytes, 3 runes) *)
Example C44_nonvacuous :
  let src : reader (list N) := fun w p => match w with [] => Ret ((p, 0%nat, Some EOF), []) | x :: w' => Ret ((le_bytes (length p) x, length p, None), w') end in
  RandString src 64 5 [0x68; 0xC3; 0xA9; 0xC3; 0xA9] 3 [1; 0; 2] = Ret ([0xC3; 0xA9; 0x68; 0xC3; 0xA9], []) /\
  string_runes [0x68; 0xC3; 0xA9; 0xC3; 0xA9] = [0x68; 0xE9; 0xE9] /\ go_reader src /\ total_reader src.
Proof.
  split; [vm_compute; reflexivity|]. split; [vm_compute; reflexivity|]. split.
  - intros w p p' n e w' E. destruct w as [|x w]; injection E as <- <- <- <-; [auto|]. split; [apply le_bytes_length|]. intros _. apply le_bytes_isbyte.
  - intros w p. destruct w; eauto.
Qed.
