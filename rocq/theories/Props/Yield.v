(** C47: Yield and YieldUint64 under every schedule of the goroutines of the program. *)
From Coq Require Import Lia ZifyNat ZifyBool.
From Verif Require Import Model.Base Model.Rng Model.Api Model.Yield Spec.Common Spec.States Spec.Kinds Spec.Yielding.
From Verif Require Import Proofs.KindProofs Props.Gens Proofs.YieldProofs.
Local Open Scope nat_scope.

Section C47.
  Context {W A : Type}.
  Variable next : W -> outcome (A * W).

  (** In every state that any schedule reaches: the values of the goroutine that consumers have received,
      followed by those in the channel, are exactly the first variates of the distribution, in order, each
      once. Exactly one more has been drawn if the goroutine is in the select or has returned: a stopped
      yielder has thrown one variate away. *)
  Theorem C47_stream w0 over quit acts s : chan_ok over -> Yield next (start w0 over quit) acts = Some s ->
    (y_phase s = Looping -> runs next w0 (mine (y_got s) ++ mine (pending (y_over s))) (y_src s)) /\
    (holds_one (y_phase s) ->
       exists v, runs next w0 (mine (y_got s) ++ mine (pending (y_over s)) ++ [v]) (y_src s)).
  Proof.
    intros K E. destruct (reach_inv next w0 over quit acts s K E) as [_ I]. unfold sent in I. split; intros P.
    - now rewrite P in I.
    - destruct (y_phase s); try contradiction.
      + destruct I as (v & _ & R). exists v. now rewrite app_assoc.
      + destruct I as (v & R). exists v. now rewrite app_assoc.
  Qed.

  (** The goroutine panics only if the distribution does, or if somebody closed [over]. *)
  Theorem C47_no_panic w0 over quit acts s : chan_ok over -> Yield next (start w0 over quit) acts = Some s ->
    y_phase s = Crashed -> next (y_src s) = Panic \/ closed (y_over s) = true.
  Proof.
    intros K E P. destruct (reach_inv next w0 over quit acts s K E) as [_ I]. rewrite P in I. tauto.
  Qed.

  Lemma closed_mono acts s s' : Yield next s acts = Some s' ->
    (closed (y_over s') = true -> closed (y_over s) = true \/ In CloseOver acts) /\
    capacity (y_over s') = capacity (y_over s) /\
    (y_over s' = None <-> y_over s = None) /\ (y_quit s' = None <-> y_quit s = None) /\
    (closed (y_quit s) = true -> closed (y_quit s') = true).
  Proof.
    unfold Yield. revert s. induction acts as [|a acts IH]; intros s E; cbn [run] in E.
    - injection E as <-. tauto.
    - destruct (step next Yield_code s a) as [s1|] eqn:Es; [|discriminate].
      specialize (IH s1 E). destruct s as [w ph over quit got].
      assert (Q : (closed (y_over s1) = true -> closed over = true \/ a = CloseOver) /\
                  capacity (y_over s1) = capacity over /\
                  (y_over s1 = None <-> over = None) /\ (y_quit s1 = None <-> quit = None) /\
                  (closed quit = true -> closed (y_quit s1) = true)).
      { clear IH E. unfold step in Es.
        repeat match type of Es with
        | context [match ?x with _ => _ end] => destruct x eqn:?; try discriminate Es
        end; injection Es as <-; cbn; intuition (congruence || auto). }
      cbn [y_over y_quit]. cbn [In]. intuition congruence.
  Qed.
  (** seen from the outside: with a distribution that never panics and a channel nobody closes, the
      goroutine never panics *)
  Theorem C47_no_panic_in_good_use w0 over quit acts s : chan_ok over ->
    (forall w, next w <> Panic) -> closed over = false -> ~ In CloseOver acts ->
    Yield next (start w0 over quit) acts = Some s -> y_phase s <> Crashed.
  Proof.
    intros K N C H E P. destruct (C47_no_panic w0 over quit acts s K E P) as [X|X]; [now apply N in X|].
    destruct (proj1 (closed_mono acts _ s E) X) as [Y|Y]; [|contradiction].
    destruct over as [c|]; cbn in *; congruence.
  Qed.

  (** It never gets more than the capacity of the channel, plus one, ahead of the consumers. *)
  Theorem C47_bounded_lookahead w0 over quit acts s : chan_ok over -> Yield next (start w0 over quit) acts = Some s ->
    exists xs, runs next w0 xs (y_src s) /\ length xs <= length (mine (y_got s)) + capacity over + 1.
  Proof.
    intros K E. destruct (reach_inv next w0 over quit acts s K E) as [K' I].
    pose proof (proj1 (proj2 (closed_mono acts _ s E))) as C.
    assert (C' : capacity (y_over s) = capacity over) by (rewrite C; now destruct over).
    unfold chan_ok in K'.
    assert (M : length (mine (pending (y_over s))) <= length (pending (y_over s))).
    { unfold mine. rewrite map_length. clear. induction (pending (y_over s)) as [|[[] v] r IH]; cbn; lia. }
    assert (B : length (sent s) <= length (mine (y_got s)) + capacity over).
    { unfold sent. rewrite app_length. lia. }
    destruct (y_phase s).
    - exists (sent s). split; [exact I|lia].
    - destruct I as (v & _ & R). exists (sent s ++ [v]). split; [exact R|]. rewrite app_length. cbn [length]. lia.
    - destruct I as (v & R). exists (sent s ++ [v]). split; [exact R|]. rewrite app_length. cbn [length]. lia.
    - destruct I as [[R _]|(_ & v & R)].
      + exists (sent s). split; [exact R|lia].
      + exists (sent s ++ [v]). split; [exact R|]. rewrite app_length. cbn [length]. lia.
  Qed.

  (** *** Stopping *)
  (** Case 1 of the select is the receive from quit. If the goroutine has ended, there was a moment when it
      took that case: a value was waiting in quit, or quit was closed, or another goroutine handed one over. *)
  Theorem C47_ends_only_by_quit w0 over quit acts s : chan_ok over ->
    Yield next (start w0 over quit) acts = Some s -> y_phase s = Ended ->
    exists acts1 a acts2 s1, acts = acts1 ++ a :: acts2 /\ Yield next (start w0 over quit) acts1 = Some s1 /\
      ((a = Proceed 1 /\ can_receive (y_quit s1)) \/ (a = ProceedWith 1 /\ y_quit s1 <> None)).
  Proof.
    intros K. revert s. unfold Yield. induction acts as [|a acts IH] using rev_ind; intros s E P.
    - cbn in E. injection E as <-. discriminate P.
    - rewrite run_snoc in E. destruct (run next Yield_code (start w0 over quit) acts) as [s1|] eqn:E1; [|discriminate].
      pose proof (reach_inv next w0 over quit acts s1 K E1) as I1.
      destruct (y_phase s1) eqn:P1.
      + exfalso. destruct I1 as [_ I1]. rewrite P1 in I1. destruct s1 as [w ph ov qu got]. cbn [y_phase] in P1. subst ph.
        unfold step in E. repeat match type of E with
        | context [match ?x with _ => _ end] => destruct x eqn:?; try discriminate E
        end; injection E as <-; discriminate P.
      + destruct I1 as [_ I1]. rewrite P1 in I1. destruct I1 as (v & -> & _).
        destruct s1 as [w ph ov qu got]. cbn [y_phase] in P1. subst ph.
        exists acts, a, [], (mkY w (Waiting (offer v)) ov qu got). split; [reflexivity|]. split; [exact E1|].
        cbn [y_quit]. destruct a as [|i|i| |v0|v0| | | |]; unfold step in E; try discriminate E;
          try solve [exfalso; repeat match type of E with
            | context [match ?x with _ => _ end] => destruct x eqn:?; try discriminate E
            end; injection E as <-; discriminate P].
        * destruct i as [|[|i]]; cbn [nth_error offer] in E.
          { repeat match type of E with
            | context [match ?x with _ => _ end] => destruct x eqn:?; try discriminate E
            end; injection E as <-; discriminate P. }
          { left. split; [reflexivity|]. destruct qu as [q|]; [|discriminate]. unfold can_receive. cbn.
            destruct (c_buf q); [|left; congruence]. cbn in E. destruct (c_closed q); [now right|discriminate]. }
          { rewrite (proj2 (nth_error_None [] i)) in E by (cbn; lia). discriminate. }
        * destruct i as [|[|i]]; cbn [nth_error offer] in E.
          { repeat match type of E with
            | context [match ?x with _ => _ end] => destruct x eqn:?; try discriminate E
            end; injection E as <-; discriminate P. }
          { right. split; [reflexivity|]. destruct qu as [q|]; [congruence|discriminate]. }
          { rewrite (proj2 (nth_error_None [] i)) in E by (cbn; lia). discriminate. }
      + destruct (IH s1 eq_refl P1) as (a1 & b & a2 & s2 & -> & E2 & Q).
        exists a1, b, (a2 ++ [a]), s2. split; [now rewrite <- app_assoc|]. split; [exact E2|exact Q].
      + destruct s1 as [w ph ov qu got]. cbn [y_phase] in P1. subst ph. discriminate E.
  Qed.

  (** With a nil quit channel it never ends. *)
  Theorem C47_nil_quit_never_ends w0 over acts s : chan_ok over ->
    Yield next (start w0 over None) acts = Some s -> y_phase s <> Ended.
  Proof.
    intros K E P. destruct (C47_ends_only_by_quit w0 over None acts s K E P) as (a1 & a & a2 & s1 & _ & E1 & Q).
    pose proof (closed_mono a1 _ s1 E1) as (_ & _ & _ & [_ N] & _). cbn in N. specialize (N eq_refl).
    destruct Q as [[_ [Q|Q]]|[_ Q]]; rewrite N in Q; cbn in Q; congruence.
  Qed.

  (** A value sent on quit ends one yielder: as long as quit is open, the values still in its buffer, those
      other goroutines received from it, and the one this goroutine may have received add up to those that
      were put in. *)
  Lemma account_step w0 s a s' : inv next w0 s -> step next Yield_code s a = Some s' ->
    is_ended (y_phase s') = is_ended (y_phase s) + buffered_stops [a] + direct_stops [a] /\
    (closed (y_quit s') = false -> closed (y_quit s) = false /\
       length (pending (y_quit s')) + stolen [a] + buffered_stops [a] = length (pending (y_quit s)) + signals [a]).
  Proof.
    intros [_ I] E. destruct s as [w ph over quit got]. cbn [y_phase y_quit] in *.
    destruct ph as [|cs| |]; [| |destruct I as (v & I)|discriminate E].
    - destruct a as [|i|i| |v|v| | | |]; unfold step in E; try discriminate E;
        repeat match type of E with
        | context [match ?x with _ => _ end] => destruct x eqn:?; try discriminate E
        end; injection E as <-; cbn; (split; [lia|]); intros Hc; (split; [congruence|]); try lia;
        try (rewrite app_length; cbn; lia).
      destruct (c_buf c) as [|t r] eqn:Eb; [discriminate|]. cbn. lia.
    - destruct I as (v0 & -> & _).
      destruct a as [|i|i| |v|v| | | |]; unfold step in E; try discriminate E.
      + destruct i as [|[|i]]; cbn [nth_error offer] in E.
        * repeat match type of E with
          | context [match ?x with _ => _ end] => destruct x eqn:?; try discriminate E
          end; injection E as <-; cbn; (split; [lia|]); intros Hc; (split; [congruence|]); lia.
        * destruct quit as [q|]; [|discriminate]. destruct (c_buf q) as [|t r] eqn:Eb; cbn [is_nil] in E.
          { destruct (c_closed q) eqn:Ec; [|discriminate]. injection E as <-. cbn. split; [lia|]. congruence. }
          { injection E as <-. cbn. rewrite Eb. split; [lia|]. intros ->. split; [reflexivity|]. cbn. lia. }
        * rewrite (proj2 (nth_error_None [] i)) in E by (cbn; lia). discriminate.
      + destruct i as [|[|i]]; cbn [nth_error offer] in E.
        * repeat match type of E with
          | context [match ?x with _ => _ end] => destruct x eqn:?; try discriminate E
          end; injection E as <-; cbn; (split; [lia|]); intros Hc; (split; [congruence|]); lia.
        * destruct quit as [q|]; [|discriminate]. destruct (c_meet q); [|discriminate]. injection E as <-.
          cbn. split; [lia|]. intros ->. split; [reflexivity|]. lia.
        * rewrite (proj2 (nth_error_None [] i)) in E by (cbn; lia). discriminate.
      + repeat match type of E with
        | context [match ?x with _ => _ end] => destruct x eqn:?; try discriminate E
        end; injection E as <-; cbn; (split; [lia|]); intros Hc; (split; [congruence|]); lia.
      + repeat match type of E with
        | context [match ?x with _ => _ end] => destruct x eqn:?; try discriminate E
        end; injection E as <-; cbn; (split; [lia|]); intros Hc; (split; [congruence|]); lia.
      + repeat match type of E with
        | context [match ?x with _ => _ end] => destruct x eqn:?; try discriminate E
        end; injection E as <-; cbn; (split; [lia|]); intros Hc; (split; [congruence|]); lia.
      + repeat match type of E with
        | context [match ?x with _ => _ end] => destruct x eqn:?; try discriminate E
        end; injection E as <-; cbn; (split; [lia|]); intros Hc; (split; [congruence|]); lia.
      + repeat match type of E with
        | context [match ?x with _ => _ end] => destruct x eqn:?; try discriminate E
        end; injection E as <-; cbn; (split; [lia|]); intros Hc; (split; [congruence|]); rewrite app_length; cbn; lia.
      + destruct quit as [q|]; [|discriminate]. destruct (c_buf q) as [|t r] eqn:Eb; [discriminate|]. injection E as <-.
        cbn. rewrite Eb. cbn. split; [lia|]. intros ->. split; [reflexivity|]. lia.
      + destruct quit as [q|]; [|discriminate]. destruct (c_closed q) eqn:Eq; [discriminate|]. injection E as <-. cbn. split; [lia|]. discriminate.
    - destruct a as [|i|i| |v1|v1| | | |]; unfold step in E; try discriminate E;
        repeat match type of E with
        | context [match ?x with _ => _ end] => destruct x eqn:?; try discriminate E
        end; injection E as <-; cbn; (split; [lia|]); intros Hc; (split; [congruence|]); try lia;
        try (rewrite app_length; cbn; lia).
      destruct (c_buf c) as [|t r] eqn:Eb; [discriminate|]. cbn. lia.
  Qed.
  Lemma count_app (acts l : list (action A)) :
    buffered_stops (acts ++ l) = buffered_stops acts + buffered_stops l /\
    direct_stops (acts ++ l) = direct_stops acts + direct_stops l /\
    stolen (acts ++ l) = stolen acts + stolen l /\ signals (acts ++ l) = signals acts + signals l.
  Proof.
    induction acts as [|b acts (I1 & I2 & I3 & I4)]; [auto|].
    cbn [app]. repeat split; destruct b as [|[|[|]]|[|[|]]| | | | | | |]; cbn [buffered_stops direct_stops stolen signals]; lia.
  Qed.
  Theorem C47_one_signal_stops_one_yielder w0 over quit acts s : chan_ok over ->
    Yield next (start w0 over quit) acts = Some s ->
    buffered_stops acts + direct_stops acts = is_ended (y_phase s) /\
    (closed (y_quit s) = false ->
       length (pending (y_quit s)) + stolen acts + buffered_stops acts = length (pending quit) + signals acts).
  Proof.
    intros K. unfold Yield. 
    assert (G : forall s, run next Yield_code (start w0 over quit) acts = Some s ->
      is_ended (y_phase s) = buffered_stops acts + direct_stops acts /\
      (closed (y_quit s) = false ->
       length (pending (y_quit s)) + stolen acts + buffered_stops acts = length (pending quit) + signals acts)).
    { induction acts as [|a acts IH] using rev_ind; intros s0 E.
      - cbn in E. injection E as <-. cbn. split; [reflexivity|]. intros _. lia.
      - rewrite run_snoc in E. destruct (run next Yield_code (start w0 over quit) acts) as [s1|] eqn:E1; [|discriminate].
        destruct (IH s1 eq_refl) as [H1 H2]. pose proof (reach_inv next w0 over quit acts s1 K E1) as I1.
        destruct (account_step w0 s1 a s0 I1 E) as [H3 H4]. destruct (count_app acts [a]) as (-> & -> & -> & ->).
        split; [lia|]. intros C. destruct (H4 C) as [C1 H5]. specialize (H2 C1). lia. }
    intros E. destruct (G s E) as [H1 H2]. split; [now rewrite H1|exact H2].
  Qed.

  (** Once ended it draws nothing and sends nothing, whatever the others do. *)
  Theorem C47_silent_after_end s acts s' : y_phase s = Ended -> Yield next s acts = Some s' ->
    y_phase s' = Ended /\ y_src s' = y_src s /\
    mine (y_got s') ++ mine (pending (y_over s')) = mine (y_got s) ++ mine (pending (y_over s)).
  Proof.
    unfold Yield. revert s. induction acts as [|a acts IH]; intros s P E; cbn [run] in E.
    - injection E as <-. auto.
    - destruct (step next Yield_code s a) as [s1|] eqn:Es; [|discriminate].
      assert (Q : y_phase s1 = Ended /\ y_src s1 = y_src s /\ sent s1 = sent s).
      { destruct s as [w ph over quit got]. cbn [y_phase y_src] in *. subst ph. clear IH E.
        destruct a as [|i|i| |v|v| | | |]; unfold step in Es; try discriminate Es;
          repeat match type of Es with
          | context [match ?x with _ => _ end] => destruct x eqn:?; try discriminate Es
          end; injection Es as <-; cbn [y_phase y_src]; (split; [reflexivity|split; [reflexivity|]]); try reflexivity.
        - eapply sent_consume; eassumption.
        - apply sent_push_other.
        - match goal with H : c_meet _ = true |- _ => unfold c_meet in H; apply andb_prop in H; destruct H as [H _]; apply is_nil_true in H end.
          rewrite sent_meet by assumption. apply app_nil_r. }
      destruct Q as (Q1 & Q2 & Q3). destruct (IH s1 Q1 E) as (R1 & R2 & R3). unfold sent in Q3. repeat split; congruence.
  Qed.

  (** *** Progress *)
  (** What the goroutine can do next: draw; hand its value to a waiting consumer; put it in a free place of
      the buffer; end when quit has a value or is closed. *)
  Theorem C47_progress w0 over quit acts s : chan_ok over -> Yield next (start w0 over quit) acts = Some s ->
    (y_phase s = Looping -> forall v w, next (y_src s) = Ret (v, w) ->
       exists s', Yield next s [Enter] = Some s' /\ holds_one (y_phase s')) /\
    (forall cs, y_phase s = Waiting cs ->
       (pending (y_over s) = [] -> y_over s <> None -> closed (y_over s) = false ->
          exists v s', Yield next s [ProceedWith 0] = Some s' /\ y_phase s' = Looping /\ y_got s' = y_got s ++ [(true, v)]) /\
       (room (y_over s) <> 0 -> closed (y_over s) = false ->
          exists v s', Yield next s [Proceed 0] = Some s' /\ y_phase s' = Looping /\
            pending (y_over s') = pending (y_over s) ++ [(true, v)]) /\
       (can_receive (y_quit s) -> exists s', Yield next s [Proceed 1] = Some s' /\ y_phase s' = Ended)).
  Proof.
    intros K E. destruct (reach_inv next w0 over quit acts s K E) as [K' I]. clear E K.
    destruct s as [w ph ov qu got]. cbn [y_phase y_src y_over y_quit y_got] in *. unfold Yield. split.
    - intros -> v w1 En. cbn. rewrite En. cbn. eexists. split; [reflexivity|exact Logic.I].
    - intros cs ->. destruct I as (v & -> & R). repeat split.
      + intros B N C. destruct ov as [c|]; [|congruence]. cbn in B, C. exists v. cbn. unfold c_meet. rewrite B, C. cbn.
        eexists. split; [reflexivity|]. split; reflexivity.
      + intros B C. destruct ov as [c|]; [|now cbn in B]. unfold room in B. cbn in B, C. exists v. cbn. rewrite C.
        unfold c_room. rewrite C. replace (length (c_buf c) <? c_cap c) with true by (symmetry; apply Nat.ltb_lt; lia). cbn.
        eexists. split; [reflexivity|]. split; reflexivity.
      + intros B. destruct qu as [q|]; [|destruct B as [B|B]; cbn in B; congruence]. unfold can_receive in B. cbn in B. cbn.
        destruct (c_buf q) as [|t r]; cbn.
        * destruct B as [B|B]; [congruence|]. rewrite B. eexists. split; reflexivity.
        * eexists. split; reflexivity.
  Qed.

  Definition measure (s : ystate W A) : nat :=
    match y_phase s with
    | Looping => 2 * room (y_over s) + 2
    | Waiting _ => 2 * room (y_over s) + 1
    | _ => 0
    end.
  Lemma alone_step w0 s a s' : inv next w0 s -> closed (y_over s) = false -> (forall w, next w <> Panic) ->
    can_receive (y_quit s) -> alone a -> step next Yield_code s a = Some s' ->
    measure s' < measure s /\ closed (y_over s') = false /\ (can_receive (y_quit s') \/ y_phase s' = Ended).
  Proof.
    intros [K I] C N Q Al E. destruct s as [w ph ov qu got]. cbn [y_phase y_src y_over y_quit y_got] in *. unfold measure.
    destruct a as [|i|i| |v|v| | | |]; try contradiction.
    - destruct ph; try discriminate E. cbn in E. destruct (next w) as [[v w1]| |] eqn:En; cbn in E; try discriminate.
      + injection E as <-. cbn. split; [lia|auto].
      + now apply N in En.
    - destruct ph as [|cs| |]; try discriminate E. destruct I as (v & -> & _).
      destruct i as [|[|i]]; cbn [step nth_error offer] in E.
      + destruct ov as [c|]; [|discriminate]. cbn in C. rewrite C in E. destruct (c_room c) eqn:Er; [|discriminate].
        injection E as <-. cbn [y_phase y_over y_quit]. unfold c_room in Er. apply andb_prop in Er. destruct Er as [Er _].
        apply Nat.ltb_lt in Er. unfold room. cbn. rewrite app_length. cbn [length]. split; [lia|auto].
      + destruct qu as [q|]; [|discriminate]. destruct (is_nil (c_buf q)).
        * destruct (c_closed q); [|discriminate]. injection E as <-. cbn. split; [lia|auto].
        * injection E as <-. cbn. split; [lia|auto].
      + rewrite (proj2 (nth_error_None [] i)) in E by (cbn; lia). discriminate.
  Qed.

  (** Once quit has a value (or is closed) and the others leave the channels alone, the goroutine ends: it
      can make at most 2*room+2 steps, that is draw at most room+1 further values, and as long as it has not
      ended it can take a step. (room = free places in the buffer of over: Go's select picks any ready case,
      so it may fill the buffer before it notices quit.) *)
  Theorem C47_stops_if_left_alone w0 over quit acts s : chan_ok over -> (forall w, exists v w', next w = Ret (v, w')) ->
    Yield next (start w0 over quit) acts = Some s -> y_phase s <> Crashed -> closed (y_over s) = false ->
    can_receive (y_quit s) ->
    forall own s', Forall alone own -> Yield next s own = Some s' ->
      length own <= 2 * room (y_over s) + 2 /\
      (y_phase s' = Ended \/ exists a s'', alone a /\ Yield next s' [a] = Some s'').
  Proof.
    intros K T E Cr C Q own s' Al E'.
    pose proof (reach_inv next w0 over quit acts s K E) as I.
    assert (N : forall w, next w <> Panic) by (intros w; destruct (T w) as (v & w' & ->); discriminate).
    assert (M : forall own s, inv next w0 s -> y_phase s <> Crashed -> closed (y_over s) = false -> can_receive (y_quit s) \/ y_phase s = Ended ->
       Forall alone own -> run next Yield_code s own = Some s' ->
       length own <= measure s /\ (y_phase s' = Ended \/ exists a s'', alone a /\ Yield next s' [a] = Some s'')).
    { clear - T N K. intros own. induction own as [|a own IH]; intros s I Cr C Q Al E.
      - cbn in E. injection E as <-. cbn. split; [lia|]. destruct (y_phase s) eqn:P; auto.
        + right. destruct (T (y_src s)) as (v & w' & En). destruct s as [w ph ov qu got]. cbn in *. subst ph.
          exists Enter. unfold Yield. cbn. rewrite En. cbn. eexists. split; [exact Logic.I|reflexivity].
        + right. destruct I as [_ I]. rewrite P in I. destruct I as (v & -> & _). destruct s as [w ph ov qu got]. cbn in *. subst ph.
          destruct Q as [Q|Q]; [|discriminate]. exists (Proceed 1). unfold Yield. cbn.
          destruct qu as [q|]; [|destruct Q as [Q|Q]; cbn in Q; congruence]. unfold can_receive in Q. cbn in Q.
          destruct (c_buf q) as [|t r]; cbn.
          * destruct Q as [Q|Q]; [congruence|]. rewrite Q. eexists. split; [exact Logic.I|reflexivity].
          * eexists. split; [exact Logic.I|reflexivity].
        + congruence.
      - cbn [run] in E. destruct (step next Yield_code s a) as [s1|] eqn:Es; [|discriminate]. inversion Al as [|? ? Ha Hr]; subst.
        destruct Q as [Q|Q].
        2:{ exfalso. destruct s as [w ph ov qu got]. cbn in Q. subst ph. destruct a; try contradiction; discriminate Es. }
        pose proof (step_inv next w0 s a s1 I Es) as I1.
        destruct (alone_step w0 s a s1 I C N Q Ha Es) as (M1 & C1 & Q1).
        assert (Cr1 : y_phase s1 <> Crashed).
        { intros P. destruct I1 as [_ I1]. rewrite P in I1. destruct I1 as [[_ I1]|[I1 _]]; [now apply N in I1|congruence]. }
        destruct (IH s1 I1 Cr1 C1 Q1 Hr E) as [L R]. cbn [length]. split; [lia|exact R]. }
    destruct (M own s I Cr C (or_introl Q) Al E') as [L R]. split; [|exact R].
    unfold measure in L. destruct (y_phase s); lia.
  Qed.

  (** But closing quit does not bound what it still delivers while consumers keep receiving: any number of
      further values may be sent. *)
  Theorem C47_may_continue_after_close w0 (c : chan A) (q : chan unit) n : (forall w, exists v w', next w = Ret (v, w')) ->
    c_buf c = [] -> c_closed c = false -> c_closed q = true ->
    exists acts s, Yield next (start w0 (Some c) (Some q)) acts = Some s /\ y_phase s = Looping /\ length (mine (y_got s)) = n.
  Proof.
    intros T B C Q. unfold Yield.
      assert (G : forall n, exists s, run next Yield_code (start w0 (Some c) (Some q)) (concat (repeat [Enter; ProceedWith 0] n)) = Some s /\
                    y_phase s = Looping /\ length (mine (y_got s)) = n /\ exists b, y_over s = Some b /\ c_buf b = [] /\ c_closed b = false).
      { clear - T B C. intros n. induction n as [|n (s & E & P & L & b & O & B1 & C1)].
        - exists (start w0 (Some c) (Some q)). repeat split; try reflexivity.
          exists (mkChan (c_cap c) (map (fun v => (false, v)) (c_buf c)) (c_closed c)). cbn. now rewrite B.
        - destruct s as [w ph ov qu got]. cbn in P, L, O. subst ph ov. destruct (T w) as (v & w' & En).
          exists (mkY w' Looping (Some b) qu (got ++ [(true, v)])). split.
          + replace (concat (repeat [Enter; ProceedWith 0] (S n))) with (concat (repeat [@Enter A; ProceedWith 0] n) ++ [Enter; ProceedWith 0]).
            * rewrite run_app, E. cbn. rewrite En. cbn. unfold c_meet. now rewrite B1, C1.
            * rewrite <- (Nat.add_1_r n), repeat_app, concat_app. reflexivity.
          + cbn [y_phase y_got y_over]. repeat split; [rewrite mine_app, app_length; change (mine [(true, v)]) with [v]; cbn [length]; lia|].
            exists b. auto. }
      destruct (G n) as (s' & E' & P' & L' & _). eexists _, s'. split; [exact E'|]. now split.
  Qed.
End C47.

(** YieldUint64 is the same goroutine over RNG.Uint64: every theorem above holds of it. *)
Theorem C47_uint64_is_yield {W} (read : reader W) s acts : YieldUint64 read s acts = Yield (RNG_Uint64 read) s acts.
Proof. reflexivity. Qed.
(** In particular, over a built-in generator (not Xoroshiro) what consumers receive is the generator's own
    Uint64 stream. *)
Theorem C47_uint64_generator_stream k g over quit acts s : is_gXoroshiro k = false -> reachable k g -> chan_ok over ->
  YieldUint64 (a_Read (methods k)) (start g over quit) acts = Some s -> y_phase s <> Crashed ->
  exists rest, length rest <= 1 /\
    runs (a_Uint64 (methods k)) g (mine (y_got s) ++ mine (pending (y_over s)) ++ rest) (y_src s).
Proof.
  intros X R K E P. destruct (C47_stream (RNG_Uint64 (a_Read (methods k))) g over quit acts s K E) as [S1 S2].
  destruct (y_phase s).
  - exists []. split; [cbn; lia|]. rewrite app_nil_r. apply C04_rng_follows_generator; auto.
  - destruct (S2 Logic.I) as (v & R2). exists [v]. split; [cbn; lia|]. apply C04_rng_follows_generator; auto.
  - destruct (S2 Logic.I) as (v & R2). exists [v]. split; [cbn; lia|]. apply C04_rng_follows_generator; auto.
  - congruence.
Qed.

(** A run with a buffered channel, two consumers and a stop: hypotheses are met. *)
Definition count_up (w : nat) : outcome (nat * nat) := Ret (w, S w).
Example C47_nonvacuous :
  chan_ok (Some (mkChan 1 [] false) : option (chan nat)) /\
  exists s, Yield count_up (start 5 (Some (mkChan 1 [] false)) (Some (mkChan 0 [] false)))
      [Enter; Proceed 0; Enter; Consume; Proceed 0; OtherPass 99; Enter; Consume; ProceedWith 0; Enter; ProceedWith 1]
    = None /\
    Yield count_up (start 5 (Some (mkChan 1 [] false)) (Some (mkChan 0 [] false)))
      [Enter; Proceed 0; Enter; Consume; Proceed 0; Enter; Consume; OtherPass 99; ProceedWith 0; Enter; ProceedWith 1] = Some s /\
    y_phase s = Ended /\ y_got s = [(true, 5); (true, 6); (false, 99); (true, 7)] /\ y_src s = 9.
Proof. split; [unfold chan_ok; cbn; lia|]. eexists. repeat split. Qed.
