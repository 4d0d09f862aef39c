(** Invariants of the Yield goroutine. *)
From Coq Require Import Lia ZifyNat ZifyBool.
From Verif Require Import Model.Base Model.Yield Spec.Common Spec.Yielding.
Local Open Scope nat_scope.
Arguments mine : simpl never.

Lemma mine_app {A} (a b : list (bool * A)) : mine (a ++ b) = mine a ++ mine b.
Proof. unfold mine. now rewrite filter_app, map_app. Qed.
Lemma runs_app {S A} (u : S -> outcome (A * S)) s xs t ys r : runs u s xs t -> runs u t ys r -> runs u s (xs ++ ys) r.
Proof. induction 1; cbn; auto. intros. econstructor; eauto. Qed.

Section Y.
  Context {W A : Type}.
  Variable next : W -> outcome (A * W).
  Notation st := (ystate W A).
  Notation stp := (step next Yield_code).
  Notation rn := (run next Yield_code).

  Lemma run_app s a b : rn s (a ++ b) = match rn s a with Some t => rn t b | None => None end.
  Proof. revert s. induction a as [|x a IH]; intros s; cbn; [reflexivity|]. destruct (stp s x); auto. Qed.
  Lemma run_snoc s a x : rn s (a ++ [x]) = match rn s a with Some t => stp t x | None => None end.
  Proof. rewrite run_app. destruct (rn s a); [|reflexivity]. cbn. now destruct (stp _ _). Qed.

  (** the select cases once entered *)
  Definition offer (v : A) : list (ready A * branch) := [(RSend v, Fallout); (RRecv, Return)].

  (** values sent so far, in the order of the channel *)
  Definition sent (s : st) : list A := mine (y_got s) ++ mine (pending (y_over s)).
  Definition inv (w0 : W) (s : st) : Prop :=
    chan_ok (y_over s) /\
    match y_phase s with
    | Looping => runs next w0 (sent s) (y_src s)
    | Waiting cs => exists v, cs = offer v /\ runs next w0 (sent s ++ [v]) (y_src s)
    | Ended => exists v, runs next w0 (sent s ++ [v]) (y_src s)
    | Crashed => (runs next w0 (sent s) (y_src s) /\ next (y_src s) = Panic) \/
                 (closed (y_over s) = true /\ exists v, runs next w0 (sent s ++ [v]) (y_src s))
    end.

  Lemma sent_push w ph c q got v : sent (mkY w ph (Some (c_push c (true, v))) q got) = sent (mkY w ph (Some c) q got) ++ [v].
  Proof. unfold sent. cbn. rewrite mine_app. change (mine [(true, v)]) with [v]. now rewrite app_assoc. Qed.
  Lemma sent_push_other w ph c q got v : sent (mkY w ph (Some (c_push c (false, v))) q got) = sent (mkY w ph (Some c) q got).
  Proof. unfold sent. cbn. rewrite mine_app. change (mine [(false, v)]) with (@nil A). now rewrite app_nil_r. Qed.
  Lemma sent_consume w ph c q got v r : c_buf c = v :: r ->
    sent (mkY w ph (Some (c_pop c)) q (got ++ [v])) = sent (mkY w ph (Some c) q got).
  Proof. intros E. unfold sent. cbn. rewrite E. cbn [tl]. rewrite mine_app, <- app_assoc. f_equal. change (v :: r) with ([v] ++ r). now rewrite mine_app. Qed.
  Lemma sent_meet w ph c q got b v : c_buf c = [] ->
    sent (mkY w ph (Some c) q (got ++ [(b, v)])) = sent (mkY w ph (Some c) q got) ++ (if b then [v] else []).
  Proof. intros E. unfold sent. cbn. rewrite E. change (mine []) with (@nil A). rewrite mine_app, !app_nil_r. now destruct b. Qed.
  Lemma push_ok {B} (c : chan B) v : c_room c = true -> chan_ok (Some (c_push c v)).
  Proof.
    unfold c_room, chan_ok. intros H. apply andb_prop in H. destruct H as [H _]. apply Nat.ltb_lt in H.
    cbn [pending capacity c_push c_buf c_cap]. rewrite app_length. cbn [length]. lia.
  Qed.
  Lemma is_nil_true {B} (l : list B) : is_nil l = true -> l = [].
  Proof. now destruct l. Qed.

  Lemma step_inv w0 s a s' : inv w0 s -> stp s a = Some s' -> inv w0 s'.
  Proof.
    destruct s as [w ph over quit got]. intros [K I] E. unfold inv.
    unfold step in E. cbn [y_src y_phase y_over y_quit y_got] in *.
    assert (Side' : forall over' quit' got', Some (mkY w ph over' quit' got') = Some s' -> chan_ok over' ->
      sent (mkY w ph over' quit' got') = sent (mkY w ph over quit got) ->
      (closed over = true -> closed over' = true) -> inv w0 s').
    { intros over' quit' got' Es K' Sn Cl. injection Es as <-. split; [exact K'|]. cbn [y_phase y_src]. rewrite Sn.
      destruct ph; try exact I. destruct I as [I|[C I]]; [left; exact I|]. right. split; [|exact I]. cbn [y_over] in *. auto. }
    fold (inv w0 s').
    assert (Cr : ph <> Crashed) by (intros ->; discriminate E).
    destruct a as [|i|i| |v|v| | | |].
    - (* Enter *)
      destruct ph; try discriminate. cbn [enter_select Yield_code bind] in E.
      destruct (next w) as [[v w1]| |] eqn:En; cbn [bind] in E; try discriminate; injection E as <-.
      + split; [exact K|]. cbn. exists v. split; [reflexivity|]. apply runs_app with w; [exact I|].
        econstructor; [exact En|constructor].
      + split; [exact K|]. cbn. left. split; [exact I|exact En].
    - (* Proceed *)
      destruct ph as [|cs| |]; try discriminate. destruct I as (v & -> & R).
      destruct i as [|[|i]]; cbn [nth_error offer] in E.
      + destruct over as [c|]; [|discriminate]. destruct (c_closed c) eqn:Ec.
        * injection E as <-. split; [exact K|]. cbn. right. split; [exact Ec|]. now exists v.
        * destruct (c_room c) eqn:Er; [|discriminate]. injection E as <-. split.
          { now apply push_ok. }
          cbn [y_phase after y_src]. rewrite sent_push. exact R.
      + destruct quit as [q|]; [|discriminate]. destruct (is_nil (c_buf q)).
        * destruct (c_closed q); [|discriminate]. injection E as <-. split; [exact K|]. cbn. now exists v.
        * injection E as <-. split; [exact K|]. cbn. now exists v.
      + rewrite (proj2 (nth_error_None [] i)) in E by (cbn; lia). discriminate.
    - (* ProceedWith *)
      destruct ph as [|cs| |]; try discriminate. destruct I as (v & -> & R).
      destruct i as [|[|i]]; cbn [nth_error offer] in E.
      + destruct over as [c|]; [|discriminate]. destruct (c_meet c) eqn:Em; [|discriminate].
        injection E as <-. split; [exact K|]. cbn [y_phase after y_src].
        unfold c_meet in Em. apply andb_prop in Em. destruct Em as [Em _]. apply is_nil_true in Em.
        rewrite sent_meet by exact Em. exact R.
      + destruct quit as [q|]; [|discriminate]. destruct (c_meet q); [|discriminate].
        injection E as <-. split; [exact K|]. cbn. now exists v.
      + rewrite (proj2 (nth_error_None [] i)) in E by (cbn; lia). discriminate.
    - (* Consume *)
      destruct ph; try congruence; (destruct over as [c|]; [|discriminate]; destruct (c_buf c) as [|v r] eqn:Eb; [discriminate|];
      eapply Side'; [exact E| | |]; [unfold chan_ok in *; cbn in *; rewrite Eb in *; cbn in *; lia|eapply sent_consume; exact Eb|auto]).
    - destruct ph; try congruence; (destruct over as [c|]; [|discriminate]; destruct (c_room c) eqn:Er; [|discriminate];
      eapply Side'; [exact E| | |]; [now apply push_ok|apply sent_push_other|auto]).
    - destruct ph; try congruence; (destruct over as [c|]; [|discriminate]; destruct (c_meet c) eqn:Em; [|discriminate];
      unfold c_meet in Em; apply andb_prop in Em; destruct Em as [Em _]; apply is_nil_true in Em;
      eapply Side'; [exact E|exact K| |auto]; rewrite sent_meet by exact Em; apply app_nil_r).
    - destruct ph; try congruence; (destruct over as [c|]; [|discriminate]; destruct (c_closed c) eqn:Ec; [discriminate|];
      eapply Side'; [exact E|exact K|reflexivity|auto]).
    - destruct ph; try congruence; (destruct quit as [q|]; [|discriminate]; destruct (c_room q); [|discriminate];
      eapply Side'; [exact E|exact K|reflexivity|auto]).
    - destruct ph; try congruence; (destruct quit as [q|]; [|discriminate]; destruct (is_nil (c_buf q)); [discriminate|];
      eapply Side'; [exact E|exact K|reflexivity|auto]).
    - destruct ph; try congruence; (destruct quit as [q|]; [|discriminate]; destruct (c_closed q); [discriminate|];
      eapply Side'; [exact E|exact K|reflexivity|auto]).
  Qed.

  Lemma start_inv w over quit : chan_ok over -> inv w (start w over quit).
  Proof.
    intros K. split.
    - destruct over as [c|]; [|exact K]. unfold chan_ok in *. cbn in *. now rewrite map_length.
    - unfold sent. cbn. destruct over as [c|]; cbn; [|constructor].
      replace (mine (map (fun v : A => (false, v)) (c_buf c))) with (@nil A); [constructor|].
      induction (c_buf c) as [|v r IH]; [reflexivity|]. unfold mine in *. cbn. exact IH.
  Qed.
  Lemma run_inv w0 acts s s' : inv w0 s -> rn s acts = Some s' -> inv w0 s'.
  Proof.
    revert s. induction acts as [|a acts IH]; intros s I E; cbn in E.
    - now injection E as <-.
    - destruct (stp s a) as [s1|] eqn:Es; [|discriminate]. eapply IH; [|exact E]. eapply step_inv; eauto.
  Qed.
  Lemma reach_inv w over quit acts s : chan_ok over -> rn (start w over quit) acts = Some s -> inv w s.
  Proof. intros K E. eapply run_inv; [apply start_inv; exact K|exact E]. Qed.
End Y.
