(** LFG: ring buffer seen from t. *)
From Coq Require Import Lia ZifyN ZifyNat ZifyBool.
From Verif Require Import Proofs.WordLemmas Proofs.ReadProofs Model.GenRead Model.LfgTable Model.Lfg Model.Api Spec.States.
Ltac Zify.zify_post_hook ::= Z.div_mod_to_equations.

Opaque lfgS0.

Definition lfg_ok (g : lfg) : Prop :=
  length (ls g) = 607 /\ lt g < 607 /\ lf g = (lt g + 334) mod 607 /\ Forall w64 (ls g).

(** word i of the buffer counted from t *)
Definition rv (g : lfg) (i : nat) : N := nth ((lt g + i) mod 607) (ls g) 0%N.

Lemma rv_w64 g i : lfg_ok g -> w64 (rv g i).
Proof.
  intros (Hl & _ & _ & Hw). unfold rv. rewrite Forall_forall in Hw. apply Hw, nth_In. lia.
Qed.

Lemma lfg_step g : lfg_ok g -> exists g',
  LFG_Uint64 g = Ret (add64 (rv g 334) (rv g 0), g') /\ lfg_ok g' /\
  lt g' = (lt g + 1) mod 607 /\
  forall i, i < 607 -> rv g' i = if i =? 334 then add64 (rv g 334) (rv g 0) else rv g ((i + 1) mod 607).
Proof.
  intros (Hl & Ht & Hf & Hw). unfold LFG_Uint64.
  rewrite (aget_nth (ls g) (lf g) 0%N), (aget_nth (ls g) (lt g) 0%N) by lia. cbn [bind].
  replace (nth (lf g) (ls g) 0%N) with (rv g 334) by (unfold rv; rewrite Hf; reflexivity).
  replace (nth (lt g) (ls g) 0%N) with (rv g 0)
    by (unfold rv; do 2 f_equal; lia).
  set (x := add64 (rv g 334) (rv g 0)).
  assert (E : (if 607 <=? S (lf g) then (0, S (lt g))
          else if 607 <=? S (lt g) then (S (lf g), 0) else (S (lf g), S (lt g)))
          = ((lt g + 335) mod 607, (lt g + 1) mod 607)).
  { destruct (Nat.leb_spec 607 (S (lf g))); [|destruct (Nat.leb_spec 607 (S (lt g)))];
      f_equal; lia. }
  unfold lfgK. rewrite E. rewrite aset_ok by lia. cbn [bind].
  eexists; split; [reflexivity|]. split; [|split].
  - unfold lfg_ok; cbn [ls lt lf]. rewrite lupd_length. repeat split; try lia.
    apply Forall_lupd; [exact Hw|apply add64_w].
  - reflexivity.
  - intros i Hi. unfold rv; cbn [lt ls]. rewrite nth_lupd by lia.
    destruct (Nat.eqb_spec i 334) as [->|Hne].
    + replace (((lt g + 1) mod 607 + 334) mod 607 =? (lt g + 335) mod 607) with true; [reflexivity|].
      symmetry; apply Nat.eqb_eq. lia.
    + replace (((lt g + 1) mod 607 + i) mod 607 =? (lt g + 335) mod 607) with false.
      * f_equal. lia.
      * symmetry; apply Nat.eqb_neq. lia.
Qed.

Lemma lfg_total g : lfg_ok g -> exists x g', LFG_Uint64 g = Ret (x, g') /\ lfg_ok g'.
Proof. intros H. destruct (lfg_step g H) as (g' & He & Ho & _). eauto. Qed.

Lemma lfg_u64_w g x g' : lfg_ok g -> LFG_Uint64 g = Ret (x, g') -> w64 x.
Proof.
  intros H He. destruct (lfg_step g H) as (g1 & He1 & _). rewrite He in He1. inversion He1.
  apply add64_w.
Qed.

(** two states with the same view behave alike *)
Lemma rv_ext g h : lfg_ok g -> lfg_ok h -> lt g = lt h -> (forall i, i < 607 -> rv g i = rv h i) -> g = h.
Proof.
  intros (Hl & Ht & Hf & _) (Hl' & Ht' & Hf' & _) Et H.
  destruct g as [f t s], h as [f' t' s']; cbn [lf lt ls] in *. subst t'.
  assert (s = s').
  { apply (list_eq_nth 0%N); [congruence|]. intros j Hj.
    specialize (H ((j + 607 - t) mod 607)). unfold rv in H; cbn [lt ls] in H.
    replace ((t + (j + 607 - t) mod 607) mod 607) with j in H by lia. apply H. lia. }
  subst. reflexivity.
Qed.

(** skipping *)
Lemma lfg_skip_ok n g : lfg_ok g -> exists g', lfg_skip n g = Ret g' /\ lfg_ok g' /\ lt g' = (lt g + n) mod 607.
Proof.
  revert g; induction n as [|n IH]; intros g H; cbn [lfg_skip].
  - exists g. repeat split; try apply H. destruct H as (_ & Ht & _). lia.
  - destruct (lfg_step g H) as (g1 & He & H1 & Ht1 & _). rewrite He. cbn [bind].
    destruct (IH g1 H1) as (g' & He' & H' & Ht'). exists g'. repeat split; try apply H'; [exact He'|].
    rewrite Ht', Ht1. lia.
Qed.

Definition agree (k : nat) (g h : lfg) : Prop :=
  forall i, i < 607 -> i <= 334 \/ 607 <= i + k -> rv g i = rv h i.

Lemma agree_step k g h g' h' x y : lfg_ok g -> lfg_ok h -> agree k g h ->
  LFG_Uint64 g = Ret (x, g') -> LFG_Uint64 h = Ret (y, h') -> x = y /\ agree (S k) g' h'.
Proof.
  intros Hg Hh Ha Eg Eh.
  destruct (lfg_step g Hg) as (g1 & E1 & _ & _ & R1). destruct (lfg_step h Hh) as (h1 & E2 & _ & _ & R2).
  rewrite Eg in E1. rewrite Eh in E2. inversion E1; inversion E2; subst.
  assert (Hx : add64 (rv g 334) (rv g 0) = add64 (rv h 334) (rv h 0)).
  { rewrite (Ha 334), (Ha 0) by lia. reflexivity. }
  split; [exact Hx|].
  intros i Hi Hc. rewrite R1, R2 by exact Hi. destruct (Nat.eqb_spec i 334) as [_|Hne]; [exact Hx|].
  apply Ha; lia.
Qed.

Lemma agree_skip n k g h g' h' : lfg_ok g -> lfg_ok h -> agree k g h ->
  lfg_skip n g = Ret g' -> lfg_skip n h = Ret h' -> agree (n + k) g' h'.
Proof.
  revert k g h; induction n as [|n IH]; intros k g h Hg Hh Ha Eg Eh; cbn [lfg_skip] in *.
  - inversion Eg; inversion Eh; subst. exact Ha.
  - destruct (lfg_total g Hg) as (x & g1 & E1 & H1). destruct (lfg_total h Hh) as (y & h1 & E2 & H2).
    rewrite E1 in Eg. rewrite E2 in Eh. cbn [bind] in *.
    destruct (agree_step k g h g1 h1 x y Hg Hh Ha E1 E2) as [_ Ha'].
    replace (S n + k) with (n + S k) by lia. exact (IH (S k) g1 h1 H1 H2 Ha' Eg Eh).
Qed.

Lemma lfg_skip_agree_eq n g h : 272 <= n -> lfg_ok g -> lfg_ok h -> lt g = lt h -> agree 0 g h ->
  lfg_skip n g = lfg_skip n h.
Proof.
  intros Hn Hg Hh Ht Ha.
  destruct (lfg_skip_ok n g Hg) as (g' & Eg & Og & Tg).
  destruct (lfg_skip_ok n h Hh) as (h' & Eh & Oh & Th).
  rewrite Eg, Eh. f_equal. apply rv_ext; auto; [congruence|].
  pose proof (agree_skip _ _ _ _ _ _ Hg Hh Ha Eg Eh) as A.
  intros i Hi. apply A; lia.
Qed.

(** ** seeding *)
Lemma lfgS0_length : length lfgS0 = 607. Proof. reflexivity. Qed.
Lemma lfgS0_w64 : Forall w64 lfgS0.
Proof.
  assert (H : forallb (fun x => N.ltb x (2 ^ 64)) lfgS0 = true) by (vm_compute; reflexivity).
  rewrite forallb_forall in H. apply Forall_forall. intros x Hx. apply N.ltb_lt, H, Hx.
Qed.

(** what the mixing loop does to position k *)
Lemma lfg_mix_iv_ok iv : forall i s, length s = 607 -> Forall w64 s -> exists s',
  lfg_mix_iv i iv s = Ret s' /\ length s' = 607 /\ Forall w64 s'.
Proof.
  induction iv as [|v iv IH]; intros i s Hl Hw; cbn [lfg_mix_iv].
  - eauto.
  - change lfgK with 607. change lfgJ with 273.
    set (k := (i + 607 - 273) mod 607). assert (Hk : k < 607) by (subst k; lia).
    rewrite (aget_nth s k 0%N) by lia. cbn [bind].
    set (j := N.to_nat _). assert (Hj : j < 607) by (subst j; lia).
    rewrite (aget_nth lfgS0 j 0%N) by (rewrite lfgS0_length; lia). cbn [bind].
    rewrite aset_ok by lia. cbn [bind]. apply IH.
    + now rewrite lupd_length.
    + apply Forall_lupd; [exact Hw|apply add64_w].
Qed.

Definition live_pos (i : nat) : Prop := i mod 607 = 0 \/ 273 <= i mod 607.

Lemma lfg_mix_iv_agree iv : forall iv' i s s1 t t1,
  length s = 607 -> length t = 607 -> length iv = length iv' ->
  (forall j, j < length iv -> live_pos (i + j) -> nth j iv 0%N = nth j iv' 0%N) ->
  (forall k, k <= 334 -> nth k s 0%N = nth k t 0%N) ->
  lfg_mix_iv i iv s = Ret s1 -> lfg_mix_iv i iv' t = Ret t1 ->
  forall k, k <= 334 -> nth k s1 0%N = nth k t1 0%N.
Proof.
  induction iv as [|v iv IH]; intros [|v' iv'] i s s1 t t1 Hs Ht Hl Hagree Hst E1 E2; cbn [length] in Hl; try discriminate.
  - cbn in E1, E2. inversion E1; inversion E2; subst. exact Hst.
  - cbn [lfg_mix_iv] in E1, E2. change lfgK with 607 in *. change lfgJ with 273 in *.
    set (k := (i + 607 - 273) mod 607) in *. assert (Hk : k < 607) by (subst k; lia).
    rewrite (aget_nth s k 0%N) in E1 by lia. rewrite (aget_nth t k 0%N) in E2 by lia. cbn [bind] in E1, E2.
    set (j := N.to_nat _) in E1. assert (Hj : j < 607) by (subst j; lia).
    set (j' := N.to_nat _) in E2. assert (Hj' : j' < 607) by (subst j'; lia).
    rewrite (aget_nth lfgS0 j 0%N) in E1 by (rewrite lfgS0_length; lia).
    rewrite (aget_nth lfgS0 j' 0%N) in E2 by (rewrite lfgS0_length; lia). cbn [bind] in E1, E2.
    rewrite aset_ok in E1, E2 by lia. cbn [bind] in E1, E2.
    eapply (IH iv' (S i)); [| | | | |exact E1|exact E2].
    + now rewrite lupd_length.
    + now rewrite lupd_length.
    + lia.
    + intros m Hm Hlive. specialize (Hagree (S m)). cbn [nth length] in Hagree. apply Hagree; [lia|].
      replace (i + S m) with (S i + m) by lia. exact Hlive.
    + intros m Hm. rewrite !nth_lupd by lia.
      destruct (Nat.eqb_spec m k) as [->|_]; [|apply Hst, Hm].
      rewrite (Hst k Hm). f_equal.
      assert (Hv : v = v').
      { specialize (Hagree 0). cbn [nth length] in Hagree. apply Hagree; [lia|].
        unfold live_pos. subst k. lia. }
      subst v'. reflexivity.
Qed.

Lemma go_copy_lfg s : length s = 607 -> go_copy s lfgS0 = lfgS0.
Proof.
  intros H. unfold go_copy. rewrite skipn_all2 by (rewrite lfgS0_length; lia).
  rewrite firstn_all2 by (rewrite lfgS0_length; lia). apply app_nil_r.
Qed.

Lemma lfg_fresh_ok s : length s = 607 -> Forall w64 s -> lfg_ok (mkLFG 334 0 s).
Proof. intros. unfold lfg_ok; cbn [lf lt ls]. repeat split; auto; lia. Qed.

Lemma LFG_SeedIV_ok old iv : length (ls old) = 607 -> exists g, LFG_SeedIV old iv = Ret g /\ lfg_ok g.
Proof.
  intros Hl. unfold LFG_SeedIV. rewrite go_copy_lfg by exact Hl.
  destruct (lfg_mix_iv_ok iv 0 lfgS0 lfgS0_length lfgS0_w64) as (s & Es & Ls & Ws).
  rewrite Es. cbn [bind].
  destruct (lfg_skip_ok (lfgK * 8) _ (lfg_fresh_ok s Ls Ws)) as (g & Eg & Og & _).
  change (lfgK - lfgJ) with 334. eauto.
Qed.

Lemma LFG_SeedIV_history o1 o2 iv : length (ls o1) = 607 -> length (ls o2) = 607 ->
  LFG_SeedIV o1 iv = LFG_SeedIV o2 iv.
Proof. intros H1 H2. unfold LFG_SeedIV. now rewrite !go_copy_lfg. Qed.

Lemma LFG_SeedIV_collide old iv iv' : length (ls old) = 607 -> length iv = length iv' ->
  (forall j, j < length iv -> live_pos j -> nth j iv 0%N = nth j iv' 0%N) ->
  LFG_SeedIV old iv = LFG_SeedIV old iv'.
Proof.
  intros Hl Hlen Hag. unfold LFG_SeedIV. rewrite go_copy_lfg by exact Hl.
  destruct (lfg_mix_iv_ok iv 0 lfgS0 lfgS0_length lfgS0_w64) as (s & Es & Ls & Ws).
  destruct (lfg_mix_iv_ok iv' 0 lfgS0 lfgS0_length lfgS0_w64) as (t & Et & Lt & Wt).
  rewrite Es, Et. cbn [bind]. change (lfgK - lfgJ) with 334.
  apply lfg_skip_agree_eq; [apply Nat.leb_le; vm_compute; reflexivity| | | |]; try (apply lfg_fresh_ok; assumption); [reflexivity|].
  intros i Hi Hc. unfold rv; cbn [lt ls]. rewrite !Nat.add_0_l, Nat.mod_small by exact Hi.
  eapply (lfg_mix_iv_agree iv iv' 0 lfgS0 s lfgS0 t); eauto using lfgS0_length. lia.
Qed.
