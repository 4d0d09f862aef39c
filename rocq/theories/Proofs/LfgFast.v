(** The products of Proofs/LfgPower.v on native 63-bit integers, three limbs of 22 bits, and that they agree with the plain ones. *)
From Coq Require Import Lia ZifyN ZifyNat ZifyBool ZArith Uint63.
From Verif Require Import Model.Base Spec.Common Proofs.WordLemmas Proofs.LfgPower.
Local Open Scope N_scope.

Inductive limbs := L3 (a b c : int).
Definition B22 : int := 4194304%uint63.
Definition norm3 (x y z : int) : limbs :=
  (let y := y + x / B22 in let z := z + y / B22 in L3 (x mod B22) (y mod B22) (z mod B22))%uint63.
Definition fma3 (p q r : limbs) : limbs :=
  let '(L3 a b c) := p in let '(L3 d e f) := q in let '(L3 g h i) := r in
  norm3 (a * d + g)%uint63 (a * e + b * d + h)%uint63 (a * f + b * e + c * d + i)%uint63.
Definition add3 (q r : limbs) : limbs :=
  let '(L3 d e f) := q in let '(L3 g h i) := r in norm3 (d + g)%uint63 (e + h)%uint63 (f + i)%uint63.
Definition val3 (p : limbs) : Z := let '(L3 a b c) := p in (to_Z a + 4194304 * to_Z b + 17592186044416 * to_Z c)%Z.
Definition toN (p : limbs) : N := trunc64 (Z.to_N (val3 p)).
Definition ofN (n : N) : limbs :=
  let z := Z.of_N n in L3 (of_Z (z mod 4194304)) (of_Z (z / 4194304 mod 4194304)) (of_Z (z / 17592186044416 mod 4194304)).
Definition small (x : int) : Prop := (0 <= to_Z x < 4194304)%Z.
Definition ok3 (p : limbs) : Prop := let '(L3 a b c) := p in small a /\ small b /\ small c.

Lemma B22_val : to_Z B22 = 4194304%Z. Proof. reflexivity. Qed.
Lemma wB_val : wB = 9223372036854775808%Z. Proof. reflexivity. Qed.
Lemma norm3_ok x y z : ok3 (norm3 x y z).
Proof. unfold norm3, ok3, small. cbv zeta. rewrite !mod_spec, B22_val. repeat split; apply Z.mod_pos_bound; reflexivity. Qed.
Lemma norm3_val x y z X Y Z0 : to_Z x = X -> to_Z y = Y -> to_Z z = Z0 ->
  (0 <= X < 2 ^ 50)%Z -> (0 <= Y < 2 ^ 50)%Z -> (0 <= Z0 < 2 ^ 50)%Z ->
  (val3 (norm3 x y z) mod 2 ^ 64 = (X + 4194304 * Y + 17592186044416 * Z0) mod 2 ^ 64)%Z.
Proof.
  intros <- <- <- HX HY HZ. unfold norm3, val3. cbv zeta. rewrite !mod_spec, !add_spec, !div_spec, !add_spec, !div_spec, B22_val, wB_val.
  set (a := to_Z x) in *. set (b := to_Z y) in *. set (c := to_Z z) in *. clearbody a b c.
  pose proof (Z.div_mod a 4194304 ltac:(discriminate)) as D1. pose proof (Z.mod_pos_bound a 4194304 eq_refl) as M1.
  set (q1 := (a / 4194304)%Z) in *. set (r1 := (a mod 4194304)%Z) in *. clearbody q1 r1.
  rewrite (Z.mod_small (b + q1)) by lia.
  pose proof (Z.div_mod (b + q1) 4194304 ltac:(discriminate)) as D2. pose proof (Z.mod_pos_bound (b + q1) 4194304 eq_refl) as M2.
  set (q2 := ((b + q1) / 4194304)%Z) in *. set (r2 := ((b + q1) mod 4194304)%Z) in *. clearbody q2 r2.
  rewrite (Z.mod_small (c + q2)) by lia.
  pose proof (Z.div_mod (c + q2) 4194304 ltac:(discriminate)) as D3.
  set (q3 := ((c + q2) / 4194304)%Z) in *. set (r3 := ((c + q2) mod 4194304)%Z) in *. clearbody q3 r3.
  replace (a + 4194304 * b + 17592186044416 * c)%Z with (r1 + 4194304 * r2 + 17592186044416 * r3 + (4 * q3) * 2 ^ 64)%Z by lia.
  symmetry. apply Z_mod_plus_full.
Qed.
Lemma toN_val p : Z.of_N (toN p) = (val3 p mod 2 ^ 64)%Z.
Proof.
  unfold toN. rewrite trunc64_mod, N2Z.inj_mod. destruct p as [a b c].
  rewrite Z2N.id; [reflexivity|]. unfold val3. pose proof (to_Z_bounded a). pose proof (to_Z_bounded b). pose proof (to_Z_bounded c). lia.
Qed.
Lemma toN_w p : w64 (toN p).
Proof. unfold toN. rewrite trunc64_mod. apply N.mod_lt. discriminate. Qed.
Lemma prod_bound (a b : Z) : (0 <= a < 4194304)%Z -> (0 <= b < 4194304)%Z -> (0 <= a * b < 17592186044416)%Z.
Proof. intros. split; [apply Z.mul_nonneg_nonneg; lia|]. change 17592186044416%Z with (4194304 * 4194304)%Z. apply Z.mul_lt_mono_nonneg; lia. Qed.
Lemma fma3_spec p q r : ok3 p -> ok3 q -> ok3 r -> toN (fma3 p q r) = trunc64 (toN p * toN q + toN r).
Proof.
  intros Hp Hq Hr. apply N2Z.inj. rewrite trunc64_mod, N2Z.inj_mod, N2Z.inj_add, N2Z.inj_mul, !toN_val.
  change (Z.of_N (2 ^ 64)) with (2 ^ 64)%Z.
  rewrite Z.add_mod_idemp_r, <- Z.add_mod_idemp_l, <- Z.mul_mod, Z.add_mod_idemp_l by discriminate.
  destruct p as [a b c], q as [d e f], r as [g h i]. unfold ok3, small in Hp, Hq, Hr. destruct Hp as (Ha & Hb & Hc), Hq as (Hd & He & Hf), Hr as (Hg & Hh & Hi).
  pose proof (prod_bound _ _ Ha Hd). pose proof (prod_bound _ _ Ha He). pose proof (prod_bound _ _ Hb Hd).
  pose proof (prod_bound _ _ Ha Hf). pose proof (prod_bound _ _ Hb He). pose proof (prod_bound _ _ Hc Hd).
  unfold fma3. rewrite (norm3_val _ _ _ (to_Z a * to_Z d + to_Z g) (to_Z a * to_Z e + to_Z b * to_Z d + to_Z h)
    (to_Z a * to_Z f + to_Z b * to_Z e + to_Z c * to_Z d + to_Z i)); try lia.
  - unfold val3. set (A := to_Z a) in *. set (B := to_Z b) in *. set (C := to_Z c) in *. set (D := to_Z d) in *. set (E := to_Z e) in *.
    set (F := to_Z f) in *. set (G := to_Z g) in *. set (H' := to_Z h) in *. set (I := to_Z i) in *.
    replace ((A + 4194304 * B + 17592186044416 * C) * (D + 4194304 * E + 17592186044416 * F) + (G + 4194304 * H' + 17592186044416 * I))%Z
      with (A * D + G + 4194304 * (A * E + B * D + H') + 17592186044416 * (A * F + B * E + C * D + I) + (4 * (B * F + C * E) + 4 * 4194304 * (C * F)) * 2 ^ 64)%Z by ring.
    symmetry. apply Z_mod_plus_full.
  - rewrite add_spec, mul_spec, wB_val, (Z.mod_small (_ * _)) by lia. apply Z.mod_small. lia.
  - rewrite !add_spec, !mul_spec, wB_val, !(Z.mod_small (_ * _)) by lia. rewrite (Z.mod_small (to_Z a * _ + _)) by lia. apply Z.mod_small. lia.
  - rewrite !add_spec, !mul_spec, wB_val, !(Z.mod_small (_ * _)) by lia. rewrite (Z.mod_small (to_Z a * _ + _)) by lia.
    rewrite (Z.mod_small (to_Z a * _ + _ + _)) by lia. apply Z.mod_small. lia.
Qed.
Lemma fma3_ok p q r : ok3 (fma3 p q r).
Proof. destruct p, q, r. apply norm3_ok. Qed.
Lemma add3_spec q r : ok3 q -> ok3 r -> toN (add3 q r) = trunc64 (toN q + toN r).
Proof.
  intros Hq Hr. apply N2Z.inj. rewrite trunc64_mod, N2Z.inj_mod, N2Z.inj_add, !toN_val.
  change (Z.of_N (2 ^ 64)) with (2 ^ 64)%Z. rewrite <- Z.add_mod by discriminate.
  destruct q as [d e f], r as [g h i]. unfold ok3, small in Hq, Hr. destruct Hq as (Hd & He & Hf), Hr as (Hg & Hh & Hi).
  unfold add3. rewrite (norm3_val _ _ _ (to_Z d + to_Z g) (to_Z e + to_Z h) (to_Z f + to_Z i)); try lia.
  - f_equal. unfold val3. ring.
  - rewrite add_spec, wB_val. apply Z.mod_small. lia.
  - rewrite add_spec, wB_val. apply Z.mod_small. lia.
  - rewrite add_spec, wB_val. apply Z.mod_small. lia.
Qed.
Lemma add3_ok q r : ok3 (add3 q r).
Proof. destruct q, r. apply norm3_ok. Qed.
Lemma ofN_ok n : ok3 (ofN n).
Proof.
  unfold ofN, ok3, small. cbv zeta. rewrite !of_Z_spec, wB_val.
  repeat split; rewrite Z.mod_small; try apply Z.mod_pos_bound; try reflexivity.
  all: match goal with |- (0 <= ?x mod ?m < _)%Z => pose proof (Z.mod_pos_bound x m eq_refl); lia end.
Qed.
Lemma toN_ofN n : w64 n -> toN (ofN n) = n.
Proof.
  intros H. apply N2Z.inj. rewrite toN_val. unfold ofN, val3. cbv zeta. rewrite !of_Z_spec, wB_val.
  unfold w64 in H. assert (H' : (0 <= Z.of_N n < 2 ^ 64)%Z) by (change (2 ^ 64)%Z with (Z.of_N (2 ^ 64)); lia).
  set (z := Z.of_N n) in *. clearbody z. clear H.
  pose proof (Z.mod_pos_bound z 4194304 eq_refl). pose proof (Z.mod_pos_bound (z / 4194304) 4194304 eq_refl). pose proof (Z.mod_pos_bound (z / 17592186044416) 4194304 eq_refl).
  rewrite !(Z.mod_small (_ mod 4194304)) by lia.
  rewrite <- (Z.mod_small z (2 ^ 64)) at 4 by assumption. f_equal.
  change 17592186044416%Z with (4194304 * 4194304)%Z. rewrite <- Z.div_div by (try discriminate; reflexivity).
  pose proof (Z.div_mod z 4194304 ltac:(discriminate)). pose proof (Z.div_mod (z / 4194304) 4194304 ltac:(discriminate)).
  rewrite (Z.mod_small (z / 4194304 / 4194304)); [lia|].
  split; [apply Z.div_pos; [apply Z.div_pos; lia|reflexivity]|]. rewrite Z.div_div by (try discriminate; reflexivity). apply Z.div_lt_upper_bound; lia.
Qed.

(** the same algorithms *)
Definition zero3 : limbs := L3 0 0 0.
Fixpoint fadd_at (k : nat) (c : limbs) (v : list limbs) : list limbs :=
  match v with [] => [] | x :: v => match k with O => add3 x c :: v | S k => x :: fadd_at k c v end end.
Definition fxtime (v : list limbs) : list limbs := let c := last v zero3 in fadd_at 334 c (c :: removelast v).
Fixpoint faxpy (c : limbs) (q acc : list limbs) : list limbs :=
  match q, acc with x :: q, y :: acc => fma3 c x y :: faxpy c q acc | _, _ => [] end.
Fixpoint fmul (p q : list limbs) : list limbs :=
  match p with [] => repeat zero3 335 | c :: p => faxpy c q (fxtime (fmul p q)) end.
Fixpoint fsq (k : nat) (p : list limbs) : list limbs := match k with O => p | S k => fsq k (fmul p p) end.
Fixpoint fdot (p w : list limbs) : limbs := match p, w with c :: p, x :: w => fma3 c x (fdot p w) | _, _ => zero3 end.
Fixpoint fwindows (k : nat) (p w : list limbs) : list limbs :=
  match k with O => [] | S k => fdot p w :: fwindows k p (tl w) end.

Notation oks := (Forall ok3).
Lemma zero3_ok : ok3 zero3. Proof. unfold ok3, zero3, small. cbn. lia. Qed.
Lemma zero3_N : toN zero3 = 0. Proof. reflexivity. Qed.
Lemma fadd_at_spec c (Hc : ok3 c) : forall k v, oks v -> map toN (fadd_at k c v) = add_at k (toN c) (map toN v) /\ oks (fadd_at k c v).
Proof.
  intros k v; revert k. induction v as [|x v IH]; intros k H; [split; [destruct k; reflexivity|destruct k; constructor]|].
  inversion H as [|? ? Hx Hv]; subst. destruct k as [|k]; cbn [fadd_at map add_at].
  - rewrite add3_spec by assumption. split; [reflexivity|]. constructor; [apply add3_ok|assumption].
  - destruct (IH k Hv) as [E O]. rewrite E. split; [reflexivity|]. constructor; assumption.
Qed.
Lemma map_last v : last (map toN v) 0 = toN (last v zero3).
Proof. induction v as [|x [|y v] IH]; [reflexivity|reflexivity|]. cbn [map last] in *. exact IH. Qed.
Lemma map_removelast v : removelast (map toN v) = map toN (removelast v).
Proof. induction v as [|x [|y v] IH]; [reflexivity|reflexivity|]. cbn [map removelast] in *. now rewrite IH. Qed.
Lemma ok_last v : oks v -> ok3 (last v zero3).
Proof. induction v as [|x [|y v] IH]; intros H; [apply zero3_ok|inversion H; assumption|]. inversion H; subst. cbn [last] in *. auto. Qed.
Lemma ok_removelast v : oks v -> oks (removelast v).
Proof. induction v as [|x [|y v] IH]; intros H; [constructor|constructor|]. inversion H; subst. cbn [removelast] in *. constructor; auto. Qed.
Lemma fxtime_spec v : oks v -> map toN (fxtime v) = xtime335 (map toN v) /\ oks (fxtime v).
Proof.
  intros H. unfold fxtime, xtime335. cbv zeta. rewrite map_last, map_removelast.
  apply (fadd_at_spec (last v zero3) (ok_last v H) 334 (last v zero3 :: removelast v)).
  constructor; [apply ok_last, H|apply ok_removelast, H].
Qed.
Lemma faxpy_spec c (Hc : ok3 c) q : forall acc, oks q -> oks acc -> map toN (faxpy c q acc) = axpy (toN c) (map toN q) (map toN acc) /\ oks (faxpy c q acc).
Proof.
  induction q as [|x q IH]; intros [|y acc] Hq Ha; cbn [faxpy map axpy]; try (split; [reflexivity|constructor]).
  inversion Hq; inversion Ha; subst. destruct (IH acc) as [E O]; try assumption. rewrite E, fma3_spec by assumption.
  split; [reflexivity|]. constructor; [apply fma3_ok|assumption].
Qed.
Lemma axpy_0 q : forall acc, length acc = length q -> Forall w64 acc -> axpy 0 q acc = acc.
Proof.
  induction q as [|x q IH]; intros [|y acc] L H; cbn [length] in L; try discriminate; [reflexivity|]. cbn [axpy].
  inversion H as [|? ? Hy Ha]; subst. rewrite N.mul_0_l, N.add_0_l, trunc64_mod, N.mod_small by exact Hy. f_equal. apply IH; [lia|assumption].
Qed.
Lemma map_repeat0 n : map toN (repeat zero3 n) = repeat 0 n.
Proof. induction n as [|n IH]; [reflexivity|]. cbn [repeat map]. rewrite IH, zero3_N. reflexivity. Qed.
Lemma fmul_spec q (Lq : length q = 335%nat) (Hq : oks q) : forall p, oks p -> map toN (fmul p q) = mul335 (map toN p) (map toN q) /\ oks (fmul p q).
Proof.
  induction p as [|c p IH]; intros Hp; cbn [fmul map mul335].
  - split; [apply map_repeat0|]. apply Forall_forall. intros x Hx. apply repeat_spec in Hx. subst. apply zero3_ok.
  - inversion Hp as [|? ? Hc Hp']; subst. destruct (IH Hp') as [E O]. cbv zeta. rewrite <- E.
    destruct (fxtime_spec _ O) as [E1 O1]. rewrite <- E1.
    destruct (faxpy_spec c Hc q (fxtime (fmul p q)) Hq O1) as [E2 O2]. split; [|exact O2]. rewrite E2.
    destruct (toN c) as [|c'] eqn:C; [|reflexivity]. apply axpy_0.
    + rewrite E1, E, !xtime335_length, map_length; [symmetry; exact Lq|]. apply mul335_length. now rewrite map_length.
    + apply Forall_forall. intros x Hx. apply in_map_iff in Hx. destruct Hx as (y & <- & _). apply toN_w.
Qed.
Lemma fsq_spec k : forall p, length p = 335%nat -> oks p -> map toN (fsq k p) = sq335 k (map toN p) /\ oks (fsq k p).
Proof.
  induction k as [|k IH]; intros p L H; cbn [fsq sq335]; [split; [reflexivity|exact H]|].
  destruct (fmul_spec p L H p H) as [E O]. rewrite <- E. apply IH; [|exact O].
  rewrite <- (map_length toN), E. apply mul335_length. now rewrite map_length.
Qed.
Lemma fdot_spec p : forall w, oks p -> oks w -> toN (fdot p w) = trunc64 (dot (map toN p) (map toN w)) /\ ok3 (fdot p w).
Proof.
  induction p as [|c p IH]; intros [|x w] Hp Hw; cbn [fdot map dot]; try (split; [reflexivity|apply zero3_ok]).
  inversion Hp; inversion Hw; subst. destruct (IH w) as [E O]; try assumption. split; [|apply fma3_ok].
  rewrite fma3_spec, E, !trunc64_mod by assumption. apply N.add_mod_idemp_r. discriminate.
Qed.
Lemma ok_tl w : oks w -> oks (tl w).
Proof. destruct 1; [constructor|assumption]. Qed.
Lemma fwindows_spec p k : oks p -> forall w, oks w -> map toN (fwindows k p w) = windows k (map toN p) (map toN w).
Proof.
  intros Hp. induction k as [|k IH]; intros w Hw; cbn [fwindows map windows]; [reflexivity|].
  destruct (fdot_spec p w Hp Hw) as [E _]. rewrite E, IH by (apply ok_tl, Hw). f_equal. f_equal. destruct w; reflexivity.
Qed.
Lemma map_toN_ofN l : Forall w64 l -> map toN (map ofN l) = l.
Proof. induction 1; [reflexivity|]. cbn [map]. rewrite toN_ofN by assumption. now rewrite IHForall. Qed.
Lemma oks_ofN l : oks (map ofN l).
Proof. apply Forall_forall. intros x Hx. apply in_map_iff in Hx. destruct Hx as (y & <- & _). apply ofN_ok. Qed.
Lemma fast_windows k n p w : length p = 335%nat -> Forall w64 p -> Forall w64 w ->
  windows k (sq335 n p) w = map toN (fwindows k (fsq n (map ofN p)) (map ofN w)).
Proof.
  intros L Hp Hw. destruct (fsq_spec n (map ofN p)) as [E O]; [now rewrite map_length|apply oks_ofN|].
  rewrite fwindows_spec by (try assumption; apply oks_ofN). rewrite E, !map_toN_ofN by assumption. reflexivity.
Qed.
