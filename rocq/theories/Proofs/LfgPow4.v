(** Powers of the shift on sequences with u(n+335) = u(n+334) + u(n) modulo 4. *)
From Coq Require Import Lia ZifyN ZifyNat ZifyBool ZArith List.
From Verif Require Import Proofs.WordLemmas Proofs.Gf2 Proofs.Gf2Seq Proofs.LfgStream.
Import ListNotations.
Local Open Scope Z_scope.

(** the sum of u(n+i) over the set bits i of p *)
Fixpoint zp (p : positive) (u : N -> Z) (n : N) : Z :=
  match p with
  | xH => u n
  | xO q => zp q u (n + 1)%N
  | xI q => u n + zp q u (n + 1)%N
  end.
Definition zact (p : N) (u : N -> Z) (n : N) : Z := match p with N0 => 0 | Npos q => zp q u n end.
Lemma zact_double p u n : zact (N.double p) u n = zact p u (n + 1)%N.
Proof. now destruct p. Qed.
Lemma zact_succ_double p u n : zact (N.succ_double p) u n = u n + zact p u (n + 1)%N.
Proof. destruct p; cbn; lia. Qed.
Lemma zact_add a : forall c u n, zact (N.lxor a c) u n + 2 * zact (N.land a c) u n = zact a u n + zact c u n.
Proof.
  destruct a as [|a]; intros [|c] u n; [reflexivity|change (zp c u n + 0 = 0 + zp c u n); lia|change (zp a u n + 0 = zp a u n + 0); lia|].
  change (zact (Pos.lxor a c) u n + 2 * zact (Pos.land a c) u n = zp a u n + zp c u n). revert c n. induction a as [a IH|a IH|]; intros [c|c|] n; cbn [Pos.lxor Pos.land zp];
    rewrite ?zact_double, ?zact_succ_double; cbn [zact zp]; try specialize (IH c (n + 1)%N); lia.
Qed.
Lemma zp_lin p u v k n : zp p (fun m => u m + k * v m) n = zp p u n + k * zp p v n.
Proof. revert n. induction p as [p IH|p IH|]; intros n; cbn [zp]; rewrite ?IH; ring. Qed.
Lemma zact_lin p u v k n : zact p (fun m => u m + k * v m) n = zact p u n + k * zact p v n.
Proof. destruct p; cbn [zact]; [ring|apply zp_lin]. Qed.
Lemma zp_shift p k : forall u n, zp p (fun m => u (m + k)%N) n = zp p u (n + k)%N.
Proof.
  induction p as [p IH|p IH|]; intros u n; cbn [zp]; rewrite ?IH.
  - now replace (n + 1 + k)%N with (n + k + 1)%N by lia.
  - now replace (n + 1 + k)%N with (n + k + 1)%N by lia.
  - reflexivity.
Qed.
Lemma zact_shift p k u n : zact p (fun m => u (m + k)%N) n = zact p u (n + k)%N.
Proof. destruct p; [reflexivity|apply zp_shift]. Qed.
Lemma zp_ext p u v : (forall n, u n = v n) -> forall n, zp p u n = zp p v n.
Proof. intros H. induction p as [p IH|p IH|]; intros n; cbn [zp]; rewrite ?H, ?IH; reflexivity. Qed.
Lemma zact_ext p u v : (forall n, u n = v n) -> forall n, zact p u n = zact p v n.
Proof. intros H n. destruct p; [reflexivity|now apply zp_ext]. Qed.
Lemma zp_cong m p u v : (forall n, (m | u n - v n)) -> forall n, (m | zp p u n - zp p v n).
Proof.
  intros H. induction p as [p IH|p IH|]; intros n; cbn [zp]; [|apply IH|apply H].
  replace (u n + zp p u (n + 1) - (v n + zp p v (n + 1)))%Z with ((u n - v n) + (zp p u (n + 1) - zp p v (n + 1)))%Z by lia.
  apply Z.divide_add_r; [apply H|apply IH].
Qed.
Lemma zact_cong m p u v : (forall n, (m | u n - v n)) -> forall n, (m | zact p u n - zact p v n).
Proof. intros H n. destruct p; [apply Z.divide_0_r|now apply zp_cong]. Qed.
(** modulo 2 it is the action on bits *)
Lemma zp_odd p u n : Z.odd (zp p u n) = pact p (fun m => Z.odd (u m)) n.
Proof. revert n. induction p as [p IH|p IH|]; intros n; cbn [zp pact]; rewrite ?Z.odd_add, ?IH; reflexivity. Qed.
Lemma zact_odd p u n : Z.odd (zact p u n) = act p (fun m => Z.odd (u m)) n.
Proof. destruct p; [reflexivity|apply zp_odd]. Qed.
Lemma zact_pow2 k u n : zact (2 ^ k) u n = u (n + k)%N.
Proof.
  revert n. induction k as [|k IH] using N.peano_ind; intros n.
  - change (u n = u (n + 0)%N). now rewrite N.add_0_r.
  - rewrite N.pow_succ_r', <- N.double_spec, zact_double, IH. f_equal. lia.
Qed.

(** residues modulo 4: (a, b) stands for a + 2b *)
Definition z4 (r : N * N) (u : N -> Z) (n : N) : Z := zact (fst r) u n + 2 * zact (snd r) u n.
Definition add4 (x y : N * N) : N * N :=
  (N.lxor (fst x) (fst y), N.lxor (N.lxor (snd x) (snd y)) (N.land (fst x) (fst y))).
Lemma z4_add x y u n : (4 | z4 (add4 x y) u n - (z4 x u n + z4 y u n)).
Proof.
  unfold z4, add4. cbn [fst snd].
  pose proof (zact_add (fst x) (fst y) u n) as A.
  pose proof (zact_add (N.lxor (snd x) (snd y)) (N.land (fst x) (fst y)) u n) as B.
  pose proof (zact_add (snd x) (snd y) u n) as C.
  eexists (- zact (N.land (snd x) (snd y)) u n - zact (N.land (N.lxor (snd x) (snd y)) (N.land (fst x) (fst y))) u n).
  lia.
Qed.
Definition rec4 (u : N -> Z) : Prop := forall n, (4 | u (n + 335)%N - u (n + 334)%N - u n).
Definition f4 : N * N := (lfgP, 2 ^ 335)%N.
Lemma z4_f4 u n : rec4 u -> (4 | z4 f4 u n).
Proof.
  intros H. unfold z4, f4. cbn [fst snd].
  assert (E : zact lfgP u n = u (n + 335)%N + u (n + 334)%N + u n).
  { unfold lfgP. pose proof (zact_add (2 ^ 335) (N.lxor (2 ^ 334) 1) u n) as A.
    pose proof (zact_add (2 ^ 334) 1 u n) as B. rewrite !zact_pow2 in A, B.
    change (N.land (2 ^ 335) (N.lxor (2 ^ 334) 1)) with 0%N in A. change (N.land (2 ^ 334) 1) with 0%N in B.
    change (zact 1 u n) with (u n) in B. cbn [zact] in A, B. lia. }
  rewrite E, zact_pow2. destruct (H n) as [q Hq]. exists (u (n + 335)%N - q). lia.
Qed.
Lemma z4_f2 u n : rec4 u -> (2 | zact lfgP u n).
Proof.
  intros H. destruct (z4_f4 u n H) as [q Hq]. unfold z4, f4 in Hq. cbn [fst snd] in Hq. rewrite zact_pow2 in Hq.
  exists (2 * q - u (n + 335)%N). lia.
Qed.
Definition xt4 (r : N * N) : N * N :=
  let r := (N.double (fst r), N.double (snd r)) in
  let r := if N.testbit (fst r) 335 then add4 r f4 else r in
  if N.testbit (snd r) 335 then (fst r, N.lxor (snd r) lfgP) else r.
Lemma z4_xt r u n : rec4 u -> (4 | z4 (xt4 r) u n - z4 r u (n + 1)%N).
Proof.
  intros H. unfold xt4. set (r1 := (N.double (fst r), N.double (snd r))).
  assert (E1 : z4 r1 u n = z4 r u (n + 1)%N) by (unfold z4, r1; cbn [fst snd]; now rewrite !zact_double).
  rewrite <- E1. clearbody r1. clear E1.
  set (r2 := if N.testbit (fst r1) 335 then add4 r1 f4 else r1).
  assert (E2 : (4 | z4 r2 u n - z4 r1 u n)).
  { unfold r2. destruct (N.testbit (fst r1) 335); [|rewrite Z.sub_diag; apply Z.divide_0_r].
    destruct (z4_add r1 f4 u n) as [q Hq]. destruct (z4_f4 u n H) as [q' Hq']. exists (q + q'). lia. }
  clearbody r2. destruct (N.testbit (snd r2) 335); [|exact E2].
  unfold z4 in *. cbn [fst snd]. destruct E2 as [q Hq]. pose proof (zact_add (snd r2) lfgP u n) as A.
  destruct (z4_f2 u n H) as [q' Hq']. exists (q + q' - zact (N.land (snd r2) lfgP) u n). lia.
Qed.
Fixpoint psq4 (p : positive) : N * N :=
  match p with
  | xH => (1, 0)%N
  | xO q => xt4 (xt4 (psq4 q))
  | xI q => add4 (1%N, Npos (xO q)) (xt4 (xt4 (psq4 q)))
  end.
Lemma rec4_shift u k : rec4 u -> rec4 (fun m => u (m + k)%N).
Proof.
  intros H n. replace (n + 335 + k)%N with (n + k + 335)%N by lia. replace (n + 334 + k)%N with (n + k + 334)%N by lia. apply H.
Qed.
Lemma z4_psq p u : rec4 u -> forall n, (4 | z4 (psq4 p) u n - zp p (zp p u) n).
Proof.
  intros H. induction p as [p IH|p IH|]; intros n.
  - cbn [psq4]. destruct (z4_add (1%N, Npos (xO p)) (xt4 (xt4 (psq4 p))) u n) as [a Ha].
    destruct (z4_xt (xt4 (psq4 p)) u n H) as [b Hb]. destruct (z4_xt (psq4 p) u (n + 1) H) as [c Hc].
    destruct (IH (n + 1 + 1)%N) as [d Hd].
    assert (E : zp p~1 (zp p~1 u) n = u n + 2 * zp p u (n + 1)%N + zp p (zp p u) (n + 1 + 1)%N).
    { cbn [zp]. rewrite (zp_ext p (zp p~1 u) (fun m => u m + 1 * zp p u (m + 1)%N)) by (intros m; cbn [zp]; lia).
      rewrite zp_lin, (zp_shift p 1 (zp p u)). ring. }
    rewrite E. exists (a + b + c + d). unfold z4 at 2 in Ha. cbn [fst snd zact zp] in Ha. lia.
  - cbn [psq4]. destruct (z4_xt (xt4 (psq4 p)) u n H) as [b Hb]. destruct (z4_xt (psq4 p) u (n + 1) H) as [c Hc].
    destruct (IH (n + 1 + 1)%N) as [d Hd].
    assert (E : zp p~0 (zp p~0 u) n = zp p (zp p u) (n + 1 + 1)%N).
    { cbn [zp]. change (zp p~0 u) with (fun m => zp p u (m + 1)%N). now rewrite (zp_shift p 1 (zp p u)). }
    rewrite E. exists (b + c + d). lia.
  - cbn. exists 0. unfold z4. cbn. lia.
Qed.

(** modulo 4, a square depends on its root modulo 2 only: x^(2e+1) from x^e modulo 2 *)
Definition rec2 (u : N -> Z) : Prop := forall n, (2 | u (n + 335)%N - u (n + 334)%N - u n).
Definition oddpow4 (a : N) : N * N := xt4 match a with N0 => (0, 0)%N | Npos p => psq4 p end.
Lemma zact_rec p u : rec4 u -> forall n, (4 | zact p u (n + 335)%N - zact p u (n + 334)%N - zact p u n).
Proof.
  intros H n.
  pose proof (zact_cong 4 p (fun m => u (m + 335)%N) (fun m => u (m + 334)%N + 1 * u m)) as C.
  assert (C' : (4 | zact p (fun m => u (m + 335)%N) n - zact p (fun m => u (m + 334)%N + 1 * u m) n)).
  { apply C. intros m. destruct (H m) as [q Hq]. exists q. lia. }
  rewrite (zact_shift p 335), (zact_lin p (fun m => u (m + 334)%N) u 1), (zact_shift p 334) in C'.
  destruct C' as [q Hq]. exists q. lia.
Qed.
Lemma z4_oddpow a k u n : (forall v, rec2 v -> forall n, (2 | zact a v n - v (n + k)%N)) -> rec4 u ->
  (4 | z4 (oddpow4 a) u n - u (n + (k + k + 1))%N).
Proof.
  intros Ha H.
  assert (H2 : rec2 u) by (intros m; destruct (H m) as [q Hq]; exists (2 * q); lia).
  set (w := fun m => (zact a u m - u (m + k)%N) / 2).
  assert (Ew : forall m, zact a u m = u (m + k)%N + 2 * w m).
  { intros m. unfold w. destruct (Ha u H2 m) as [q Hq]. rewrite Hq, Z.div_mul by discriminate. lia. }
  assert (Rw : rec2 w).
  { intros m. destruct (zact_rec a u H m) as [q Hq]. destruct (H (m + k)%N) as [q' Hq'].
    pose proof (Ew (m + 335)%N) as E1. pose proof (Ew (m + 334)%N) as E2. pose proof (Ew m) as E3.
    replace (m + 335 + k)%N with (m + k + 335)%N in E1 by lia.
    replace (m + 334 + k)%N with (m + k + 334)%N in E2 by lia.
    exists (q - q'). lia. }
  assert (S1 : (4 | zact a (zact a u) (n + 1)%N - u (n + (k + k + 1))%N)).
  { rewrite (zact_ext a (zact a u) (fun m => u (m + k)%N + 2 * w m)) by exact Ew.
    rewrite (zact_lin a (fun m => u (m + k)%N) w 2), (zact_shift a k), Ew.
    destruct (Ha w Rw (n + 1)%N) as [q Hq]. 
    replace (n + 1 + k + k)%N with (n + (k + k + 1))%N by lia.
    replace (n + 1 + k)%N with (n + 1 + k)%N in Hq by lia.
    exists (w (n + 1 + k)%N + q). lia. }
  unfold oddpow4. destruct S1 as [q1 H1].
  destruct a as [|p].
  - destruct (z4_xt (0, 0)%N u n H) as [q2 E2].
    assert (E3 : z4 (0, 0)%N u (n + 1) = 0) by reflexivity. assert (E4 : zact 0 (zact 0 u) (n + 1) = 0) by reflexivity.
    exists (q2 + q1). lia.
  - destruct (z4_xt (psq4 p) u n H) as [q2 E2]. destruct (z4_psq p u H (n + 1)%N) as [q3 E3].
    change (zact (N.pos p) (zact (N.pos p) u) (n + 1)%N) with (zp p (zp p u) (n + 1)%N) in H1.
    exists (q1 + q2 + q3). lia.
Qed.
