(** Integer checks over the ziggurat tables against enclosures of exp and of Mills' ratio. *)
From Coq Require Import ZArith List Bool.
Import ListNotations.
From Verif Require Import Model.ExpoTable Model.NormalTable Proofs.ZigTables Proofs.ExpBounds Proofs.Mills.
Local Open Scope Z_scope.

(** heights against the density: argument between T and T' (in units of 2^-80, to be multiplied by 64) from the edge *)
Definition heights_ok (g g' : Z -> Z) (w f : list Z) : bool :=
  forallb (fun i => exp_close 80 (g (nz w i)) (g' (nz w i)) 6 6 (nz f i) (2 ^ 68) 2 (10 ^ 15)) (seq 1 1023).
Definition expo_arg (n : Z) : Z := n * 2 ^ 15.
Definition normal_arg (n : Z) : Z := Z.shiftr (n * n) 45.
Definition normal_arg' (n : Z) : Z := normal_arg n + 1.
Lemma expo_heights_ok : heights_ok expo_arg expo_arg (map (scale 112) expoW_bin) (map (scale 68) expoF_bin) = true.
Proof. vm_cast_no_check (eq_refl true). Qed.
Lemma normal_heights_ok : heights_ok normal_arg normal_arg' (map (scale 112) normalW_bin) (map (scale 68) normalF_bin) = true.
Proof. vm_cast_no_check (eq_refl true). Qed.
(** the exponential base strip is exactly 1 wider than the bottom layer *)
Definition expo_base_ok (w : list Z) : bool := nz w 0 =? nz w 1023 + 2 ^ 59.
Lemma expo_base : expo_base_ok (map (scale 112) expoW_bin) = true.
Proof. vm_cast_no_check (eq_refl true). Qed.
(** the normal base strip is wider by Mills' ratio, up to 10^-15 *)
Definition normal_base_ok (w : list Z) : bool :=
  let r := nz w 1023 in let d := nz w 0 - r in
  let (p, q) := ratioZ r (2 ^ 59) (2 * 20) in let (p', q') := ratioZ r (2 ^ 59) (S (2 * 20)) in
  (0 <? r) && ((d * q - p * 2 ^ 59) * 10 ^ 15 <=? q * 2 ^ 59) && ((p' * 2 ^ 59 - d * q') * 10 ^ 15 <=? q' * 2 ^ 59).
Lemma normal_base : normal_base_ok (map (scale 112) normalW_bin) = true.
Proof. vm_cast_no_check (eq_refl true). Qed.
