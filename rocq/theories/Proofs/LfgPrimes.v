(** The prime factors of (2^187 - 1) (2^108 - 1) / 65, by trial division and Lucas certificates. *)
From Coq Require Import ZArith Znumtheory List.
From Verif Require Import Proofs.Primes.
Import ListNotations.
Local Open Scope Z_scope.
Lemma pr23 : prime 23. Proof. by_trial 6%nat. Qed.
Global Hint Resolve pr23 : primes.
Lemma pr89 : prime 89. Proof. by_trial 11%nat. Qed.
Global Hint Resolve pr89 : primes.
Lemma pr131071 : prime 131071. Proof. by_trial 364%nat. Qed.
Global Hint Resolve pr131071 : primes.
Lemma pr707983 : prime 707983. Proof. by_trial 843%nat. Qed.
Global Hint Resolve pr707983 : primes.
Lemma pr11 : prime 11. Proof. by_trial 5%nat. Qed.
Global Hint Resolve pr11 : primes.
Lemma pr433 : prime 433. Proof. by_trial 22%nat. Qed.
Global Hint Resolve pr433 : primes.
Lemma pr523 : prime 523. Proof. by_trial 24%nat. Qed.
Global Hint Resolve pr523 : primes.
Lemma pr806483 : prime 806483. Proof. by_trial 900%nat. Qed.
Global Hint Resolve pr806483 : primes.
Lemma pr28681761413 : prime 28681761413. Proof. by_lucas' 2 [2;2;17;523;806483]. Qed.
Global Hint Resolve pr28681761413 : primes.
Lemma pr43 : prime 43. Proof. by_trial 8%nat. Qed.
Global Hint Resolve pr43 : primes.
Lemma pr13 : prime 13. Proof. by_trial 5%nat. Qed.
Global Hint Resolve pr13 : primes.
Lemma pr6689 : prime 6689. Proof. by_trial 83%nat. Qed.
Global Hint Resolve pr6689 : primes.
Lemma pr8969 : prime 8969. Proof. by_trial 96%nat. Qed.
Global Hint Resolve pr8969 : primes.
Lemma pr109 : prime 109. Proof. by_trial 12%nat. Qed.
Global Hint Resolve pr109 : primes.
Lemma pr1197187 : prime 1197187. Proof. by_trial 1096%nat. Qed.
Global Hint Resolve pr1197187 : primes.
Lemma pr25576703069 : prime 25576703069. Proof. by_lucas' 2 [2;2;7;7;109;1197187]. Qed.
Global Hint Resolve pr25576703069 : primes.
Lemma pr2992157106676109246551 : prime 2992157106676109246551. Proof. by_lucas' 6 [2;3;5;5;13;6689;8969;25576703069]. Qed.
Global Hint Resolve pr2992157106676109246551 : primes.
Lemma pr771976533522436185610159 : prime 771976533522436185610159. Proof. by_lucas' 6 [2;3;43;2992157106676109246551]. Qed.
Global Hint Resolve pr771976533522436185610159 : primes.
Lemma pr9263718402269234227321909 : prime 9263718402269234227321909. Proof. by_lucas' 2 [2;2;3;771976533522436185610159]. Qed.
Global Hint Resolve pr9263718402269234227321909 : primes.
Lemma pr1032670816743843860998850056278950666491537 : prime 1032670816743843860998850056278950666491537. Proof. by_lucas' 5 [2;2;2;2;3;11;17;433;28681761413;9263718402269234227321909]. Qed.
Global Hint Resolve pr1032670816743843860998850056278950666491537 : primes.
Lemma pr19 : prime 19. Proof. by_trial 6%nat. Qed.
Global Hint Resolve pr19 : primes.
Lemma pr37 : prime 37. Proof. by_trial 8%nat. Qed.
Global Hint Resolve pr37 : primes.
Lemma pr73 : prime 73. Proof. by_trial 10%nat. Qed.
Global Hint Resolve pr73 : primes.
Lemma pr87211 : prime 87211. Proof. by_trial 297%nat. Qed.
Global Hint Resolve pr87211 : primes.
Lemma pr246241 : prime 246241. Proof. by_trial 498%nat. Qed.
Global Hint Resolve pr246241 : primes.
Lemma pr262657 : prime 262657. Proof. by_trial 514%nat. Qed.
Global Hint Resolve pr262657 : primes.
Lemma pr279073 : prime 279073. Proof. by_trial 530%nat. Qed.
Global Hint Resolve pr279073 : primes.
