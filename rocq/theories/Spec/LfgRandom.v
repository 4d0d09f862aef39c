(** An LFG whose state is filled with uniformly random words. *)
From Verif Require Import Model.Base Model.Lfg Spec.Common.

(** what Restore makes of 607 words: the 335 words ws that matter, followed by the 272 words [rest] *)
Definition lfg_state (rest ws : list N) : lfg := mkLFG 334 0 (ws ++ rest).
