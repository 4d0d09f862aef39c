(** Go's conversions between strings (byte sequences) and []rune, used by RandString. This models the Go
    language (conversions to and from a string type) and package unicode/utf8, not a file of /repo. *)
From Verif Require Import Model.Base Model.Rng Model.Util.
Local Open Scope N_scope.

(** U+FFFD, what invalid bytes or runes become in the conversions of util.go:145, 149 *)
Definition rune_error : N := 0xFFFD.
(** lo <= b <= hi (package unicode/utf8, behind util.go:145) *)
Definition in_rng (lo hi b : N) : bool := (lo <=? b) && (b <=? hi).
(** the range allowed for the second byte after a given first byte (utf8.acceptRanges), and the number of bytes
    of the sequence; None for bytes that cannot start a sequence (behind util.go:145) *)
Definition utf8_first (b : N) : option (nat * N * N) :=
  if b <? 0x80 then Some (1%nat, 0, 0)
  else if b <? 0xC2 then None
  else if b <? 0xE0 then Some (2%nat, 0x80, 0xBF)
  else if b =? 0xE0 then Some (3%nat, 0xA0, 0xBF)
  else if b =? 0xED then Some (3%nat, 0x80, 0x9F)
  else if b <? 0xF0 then Some (3%nat, 0x80, 0xBF)
  else if b =? 0xF0 then Some (4%nat, 0x90, 0xBF)
  else if b <? 0xF4 then Some (4%nat, 0x80, 0xBF)
  else if b =? 0xF4 then Some (4%nat, 0x80, 0x8F)
  else None.
(** payload of a continuation byte (package unicode/utf8, behind util.go:145) *)
Definition cont (b : N) : N := N.land b 0x3F.
(** continuation bytes (package unicode/utf8, behind util.go:145) *)
Definition is_cont (b : N) : bool := in_rng 0x80 0xBF b.
(** utf8.DecodeRune on a non-empty byte sequence b0 :: bs: the rune and the number of bytes it takes
    (behind util.go:145) *)
Definition decode_rune (b0 : N) (bs : list N) : N * nat :=
  match utf8_first b0 with
  | Some (1%nat, _, _) => (b0, 1%nat)
  | Some (n, lo, hi) =>
      match n, bs with
      | 2%nat, b1 :: _ =>
          if in_rng lo hi b1 then (N.lor (N.shiftl (N.land b0 0x1F) 6) (cont b1), 2%nat) else (rune_error, 1%nat)
      | 3%nat, b1 :: b2 :: _ =>
          if in_rng lo hi b1 && is_cont b2
          then (N.lor (N.shiftl (N.land b0 0x0F) 12) (N.lor (N.shiftl (cont b1) 6) (cont b2)), 3%nat) else (rune_error, 1%nat)
      | 4%nat, b1 :: b2 :: b3 :: _ =>
          if in_rng lo hi b1 && is_cont b2 && is_cont b3
          then (N.lor (N.shiftl (N.land b0 0x07) 18) (N.lor (N.shiftl (cont b1) 12) (N.lor (N.shiftl (cont b2) 6) (cont b3))), 4%nat)
          else (rune_error, 1%nat)
      | _, _ => (rune_error, 1%nat)
      end
  | None => (rune_error, 1%nat)
  end.
(** []rune(s); every step takes at least one byte, so fuel = len(s) suffices (util.go:145) *)
Fixpoint runes_loop (fuel : nat) (s : list N) : list N :=
  match fuel, s with
  | S fuel', b0 :: bs =>
      let '(r, n) := decode_rune b0 bs in
      r :: runes_loop fuel' (skipn n s)
  | _, _ => []
  end.
(** []rune(alphabet) of util.go:145 *)
Definition string_runes (s : list N) : list N := runes_loop (length s) s.

(** utf8.EncodeRune (behind util.go:149) *)
Definition encode_rune (r : N) : list N :=
  if r <=? 0x7F then [r]
  else if r <=? 0x7FF then [N.lor 0xC0 (N.shiftr r 6); N.lor 0x80 (N.land r 0x3F)]
  else
    let r := if (0x10FFFF <? r) || in_rng 0xD800 0xDFFF r then rune_error else r in
    if r <=? 0xFFFF
    then [N.lor 0xE0 (N.shiftr r 12); N.lor 0x80 (N.land (N.shiftr r 6) 0x3F); N.lor 0x80 (N.land r 0x3F)]
    else [N.lor 0xF0 (N.shiftr r 18); N.lor 0x80 (N.land (N.shiftr r 12) 0x3F); N.lor 0x80 (N.land (N.shiftr r 6) 0x3F); N.lor 0x80 (N.land r 0x3F)].
(** string(p) for p []rune (util.go:149) *)
Definition runes_string (p : list N) : list N := flat_map encode_rune p.

(** util.go:143-150 *)
Definition RandString {W} (read : reader W) (ub : N) (fuel : nat) (alphabet : list N) (n : Z) (w : W) : outcome (list N * W) :=
  let! (p, w) := RandRunes read ub fuel (string_runes alphabet) n w in
  Ret (runes_string p, w).
