(** C12, C19, C20: line ranges, quotes and text positions. *)
From Verif Require Import Base Config State LexUtil LuaLexer UtilSpec UtilProofs.

(** C12: the character range of the lines [l] to [r] is ordered and inside the text; it starts at 0 or at the end of
    the line before [l], and ends at the end of line [r]; a bound that makes no sense becomes the start or the end of
    the text, so a reversed range is the whole text. *)
Theorem C12_line_range : forall (s : str) (l r : N), exists a b,
  line_range_to_pos_range s (Some (l, r)) = Some (a, b)
  /\ a <= b <= List.length s
  /\ ((1 < l <= r /\ l <= N.of_nat (lines s))%N -> line_end s (N.to_nat l - 1) a)
  /\ (~ (1 < l <= r /\ l <= N.of_nat (lines s))%N -> a = 0)
  /\ ((1 <= r /\ l <= r /\ r <= N.of_nat (lines s))%N -> line_end s (N.to_nat r) b)
  /\ (~ (1 <= r /\ l <= r /\ r <= N.of_nat (lines s))%N -> b = List.length s).
Proof. exact line_range_spec. Qed.
Print Assumptions C12_line_range.

Example C12_case :
  line_range_to_pos_range [97; 10; 98; 99; 10; 100; 10; 101]%N (Some (2, 3)%N) = Some (1, 6)
  /\ line_range_to_pos_range [97; 10; 98; 99; 10; 100; 10; 101]%N (Some (3, 2)%N) = Some (0, 8).
Proof. split; reflexivity. Qed.

(** C19: the converted text between double quotes is one string token again, wherever it is written. *)
Theorem C19_quote_conversion_lexes : forall (i : nat) (r : str) (l : nat) (t : str) (e : nat) (c : tchars),
  lex_step i ch_apos r = LTok l (CharStringLiteral t) e c ->
  forall (j : nat) (rest : str), lex_step j ch_quot (charstring_to_normalstring t ++ ch_quot :: rest)
    = LTok j (NormalStringLiteral (charstring_to_normalstring t))
        (j + List.length (charstring_to_normalstring t) + 2)
        (j + List.length (charstring_to_normalstring t) + 2, rest).
Proof. exact quote_relex. Qed.
Print Assumptions C19_quote_conversion_lexes.

(** C19: it denotes the same string. *)
Theorem C19_quote_conversion_value : forall (t : str), lua_value (charstring_to_normalstring t) = lua_value t.
Proof. exact quote_value. Qed.
Print Assumptions C19_quote_conversion_value.

(** The text is a, double quote, backslash, double quote, backslash, quote, backslash 065. *)
Example C19_case :
  lex_step 0 ch_apos [97; 34; 92; 34; 92; 39; 92; 48; 54; 53; 39; 120]%N
    = LTok 0 (CharStringLiteral [97; 34; 92; 34; 92; 39; 92; 48; 54; 53]%N) 12 (12, [120]%N)
  /\ charstring_to_normalstring [97; 34; 92; 34; 92; 39; 92; 48; 54; 53]%N
     = [97; 92; 34; 92; 34; 92; 39; 92; 48; 54; 53]%N
  /\ lua_value [97; 34; 92; 34; 92; 39; 92; 48; 54; 53]%N = Some [97; 34; 34; 39; 65]%N.
Proof. repeat split. Qed.

(** C20: the text of a position range of the source is the characters between the positions; it is empty when a
    position is past the end and panics exactly for a reversed range inside the text. *)
Theorem C20_source_positions : forall (buf : str) (a b : nat) (st : state),
  c2b st = update_indexes buf ->
  (a <= b <= List.length buf -> substr (a, b) buf st 0 = Some (slice buf a b))
  /\ (List.length buf < a \/ List.length buf < b -> substr (a, b) buf st 0 = Some [])
  /\ (substr (a, b) buf st 0 = None <-> b < a <= List.length buf).
Proof. exact substr_code. Qed.
Print Assumptions C20_source_positions.

(** C20: inside the comment block that starts at position [o] and has [n] characters, with the index of the whole
    file. *)
Theorem C20_comment_positions : forall (buf : str) (o n a b : nat) (st : state),
  c2b st = update_indexes buf -> o + n <= List.length buf -> a <= b <= n ->
  substr (a, b) (slice buf o (o + n)) st o = Some (slice (slice buf o (o + n)) a b).
Proof. exact substr_block. Qed.
Print Assumptions C20_comment_positions.

(** One-, two-, three- and four-byte characters. *)
Example C20_case :
  substr (1, 4) [97; 233; 8364; 128512; 98]%N
    (mk_state 0 [] 0 0 None None 0 (update_indexes [97; 233; 8364; 128512; 98]%N)) 0 = Some [233; 8364; 128512]%N
  /\ update_indexes [97; 233; 8364; 128512; 98]%N = [Some 0; Some 1; Some 3; Some 6; Some 10; Some 11].
Proof. split; reflexivity. Qed.
