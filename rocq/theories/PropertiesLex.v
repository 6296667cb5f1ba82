(** C15, C16: what the lexer does, for every text; C31 and C32 as far as they hold. *)
From Verif Require Import Base LuaLexer LexSpec LexLoop.

(** C15: the lexer returns exactly the tokens the lexical specification gives the text. *)
Theorem C15_lexer_decides_tokenization : forall (src : str) (ts : list ptok),
  lex src = LexOk ts <-> tokenization 0 src ts.
Proof. exact lex_correct. Qed.
Print Assumptions C15_lexer_decides_tokenization.

(** C15: the spans are increasing, disjoint and in bounds, the text at each is the token's, the rest is blanks and
    comments, and the last token is the end of the text. *)
Theorem C15_tokens_tile : forall (src : str) (ts : list ptok), lex src = LexOk ts -> tiles src 0 ts.
Proof. exact lex_tiles. Qed.
Print Assumptions C15_tokens_tile.

(** C15: a text has at most one tokenization. *)
Theorem C15_tokenization_unique : forall (p : nat) (src : str) (ts us : list ptok),
  tokenization p src ts -> tokenization p src us -> ts = us.
Proof. exact tokenization_unique. Qed.
Print Assumptions C15_tokenization_unique.

(** C16: lexing ends with tokens, no more than characters plus one, or with a lexical error. *)
Theorem C16_lexing_total : forall (src : str),
  (exists ts, lex src = LexOk ts /\ List.length ts <= List.length src + 1) \/ (exists e, lex src = LexFail e).
Proof. exact lex_ends. Qed.
Print Assumptions C16_lexing_total.

(** C31 restricted to long strings without a backslash: such a string ends at the first closing bracket of its level.
    Missing: texts with a backslash before a closing bracket, for which it is false (C31_long_bracket_refuted). *)
Theorem C31_long_bracket_partial : forall (src : str) (ts : list ptok) (l : nat) (level : nat) (b : str) (r : nat),
  lex src = LexOk ts -> In (l, MultiLineStringLiteral level b, r) ts -> ~ In 92%N b ->
  text_at src l r = long level b /\ before_first (closing level) b.
Proof. exact long_string_first. Qed.
Print Assumptions C31_long_bracket_partial.

(** C32 restricted to numerals whose exponent has no sign or a minus sign. Missing: the plus sign, for which it is
    false (C32_signed_exponent_refuted). *)
Theorem C32_numeral_partial : forall (s : str), lua_decimal [[]; [45%N]] s ->
  lex s = LexOk [(0, Numeral s, List.length s); (List.length s, EOF, List.length s)].
Proof. exact decimal_one_token. Qed.
Print Assumptions C32_numeral_partial.

(** A text with comments, a shebang line, a long string and adjacent operators. *)
Example C15_case : exists ts,
  tokenization 0 (s2l "#!l" ++ [10%N] ++ s2l "x--[[c]]=- --d" ++ [10%N] ++ s2l "a[ [=[]]]=]]..1 ..'\''") ts /\ List.length ts = 13
  /\ In (22, MultiLineStringLiteral 1 (s2l "]]"), 30) ts /\ In (33, Numeral (s2l "1"), 34) ts.
Proof.
  eexists. split; [apply lex_correct; vm_compute; reflexivity|]. vm_compute. repeat split; auto 16.
Qed.
(** and one without a tokenization *)
Example C15_case_none : forall ts, ~ tokenization 0 (s2l "x = 'a") ts.
Proof. intros ts H. apply lex_correct in H. vm_compute in H. discriminate. Qed.

Example C31_case : exists ts, lex (s2l "[=[ ]] ]=] ]=]") = LexOk ts /\ In (0, MultiLineStringLiteral 1 (s2l " ]] "), 10) ts.
Proof. eexists. split; [vm_compute; reflexivity|]. vm_compute. auto. Qed.
Example C32_case : lua_decimal [[]; [45%N]] (s2l "3.14e-2").
Proof.
  exists (s2l "3.14"), (s2l "e-2"). repeat split.
  - exists (s2l "3"), (s2l "14"). repeat split; [repeat constructor|repeat constructor|discriminate|]. left. reflexivity.
  - right. exists (chr "e"), [45%N], (s2l "2"). repeat split; [left; reflexivity|right; left; reflexivity|repeat constructor|discriminate].
Qed.
