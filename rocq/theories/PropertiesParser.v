(** C17: the parser decides the grammar. *)
From Verif Require Import Base LR LRSpec LuaLexer LuaGrammar LuaParser CommentGrammar CommentParser ParserProofs.

(** C17: the parser returns a value exactly when the grammar derives the tokens with that value. *)
Theorem C17_parser_decides_grammar : forall (ts : list ptok) (v : LuaGrammar.val),
  parse_tokens ts = POk v <-> sentence lua_grammar ts v.
Proof. exact parse_tokens_correct. Qed.
Print Assumptions C17_parser_decides_grammar.

(** C17: the grammar gives a token list at most one value. *)
Theorem C17_grammar_unambiguous : forall (ts : list ptok) (v v' : LuaGrammar.val),
  sentence lua_grammar ts v -> sentence lua_grammar ts v' -> v = v'.
Proof. exact lua_unambiguous. Qed.
Print Assumptions C17_grammar_unambiguous.

(** C17: parsing terminates: the bound on the number of moves is never reached. *)
Theorem C17_parser_terminates : forall (ts : list ptok), parse_tokens ts <> PFuel.
Proof. exact parse_tokens_total. Qed.
Print Assumptions C17_parser_terminates.

(** C17 for the grammar of comment blocks. *)
Theorem C17_comment_parser_decides_grammar : forall (ts : list (nat * CommentLexer.ctoken * nat)) (v : cval),
  (parse_ctokens ts = POk v <-> sentence comment_grammar ts v) /\ parse_ctokens ts <> PFuel.
Proof. exact (fun ts v => conj (parse_ctokens_correct ts v) (parse_ctokens_total ts)). Qed.
Print Assumptions C17_comment_parser_decides_grammar.

(** [x = f 'a' -1] is a sentence and [x = = 1] is not. *)
Example C17_case :
  (exists v, sentence lua_grammar
     [(0, Variable_ (s2l "x"), 1); (2, EqualsSign, 3); (4, Variable_ (s2l "f"), 5);
      (6, CharStringLiteral (s2l "a"), 9); (10, Minus, 11); (11, Numeral (s2l "1"), 12); (12, EOF, 12)] v)
  /\ (forall v, ~ sentence lua_grammar
     [(0, Variable_ (s2l "x"), 1); (2, EqualsSign, 3); (4, EqualsSign, 5); (6, Numeral (s2l "1"), 7); (7, EOF, 7)] v).
Proof.
  split.
  - eexists. apply parse_tokens_correct. vm_compute. reflexivity.
  - intros v H. apply parse_tokens_correct in H. vm_compute in H. discriminate.
Qed.
