(** The tables of both parsers pass the validator, so the parsers decide their grammars. *)
From Verif Require Import Base LR LRSpec LRProofs LuaLexer LuaGrammar LuaTables LuaParser
  CommentLexer CommentGrammar CommentTables CommentParser.

Lemma lua_tables_valid : validate lua_grammar lua_rows lua_items lua_first lua_rank t_eoi lua_max_rank = true.
Proof. vm_compute. reflexivity. Qed.
Lemma comment_tables_valid :
  validate comment_grammar comment_rows comment_items comment_first comment_rank ct_eoi comment_max_rank = true.
Proof. vm_compute. reflexivity. Qed.

Lemma parse_tokens_correct ts v : parse_tokens ts = POk v <-> sentence lua_grammar ts v.
Proof. exact (lr_parse_correct _ _ _ _ _ _ _ lua_tables_valid ts v). Qed.
Lemma parse_tokens_total ts : parse_tokens ts <> PFuel.
Proof. exact (lr_parse_total _ _ _ _ _ _ _ lua_tables_valid ts). Qed.
Lemma lua_unambiguous ts v v' : sentence lua_grammar ts v -> sentence lua_grammar ts v' -> v = v'.
Proof. exact (lr_unambiguous _ _ _ _ _ _ _ lua_tables_valid ts v v'). Qed.
Lemma parse_ctokens_correct ts v : parse_ctokens ts = POk v <-> sentence comment_grammar ts v.
Proof. exact (lr_parse_correct _ _ _ _ _ _ _ comment_tables_valid ts v). Qed.
Lemma parse_ctokens_total ts : parse_ctokens ts <> PFuel.
Proof. exact (lr_parse_total _ _ _ _ _ _ _ comment_tables_valid ts). Qed.
