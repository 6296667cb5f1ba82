(** [parse_lua] (src/parser/mod.rs:25-28): lexer and generated parser together. The parser pulls tokens
    one at a time and stops at the first lexical error; lexing everything first gives the same tree, and
    an error in the same cases. Error messages are not modelled. *)
From Verif Require Import Base LuaLexer Ast LR LuaGrammar LuaTables.

Definition lua_max_rank : nat := 20.

Definition parse_tokens (ts : list ptok) : parse_result (val := val) :=
  lr_parse lua_grammar lua_rows t_eoi lua_max_rank ts.

Inductive parsed := Parsed (n : node) | ParseError | ParseInternal.

Definition parse_lua (src : str) : parsed :=
  match lex src with
  | LexOk ts =>
      match parse_tokens ts with
      | POk (VNode n) => Parsed n
      | POk _ => ParseInternal
      | PFail => ParseError
      | PFuel => ParseInternal
      end
  | LexFail _ => ParseError
  | LexFuel => ParseInternal
  end.
