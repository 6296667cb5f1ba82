(** C42, C43: where parsing a text stops, and with which error. *)
From Verif Require Import Base LuaLexer Ast LuaGrammar LuaParser LuaError ErrorSpec ErrorProofs.

(** C42: the errors are those of [parse_lua], whose trees are the subject of C17 and C18. *)
Theorem C42_outcome_of_parsing : forall (src : str),
  parse_lua src = match parse_lua_outcome src with Tree n => Parsed n | Failed _ => ParseError | Internal => ParseInternal end.
Proof. exact outcome_parse. Qed.
Print Assumptions C42_outcome_of_parsing.

(** C42: a token is reported exactly when it is the first one that no program with the tokens before it has at its place. *)
Theorem C42_first_wrong_token : forall (src : str) (l : nat) (t : token) (r : nat),
  parse_lua_outcome src = Failed (UnrecognizedToken l t r) <-> first_wrong src (l, t, r).
Proof. exact token_error. Qed.
Print Assumptions C42_first_wrong_token.

(** C42: the text before the reported token can be continued to one that parses. *)
Theorem C42_text_before_completes : forall (src : str) (l : nat) (t : token) (r : nat),
  parse_lua_outcome src = Failed (UnrecognizedToken l t r) -> exists tail n, parse_lua (firstn l src ++ tail) = Parsed n.
Proof. exact error_completable. Qed.
Print Assumptions C42_text_before_completes.

(** C42: the text up to the character after the reported token cannot: every text with that start has the same error. *)
Theorem C42_text_up_to_token_does_not : forall (src : str) (l : nat) (t : token) (r : nat) (src' : str),
  parse_lua_outcome src = Failed (UnrecognizedToken l t r) -> t <> EOF ->
  firstn (S r) src' = firstn (S r) src -> parse_lua_outcome src' = Failed (UnrecognizedToken l t r).
Proof. exact error_local. Qed.
Print Assumptions C42_text_up_to_token_does_not.

(** C42: the end of the tokens is never what is unexpected; the token [EOF] is. *)
Theorem C42_no_unrecognized_eof : forall (src : str), parse_lua_outcome src <> Failed UnrecognizedEOF.
Proof. exact no_eof_error. Qed.
Print Assumptions C42_no_unrecognized_eof.

(** C43: an error of the lexer is reported exactly when the tokens before it can start a program and no token follows. *)
Theorem C43_lexical_error : forall (src : str),
  (exists e, parse_lua_outcome src = Failed (User e)) <-> no_token src.
Proof. exact lexical_error_outcome. Qed.
Print Assumptions C43_lexical_error.

(** C43: a symbol is reported exactly when, after tokens a program can begin with, it is where no token can start. *)
Theorem C43_symbol : forall (src : str) (i : nat) (c : char),
  parse_lua_outcome src = Failed (User (UnrecognizedSymbol i c)) <-> odd_symbol src i c.
Proof. exact symbol_error. Qed.
Print Assumptions C43_symbol.

Example error_in_call : parse_lua_outcome (s2l "f(1 end @") = Failed (UnrecognizedToken 4 End 7)
  /\ exists n, parse_lua (firstn 4 (s2l "f(1 end @") ++ s2l ",2)") = Parsed n.
Proof. split; [vm_compute; reflexivity|]. eexists. vm_compute. reflexivity. Qed.
Example error_at_end : parse_lua_outcome (s2l "while x do f() -- c") = Failed (UnrecognizedToken 19 EOF 19).
Proof. vm_compute. reflexivity. Qed.
Example error_symbol : parse_lua_outcome (s2l "x = 1 @ end") = Failed (User (UnrecognizedSymbol 6 64%N)).
Proof. vm_compute. reflexivity. Qed.
Example error_bracket : parse_lua_outcome (s2l "x = [==y") = Failed (User (UnrecognizedSymbol 7 121%N)).
Proof. vm_compute. reflexivity. Qed.
Example error_string : parse_lua_outcome (s2l "x = 'abc") = Failed (User UnexpectedEOF).
Proof. vm_compute. reflexivity. Qed.
