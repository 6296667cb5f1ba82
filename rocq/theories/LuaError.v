(** The errors of [parse_lua] (src/parser/mod.rs:22, 25-28; lalrpop_util::ParseError). The generated parser pulls one token
    at a time: before a move it needs the next token, it stops with [UnrecognizedToken] at the first token its tables have
    no action for, with [UnrecognizedEOF] if there is none at the end of the tokens, and with [User] when the lexer
    returns an error instead of the token. The lists of expected tokens in the errors and the location of
    [UnrecognizedEOF] are left out. *)
From Verif Require Import Base LexUtil LuaLexer Ast LR LuaGrammar LuaTables LuaParser.

(** lua_lexer.rs:220-347: the tokens [Lexer::next] returns before its first error, and how it stops *)
Inductive lexstop := StopEnd | StopError (e : lexical_error) | StopFuel.
Fixpoint lex_upto (n fuel : nat) (cs : tchars) : list ptok * lexstop :=
  match fuel with
  | O => ([], StopFuel)
  | S k =>
      match snd cs with
      | [] => ([(n, EOF, n)], StopEnd)
      | ch :: r =>
          match lex_step (fst cs) ch r with
          | LSkip c => lex_upto n k c
          | LTok l t e c => let '(ts, s) := lex_upto n k c in ((l, t, e) :: ts, s)
          | LErr e => ([], StopError e)
          end
      end
  end.

Section Drive.
  Context {tok val err : Type}.
  Variable g : grammar tok val.
  Variable prods : trie (prod val).
  Variable au : automaton.
  (** what the token source does after the last token: ends, or fails *)
  Variable stop : option err.

  Inductive driven :=
  | DOk (v : val)
  | DToken (t : nat * tok * nat)
  | DEnd
  | DError (e : err)
  | DFuel.

  Fixpoint lr_drive (fuel : nat) (st : list (@entry val)) (input : list (nat * tok * nat)) : driven :=
    match fuel with
    | O => DFuel
    | S k =>
        match input, stop with
        | [], Some e => DError e
        | _, _ =>
            match lr_step g prods au st input with
            | SNext st' input' => lr_drive k st' input'
            | SAccept v => DOk v
            | SFail => match input with t :: _ => DToken t | [] => DEnd end
            end
        end
    end.
End Drive.
Arguments DOk {tok val err}. Arguments DToken {tok val err}. Arguments DEnd {tok val err}. Arguments DError {tok val err}.
Arguments DFuel {tok val err}.

(** the variants of [LuaParserError] the generated parser returns *)
Inductive lua_error :=
| UnrecognizedToken (l : nat) (t : token) (r : nat)
| UnrecognizedEOF
| User (e : lexical_error).

Inductive parse_outcome := Tree (n : node) | Failed (e : lua_error) | Internal.

Definition drive_lua (stop : option lexical_error) (ts : list ptok) : parse_outcome :=
  match lr_drive lua_grammar (trie_of_list 0%N (g_prods lua_grammar) TLeaf)
          (mk_automaton (trie_of_list 0%N lua_rows TLeaf) t_eoi) stop
          (lr_fuel lua_max_rank (List.length ts)) [] ts with
  | DOk (VNode n) => Tree n
  | DOk _ => Internal
  | DToken (l, t, r) => Failed (UnrecognizedToken l t r)
  | DEnd => Failed UnrecognizedEOF
  | DError e => Failed (User e)
  | DFuel => Internal
  end.

(** src/parser/mod.rs:25-28 *)
Definition parse_lua_outcome (src : str) : parse_outcome :=
  match lex_upto (List.length src) (S (List.length src)) (0, src) with
  | (ts, StopEnd) => drive_lua None ts
  | (ts, StopError e) => drive_lua (Some e) ts
  | (_, StopFuel) => Internal
  end.
