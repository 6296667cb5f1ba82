(** Where parsing has to stop: the specification of the errors of the parser. *)
From Verif Require Import Base LuaLexer Ast LR LRSpec LuaGrammar LexSpec.

(** [begins_with n s ts]: the text [s] at index [n] begins with the tokens [ts]; what follows need not be tokens. *)
Inductive begins_with : nat -> str -> list ptok -> Prop :=
| bg_nil : forall n s, begins_with n s []
| bg_end : forall n l, last_gap l ->
    begins_with n (gap_text l) [(n + List.length (gap_text l), EOF, n + List.length (gap_text l))]
| bg_tok : forall n l t w rest ts, gap l -> token_ok t -> written t w rest ->
    can_follow t (hd_error rest) = true ->
    begins_with (n + List.length (gap_text l) + List.length w) rest ts ->
    begins_with n (gap_text l ++ w ++ rest)
      ((n + List.length (gap_text l), t, n + List.length (gap_text l) + List.length w) :: ts).

(** the tokens of a program, and those a program can begin with *)
Definition program (ts : list ptok) : Prop := exists v, sentence lua_grammar ts v.
Definition lexable (x : ptok) : Prop := let '(_, t, _) := x in token_ok t \/ t = EOF.
Definition viable (ts : list ptok) : Prop := exists rest, Forall lexable rest /\ program (ts ++ rest).

(** [tok] is the first token of [src] that no program with the tokens before it has at its place *)
Definition first_wrong (src : str) (tok : ptok) : Prop :=
  exists pre, begins_with 0 src (pre ++ [tok]) /\ viable pre /\ ~ viable (pre ++ [tok]).
(** after tokens a program can begin with there is text left that does not begin with a token *)
Definition no_token (src : str) : Prop :=
  exists pre, begins_with 0 src pre /\ viable pre /\ ~ program pre /\ forall tok, ~ begins_with 0 src (pre ++ [tok]).

(** characters a blank or a token can start with *)
Definition starts_token (c : char) : bool :=
  existsb (N.eqb c) ([9; 10; 13; 32; 34; 39]%N ++ s2l "^*%+&|;,(){}]#/-.<>~=:[") || letter c || digit c.
(** [tokens_then n s ts rest]: the text [s] at index [n] is the tokens [ts] and then [rest] *)
Inductive tokens_then : nat -> str -> list ptok -> str -> Prop :=
| tt_nil : forall n s, tokens_then n s [] s
| tt_tok : forall n l t w rest ts s, gap l -> token_ok t -> written t w rest ->
    can_follow t (hd_error rest) = true ->
    tokens_then (n + List.length (gap_text l) + List.length w) rest ts s ->
    tokens_then n (gap_text l ++ w ++ rest)
      ((n + List.length (gap_text l), t, n + List.length (gap_text l) + List.length w) :: ts) s.
(** the character [c] at index [i] cannot be there: it comes after tokens a program can begin with, where the next token
    should start, and starts nothing, or it follows an opening bracket and equals signs there *)
Definition odd_symbol (src : str) (i : nat) (c : char) : Prop :=
  exists pre l odd rest, tokens_then 0 src pre (gap_text l ++ odd ++ c :: rest) /\ viable pre /\ gap l
    /\ i + List.length (c :: rest) = List.length src
    /\ ((odd = [] /\ starts_token c = false)
        \/ exists k, odd = [91%N] ++ repeat 61%N (S k) /\ c <> 91%N /\ c <> 61%N).
