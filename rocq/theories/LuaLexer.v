(** Model of src/parser/lua_lexer.rs. *)
From Verif Require Import Base LexUtil.

(** lua_lexer.rs:9-73 [enum Token] *)
Inductive token :=
| OpExponentiation | OpLogicalNot | OpLength | OpMultiplication | OpDivision | OpFloorDivision
| OpModulo | OpAddition | Minus | OpConcatenation | OpLeftShift | OpRightShift | OpBitwiseAnd
| Tilde | OpBitwiseOr | OpEquality | OpInequality | OpLessThan | OpGreaterThan | OpLessOrEqual
| OpGreaterOrEqual | OpLogicalAnd | OpLogicalOr
| Variable_ (s : str) | Numeral (s : str) | NormalStringLiteral (s : str)
| CharStringLiteral (s : str) | MultiLineStringLiteral (level : nat) (s : str)
| Semicolon | Comma | Colon | Label | EqualsSign | Period
| OpenRoundBracket | CloseRoundBracket | OpenSquareBracket | CloseSquareBracket
| OpenCurlyBracket | CloseCurlyBracket
| Break | Do | Else | ElseIf | End | False_ | For | Function_ | GoTo | If_ | In_ | Local_ | Nil
| Repeat | Return | Then | True_ | Until | VarArg | While
| SheBang (s : str) | EOF.

(** lua_lexer.rs:155-178 [KEYWORDS] *)
Definition keywords : list (str * token) :=
  [ (s2l "and", OpLogicalAnd); (s2l "break", Break); (s2l "do", Do); (s2l "else", Else);
    (s2l "elseif", ElseIf); (s2l "end", End); (s2l "false", False_); (s2l "for", For);
    (s2l "function", Function_); (s2l "goto", GoTo); (s2l "if", If_); (s2l "in", In_);
    (s2l "local", Local_); (s2l "nil", Nil); (s2l "not", OpLogicalNot); (s2l "or", OpLogicalOr);
    (s2l "repeat", Repeat); (s2l "return", Return); (s2l "then", Then); (s2l "true", True_);
    (s2l "until", Until); (s2l "while", While) ].

Fixpoint assoc_str {A} (k : str) (l : list (str * A)) : option A :=
  match l with
  | [] => None
  | (k', v) :: r => if str_eqb k k' then Some v else assoc_str k r
  end.

Definition keyword (s : str) : option token := assoc_str s keywords.

(** lua_lexer.rs:181-184 [enum LexicalError] *)
Inductive lexical_error := UnrecognizedSymbol (i : nat) (ch : char) | UnexpectedEOF.

(** One iteration of the loop of [Lexer::next]: the lexer either moves on, returns a token or an error. *)
Inductive lstep (T : Type) :=
| LSkip (c : tchars)
| LTok (l : nat) (t : T) (r : nat) (c : tchars)
| LErr (e : lexical_error).
Arguments LSkip {T}. Arguments LTok {T}. Arguments LErr {T}.

(** The arms of lua_lexer.rs:232-347 that are one call of [consume_ok] on one character. *)
Definition single_char_token (ch : char) : option token :=
  if ceq ch (chr "^") then Some OpExponentiation
  else if ceq ch (chr "*") then Some OpMultiplication
  else if ceq ch (chr "%") then Some OpModulo
  else if ceq ch (chr "+") then Some OpAddition
  else if ceq ch (chr "&") then Some OpBitwiseAnd
  else if ceq ch (chr "|") then Some OpBitwiseOr
  else if ceq ch (chr ";") then Some Semicolon
  else if ceq ch (chr ",") then Some Comma
  else if ceq ch (chr "(") then Some OpenRoundBracket
  else if ceq ch (chr ")") then Some CloseRoundBracket
  else if ceq ch (chr "{") then Some OpenCurlyBracket
  else if ceq ch (chr "}") then Some CloseCurlyBracket
  else if ceq ch (chr "]") then Some CloseSquareBracket
  else None.

Definition peek_is (cs : tchars) (a : ascii) : bool :=
  match snd cs with c :: _ => ceq c (chr a) | [] => false end.

Definition is_blank_nl (ch : char) : bool :=
  ceq ch ch_sp || ceq ch ch_nl || ceq ch ch_cr || ceq ch ch_tab.

Definition num_result (i : nat) (prefix : str) (r : nat * bool * str * tchars) : lstep token :=
  let '(e, succ, v, c) := r in
  if succ then LTok i (Numeral (prefix ++ v)) e c else LErr UnexpectedEOF.

Definition mls_result (start level : nat) (r : nat * nat * bool * str * tchars) : lstep token :=
  let '(_, token_end, succ, v, c) := r in
  if succ then LTok start (MultiLineStringLiteral level v) token_end c else LErr UnexpectedEOF.

(** lua_lexer.rs:220-460, one iteration of the loop for a non-empty rest [ch :: r] at index [i]. *)
Definition lex_step (i : nat) (ch : char) (r : str) : lstep token :=
  let c1 : tchars := (S i, r) in
  if is_blank_nl ch then LSkip c1
  else match single_char_token ch with
  | Some t => LTok i t (i + 1) c1
  | None =>
  if ceq ch (chr "#") then
    if peek_is c1 "!" then
      let '(_, e, v, c) := get_shebang_ends (advance c1) (i + 2) in
      LTok i (SheBang (s2l "#!" ++ v)) e c
    else LTok i OpLength (i + 1) c1
  else if ceq ch (chr "/") then
    if peek_is c1 "/" then LTok i OpFloorDivision (i + 2) (advance c1) else LTok i OpDivision (i + 1) c1
  else if ceq ch (chr "-") then
    if peek_is c1 "-" then
      let '(_, _, _, _, succ, _, c) := get_comment_start_ends_and_type (advance c1) (i + 2) in
      if succ then LSkip c else LErr UnexpectedEOF
    else LTok i Minus (i + 1) c1
  else if ceq ch (chr ".") then
    match r with
    | c2 :: _ =>
        if ceq c2 (chr ".") then
          if peek_is (advance c1) "." then LTok i VarArg (i + 3) (advance (advance c1))
          else LTok i OpConcatenation (i + 2) (advance c1)
        else if is_digit c2 then num_result i [chr "."] (get_float_end c1 i)
        else LTok i Period (i + 1) c1
    | [] => LTok i Period (i + 1) c1
    end
  else if ceq ch (chr "<") then
    if peek_is c1 "<" then LTok i OpLeftShift (i + 2) (advance c1)
    else if peek_is c1 "=" then LTok i OpLessOrEqual (i + 2) (advance c1)
    else LTok i OpLessThan (i + 1) c1
  else if ceq ch (chr ">") then
    if peek_is c1 ">" then LTok i OpRightShift (i + 2) (advance c1)
    else if peek_is c1 "=" then LTok i OpGreaterOrEqual (i + 2) (advance c1)
    else LTok i OpGreaterThan (i + 1) c1
  else if ceq ch (chr "~") then
    if peek_is c1 "=" then LTok i OpInequality (i + 2) (advance c1) else LTok i Tilde (i + 1) c1
  else if ceq ch (chr "=") then
    if peek_is c1 "=" then LTok i OpEquality (i + 2) (advance c1) else LTok i EqualsSign (i + 1) c1
  else if ceq ch (chr ":") then
    if peek_is c1 ":" then LTok i Label (i + 2) (advance c1) else LTok i Colon (i + 1) c1
  else if ceq ch (chr "[") then
    match r with
    | c2 :: _ =>
        if ceq c2 (chr "=") then
          let '(level, cl) := get_multiline_string_level c1 (S i) in
          match snd cl with
          | c3 :: _ =>
              if ceq c3 (chr "[") then
                mls_result i level (get_multiline_string_ends (advance cl) level (fst cl + 1))
              else LErr (UnrecognizedSymbol (fst cl) c3)
          | [] => LErr UnexpectedEOF
          end
        else if ceq c2 (chr "[") then
          mls_result i 0 (get_multiline_string_ends (advance c1) 0 (S i + 1))
        else LTok i OpenSquareBracket (i + 1) c1
    | [] => LTok i OpenSquareBracket (i + 1) c1
    end
  else if ceq ch ch_quot || ceq ch ch_apos then
    let '(_, e, succ, v, c) := get_string_ends c1 ch i in
    if succ then LTok i (if ceq ch ch_apos then CharStringLiteral v else NormalStringLiteral v) e c
    else LErr UnexpectedEOF
  else if ceq ch (chr "0") then
    if peek_is c1 "x" then num_result i (s2l "0x") (get_hex_integer_end (advance c1) (i + 2))
    else num_result i [chr "0"] (get_float_end c1 (i + 1))
  else if is_digit ch then num_result i [ch] (get_float_end c1 (i + 1))
  else if is_alpha ch || ceq ch (chr "_") then
    let '(e, succ, v, c) := get_variable_end (i, ch :: r) i in
    if succ then LTok i (match keyword v with Some k => k | None => Variable_ v end) e c
    else LErr UnexpectedEOF
  else LErr (UnrecognizedSymbol i ch)
  end.

(** A token with its start and end index; what the parser consumes. *)
Definition ptok := (nat * token * nat)%type.

Inductive lexres (T : Type) :=
| LexOk (ts : list (nat * T * nat))
| LexFail (e : lexical_error)
| LexFuel.
Arguments LexOk {T}. Arguments LexFail {T}. Arguments LexFuel {T}.

(** The iteration of [Lexer::next] until the end of input, including the final [EOF] token
    (lua_lexer.rs:220-228, where its index is the number of characters of the input). The parser
    stops at the first error, so nothing after it is modelled. [n] is that
    number, [fuel] bounds the iterations. *)
Fixpoint lex_loop (n fuel : nat) (cs : tchars) : lexres token :=
  match fuel with
  | O => LexFuel
  | S k =>
      match snd cs with
      | [] => LexOk [(n, EOF, n)]
      | ch :: r =>
          match lex_step (fst cs) ch r with
          | LSkip c => lex_loop n k c
          | LTok l t e c =>
              match lex_loop n k c with
              | LexOk ts => LexOk ((l, t, e) :: ts)
              | x => x
              end
          | LErr e => LexFail e
          end
      end
  end.

Definition lex (src : str) : lexres token := lex_loop (List.length src) (S (List.length src)) (0, src).
