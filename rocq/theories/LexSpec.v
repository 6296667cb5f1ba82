(** What the lexer should do: the spelling of tokens, what may follow one, and the text between tokens. *)
From Verif Require Import Base LuaLexer.

(** ** spellings *)
Definition brackets (level : nat) (a b : char) : str := [a] ++ repeat 61%N level ++ [b].
Definition opening (level : nat) : str := brackets level 91%N 91%N.
Definition closing (level : nat) : str := brackets level 93%N 93%N.
Definition long (level : nat) (s : str) : str := opening level ++ s ++ closing level.

Definition spelling (t : token) : str :=
  match t with
  | OpExponentiation => s2l "^" | OpLogicalNot => s2l "not" | OpLength => s2l "#" | OpMultiplication => s2l "*"
  | OpDivision => s2l "/" | OpFloorDivision => s2l "//" | OpModulo => s2l "%" | OpAddition => s2l "+"
  | Minus => s2l "-" | OpConcatenation => s2l ".." | OpLeftShift => s2l "<<" | OpRightShift => s2l ">>"
  | OpBitwiseAnd => s2l "&" | Tilde => s2l "~" | OpBitwiseOr => s2l "|" | OpEquality => s2l "=="
  | OpInequality => s2l "~=" | OpLessThan => s2l "<" | OpGreaterThan => s2l ">" | OpLessOrEqual => s2l "<="
  | OpGreaterOrEqual => s2l ">=" | OpLogicalAnd => s2l "and" | OpLogicalOr => s2l "or"
  | Semicolon => s2l ";" | Comma => s2l "," | Colon => s2l ":" | Label => s2l "::" | EqualsSign => s2l "="
  | Period => s2l "." | OpenRoundBracket => s2l "(" | CloseRoundBracket => s2l ")"
  | OpenSquareBracket => s2l "[" | CloseSquareBracket => s2l "]" | OpenCurlyBracket => s2l "{"
  | CloseCurlyBracket => s2l "}" | Break => s2l "break" | Do => s2l "do" | Else => s2l "else"
  | ElseIf => s2l "elseif" | End => s2l "end" | False_ => s2l "false" | For => s2l "for"
  | Function_ => s2l "function" | GoTo => s2l "goto" | If_ => s2l "if" | In_ => s2l "in"
  | Local_ => s2l "local" | Nil => s2l "nil" | Repeat => s2l "repeat" | Return => s2l "return"
  | Then => s2l "then" | True_ => s2l "true" | Until => s2l "until" | VarArg => s2l "..." | While => s2l "while"
  | Variable_ s => s
  | Numeral s => s
  | NormalStringLiteral s => [34%N] ++ s ++ [34%N]
  | CharStringLiteral s => [39%N] ++ s ++ [39%N]
  | MultiLineStringLiteral level s => long level s
  | SheBang s => s
  | EOF => []
  end.

(** ** characters *)
Definition digit (c : char) : bool := (48 <=? c)%N && (c <=? 57)%N.
Definition letter (c : char) : bool := ((65 <=? c) && (c <=? 90) || (97 <=? c) && (c <=? 122) || (c =? 95))%N.
Definition hexdigit (c : char) : bool := (digit c || ((65 <=? c) && (c <=? 70) || (97 <=? c) && (c <=? 102)))%N.

Definition words : list str :=
  map s2l ["and"; "break"; "do"; "else"; "elseif"; "end"; "false"; "for"; "function"; "goto"; "if"; "in"; "local";
           "nil"; "not"; "or"; "repeat"; "return"; "then"; "true"; "until"; "while"]%string.
Definition identifier (s : str) : Prop :=
  match s with
  | [] => False
  | c :: r => letter c = true /\ Forall (fun c => letter c || digit c = true) r /\ ~ In s words
  end.

(** Numerals as a finite automaton. *)
Inductive numst := NStart | NDot | NZero | NDec | NExp | NExpSign | NExpDigits | NHexX | NHex.
Definition num_step (s : numst) (c : char) : option numst :=
  let e := (N.eqb c 101 || N.eqb c 69) in
  match s with
  | NStart => if N.eqb c 46 then Some NDot else if N.eqb c 48 then Some NZero else if digit c then Some NDec else None
  | NDot => if digit c then Some NDec else None
  | NZero => if N.eqb c 120 then Some NHexX else if digit c || N.eqb c 46 then Some NDec
             else if e then Some NExp else None
  | NDec => if digit c || N.eqb c 46 then Some NDec else if e then Some NExp else None
  | NExp => if N.eqb c 45 then Some NExpSign else if digit c then Some NExpDigits else None
  | NExpSign | NExpDigits => if digit c then Some NExpDigits else None
  | NHexX | NHex => if hexdigit c then Some NHex else None
  end.
Fixpoint num_run (s : numst) (w : str) : option numst :=
  match w with [] => Some s | c :: r => match num_step s c with Some s' => num_run s' r | None => None end end.
(** The code accepts an exponent letter or [0x] without digits, except at the end of the text. *)
Definition num_end (s : numst) (at_eof : bool) : bool :=
  match s with
  | NStart | NDot => false
  | NExp | NExpSign | NHexX => negb at_eof
  | _ => true
  end.

(** The text between the quotes [q]: no [q] without a backslash before it, and no open escape at the end. *)
Fixpoint quoted (q : char) (escaped : bool) (s : str) : bool :=
  match s with
  | [] => negb escaped
  | c :: r => negb (negb escaped && N.eqb c q) && quoted q (negb escaped && N.eqb c 92) r
  end.

Fixpoint starts_with (p s : str) : bool :=
  match p, s with
  | [], _ => true
  | a :: p', b :: s' => N.eqb a b && starts_with p' s'
  | _, [] => false
  end.

(** The end of a long bracket: the first closing bracket of the level not preceded by a backslash. (That the
    backslash matters is where the code departs from Lua, C31.) *)
Fixpoint long_end (level : nat) (after_bsl : bool) (s : str) : option (str * str) :=
  match s with
  | [] => None
  | c :: r =>
      if negb after_bsl && starts_with (closing level) s then Some ([], skipn (level + 2) s)
      else match long_end level (N.eqb c 92) r with
           | Some (b, rest) => Some (c :: b, rest)
           | None => None
           end
  end.
Definition long_body (level : nat) (s : str) : Prop := long_end level false (s ++ closing level) = Some (s, []).

Definition no_newline (s : str) : Prop := ~ In 10%N s.

(** ** tokens *)
Definition token_ok (t : token) : Prop :=
  match t with
  | Variable_ s => identifier s
  | Numeral s => exists st, num_run NStart s = Some st /\ num_end st false = true
  | NormalStringLiteral s => quoted 34%N false s = true
  | CharStringLiteral s => quoted 39%N false s = true
  | MultiLineStringLiteral level s => long_body level s
  | SheBang s => exists r, s = s2l "#!" ++ r /\ no_newline r
  | EOF => False
  | _ => True
  end.

Definition is_char (l : list N) (o : option char) : bool :=
  match o with Some c => existsb (N.eqb c) l | None => false end.
Definition is_class (p : char -> bool) (o : option char) : bool := match o with Some c => p c | None => false end.

(** The token ends where it ends because the next character [o] does not continue it. *)
Definition can_follow (t : token) (o : option char) : bool :=
  match t with
  | Variable_ _
  | OpLogicalNot | OpLogicalAnd | OpLogicalOr | Break | Do | Else | ElseIf | End | False_ | For | Function_ | GoTo
  | If_ | In_ | Local_ | Nil | Repeat | Return | Then | True_ | Until | While =>
      negb (is_class (fun c => letter c || digit c) o)
  | Numeral s =>
      match num_run NStart s with
      | Some st => match o with
                   | Some c => match num_step st c with Some _ => false | None => num_end st false end
                   | None => num_end st true
                   end
      | None => false
      end
  | OpLength => negb (is_char [33%N] o)                     (* #! *)
  | OpDivision => negb (is_char [47%N] o)
  | Minus => negb (is_char [45%N] o)
  | Period => negb (is_char [46%N] o || is_class digit o)
  | OpConcatenation => negb (is_char [46%N] o)
  | OpLessThan => negb (is_char [60; 61]%N o)
  | OpGreaterThan => negb (is_char [62; 61]%N o)
  | Tilde | EqualsSign => negb (is_char [61%N] o)
  | Colon => negb (is_char [58%N] o)
  | OpenSquareBracket => negb (is_char [61; 91]%N o)
  | _ => true
  end.

(** The characters a token stands for: a shebang line includes its line feed, if any. *)
Definition written (t : token) (w rest : str) : Prop :=
  match t with
  | SheBang s => w = s ++ [10%N] \/ (w = s /\ rest = [])
  | _ => w = spelling t
  end.

(** ** between tokens *)
Inductive gitem :=
| GBlank (c : char)
| GNewline
| GLine (s : str)                 (* a one-line comment with its line feed *)
| GLong (level : nat) (s : str)   (* a long comment *)
| GLast (s : str).                (* a one-line comment at the end of the text *)

Definition gitem_text (g : gitem) : str :=
  match g with
  | GBlank c => [c]
  | GNewline => [10%N]
  | GLine s => [45; 45]%N ++ s ++ [10%N]
  | GLong level s => [45; 45]%N ++ long level s
  | GLast s => [45; 45]%N ++ s
  end.
Definition gap_text (l : list gitem) : str := flat_map gitem_text l.

(** [s] starts with an opening long bracket *)
Fixpoint after_eqs (s : str) : bool :=
  match s with c :: r => N.eqb c 91 || (N.eqb c 61 && after_eqs r) | [] => false end.
Definition opens_long (s : str) : bool := match s with c :: r => N.eqb c 91 && after_eqs r | [] => false end.

Definition gitem_ok (g : gitem) : Prop :=
  match g with
  | GBlank c => In c [32; 13; 9]%N
  | GNewline => True
  | GLine s => no_newline s /\ opens_long s = false
  | GLong level s => long_body level s
  | GLast s => no_newline s /\ opens_long s = false
  end.
Definition is_last (g : gitem) : bool := match g with GLast _ => true | _ => false end.

(** a gap between two tokens, and the one before the end of the text *)
Definition gap (l : list gitem) : Prop := Forall (fun g => gitem_ok g /\ is_last g = false) l.
Definition last_gap (l : list gitem) : Prop :=
  exists l0 l1, l = l0 ++ l1 /\ gap l0 /\ (l1 = [] \/ exists s, l1 = [GLast s] /\ gitem_ok (GLast s)).

(** ** the tokens of a text starting at index [n] *)
Inductive tokenization : nat -> str -> list ptok -> Prop :=
| tz_end : forall n l, last_gap l ->
    tokenization n (gap_text l)
      [(n + List.length (gap_text l), EOF, n + List.length (gap_text l))]
| tz_tok : forall n l t w rest ts, gap l -> token_ok t -> written t w rest ->
    can_follow t (hd_error rest) = true ->
    tokenization (n + List.length (gap_text l) + List.length w) rest ts ->
    tokenization n (gap_text l ++ w ++ rest)
      ((n + List.length (gap_text l), t, n + List.length (gap_text l) + List.length w) :: ts).

(** ** positions: the tokens [ts] tile the text from index [p] on *)
Definition text_at (src : str) (l r : nat) : str := firstn (r - l) (skipn l src).
Fixpoint tiles (src : str) (p : nat) (ts : list ptok) : Prop :=
  match ts with
  | [] => False
  | (l, t, r) :: rest =>
      match rest with
      | [] => t = EOF /\ p <= l /\ l = r /\ r = List.length src /\ exists g, last_gap g /\ text_at src p l = gap_text g
      | _ => p <= l /\ l < r /\ r <= List.length src /\ token_ok t
             /\ (exists g, gap g /\ text_at src p l = gap_text g)
             /\ written t (text_at src l r) (skipn r src)
             /\ tiles src r rest
      end
  end.

(** ** what Lua 5.3 says, for C31 and C32 *)
(** decimal numerals: digits with at most one point, at least one digit, and an optional exponent; the exponent sign
    is [sign] *)
Definition digits (s : str) : Prop := Forall (fun c => digit c = true) s.
Definition mantissa (s : str) : Prop :=
  exists a b, digits a /\ digits b /\ a ++ b <> [] /\ (s = a ++ [46%N] ++ b \/ (s = a /\ b = [])).
Definition exponent (sign : list str) (s : str) : Prop :=
  s = [] \/ exists e g d, (e = 101 \/ e = 69)%N /\ In g sign /\ digits d /\ d <> [] /\ s = [e] ++ g ++ d.
Definition lua_decimal (sign : list str) (s : str) : Prop := exists m x, mantissa m /\ exponent sign x /\ s = m ++ x.
(** [b] is the part of [b ++ p ++ ...] before the first [p] *)
Definition before_first (p b : str) : Prop := forall b' r, b ++ p = b' ++ p ++ r -> b' = b.
