(** The syntax of Lua as extended BNF: the grammar of the reference manual of Lua 5.3 (section 9), and the language that
    luafmt accepts written in the same way. *)
From Verif Require Import Base LuaLexer LexSpec.

Inductive rule :=
| RBlock | RStat | RClosed | ROpen | RRetstat | RLabel | RFuncname | RVarlist | RVar | RNamelist | RExplist | RExp
| RPrefixexp | RFunctioncall | RArgs | RFunctiondef | RFuncbody | RParlist | RTable | RFieldlist | RField | RFieldsep
| RBinop | RUnop
(* only in the language of luafmt *)
| RRound | RRoundexp | RSuffix | RTarget | RPar | RSimple | ROperand.

(** a given token; a token of a class; a rule; one after the other; either; at most once; any number of times; those among
    the words of an expression that satisfy a condition *)
Inductive ebnf :=
| Word (t : token)
| Class (c : token -> bool)
| Rule (r : rule)
| Seq (a b : ebnf)
| Alt (a b : ebnf)
| Opt (a : ebnf)
| Many (a : ebnf)
| Where (p : list token -> bool) (a : ebnf).

Section Matches.
  Variable rules : rule -> ebnf.
  Inductive matches : ebnf -> list token -> Prop :=
  | m_word : forall t, matches (Word t) [t]
  | m_class : forall c t, c t = true -> matches (Class c) [t]
  | m_rule : forall r w, matches (rules r) w -> matches (Rule r) w
  | m_seq : forall a b u v, matches a u -> matches b v -> matches (Seq a b) (u ++ v)
  | m_left : forall a b w, matches a w -> matches (Alt a b) w
  | m_right : forall a b w, matches b w -> matches (Alt a b) w
  | m_none : forall a, matches (Opt a) []
  | m_some : forall a w, matches a w -> matches (Opt a) w
  | m_end : forall a, matches (Many a) []
  | m_more : forall a u v, matches a u -> matches (Many a) v -> matches (Many a) (u ++ v)
  | m_where : forall p a w, p w = true -> matches a w -> matches (Where p a) w.
End Matches.

Definition name (t : token) : bool := match t with Variable_ _ => true | _ => false end.
Definition numeral (t : token) : bool := match t with Numeral _ => true | _ => false end.
Definition literal (t : token) : bool :=
  match t with NormalStringLiteral _ | CharStringLiteral _ | MultiLineStringLiteral _ _ => true | _ => false end.
Definition Name_ := Class name.

Declare Scope ebnf_scope.
Delimit Scope ebnf_scope with ebnf.
Bind Scope ebnf_scope with ebnf.
Local Notation "a ; b" := (Seq a b) (at level 60, right associativity) : ebnf_scope.
Local Notation "a 'or' b" := (Alt a b) (at level 65, right associativity) : ebnf_scope.
#[local] Coercion Word : token >-> ebnf.
#[local] Coercion Rule : rule >-> ebnf.
Local Open Scope ebnf_scope.

(** [x {sep x}] *)
Definition list_of (x sep : ebnf) : ebnf := x; Many (sep; x).

(** the two kinds of statements: those after which an opening parenthesis cannot belong to the statement, and the others *)
Definition closed_stat : ebnf :=
  LuaLexer.Semicolon
  or RLabel
  or Break
  or (GoTo; Name_)
  or (Do; RBlock; End)
  or (While; RExp; Do; RBlock; End)
  or (If_; RExp; Then; RBlock; Many (ElseIf; RExp; Then; RBlock); Opt (Else; RBlock); End)
  or (For; Name_; EqualsSign; RExp; Comma; RExp; Opt (Comma; RExp); Do; RBlock; End)
  or (For; RNamelist; In_; RExplist; Do; RBlock; End)
  or (Function_; RFuncname; RFuncbody)
  or (Local_; Function_; Name_; RFuncbody)
  or (Local_; RNamelist).
Definition open_stat : ebnf :=
  (RVarlist; EqualsSign; RExplist)
  or RFunctioncall
  or (Repeat; RBlock; Until; RExp)
  or (Local_; RNamelist; EqualsSign; RExplist).

(** The reference manual of Lua 5.3, section 9, with the alternatives of [stat] in two groups. *)
Definition manual (r : rule) : ebnf :=
  match r with
  | RBlock => Many RStat; Opt RRetstat
  | RStat => RClosed or ROpen
  | RClosed => closed_stat
  | ROpen => open_stat
  | RRetstat => Return; Opt RExplist; Opt LuaLexer.Semicolon
  | RLabel => LuaLexer.Label; Name_; LuaLexer.Label
  | RFuncname => list_of Name_ Period; Opt (Colon; Name_)
  | RVarlist => list_of RVar Comma
  | RVar => Name_ or (RPrefixexp; OpenSquareBracket; RExp; CloseSquareBracket) or (RPrefixexp; Period; Name_)
  | RNamelist => list_of Name_ Comma
  | RExplist => list_of RExp Comma
  | RExp => Nil or False_ or True_ or Class numeral or Class literal or VarArg or RFunctiondef or RPrefixexp or RTable
            or (RExp; RBinop; RExp) or (RUnop; RExp)
  | RPrefixexp => RVar or RFunctioncall or (OpenRoundBracket; RExp; CloseRoundBracket)
  | RFunctioncall => (RPrefixexp; RArgs) or (RPrefixexp; Colon; Name_; RArgs)
  | RArgs => (OpenRoundBracket; Opt RExplist; CloseRoundBracket) or RTable or Class literal
  | RFunctiondef => Function_; RFuncbody
  | RFuncbody => OpenRoundBracket; Opt RParlist; CloseRoundBracket; RBlock; End
  | RParlist => (RNamelist; Opt (Comma; VarArg)) or VarArg
  | RTable => OpenCurlyBracket; Opt RFieldlist; CloseCurlyBracket
  | RFieldlist => list_of RField RFieldsep; Opt RFieldsep
  | RField => (OpenSquareBracket; RExp; CloseSquareBracket; EqualsSign; RExp) or (Name_; EqualsSign; RExp) or RExp
  | RFieldsep => Comma or LuaLexer.Semicolon
  | RBinop => OpAddition or Minus or OpMultiplication or OpDivision or OpFloorDivision or OpExponentiation or OpModulo
              or OpBitwiseAnd or Tilde or OpBitwiseOr or OpRightShift or OpLeftShift or OpConcatenation
              or OpLessThan or OpLessOrEqual or OpGreaterThan or OpGreaterOrEqual or OpEquality or OpInequality
              or OpLogicalAnd or OpLogicalOr
  | RUnop => Minus or OpLogicalNot or OpLength or Tilde
  | r => Rule r
  end.

(** The language of luafmt: the same rules except for
    - blocks: a statement that starts with a parenthesis is the first one of its block or follows a closed statement,
    - assignments and calls: what is assigned to and what is called is any name or parenthesised expression with suffixes,
    - expressions: a sequence of operands, where the operand after [^] has no unary operator, and after the unary
      operators [-], [#] and [~] no other one comes,
    - parameters: [...] may be anywhere. *)
Definition luafmt (r : rule) : ebnf :=
  match r with
  | RBlock => Opt RRound; Many ((RClosed; Opt RRound) or ROpen); Opt RRetstat
  | RRound => (RRoundexp; Many (Comma; RTarget); EqualsSign; RExplist)
              or RRoundexp
              or (OpenRoundBracket; RExp; CloseRoundBracket)
  | ROpen => (Name_; Many RSuffix; Many (Comma; RTarget); EqualsSign; RExplist)
             or (Name_; RSuffix; Many RSuffix)
             or (Repeat; RBlock; Until; RExp)
             or (Local_; RNamelist; EqualsSign; RExplist)
  | RTarget => (Name_; Many RSuffix) or RRoundexp
  | RRoundexp => OpenRoundBracket; RExp; CloseRoundBracket; RSuffix; Many RSuffix
  | RSuffix => RArgs
               or (OpenSquareBracket; RExp; CloseSquareBracket)
               or (Period; Name_)
               or (Colon; Name_; RArgs)
  | RSimple => Nil or False_ or True_ or Class numeral or Class literal or VarArg or RFunctiondef
               or (Name_; Many RSuffix)
               or (OpenRoundBracket; RExp; CloseRoundBracket; Many RSuffix)
               or RTable
  | ROperand => Many OpLogicalNot; Opt (OpLength or Minus or Tilde); list_of RSimple OpExponentiation
  | RBinop => OpAddition or Minus or OpMultiplication or OpDivision or OpFloorDivision or OpModulo
              or OpBitwiseAnd or Tilde or OpBitwiseOr or OpRightShift or OpLeftShift or OpConcatenation
              or OpLessThan or OpLessOrEqual or OpGreaterThan or OpGreaterOrEqual or OpEquality or OpInequality
              or OpLogicalAnd or OpLogicalOr
  | RExp => list_of ROperand RBinop
  | RParlist => list_of RPar Comma
  | RPar => Name_ or VarArg
  | RStat | RVarlist | RVar | RPrefixexp | RFunctioncall | RUnop => Rule r
  | r => manual r
  end.

(** The tokens of a text without their positions. *)
Definition bare (ts : list ptok) : list token := map (fun x => snd (fst x)) ts.
(** A [#!] line may come first and the end of the text is last. *)
Inductive file_of (block : list token -> Prop) : list token -> Prop :=
| file_plain : forall w, block w -> file_of block (w ++ [EOF])
| file_shebang : forall s w, block w -> file_of block (SheBang s :: w ++ [EOF]).

(** The text is a program of the grammar. *)
Definition program (rules : rule -> ebnf) (src : str) : Prop :=
  exists ts, tokenization 0 src ts /\ file_of (matches rules (Rule RBlock)) (bare ts).

(** The manual restricted to what luafmt accepts: a statement that starts with a parenthesis is the first one of its block
    or follows a closed one, and after [^] and the unary operators [-], [#] and [~] there is no unary operator. *)
Definition starts_round (w : list token) : bool := match w with OpenRoundBracket :: _ => true | _ => false end.
Definition starts_unary (w : list token) : bool :=
  match w with (OpLogicalNot | OpLength | Minus | Tilde) :: _ => true | _ => false end.
Definition plain_exp : ebnf := Where (fun w => negb (starts_unary w)) RExp.
Definition restricted (r : rule) : ebnf :=
  match r with
  | RBlock => Opt (Where starts_round RStat);
              Many ((RClosed; Opt (Where starts_round RStat)) or Where (fun w => negb (starts_round w)) ROpen);
              Opt RRetstat
  | RExp => Nil or False_ or True_ or Class numeral or Class literal or VarArg or RFunctiondef or RPrefixexp or RTable
            or (RExp; Where (fun w => match w with [OpExponentiation] => false | _ => true end) RBinop; RExp)
            or (RExp; OpExponentiation; plain_exp)
            or (OpLogicalNot; RExp) or ((Minus or OpLength or Tilde); plain_exp)
  | r => manual r
  end.

(** The manual extended by what luafmt accepts in addition: any prefix expression as a statement or as the target of an
    assignment, and [...] anywhere among the parameters. *)
Definition extended (r : rule) : ebnf :=
  match r with
  | RFunctioncall => RPrefixexp
  | RVarlist => list_of RPrefixexp Comma
  | RParlist => list_of (Name_ or VarArg) Comma
  | RPrefixexp => RVar or (RPrefixexp; RArgs) or (RPrefixexp; Colon; Name_; RArgs)
                  or (OpenRoundBracket; RExp; CloseRoundBracket)
  | r => manual r
  end.
