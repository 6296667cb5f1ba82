(** A syntax tree read from left to right: the tokens it stands for and the positions between them. *)
From Verif Require Import Base LuaLexer Ast LexSpec.

(** [SSep]/[STrail] is the separator after a table field that is not / is the last one, given by its text ([STrail []]
    when there is none); [SVoid] marks a place between two characters where the writer may insert a hint. *)
Inductive slot :=
| STok (t : token)
| SGap (l : loc)
| SSep (z : str)
| STrail (z : str)
| SVoid.

(** the parts of a regular node *)
Inductive part := TT (t : token) | TK.
Definition template (k : kind) : list part :=
  match k with
  | KUnaryNot => [TT OpLogicalNot; TK]
  | KVar => [TK; TK]
  | KRoundBrackets => [TT OpenRoundBracket; TK; TT CloseRoundBracket]
  | KArgsRoundBrackets => [TT OpenRoundBracket; TK; TT CloseRoundBracket]
  | KArgsRoundBracketsEmpty => [TT OpenRoundBracket; TT CloseRoundBracket]
  | KNil => [TT Nil]
  | KFalse => [TT False_]
  | KTrue => [TT True_]
  | KVarArg => [TT VarArg]
  | KBreak => [TT Break]
  | KTableConstructor => [TT OpenCurlyBracket; TK; TT CloseCurlyBracket]
  | KTableConstructorEmpty => [TT OpenCurlyBracket; TT CloseCurlyBracket]
  | KFieldNamedBracket => [TT OpenSquareBracket; TK; TT CloseSquareBracket; TT EqualsSign; TK]
  | KFieldNamed => [TK; TT EqualsSign; TK]
  | KFieldSequential => [TK]
  | KTableIndex => [TT OpenSquareBracket; TK; TT CloseSquareBracket]
  | KTableMember => [TT Period; TK]
  | KVarRoundSuffix => [TT OpenRoundBracket; TK; TT CloseRoundBracket; TK]
  | KFnMethodCall => [TT Colon; TK; TK]
  | KFunctionDef => [TT Function_; TK]
  | KFuncBody => [TT OpenRoundBracket; TT CloseRoundBracket; TT End]
  | KFuncBodyB => [TT OpenRoundBracket; TT CloseRoundBracket; TK; TT End]
  | KFuncPBody => [TT OpenRoundBracket; TK; TT CloseRoundBracket; TT End]
  | KFuncPBodyB => [TT OpenRoundBracket; TK; TT CloseRoundBracket; TK; TT End]
  | KFuncDecl => [TT Function_; TK; TK]
  | KLocalFuncDecl => [TT Local_; TT Function_; TK; TK]
  | KDoEnd => [TT Do; TT End]
  | KDoBEnd => [TT Do; TK; TT End]
  | KVarsExprs => [TK; TT EqualsSign; TK]
  | KLabel => [TT Label; TK; TT Label]
  | KGoTo => [TT GoTo; TK]
  | KWhileDo => [TT While; TK; TT Do; TT End]
  | KWhileDoB => [TT While; TK; TT Do; TK; TT End]
  | KRepeatUntil => [TT Repeat; TT Until; TK]
  | KRepeatBUntil => [TT Repeat; TK; TT Until; TK]
  | KForInt => [TT For; TK; TT EqualsSign; TK; TT Comma; TK; TT Do; TT End]
  | KForIntB => [TT For; TK; TT EqualsSign; TK; TT Comma; TK; TT Do; TK; TT End]
  | KForIntStep => [TT For; TK; TT EqualsSign; TK; TT Comma; TK; TT Comma; TK; TT Do; TT End]
  | KForIntStepB => [TT For; TK; TT EqualsSign; TK; TT Comma; TK; TT Comma; TK; TT Do; TK; TT End]
  | KForRange => [TT For; TK; TT In_; TK; TT Do; TT End]
  | KForRangeB => [TT For; TK; TT In_; TK; TT Do; TK; TT End]
  | KLocalNames => [TT Local_; TK]
  | KLocalNamesExprs => [TT Local_; TK; TT EqualsSign; TK]
  | KIfThen => [TT If_; TK; TT Then; TT End]
  | KIfThenB => [TT If_; TK; TT Then; TK; TT End]
  | KIfThenElse => [TT If_; TK; TT Then; TT Else; TT End]
  | KIfThenBElse => [TT If_; TK; TT Then; TK; TT Else; TT End]
  | KIfThenElseB => [TT If_; TK; TT Then; TT Else; TK; TT End]
  | KIfThenBElseB => [TT If_; TK; TT Then; TK; TT Else; TK; TT End]
  | KIfThenElseIf => [TT If_; TK; TT Then; TK; TT End]
  | KIfThenBElseIf => [TT If_; TK; TT Then; TK; TK; TT End]
  | KIfThenElseIfElse => [TT If_; TK; TT Then; TK; TT Else; TT End]
  | KIfThenBElseIfElse => [TT If_; TK; TT Then; TK; TK; TT Else; TT End]
  | KIfThenElseIfElseB => [TT If_; TK; TT Then; TK; TT Else; TK; TT End]
  | KIfThenBElseIfElseB => [TT If_; TK; TT Then; TK; TK; TT Else; TK; TT End]
  | KElseIfThen => [TT ElseIf; TK; TT Then]
  | KElseIfThenB => [TT ElseIf; TK; TT Then; TK]
  | KRetStatNone => [TT Return]
  | KRetStatExpr => [TT Return; TK]
  | KRetStatNoneComma => [TT Return; TT Semicolon]
  | KRetStatExprComma => [TT Return; TK; TT Semicolon]
  | KStatsRetStat => [TK; TK]
  | KSemicolon => [TT Semicolon]
  | _ => []
  end.

(** the parts [ps] with position number [i], [i+1], .. between them; the children are numbered from [j] on *)
Definition nil_slots : list slot := [STok Nil].
Fixpoint fill (ls : list loc) (ks : list (list slot)) (i j : nat) (ps : list part) : list slot :=
  match ps with
  | [] => []
  | p :: r =>
      let j' := match p with TT _ => j | TK => S j end in
      match p with TT t => [STok t] | TK => nth j ks nil_slots end
      ++ match r with [] => [] | _ => SGap (nth i ls dummy_loc) :: fill ls ks (S i) j' r end
  end.

(** operators by their text *)
Definition op_tokens : list token :=
  [OpExponentiation; OpLength; OpMultiplication; OpDivision; OpFloorDivision; OpModulo; OpAddition; Minus;
   OpConcatenation; OpLeftShift; OpRightShift; OpBitwiseAnd; Tilde; OpBitwiseOr; OpEquality; OpInequality; OpLessThan;
   OpGreaterThan; OpLessOrEqual; OpGreaterOrEqual; OpLogicalAnd; OpLogicalOr].
Definition op_token (s : str) : token :=
  match find (fun t => str_eqb (spelling t) s) op_tokens with Some t => t | None => Variable_ s end.

(** lists: the layout of each item between its positions *)
Definition sslots := (loc * list slot * loc * str)%type.
Fixpoint commas (t : token) (l : list sslots) : list slot :=
  match l with
  | [] => []
  | (p, x, q, _) :: r => SGap p :: x ++ SGap q :: match r with [] => [] | _ => STok t :: commas t r end
  end.
Fixpoint fields (l : list sslots) : list slot :=
  match l with
  | [] => []
  | (p, x, q, z) :: r => SGap p :: x ++ SGap q :: match r with [] => [STrail z] | _ => SSep z :: fields r end
  end.
Definition listed (l : list (loc * list slot)) : list slot := flat_map (fun x => SGap (fst x) :: snd x) l.

Fixpoint layout (n : node) : list slot :=
  let '(Nd k _ ls t lv ks is ss _) := n in
  let K := map layout ks in
  let I := map (fun x => (fst x, layout (snd x))) is in
  let Ss := map (fun x => (fst (fst (fst x)), layout (snd (fst (fst x))), snd (fst x), snd x)) ss in
  let gap i := SGap (nth i ls dummy_loc) in
  let sub i := nth i K nil_slots in
  match k with
  | KBinaryOp => sub 0 ++ [gap 0; STok (op_token t); gap 1] ++ sub 1
  | KUnaryOp => [STok (op_token t); gap 0] ++ sub 0
  | KName => [STok (Variable_ t)]
  | KNumeral => [STok (Numeral t)]
  | KNormalStringLiteral => [STok (NormalStringLiteral t)]
  | KCharStringLiteral => [STok (CharStringLiteral t)]
  | KMultiLineStringLiteral => [STok (MultiLineStringLiteral lv t)]
  | KSheBang => [STok (SheBang t)]
  | KStatementList | KVarSuffixList | KElseIfThenVec => listed I
  | KExpList | KNameList | KVarList | KParList => commas Comma Ss
  | KFuncName => commas Period Ss
  | KFuncNameSelf => commas Period Ss ++ [gap 0; STok Colon; gap 1] ++ sub 0
  | KFields => fields Ss
  | KChunk => gap 0 :: sub 0 ++ [gap 1; STok EOF]
  | KSheBangChunk => gap 0 :: sub 0 ++ gap 1 :: sub 1 ++ [gap 2; STok EOF]
  | KTableConstructor => SVoid :: fill ls K 0 0 (template k)
  | _ => fill ls K 0 0 (template k)
  end.

Definition is_sep (t : token) (z : str) : Prop := (t = Comma \/ t = Semicolon) /\ z = spelling t.
Definition begins (w : list ptok) (l : nat) : Prop := exists t r w', w = (l, t, r) :: w'.

(** [lay p ss e w]: from index [p] to [e] the slots are exactly the tokens [w]; a position is the hole between the
    tokens around it, or empty. *)
Inductive lay : nat -> list slot -> nat -> list ptok -> Prop :=
| ly_nil : forall p, lay p [] p []
| ly_gap : forall a b ss e w, a = b \/ begins w b -> lay b ss e w -> lay a (SGap (a, b) :: ss) e w
| ly_tok : forall l t r ss e w, lay r ss e w -> lay l (STok t :: ss) e ((l, t, r) :: w)
| ly_sep : forall l t z r ss e w, is_sep t z -> lay r ss e w -> lay l (SSep z :: ss) e ((l, t, r) :: w)
| ly_trail : forall l t z r ss e w, is_sep t z -> lay r ss e w -> lay l (STrail z :: ss) e ((l, t, r) :: w)
| ly_trail0 : forall p ss e w, lay p ss e w -> lay p (STrail [] :: ss) e w
| ly_void : forall p ss e w, lay p ss e w -> lay p (SVoid :: ss) e w.

(** ** spans *)
Definition children (n : node) : list node :=
  map si_node (n_seps n) ++ n_kids n ++ map snd (n_items n).
(** [l] is a sequence of disjoint ranges between [a] and [b], from left to right *)
Fixpoint ordered (a b : nat) (l : list loc) : Prop :=
  match l with
  | [] => a <= b
  | (x, y) :: r => a <= x /\ x <= y /\ ordered y b r
  end.
(** the spans of the children of every node are disjoint, ordered and inside its own span *)
Inductive nested : node -> Prop :=
| nested_intro : forall n, ordered (fst (n_span n)) (snd (n_span n)) (map n_span (children n)) ->
    (forall x, In x (children n) -> nested x) -> nested n.

(** [reads src ss s]: the spellings of the tokens and the texts of [src] at the positions between them, in the order
    of the slots, give [s]. *)
Inductive reads (src : str) : list slot -> str -> Prop :=
| rd_nil : reads src [] []
| rd_tok : forall t w ss s, written t w s -> reads src ss s -> reads src (STok t :: ss) (w ++ s)
| rd_gap : forall a b ss s, reads src ss s -> reads src (SGap (a, b) :: ss) (text_at src a b ++ s)
| rd_sep : forall z ss s, reads src ss s -> reads src (SSep z :: ss) (z ++ s)
| rd_trail : forall z ss s, reads src ss s -> reads src (STrail z :: ss) (z ++ s)
| rd_void : forall ss s, reads src ss s -> reads src (SVoid :: ss) s.
(** the items of the text before index [b]; only the end of the text ends a one-line comment without line feed *)
Definition gap_at (src : str) (b : nat) (g : list gitem) : Prop := gap g \/ (b = List.length src /\ last_gap g).
(** the text at a position is blanks, newlines and comments *)
Definition slot_ok (src : str) (s : slot) : Prop :=
  match s with
  | SGap (a, b) => a <= b /\ b <= List.length src /\ exists g, gap_at src b g /\ text_at src a b = gap_text g
  | STok t => token_ok t \/ t = EOF
  | SSep z => z = s2l "," \/ z = s2l ";"
  | STrail z => z = [] \/ z = s2l "," \/ z = s2l ";"
  | SVoid => True
  end.
