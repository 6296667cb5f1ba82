(** The grammar of src/parser/lua_syntax.lalrpop as data: one entry per alternative, in file order,
    with its semantic action. Macro nonterminals are expanded for the instances in use.
    [VarSuffixNoEndPar] (lua_syntax.lalrpop:349-354) is not reachable from [Chunk] and is left out. *)
From Verif Require Import Base LuaLexer Ast LR.

(** Semantic values: [Token]/[String] payloads, [Node], [Vec<(Loc, Node)>], [Vec<(Loc, Node, Loc, String)>]. *)
Inductive val :=
| VTok (t : token)
| VNode (n : node)
| VItems (l : list (loc * node))
| VSeps (l : list sitem)
| VBad.

Definition args := list (located val).

(** lua_lexer.rs:76-153, [Display for Token], for the separators written with [sep.to_string()] *)
Definition sep_string (v : val) : str :=
  match v with
  | VTok Comma => s2l ","
  | VTok LuaLexer.Semicolon => s2l ";"
  | VTok Period => s2l "."
  | _ => []
  end.

(** Positions. [@L] before the first symbol is its start, [@R] after the last one its end; between two
    symbols [<l:@R> <r:@L>] is (end of the left one, start of the right one). *)
Definition span (a : args) : loc := (a_start a, a_end a).
Fixpoint gaps (a : args) : list loc :=
  match a with
  | (_, _, r) :: (((l, _, _) :: _) as rest) => (r, l) :: gaps rest
  | _ => []
  end.
Definition gap (i : nat) (a : args) : loc := nth i (gaps a) dummy_loc.

Definition val_nodes (v : val) : list node := match v with VNode n => [n] | _ => [] end.
Definition arg_val (i : nat) (a : args) : val := nth i (map (fun x => snd (fst x)) a) VBad.
Definition arg_node (i : nat) (a : args) : node := match arg_val i a with VNode n => n | _ => dummy_node end.
Definition arg_items (i : nat) (a : args) : list (loc * node) := match arg_val i a with VItems l => l | _ => [] end.
Definition arg_seps (i : nat) (a : args) : list sitem := match arg_val i a with VSeps l => l | _ => [] end.

(** Action [=> Node::K(Loc(ls, rs), [all gaps in order], Box of every node child in order)]. *)
Definition mkn (k : kind) (a : args) : val :=
  VNode (nd k (span a) (gaps a) (flat_map (fun x => val_nodes (snd (fst x))) a)).
(** An alternative without action: the value of its only symbol. *)
Definition pass (a : args) : val := arg_val 0 a.
(** Operators: [Node::BinaryOp(.., Str(op), ..)], [Node::UnaryOp(.., Str(op), ..)]. *)
Definition mkbin (op : string) (a : args) : val :=
  VNode (Nd KBinaryOp (span a) (gaps a) (s2l op) 0 [arg_node 0 a; arg_node 2 a] [] [] no_opts).
Definition mkun (op : string) (a : args) : val :=
  VNode (Nd KUnaryOp (span a) (gaps a) (s2l op) 0 [arg_node 1 a] [] [] no_opts).
(** Leaves: [Node::K(Loc(ls, rs), payload)]. *)
Definition mkleaf (k : kind) (a : args) : val :=
  match arg_val 0 a with
  | VTok (Variable_ s) | VTok (LuaLexer.Numeral s) | VTok (NormalStringLiteral s) | VTok (CharStringLiteral s)
  | VTok (LuaLexer.SheBang s) => VNode (leaf k (span a) s)
  | VTok (MultiLineStringLiteral lv s) => VNode (Nd k (span a) [] s lv [] [] [] no_opts)
  | _ => VNode (leaf k (span a) [])
  end.

(** lua_syntax.lalrpop:63-66 *)
Definition act_chunk_empty (a : args) : val :=
  let rs := a_start a in
  VNode (nd KChunk (0, rs) [(0, rs); (rs, rs)] [nlist KStatementList (rs, rs) []]).
(** lua_syntax.lalrpop:67-72 *)
Definition act_chunk (a : args) : val :=
  VNode (nd KChunk (0, a_start a) [(0, a_start a); gap 0 a] [arg_node 0 a]).
(** lua_syntax.lalrpop:73-75 *)
Definition act_shebang_chunk (a : args) : val :=
  VNode (nd KSheBangChunk (0, a_start a) [(0, a_start a); gap 0 a; gap 1 a] [arg_node 0 a; arg_node 1 a]).

Definition lstart (a : args) : loc := (a_start a, a_start a).
Definition lend (a : args) : loc := (a_end a, a_end a).

(** lua_syntax.lalrpop:90-94: the list [(Loc(ls, ls), n)] *)
Definition act_list1 (k : kind) (a : args) : val :=
  VNode (nlist k (span a) [(lstart a, arg_node 0 a)]).
(** replaces the position of the first item: [v[0].0 = Loc(l, r)] *)
Definition set_first (l : loc) (v : list (loc * node)) : list (loc * node) :=
  match v with [] => [] | (_, n) :: r => (l, n) :: r end.
Definition sset_first (l : loc) (v : list sitem) : list sitem :=
  match v with [] => [] | (_, n, l2, s) :: r => (l, n, l2, s) :: r end.
(** lua_syntax.lalrpop:95-102 *)
Definition act_list_cons (k : kind) (a : args) : val :=
  VNode (nlist k (span a) ((lstart a, arg_node 0 a) :: set_first (gap 0 a) (arg_items 1 a))).
(** lua_syntax.lalrpop:103, 245, 346 *)
Definition act_list (k : kind) (a : args) : val := VNode (nlist k (span a) (arg_items 0 a)).
(** lua_syntax.lalrpop:109-114 *)
Definition act_list2 (k : kind) (a : args) : val :=
  VNode (nlist k (span a) [(lstart a, arg_node 0 a); (gap 0 a, arg_node 1 a)]).

(** lua_syntax.lalrpop:272-273, 369, 373, 414, 430 *)
Definition act_seps (k : kind) (a : args) : val := VNode (nseps k (span a) (arg_seps 0 a)).
(** lua_syntax.lalrpop:274-275 *)
Definition act_funcnameself (a : args) : val :=
  VNode (Nd KFuncNameSelf (span a) (gaps a) [] 0 [arg_node 2 a] [] (arg_seps 0 a) no_opts).
(** lua_syntax.lalrpop:293-297 *)
Definition act_varlist1 (a : args) : val :=
  VNode (nseps KVarList (span a) [(lstart a, arg_node 0 a, lend a, [])]).
(** lua_syntax.lalrpop:282-289, 298-305 *)
Definition act_varlist_cons (a : args) : val :=
  VNode (nseps KVarList (span a)
           ((lstart a, arg_node 0 a, gap 0 a, s2l ",") :: sset_first (gap 1 a) (arg_seps 2 a))).

(** lua_syntax.lalrpop:10-14, 15-19 [TList] *)
Definition act_tlist1 (a : args) : val := VItems [(lstart a, arg_node 0 a)].
Definition act_tlist_snoc (a : args) : val := VItems (arg_items 0 a ++ [(gap 0 a, arg_node 1 a)]).
(** lua_syntax.lalrpop:24-28; also 41-49 [TSepEndList] when the separator is absent: [@L] with no symbol
    after it is the end of the last symbol, so [Loc(l2, r2)] is empty *)
Definition act_sep1 (a : args) : val := VSeps [(lstart a, arg_node 0 a, lend a, [])].
(** lua_syntax.lalrpop:29-36, 50-58 *)
Definition act_sep_cons (a : args) : val :=
  VSeps ((lstart a, arg_node 0 a, gap 0 a, sep_string (arg_val 1 a)) :: sset_first (gap 1 a) (arg_seps 2 a)).
(** lua_syntax.lalrpop:41-49 with a separator *)
Definition act_sepend1 (a : args) : val :=
  VSeps [(lstart a, arg_node 0 a, gap 0 a, sep_string (arg_val 1 a))].

(** Terminals, lua_syntax.lalrpop:564-630 *)
Definition t_OpExponentiation : N := 0%N.
Definition t_OpLogicalNot : N := 1%N.
Definition t_OpLength : N := 2%N.
Definition t_OpMultiplication : N := 3%N.
Definition t_OpDivision : N := 4%N.
Definition t_OpFloorDivision : N := 5%N.
Definition t_OpModulo : N := 6%N.
Definition t_OpAddition : N := 7%N.
Definition t_Minus : N := 8%N.
Definition t_OpConcatenation : N := 9%N.
Definition t_OpLeftShift : N := 10%N.
Definition t_OpRightShift : N := 11%N.
Definition t_OpBitwiseAnd : N := 12%N.
Definition t_Tilde : N := 13%N.
Definition t_OpBitwiseOr : N := 14%N.
Definition t_OpEquality : N := 15%N.
Definition t_OpInequality : N := 16%N.
Definition t_OpLessThan : N := 17%N.
Definition t_OpGreaterThan : N := 18%N.
Definition t_OpLessOrEqual : N := 19%N.
Definition t_OpGreaterOrEqual : N := 20%N.
Definition t_OpLogicalAnd : N := 21%N.
Definition t_OpLogicalOr : N := 22%N.
Definition t_Semicolon : N := 23%N.
Definition t_Comma : N := 24%N.
Definition t_Colon : N := 25%N.
Definition t_Label : N := 26%N.
Definition t_OpenRoundBracket : N := 27%N.
Definition t_CloseRoundBracket : N := 28%N.
Definition t_OpenSquareBracket : N := 29%N.
Definition t_CloseSquareBracket : N := 30%N.
Definition t_OpenCurlyBracket : N := 31%N.
Definition t_CloseCurlyBracket : N := 32%N.
Definition t_EqualsSign : N := 33%N.
Definition t_Period : N := 34%N.
Definition t_VarArg : N := 35%N.
Definition t_Break : N := 36%N.
Definition t_Do : N := 37%N.
Definition t_Else : N := 38%N.
Definition t_ElseIf : N := 39%N.
Definition t_End : N := 40%N.
Definition t_False : N := 41%N.
Definition t_For : N := 42%N.
Definition t_Function : N := 43%N.
Definition t_GoTo : N := 44%N.
Definition t_If : N := 45%N.
Definition t_In : N := 46%N.
Definition t_Local : N := 47%N.
Definition t_Nil : N := 48%N.
Definition t_Repeat : N := 49%N.
Definition t_Return : N := 50%N.
Definition t_Then : N := 51%N.
Definition t_True : N := 52%N.
Definition t_Until : N := 53%N.
Definition t_While : N := 54%N.
Definition t_Variable : N := 55%N.
Definition t_Numeral : N := 56%N.
Definition t_NormalStringLiteral : N := 57%N.
Definition t_CharStringLiteral : N := 58%N.
Definition t_MultiLineStringLiteral : N := 59%N.
Definition t_SheBang : N := 60%N.
Definition t_EOF : N := 61%N.
Definition t_eoi : N := 62%N.

Definition term_of (t : token) : N :=
  match t with
  | OpExponentiation => t_OpExponentiation
  | OpLogicalNot => t_OpLogicalNot
  | OpLength => t_OpLength
  | OpMultiplication => t_OpMultiplication
  | OpDivision => t_OpDivision
  | OpFloorDivision => t_OpFloorDivision
  | OpModulo => t_OpModulo
  | OpAddition => t_OpAddition
  | Minus => t_Minus
  | OpConcatenation => t_OpConcatenation
  | OpLeftShift => t_OpLeftShift
  | OpRightShift => t_OpRightShift
  | OpBitwiseAnd => t_OpBitwiseAnd
  | Tilde => t_Tilde
  | OpBitwiseOr => t_OpBitwiseOr
  | OpEquality => t_OpEquality
  | OpInequality => t_OpInequality
  | OpLessThan => t_OpLessThan
  | OpGreaterThan => t_OpGreaterThan
  | OpLessOrEqual => t_OpLessOrEqual
  | OpGreaterOrEqual => t_OpGreaterOrEqual
  | OpLogicalAnd => t_OpLogicalAnd
  | OpLogicalOr => t_OpLogicalOr
  | LuaLexer.Semicolon => t_Semicolon
  | Comma => t_Comma
  | Colon => t_Colon
  | LuaLexer.Label => t_Label
  | OpenRoundBracket => t_OpenRoundBracket
  | CloseRoundBracket => t_CloseRoundBracket
  | OpenSquareBracket => t_OpenSquareBracket
  | CloseSquareBracket => t_CloseSquareBracket
  | OpenCurlyBracket => t_OpenCurlyBracket
  | CloseCurlyBracket => t_CloseCurlyBracket
  | EqualsSign => t_EqualsSign
  | Period => t_Period
  | VarArg => t_VarArg
  | Break => t_Break
  | Do => t_Do
  | Else => t_Else
  | ElseIf => t_ElseIf
  | End => t_End
  | False_ => t_False
  | For => t_For
  | Function_ => t_Function
  | GoTo => t_GoTo
  | If_ => t_If
  | In_ => t_In
  | Local_ => t_Local
  | Nil => t_Nil
  | Repeat => t_Repeat
  | Return => t_Return
  | Then => t_Then
  | True_ => t_True
  | Until => t_Until
  | While => t_While
  | Variable_ _ => t_Variable
  | Numeral _ => t_Numeral
  | NormalStringLiteral _ => t_NormalStringLiteral
  | CharStringLiteral _ => t_CharStringLiteral
  | MultiLineStringLiteral _ _ => t_MultiLineStringLiteral
  | SheBang _ => t_SheBang
  | EOF => t_EOF
  end.

(** Nonterminals *)
Definition n_Chunk_ : N := 0%N.
Definition n_Block_ : N := 1%N.
Definition n_SheBangLine_ : N := 2%N.
Definition n_Stats_ : N := 3%N.
Definition n_Stat_ : N := 4%N.
Definition n_StatStartsMayEndsPar_ : N := 5%N.
Definition n_StatMayEndsPar_ : N := 6%N.
Definition n_StatNoPar_ : N := 7%N.
Definition n_ElseIfThenVec_ : N := 8%N.
Definition n_ElseIfThen_ : N := 9%N.
Definition n_RetStat_ : N := 10%N.
Definition n_Label_ : N := 11%N.
Definition n_FuncName_ : N := 12%N.
Definition n_VarListStartsPar_ : N := 13%N.
Definition n_VarListNoStartPar_ : N := 14%N.
Definition n_FunctionCallNoStartsMayEndsPar_ : N := 15%N.
Definition n_VarNoExp_ : N := 16%N.
Definition n_FunctionCallStartsMayEndsPar_ : N := 17%N.
Definition n_PrefixMayStartsMayEndsPar_ : N := 18%N.
Definition n_VarExp_ : N := 19%N.
Definition n_VarMayExp_ : N := 20%N.
Definition n_VarSuffixList_ : N := 21%N.
Definition n_VarSuffix_ : N := 22%N.
Definition n_NameList_ : N := 23%N.
Definition n_ExpList_ : N := 24%N.
Definition n_Exp_ : N := 25%N.
Definition n_Args_ : N := 26%N.
Definition n_FunctionDef_ : N := 27%N.
Definition n_FuncBody_ : N := 28%N.
Definition n_ParList_ : N := 29%N.
Definition n_Par_ : N := 30%N.
Definition n_TableConstructor_ : N := 31%N.
Definition n_FieldList_ : N := 32%N.
Definition n_Field_ : N := 33%N.
Definition n_FieldSep_ : N := 34%N.
Definition n_OpExp_ : N := 35%N.
Definition n_Op0_ : N := 36%N.
Definition n_Op1_ : N := 37%N.
Definition n_Op2_ : N := 38%N.
Definition n_Op3_ : N := 39%N.
Definition n_Op4_ : N := 40%N.
Definition n_Op5_ : N := 41%N.
Definition n_Op6_ : N := 42%N.
Definition n_Op7_ : N := 43%N.
Definition n_Op8_ : N := 44%N.
Definition n_Op9_ : N := 45%N.
Definition n_Op10_ : N := 46%N.
Definition n_Op11_ : N := 47%N.
Definition n_Name_ : N := 48%N.
Definition n_StringLiteral_ : N := 49%N.
Definition n_TList_Stat_ : N := 50%N.
Definition n_TList_ElseIfThen_ : N := 51%N.
Definition n_TList_VarSuffix_ : N := 52%N.
Definition n_TSepList_Name_dot_ : N := 53%N.
Definition n_TSepList_VarMayExp_ : N := 54%N.
Definition n_TSepList_Name_comma_ : N := 55%N.
Definition n_TSepList_OpExp_ : N := 56%N.
Definition n_TSepList_Par_ : N := 57%N.
Definition n_TSepEndList_Field_ : N := 58%N.

Notation P := (mk_prod (val := val)).

Definition lua_prods : list (prod val) := [
  (* lua_syntax.lalrpop:62-76 Chunk *)
  P n_Chunk_ [T t_EOF] (act_chunk_empty);
  P n_Chunk_ [NT n_SheBangLine_; T t_EOF] (act_chunk);
  P n_Chunk_ [NT n_Block_; T t_EOF] (act_chunk);
  P n_Chunk_ [NT n_SheBangLine_; NT n_Block_; T t_EOF] (act_shebang_chunk);
  (* lua_syntax.lalrpop:78-83 Block *)
  P n_Block_ [NT n_Stats_] (pass);
  P n_Block_ [NT n_RetStat_] (pass);
  P n_Block_ [NT n_Stats_; NT n_RetStat_] (mkn KStatsRetStat);
  (* lua_syntax.lalrpop:85-87 SheBangLine *)
  P n_SheBangLine_ [T t_SheBang] (mkleaf KSheBang);
  (* lua_syntax.lalrpop:89-104 Stats *)
  P n_Stats_ [NT n_StatStartsMayEndsPar_] (act_list1 KStatementList);
  P n_Stats_ [NT n_StatStartsMayEndsPar_; NT n_TList_Stat_] (act_list_cons KStatementList);
  P n_Stats_ [NT n_TList_Stat_] (act_list KStatementList);
  (* lua_syntax.lalrpop:106-115 Stat *)
  P n_Stat_ [NT n_StatNoPar_] (pass);
  P n_Stat_ [NT n_StatMayEndsPar_] (pass);
  P n_Stat_ [NT n_StatNoPar_; NT n_StatStartsMayEndsPar_] (act_list2 KStatementList);
  (* lua_syntax.lalrpop:117-122 StatStartsMayEndsPar *)
  P n_StatStartsMayEndsPar_ [NT n_VarListStartsPar_; T t_EqualsSign; NT n_ExpList_] (mkn KVarsExprs);
  P n_StatStartsMayEndsPar_ [NT n_FunctionCallStartsMayEndsPar_] (pass);
  (* lua_syntax.lalrpop:124-136 StatMayEndsPar *)
  P n_StatMayEndsPar_ [NT n_FunctionCallNoStartsMayEndsPar_] (pass);
  P n_StatMayEndsPar_ [NT n_VarListNoStartPar_; T t_EqualsSign; NT n_ExpList_] (mkn KVarsExprs);
  P n_StatMayEndsPar_ [T t_Repeat; NT n_Block_; T t_Until; NT n_OpExp_] (mkn KRepeatBUntil);
  P n_StatMayEndsPar_ [T t_Repeat; T t_Until; NT n_OpExp_] (mkn KRepeatUntil);
  P n_StatMayEndsPar_ [T t_Local; NT n_NameList_; T t_EqualsSign; NT n_ExpList_] (mkn KLocalNamesExprs);
  (* lua_syntax.lalrpop:138-242 StatNoPar *)
  P n_StatNoPar_ [T t_Semicolon] (mkleaf KSemicolon);
  P n_StatNoPar_ [NT n_Label_] (pass);
  P n_StatNoPar_ [T t_Break] (mkleaf KBreak);
  P n_StatNoPar_ [T t_GoTo; NT n_Name_] (mkn KGoTo);
  P n_StatNoPar_ [T t_Do; T t_End] (mkn KDoEnd);
  P n_StatNoPar_ [T t_Do; NT n_Block_; T t_End] (mkn KDoBEnd);
  P n_StatNoPar_ [T t_While; NT n_OpExp_; T t_Do; T t_End] (mkn KWhileDo);
  P n_StatNoPar_ [T t_While; NT n_OpExp_; T t_Do; NT n_Block_; T t_End] (mkn KWhileDoB);
  P n_StatNoPar_ [T t_If; NT n_OpExp_; T t_Then; T t_End] (mkn KIfThen);
  P n_StatNoPar_ [T t_If; NT n_OpExp_; T t_Then; NT n_Block_; T t_End] (mkn KIfThenB);
  P n_StatNoPar_ [T t_If; NT n_OpExp_; T t_Then; T t_Else; T t_End] (mkn KIfThenElse);
  P n_StatNoPar_ [T t_If; NT n_OpExp_; T t_Then; NT n_Block_; T t_Else; T t_End] (mkn KIfThenBElse);
  P n_StatNoPar_ [T t_If; NT n_OpExp_; T t_Then; T t_Else; NT n_Block_; T t_End] (mkn KIfThenElseB);
  P n_StatNoPar_ [T t_If; NT n_OpExp_; T t_Then; NT n_Block_; T t_Else; NT n_Block_; T t_End] (mkn KIfThenBElseB);
  P n_StatNoPar_ [T t_If; NT n_OpExp_; T t_Then; NT n_ElseIfThenVec_; T t_End] (mkn KIfThenElseIf);
  P n_StatNoPar_ [T t_If; NT n_OpExp_; T t_Then; NT n_Block_; NT n_ElseIfThenVec_; T t_End] (mkn KIfThenBElseIf);
  P n_StatNoPar_ [T t_If; NT n_OpExp_; T t_Then; NT n_ElseIfThenVec_; T t_Else; T t_End] (mkn KIfThenElseIfElse);
  P n_StatNoPar_ [T t_If; NT n_OpExp_; T t_Then; NT n_Block_; NT n_ElseIfThenVec_; T t_Else; T t_End] (mkn KIfThenBElseIfElse);
  P n_StatNoPar_ [T t_If; NT n_OpExp_; T t_Then; NT n_ElseIfThenVec_; T t_Else; NT n_Block_; T t_End] (mkn KIfThenElseIfElseB);
  P n_StatNoPar_ [T t_If; NT n_OpExp_; T t_Then; NT n_Block_; NT n_ElseIfThenVec_; T t_Else; NT n_Block_; T t_End] (mkn KIfThenBElseIfElseB);
  P n_StatNoPar_ [T t_For; NT n_Name_; T t_EqualsSign; NT n_OpExp_; T t_Comma; NT n_OpExp_; T t_Do; T t_End] (mkn KForInt);
  P n_StatNoPar_ [T t_For; NT n_Name_; T t_EqualsSign; NT n_OpExp_; T t_Comma; NT n_OpExp_; T t_Do; NT n_Block_; T t_End] (mkn KForIntB);
  P n_StatNoPar_ [T t_For; NT n_Name_; T t_EqualsSign; NT n_OpExp_; T t_Comma; NT n_OpExp_; T t_Comma; NT n_OpExp_; T t_Do; T t_End] (mkn KForIntStep);
  P n_StatNoPar_ [T t_For; NT n_Name_; T t_EqualsSign; NT n_OpExp_; T t_Comma; NT n_OpExp_; T t_Comma; NT n_OpExp_; T t_Do; NT n_Block_; T t_End] (mkn KForIntStepB);
  P n_StatNoPar_ [T t_For; NT n_NameList_; T t_In; NT n_ExpList_; T t_Do; T t_End] (mkn KForRange);
  P n_StatNoPar_ [T t_For; NT n_NameList_; T t_In; NT n_ExpList_; T t_Do; NT n_Block_; T t_End] (mkn KForRangeB);
  P n_StatNoPar_ [T t_Function; NT n_FuncName_; NT n_FuncBody_] (mkn KFuncDecl);
  P n_StatNoPar_ [T t_Local; T t_Function; NT n_Name_; NT n_FuncBody_] (mkn KLocalFuncDecl);
  P n_StatNoPar_ [T t_Local; NT n_NameList_] (mkn KLocalNames);
  (* lua_syntax.lalrpop:244-246 ElseIfThenVec *)
  P n_ElseIfThenVec_ [NT n_TList_ElseIfThen_] (act_list KElseIfThenVec);
  (* lua_syntax.lalrpop:248-253 ElseIfThen *)
  P n_ElseIfThen_ [T t_ElseIf; NT n_OpExp_; T t_Then] (mkn KElseIfThen);
  P n_ElseIfThen_ [T t_ElseIf; NT n_OpExp_; T t_Then; NT n_Block_] (mkn KElseIfThenB);
  (* lua_syntax.lalrpop:255-264 RetStat *)
  P n_RetStat_ [T t_Return] (mkleaf KRetStatNone);
  P n_RetStat_ [T t_Return; NT n_ExpList_] (mkn KRetStatExpr);
  P n_RetStat_ [T t_Return; T t_Semicolon] (mkn KRetStatNoneComma);
  P n_RetStat_ [T t_Return; NT n_ExpList_; T t_Semicolon] (mkn KRetStatExprComma);
  (* lua_syntax.lalrpop:266-269 Label *)
  P n_Label_ [T t_Label; NT n_Name_; T t_Label] (mkn KLabel);
  (* lua_syntax.lalrpop:271-276 FuncName *)
  P n_FuncName_ [NT n_TSepList_Name_dot_] (act_seps KFuncName);
  P n_FuncName_ [NT n_TSepList_Name_dot_; T t_Colon; NT n_Name_] (act_funcnameself);
  (* lua_syntax.lalrpop:280-290 VarListStartsPar *)
  P n_VarListStartsPar_ [NT n_VarExp_] (pass);
  P n_VarListStartsPar_ [NT n_VarExp_; T t_Comma; NT n_TSepList_VarMayExp_] (act_varlist_cons);
  (* lua_syntax.lalrpop:292-306 VarListNoStartPar *)
  P n_VarListNoStartPar_ [NT n_VarNoExp_] (act_varlist1);
  P n_VarListNoStartPar_ [NT n_VarNoExp_; T t_Comma; NT n_TSepList_VarMayExp_] (act_varlist_cons);
  (* lua_syntax.lalrpop:308-311 FunctionCallNoStartsMayEndsPar *)
  P n_FunctionCallNoStartsMayEndsPar_ [NT n_Name_; NT n_VarSuffixList_] (mkn KVar);
  (* lua_syntax.lalrpop:313-317 VarNoExp *)
  P n_VarNoExp_ [NT n_Name_] (pass);
  P n_VarNoExp_ [NT n_Name_; NT n_VarSuffixList_] (mkn KVar);
  (* lua_syntax.lalrpop:319-324 FunctionCallStartsMayEndsPar *)
  P n_FunctionCallStartsMayEndsPar_ [T t_OpenRoundBracket; NT n_OpExp_; T t_CloseRoundBracket] (mkn KRoundBrackets);
  P n_FunctionCallStartsMayEndsPar_ [T t_OpenRoundBracket; NT n_OpExp_; T t_CloseRoundBracket; NT n_VarSuffixList_] (mkn KVarRoundSuffix);
  (* lua_syntax.lalrpop:326-330 PrefixMayStartsMayEndsPar *)
  P n_PrefixMayStartsMayEndsPar_ [NT n_VarMayExp_] (pass);
  P n_PrefixMayStartsMayEndsPar_ [T t_OpenRoundBracket; NT n_OpExp_; T t_CloseRoundBracket] (mkn KRoundBrackets);
  (* lua_syntax.lalrpop:332-335 VarExp *)
  P n_VarExp_ [T t_OpenRoundBracket; NT n_OpExp_; T t_CloseRoundBracket; NT n_VarSuffixList_] (mkn KVarRoundSuffix);
  (* lua_syntax.lalrpop:337-343 VarMayExp *)
  P n_VarMayExp_ [NT n_Name_] (pass);
  P n_VarMayExp_ [NT n_Name_; NT n_VarSuffixList_] (mkn KVar);
  P n_VarMayExp_ [T t_OpenRoundBracket; NT n_OpExp_; T t_CloseRoundBracket; NT n_VarSuffixList_] (mkn KVarRoundSuffix);
  (* lua_syntax.lalrpop:345-347 VarSuffixList *)
  P n_VarSuffixList_ [NT n_TList_VarSuffix_] (act_list KVarSuffixList);
  (* lua_syntax.lalrpop:356-364 VarSuffix *)
  P n_VarSuffix_ [NT n_Args_] (pass);
  P n_VarSuffix_ [T t_OpenSquareBracket; NT n_OpExp_; T t_CloseSquareBracket] (mkn KTableIndex);
  P n_VarSuffix_ [T t_Period; NT n_Name_] (mkn KTableMember);
  P n_VarSuffix_ [T t_Colon; NT n_Name_; NT n_Args_] (mkn KFnMethodCall);
  (* lua_syntax.lalrpop:368-374 NameList, ExpList *)
  P n_NameList_ [NT n_TSepList_Name_comma_] (act_seps KNameList);
  P n_ExpList_ [NT n_TSepList_OpExp_] (act_seps KExpList);
  (* lua_syntax.lalrpop:376-386 Exp *)
  P n_Exp_ [T t_Nil] (mkleaf KNil);
  P n_Exp_ [T t_False] (mkleaf KFalse);
  P n_Exp_ [T t_True] (mkleaf KTrue);
  P n_Exp_ [T t_Numeral] (mkleaf KNumeral);
  P n_Exp_ [NT n_StringLiteral_] (pass);
  P n_Exp_ [T t_VarArg] (mkleaf KVarArg);
  P n_Exp_ [NT n_FunctionDef_] (pass);
  P n_Exp_ [NT n_PrefixMayStartsMayEndsPar_] (pass);
  P n_Exp_ [NT n_TableConstructor_] (pass);
  (* lua_syntax.lalrpop:388-395 Args *)
  P n_Args_ [T t_OpenRoundBracket; NT n_ExpList_; T t_CloseRoundBracket] (mkn KArgsRoundBrackets);
  P n_Args_ [T t_OpenRoundBracket; T t_CloseRoundBracket] (mkn KArgsRoundBracketsEmpty);
  P n_Args_ [NT n_TableConstructor_] (pass);
  P n_Args_ [NT n_StringLiteral_] (pass);
  (* lua_syntax.lalrpop:397-411 FunctionDef, FuncBody *)
  P n_FunctionDef_ [T t_Function; NT n_FuncBody_] (mkn KFunctionDef);
  P n_FuncBody_ [T t_OpenRoundBracket; T t_CloseRoundBracket; T t_End] (mkn KFuncBody);
  P n_FuncBody_ [T t_OpenRoundBracket; T t_CloseRoundBracket; NT n_Block_; T t_End] (mkn KFuncBodyB);
  P n_FuncBody_ [T t_OpenRoundBracket; NT n_ParList_; T t_CloseRoundBracket; T t_End] (mkn KFuncPBody);
  P n_FuncBody_ [T t_OpenRoundBracket; NT n_ParList_; T t_CloseRoundBracket; NT n_Block_; T t_End] (mkn KFuncPBodyB);
  (* lua_syntax.lalrpop:413-420 ParList, Par *)
  P n_ParList_ [NT n_TSepList_Par_] (act_seps KParList);
  P n_Par_ [NT n_Name_] (pass);
  P n_Par_ [T t_VarArg] (mkleaf KVarArg);
  (* lua_syntax.lalrpop:422-427 TableConstructor *)
  P n_TableConstructor_ [T t_OpenCurlyBracket; NT n_FieldList_; T t_CloseCurlyBracket] (mkn KTableConstructor);
  P n_TableConstructor_ [T t_OpenCurlyBracket; T t_CloseCurlyBracket] (mkn KTableConstructorEmpty);
  (* lua_syntax.lalrpop:429-444 FieldList, Field, FieldSep *)
  P n_FieldList_ [NT n_TSepEndList_Field_] (act_seps KFields);
  P n_Field_ [T t_OpenSquareBracket; NT n_OpExp_; T t_CloseSquareBracket; T t_EqualsSign; NT n_OpExp_] (mkn KFieldNamedBracket);
  P n_Field_ [NT n_Name_; T t_EqualsSign; NT n_OpExp_] (mkn KFieldNamed);
  P n_Field_ [NT n_OpExp_] (mkn KFieldSequential);
  P n_FieldSep_ [T t_Comma] (pass);
  P n_FieldSep_ [T t_Semicolon] (pass);
  (* lua_syntax.lalrpop:446-548 OpExp and operator levels *)
  P n_OpExp_ [NT n_Op0_] (pass);
  P n_Op0_ [NT n_Op0_; T t_OpLogicalOr; NT n_Op1_] (mkbin "or");
  P n_Op0_ [NT n_Op1_] (pass);
  P n_Op1_ [NT n_Op1_; T t_OpLogicalAnd; NT n_Op2_] (mkbin "and");
  P n_Op1_ [NT n_Op2_] (pass);
  P n_Op2_ [NT n_Op2_; T t_OpEquality; NT n_Op3_] (mkbin "==");
  P n_Op2_ [NT n_Op2_; T t_OpInequality; NT n_Op3_] (mkbin "~=");
  P n_Op2_ [NT n_Op2_; T t_OpLessThan; NT n_Op3_] (mkbin "<");
  P n_Op2_ [NT n_Op2_; T t_OpGreaterThan; NT n_Op3_] (mkbin ">");
  P n_Op2_ [NT n_Op2_; T t_OpLessOrEqual; NT n_Op3_] (mkbin "<=");
  P n_Op2_ [NT n_Op2_; T t_OpGreaterOrEqual; NT n_Op3_] (mkbin ">=");
  P n_Op2_ [NT n_Op3_] (pass);
  P n_Op3_ [NT n_Op3_; T t_OpBitwiseOr; NT n_Op4_] (mkbin "|");
  P n_Op3_ [NT n_Op4_] (pass);
  P n_Op4_ [NT n_Op4_; T t_Tilde; NT n_Op5_] (mkbin "~");
  P n_Op4_ [NT n_Op5_] (pass);
  P n_Op5_ [NT n_Op5_; T t_OpBitwiseAnd; NT n_Op6_] (mkbin "&");
  P n_Op5_ [NT n_Op6_] (pass);
  P n_Op6_ [NT n_Op6_; T t_OpLeftShift; NT n_Op7_] (mkbin "<<");
  P n_Op6_ [NT n_Op6_; T t_OpRightShift; NT n_Op7_] (mkbin ">>");
  P n_Op6_ [NT n_Op7_] (pass);
  P n_Op7_ [NT n_Op7_; T t_OpConcatenation; NT n_Op8_] (mkbin "..");
  P n_Op7_ [NT n_Op8_] (pass);
  P n_Op8_ [NT n_Op8_; T t_OpAddition; NT n_Op9_] (mkbin "+");
  P n_Op8_ [NT n_Op8_; T t_Minus; NT n_Op9_] (mkbin "-");
  P n_Op8_ [NT n_Op9_] (pass);
  P n_Op9_ [NT n_Op9_; T t_OpMultiplication; NT n_Op10_] (mkbin "*");
  P n_Op9_ [NT n_Op9_; T t_OpDivision; NT n_Op10_] (mkbin "/");
  P n_Op9_ [NT n_Op9_; T t_OpFloorDivision; NT n_Op10_] (mkbin "//");
  P n_Op9_ [NT n_Op9_; T t_OpModulo; NT n_Op10_] (mkbin "%");
  P n_Op9_ [NT n_Op10_] (pass);
  P n_Op10_ [T t_OpLogicalNot; NT n_Op10_] (mkn KUnaryNot);
  P n_Op10_ [T t_OpLength; NT n_Op11_] (mkun "#");
  P n_Op10_ [T t_Minus; NT n_Op11_] (mkun "-");
  P n_Op10_ [T t_Tilde; NT n_Op11_] (mkun "~");
  P n_Op10_ [NT n_Op11_] (pass);
  P n_Op11_ [NT n_Op11_; T t_OpExponentiation; NT n_Exp_] (mkbin "^");
  P n_Op11_ [NT n_Exp_] (pass);
  (* lua_syntax.lalrpop:550-558 Name, StringLiteral *)
  P n_Name_ [T t_Variable] (mkleaf KName);
  P n_StringLiteral_ [T t_NormalStringLiteral] (mkleaf KNormalStringLiteral);
  P n_StringLiteral_ [T t_CharStringLiteral] (mkleaf KCharStringLiteral);
  P n_StringLiteral_ [T t_MultiLineStringLiteral] (mkleaf KMultiLineStringLiteral);
  (* lua_syntax.lalrpop:9-20 TList<T>, instances used *)
  P n_TList_Stat_ [NT n_Stat_] (act_tlist1);
  P n_TList_Stat_ [NT n_TList_Stat_; NT n_Stat_] (act_tlist_snoc);
  P n_TList_ElseIfThen_ [NT n_ElseIfThen_] (act_tlist1);
  P n_TList_ElseIfThen_ [NT n_TList_ElseIfThen_; NT n_ElseIfThen_] (act_tlist_snoc);
  P n_TList_VarSuffix_ [NT n_VarSuffix_] (act_tlist1);
  P n_TList_VarSuffix_ [NT n_TList_VarSuffix_; NT n_VarSuffix_] (act_tlist_snoc);
  (* lua_syntax.lalrpop:23-37 TSepList<T, C>, instances used *)
  P n_TSepList_Name_dot_ [NT n_Name_] (act_sep1);
  P n_TSepList_Name_dot_ [NT n_Name_; T t_Period; NT n_TSepList_Name_dot_] (act_sep_cons);
  P n_TSepList_VarMayExp_ [NT n_VarMayExp_] (act_sep1);
  P n_TSepList_VarMayExp_ [NT n_VarMayExp_; T t_Comma; NT n_TSepList_VarMayExp_] (act_sep_cons);
  P n_TSepList_Name_comma_ [NT n_Name_] (act_sep1);
  P n_TSepList_Name_comma_ [NT n_Name_; T t_Comma; NT n_TSepList_Name_comma_] (act_sep_cons);
  P n_TSepList_OpExp_ [NT n_OpExp_] (act_sep1);
  P n_TSepList_OpExp_ [NT n_OpExp_; T t_Comma; NT n_TSepList_OpExp_] (act_sep_cons);
  P n_TSepList_Par_ [NT n_Par_] (act_sep1);
  P n_TSepList_Par_ [NT n_Par_; T t_Comma; NT n_TSepList_Par_] (act_sep_cons);
  (* lua_syntax.lalrpop:40-59 TSepEndList<Field, FieldSep>; the optional separator gives two productions *)
  P n_TSepEndList_Field_ [NT n_Field_] (act_sep1);
  P n_TSepEndList_Field_ [NT n_Field_; NT n_FieldSep_] (act_sepend1);
  P n_TSepEndList_Field_ [NT n_Field_; NT n_FieldSep_; NT n_TSepEndList_Field_] (act_sep_cons)
].

Definition lua_grammar : grammar token val :=
  mk_grammar term_of VTok lua_prods n_Chunk_.
