(** Model of the syntax tree of src/parser/lua_ast.rs:12-133. *)
From Verif Require Import Base.

(** One constructor per variant of [enum Node], lua_ast.rs:40-133, same names. *)
Inductive kind :=
| KBinaryOp | KUnaryOp | KUnaryNot
| KVar | KRoundBrackets | KArgsRoundBrackets | KArgsRoundBracketsEmpty
| KNil | KFalse | KTrue | KVarArg | KBreak | KNumeral
| KNormalStringLiteral | KCharStringLiteral | KMultiLineStringLiteral
| KTableConstructor | KTableConstructorEmpty | KFields | KFieldNamedBracket | KFieldNamed
| KFieldSequential | KTableIndex | KTableMember
| KExpList | KNameList | KParList | KVarList | KVarRoundSuffix | KVarSuffixList | KFnMethodCall
| KFunctionDef | KFuncBody | KFuncBodyB | KFuncPBody | KFuncPBodyB
| KFuncName | KFuncNameSelf | KFuncDecl | KLocalFuncDecl
| KStatementList | KDoEnd | KDoBEnd | KVarsExprs | KName | KLabel | KGoTo
| KWhileDo | KWhileDoB | KRepeatUntil | KRepeatBUntil
| KForInt | KForIntB | KForIntStep | KForIntStepB | KForRange | KForRangeB
| KLocalNames | KLocalNamesExprs
| KIfThen | KIfThenB | KIfThenElse | KIfThenBElse | KIfThenElseB | KIfThenBElseB
| KIfThenElseIf | KIfThenBElseIf | KIfThenElseIfElse | KIfThenBElseIfElse
| KIfThenElseIfElseB | KIfThenBElseIfElseB | KElseIfThenVec | KElseIfThen | KElseIfThenB
| KRetStatNone | KRetStatExpr | KRetStatNoneComma | KRetStatExprComma | KStatsRetStat
| KChunk | KSheBangChunk | KSemicolon | KSheBang.

(** lua_ast.rs:14-38 [TableConstructorOpts], [FieldsOpts] without their [Cell]s (the cells live in a
    separate store, Writer.v). *)
Record opts := mk_opts { o_iv : option bool; o_single : option bool }.
Definition no_opts : opts := mk_opts None None.

(** A Rust variant [V(span, [l0; l1; ..], n0, n1, ..)] is
    [Nd KV span [l0; l1; ..] text level [n0; n1; ..] items seps opts]:
    - [locs]   the array of gap positions ([Chunk(locl, n, locr)] has span (0,0)-irrelevant and
               locs [locl; locr], [SheBangChunk] has locs [locl; locm; locr]);
    - [text]   the [String]/[Str] payload (operator, name, literal);
    - [level]  the level of [MultiLineStringLiteral];
    - [kids]   the boxed children in order;
    - [items]  the [Vec<(Loc, Node)>] of list nodes;
    - [seps]   the [Vec<(Loc, Node, Loc, String)>] of separated list nodes.
    Fields a variant does not have are empty. *)
Inductive node :=
| Nd (k : kind) (span : loc) (locs : list loc) (text : str) (level : nat)
     (kids : list node) (items : list (loc * node)) (seps : list (loc * node * loc * str)) (o : opts).

Definition sitem := (loc * node * loc * str)%type.

Definition n_kind (n : node) := let '(Nd k _ _ _ _ _ _ _ _) := n in k.
Definition n_span (n : node) := let '(Nd _ s _ _ _ _ _ _ _) := n in s.
Definition n_locs (n : node) := let '(Nd _ _ l _ _ _ _ _ _) := n in l.
Definition n_text (n : node) := let '(Nd _ _ _ t _ _ _ _ _) := n in t.
Definition n_level (n : node) := let '(Nd _ _ _ _ l _ _ _ _) := n in l.
Definition n_kids (n : node) := let '(Nd _ _ _ _ _ k _ _ _) := n in k.
Definition n_items (n : node) := let '(Nd _ _ _ _ _ _ i _ _) := n in i.
Definition n_seps (n : node) := let '(Nd _ _ _ _ _ _ _ s _) := n in s.
Definition n_opts (n : node) := let '(Nd _ _ _ _ _ _ _ _ o) := n in o.

Definition si_loc (i : sitem) := fst (fst (fst i)).
Definition si_node (i : sitem) := snd (fst (fst i)).
Definition si_loc2 (i : sitem) := snd (fst i).
Definition si_sep (i : sitem) := snd i.

(** Smart constructors *)
Definition nd (k : kind) (span : loc) (locs : list loc) (kids : list node) : node :=
  Nd k span locs [] 0 kids [] [] no_opts.
Definition leaf (k : kind) (span : loc) (text : str) : node := Nd k span [] text 0 [] [] [] no_opts.
Definition nlist (k : kind) (span : loc) (items : list (loc * node)) : node :=
  Nd k span [] [] 0 [] items [] no_opts.
Definition nseps (k : kind) (span : loc) (seps : list sitem) : node :=
  Nd k span [] [] 0 [] [] seps no_opts.

Definition dummy_node : node := leaf KNil (0, 0) [].
Definition dummy_loc : loc := (0, 0).

Definition kid (n : node) (i : nat) : node := nth i (n_kids n) dummy_node.
Definition nloc (n : node) (i : nat) : loc := nth i (n_locs n) dummy_loc.

Scheme Equality for kind.

(** height of a tree: the recursion bound of the functions over trees *)
Fixpoint height (n : node) : nat :=
  let '(Nd _ _ _ _ _ kids items seps _) := n in
  S (Nat.max (fold_right Nat.max 0 (map height kids))
       (Nat.max (fold_right Nat.max 0 (map (fun x => height (snd x)) items))
          (fold_right Nat.max 0 (map (fun x => height (snd (fst (fst x)))) seps)))).
