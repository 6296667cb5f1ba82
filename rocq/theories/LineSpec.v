(** Specification vocabulary for the lines of a formatted text: where the statements, blocks and closing words of a tree are, and
    how deep they are. *)
From Verif Require Import Base Config State Ast LayoutSpec PrettySpec.

(** A line with the indentation of depth [d] starts before index [q] of [o], and nothing else is between. *)
Definition line_at (c : config) (o : str) (q d : nat) : Prop := exists y, firstn q o = y ++ [10%N] ++ indentation c d.

(** Statements and all blocks are put on lines of their own. *)
Definition breaking (c : config) : Prop :=
  cn c N_newline_format_statement <> None
  /\ forall k, In k [N_newline_format_function; N_newline_format_if; N_newline_format_while; N_newline_format_repeat_until;
                     N_newline_format_for; N_newline_format_do_end] -> cn c k = Some 1%N.

(** ** parts of constructs, by their number in [template] *)
(** blocks *)
Definition bodies (k : kind) : list nat :=
  match k with
  | KDoBEnd | KRepeatBUntil => [1]
  | KFuncBodyB => [2]
  | KFuncPBodyB | KWhileDoB | KIfThenB | KIfThenBElse | KIfThenBElseIf | KIfThenBElseIfElse | KElseIfThenB => [3]
  | KIfThenElseB => [4]
  | KIfThenElseIfElseB | KForRangeB => [5]
  | KForIntB => [7]
  | KForIntStepB => [9]
  | KIfThenBElseB => [3; 5]
  | KIfThenBElseIfElseB => [3; 6]
  | _ => []
  end.
(** lists of [elseif] branches *)
Definition branches (k : kind) : list nat :=
  match k with
  | KIfThenElseIf | KIfThenElseIfElse | KIfThenElseIfElseB => [3]
  | KIfThenBElseIf | KIfThenBElseIfElse | KIfThenBElseIfElseB => [4]
  | _ => []
  end.
(** parameters *)
Definition parameters (k : kind) : list nat := match k with KFuncPBody | KFuncPBodyB => [1] | _ => [] end.
(** lists of expressions, arguments and suffixes, with an indentation of their own if they hang *)
Definition hanging (k : kind) : list nat :=
  match k with
  | KVar | KArgsRoundBrackets | KRetStatExpr | KRetStatExprComma => [1]
  | KVarsExprs => [2]
  | KVarRoundSuffix | KForRange | KForRangeB | KLocalNamesExprs => [3]
  | _ => []
  end.
Definition is_kid (p : part) : bool := match p with TK => true | TT _ => false end.
(** part number [t] of [n] *)
Definition part_at (n : node) (t : nat) : option node :=
  nth_error (n_kids n) (List.length (filter is_kid (firstn t (template (n_kind n))))).
(** the index where part number [S t] of [n] starts *)
Definition part_start (n : node) (t : nat) : nat := snd (nth t (n_locs n) dummy_loc).

(** [within c n d op m e op']: the tree [n], at depth [d] and inside an expression with operator [op], has the node [m] in it, at
    depth [e] and inside an expression with operator [op']. One deeper are blocks, parameters, lists that hang, fields of tables
    and operands, but not the operands of the operator of an operand. *)
Inductive within (c : config) : node -> nat -> option str -> node -> nat -> option str -> Prop :=
| wi_here : forall n d op, within c n d op n d op
| wi_deeper : forall n d op t x m e op', In t (bodies (n_kind n) ++ parameters (n_kind n)) -> part_at n t = Some x ->
    within c x (S d) None m e op' -> within c n d op m e op'
| wi_hangs : forall n d op t x m e op', In t (hanging (n_kind n)) -> part_at n t = Some x -> hangs c x = true ->
    within c x (S d) None m e op' -> within c n d op m e op'
| wi_part : forall n d op t x m e op', nth_error (template (n_kind n)) t = Some TK -> n_kind n <> KTableConstructor ->
    ~ In t (bodies (n_kind n) ++ parameters (n_kind n)) -> (In t (hanging (n_kind n)) -> hangs c x = false) ->
    part_at n t = Some x -> within c x d op m e op' -> within c n d op m e op'
| wi_operand : forall n d op i x m e op', n_kind n = KBinaryOp -> i < 2 -> nth_error (n_kids n) i = Some x ->
    within c x (match op with Some o => if str_eqb o (n_text n) then d else S d | None => S d end) (Some (n_text n)) m e op' ->
    within c n d op m e op'
| wi_unary : forall n d op x m e op', n_kind n = KUnaryOp -> nth_error (n_kids n) 0 = Some x -> within c x d op m e op' ->
    within c n d op m e op'
| wi_fields : forall n d op x m e op', n_kind n = KTableConstructor -> nth_error (n_kids n) 0 = Some x ->
    within c x (S d) None m e op' -> within c n d op m e op'
| wi_chunk : forall n d op x m e op', n_kind n = KChunk \/ n_kind n = KSheBangChunk -> In x (n_kids n) ->
    within c x d op m e op' -> within c n d op m e op'
| wi_item : forall n d op l x m e op', In (n_kind n) [KStatementList; KElseIfThenVec; KVarSuffixList] -> In (l, x) (n_items n) ->
    within c x d op m e op' -> within c n d op m e op'
| wi_element : forall n d op l x r z m e op', In (n_kind n) [KExpList; KVarList; KFields] -> In (l, x, r, z) (n_seps n) ->
    within c x d op m e op' -> within c n d op m e op'.

(** [opens_line m e q d]: because of [m], at depth [e], a line with the indentation of depth [d] starts before index
    [q]: every statement after another one, every [elseif], every block, and what follows a block ([end], [else], [elseif],
    [until]). *)
Inductive opens_line (m : node) (e : nat) : nat -> nat -> Prop :=
| ol_item : forall a l x b, n_kind m = KStatementList \/ n_kind m = KElseIfThenVec -> n_items m = a ++ (l, x) :: b -> a <> [] ->
    opens_line m e (snd l) e
| ol_return : n_kind m = KStatsRetStat -> opens_line m e (part_start m 0) e
| ol_block : forall t, In (S t) (bodies (n_kind m)) -> opens_line m e (part_start m t) (S e)
| ol_branches : forall t, In (S t) (branches (n_kind m)) -> opens_line m e (part_start m t) e
| ol_after : forall t, In t (bodies (n_kind m) ++ branches (n_kind m)) -> S t < List.length (template (n_kind m)) ->
    opens_line m e (part_start m t) e.
