(** Specification vocabulary for the layout of the regular constructs under every configuration. *)
From Coq Require Import ZArith.
From Verif Require Import Base Config State LuaLexer Ast WriterBase LexSpec LayoutSpec TotalSpec PrettySpec OneLineSpec OperatorSpec TableSpec ListSpec.

(** the constructs that are tokens and children in a fixed order, except tables *)
Definition regular (k : kind) : Prop := template k <> [] /\ ~ In k [KTableConstructor; KTableConstructorEmpty].

Definition next_child (p : part) (j : nat) : nat := match p with TT _ => j | TK => S j end.
Definition part_step (x : node -> M unit) (n : node) (p : part) (j : nat) : M unit := match p with TT t => emit (spelling t) | TK => x (kid n j) end.
Definition deeper (hung : bool) (pl : place) : bool := match pl with Here => false | Deeper => true | Hanging _ => hung end.
(** the gap in front of a list in its trial: the one before it but in one construct *)
Definition tried_gap (n : node) (i : nat) : nat := match n_kind n with KVarRoundSuffix => 0 | _ => i end.

(** the parts [ps] of [n], which is at depth [d], from the child [j] on, and what stands between them: [gl] from the gap [i] on; the list of [n], if
    any, is indented if [hung] *)
Inductive woven (c : config) (gap : loc -> str -> M unit) (x y : node -> M unit) (n : node) (d : Z) (hung : bool) :
  nat -> nat -> list glue -> list part -> world -> world -> Prop :=
| wv_part i j gl p ps w w1 w2 w' : w_f w1 = w_f w -> (p = TK -> w1 = w) -> in_turn [part_step x n p j] w1 w2 ->
    joined c gap x y n d hung i (next_child p j) gl ps w2 w' -> woven c gap x y n d hung i j gl (p :: ps) w w'
with joined (c : config) (gap : loc -> str -> M unit) (x y : node -> M unit) (n : node) (d : Z) (hung : bool) :
  nat -> nat -> list glue -> list part -> world -> world -> Prop :=
| jn_end i j gl w w' : w_f w' = w_f w -> indent_level (w_st w') = d -> joined c gap x y n d hung i j gl [] w w'
| jn_more i j pl b h gl ps w1 w2 w3 w' : ps <> [] ->
    (forall k, pl = Hanging k -> k = j -> list_indented c gap x y (kid n k) (gap (nloc n (tried_gap n i)) h) w1 hung) ->
    w_f w2 = w_f w1 -> indent_level (w_st w2) = (d + if deeper hung pl then 1 else 0)%Z ->
    line_or_gap c (b = true) (gap (nloc n i) h) w2 w3 -> indent_level (w_st w3) = indent_level (w_st w2) ->
    woven c gap x y n d hung (S i) j gl ps w3 w' -> joined c gap x y n d hung i j ((pl, b, h) :: gl) ps w1 w'.

(** the nodes that are neither lists, nor tables, nor regular *)
Definition other_kinds : list kind :=
  [KBinaryOp; KUnaryOp; KName; KNumeral; KNormalStringLiteral; KCharStringLiteral; KMultiLineStringLiteral; KSheBang; KFuncNameSelf; KTableConstructorEmpty; KChunk; KSheBangChunk].
(** the operands of an operator are one step deeper than it, unless it is itself an operand of the same operator *)
Definition same_operator (n : node) (w : world) : Prop := exists r, stack_indent (w_st w) = Some (n_text n) :: r.
Definition operator_fits (c : config) (gap : loc -> str -> M unit) (x : node -> M unit) (n : node) (w : world) : Prop :=
  cb c B_force_single_line_binary_op = Some true /\ fits_width c [gap (nloc n 0) [32%N]; emit (n_text n); gap (nloc n 1) [32%N]; x (kid n 1)] w.
Definition operator_laid (c : config) (gap : loc -> str -> M unit) (x : node -> M unit) (n : node) (w w' : world) : Prop :=
  exists w0 wl w1 wa wb wc wd, w_f w0 = w_f w /\ same_operator n w0 /\
    (same_operator n w /\ indent_level (w_st w0) = indent_level (w_st w) \/ ~ same_operator n w /\ indent_level (w_st w0) = (indent_level (w_st w) + 1)%Z) /\
    in_turn [x (kid n 0)] w0 wl /\ same_place w1 wl /\
    line_or_gap c (cn c N_newline_format_binary_op = Some 1%N /\ ~ operator_fits c gap x n wl) (gap (nloc n 0) [32%N]) w1 wa /\ in_turn [emit (n_text n)] wa wb /\
    line_or_gap c (cn c N_newline_format_binary_op = Some 2%N /\ ~ operator_fits c gap x n wl) (gap (nloc n 1) [32%N]) wb wc /\ in_turn [x (kid n 1)] wc wd /\
    w_f w' = w_f wd /\ indent_level (w_st w') = indent_level (w_st w).
(** the name before the colon of a method's name *)
Definition name_before (n : node) : node := Nd KFuncName (n_span n) [] [] 0 [] [] (n_seps n) (n_opts n).
(** braces around nothing: the closing one begins a line if and only if the gap, written alone, has a line break *)
Definition gap_breaks (g : M unit) (w : world) : Prop := exists w1, in_turn [g] (set_f [] w) w1 /\ In 10%N (w_f w1).
Definition other_laid (c : config) (gap : loc -> str -> M unit) (x : node -> M unit) (n : node) (w w' : world) : Prop :=
  let eof := cb c B_write_newline_at_eof = Some true in
  match n_kind n with
  | KBinaryOp => operator_laid c gap x n w w'
  | KUnaryOp => in_turn [emit (n_text n); gap (nloc n 0) []; x (kid n 0)] w w'
  | KName | KNumeral => in_turn [emit (n_text n)] w w'
  | KNormalStringLiteral => in_turn [emit (quoted 34%N (n_text n))] w w'
  | KCharStringLiteral => in_turn [emit (quoted 39%N (n_text n))] w w'
  | KMultiLineStringLiteral => in_turn [emit (long (n_level n) (n_text n))] w w'
  | KSheBang => in_turn [emit (n_text n ++ [10%N])] w w'
  | KFuncNameSelf => exists bs w1, list_laid c gap x (name_before n) (n_seps n) bs w w1 /\ in_turn [gap (nloc n 0) []; emit (s2l ":"); gap (nloc n 1) []; x (kid n 0)] w1 w'
  | KTableConstructorEmpty => exists w1 w2 w3, w_f w1 = w_f w /\ indent_level (w_st w1) = indent_level (w_st w) /\ in_turn [emit (s2l "{")] w1 w2 /\
      line_or_gap c (gap_breaks (gap (nloc n 0) (brace_hint c)) w) (gap (nloc n 0) (brace_hint c)) w2 w3 /\ in_turn [emit (s2l "}")] w3 w'
  | KChunk => exists w1, in_turn [gap (nloc n 0) []; x (kid n 0)] w w1 /\ line_or_gap c eof (gap (nloc n 1) []) w1 w'
  | KSheBangChunk => exists w1, in_turn [gap (nloc n 0) []; x (kid n 0); gap (nloc n 1) []; x (kid n 1)] w w1 /\ line_or_gap c eof (gap (nloc n 2) []) w1 w'
  | _ => False
  end.
