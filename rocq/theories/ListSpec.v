(** Specification vocabulary for the layout of lists under every configuration. *)
From Verif Require Import Base Config State Ast WriterBase TotalSpec PrettySpec OperatorSpec TableSpec.

(** as [fits], [field_short] and [line_fits], with the width of the configuration *)
Definition fits_width (c : config) (ms : list (M unit)) (w : world) : Prop := exists mw, cn c N_max_width = Some mw /\ fits mw ms w.
Definition short_field (c : config) (m : node) (x : M unit) (w : world) : Prop := exists mw, cn c N_max_width = Some mw /\ field_short mw m x w.
Definition fits_line (c : config) (x : M unit) (w : world) : Prop := exists mw, cn c N_max_width = Some mw /\ line_fits mw x w.

(** an expression begins a line: by option, and under [force_single_line_exp_list] only if it does not fit *)
Definition expression_begins (c : config) (o : nopt) (x : M unit) (w : world) : Prop :=
  cn c o = Some 1%N /\ (cb c B_force_single_line_exp_list = Some true -> ~ fits_width c [x] w).
(** a table after another expression begins a line in any case *)
Definition table_begins (c : config) (m : node) : Prop :=
  n_kind m = KTableConstructor /\ cb c B_write_newline_at_explist_multiline_table = Some true /\
  cb c B_write_newline_at_multiline_table = Some false /\ (cn c N_newline_format_exp_list <> None \/ cn c N_newline_format_exp_list_first <> None).
Definition suffix_begins (c : config) (gap : loc -> str -> M unit) (x : node -> M unit) (m : node) (w : world) : Prop :=
  suffix_breaks c m /\ (cb c B_force_single_line_var_suffix = Some true -> forall part, suffix_part c gap x m part -> ~ fits_width c part w).
(** fields that are not all put on lines of their own *)
Definition packed (c : config) (n : node) : Prop := o_iv (n_opts n) = Some true /\ cb c B_force_single_line_iv_table_field = Some true.
Definition fitted (c : config) (n : node) : Prop := o_iv (n_opts n) = Some false /\ cb c B_force_single_line_kv_table_field = Some true.
Definition first_field_begins (c : config) (n m : node) (x : M unit) (w : world) : Prop :=
  (packed c n -> cb c B_force_single_line_table = Some true -> noted_indented n w \/ o_single (n_opts n) <> Some true) /\
  (packed c n -> cb c B_force_single_line_table <> Some true -> ~ short_field c m x w) /\ (fitted c n -> ~ short_field c m x w).
Definition later_field_begins (c : config) (n prev m : node) (x : M unit) (w : world) : Prop :=
  (packed c n -> cb c B_force_single_line_table = Some true /\ n_kind prev = KFieldSequential /\
     (n_kind (kid prev 0) = KTableConstructor /\ (marked (kid prev 0) w \/ fits_line c x w)
      \/ n_kind (kid prev 0) <> KTableConstructor /\ ~ fits_line c x w)) /\
  (fitted c n -> ~ short_field c m x w).

(** the item [m] of the list [n], first or after [prev], begins a new line *)
Definition begins (c : config) (gap : loc -> str -> M unit) (x : node -> M unit) (n : node) (prev : option node) (m : node) (w : world) : Prop :=
  match n_kind n, prev with
  | KExpList, None => expression_begins c N_newline_format_exp_list_first (x m) w
  | KExpList, Some _ => table_begins c m \/ expression_begins c N_newline_format_exp_list (x m) w
  | KVarSuffixList, _ => suffix_begins c gap x m w
  | KFields, None => cn c N_newline_format_table_field <> None /\ first_field_begins c n m (x m) w
  | KFields, Some prev => cn c N_newline_format_table_field <> None /\ later_field_begins c n prev m (x m) w
  | KStatementList, Some _ => cn c N_newline_format_statement <> None
  | KElseIfThenVec, Some _ => cn c N_newline_format_if = Some 1%N
  | _, _ => False
  end.

(** the items of a list without separators; the flags tell which ones begin lines *)
Inductive items_laid (c : config) (gap : loc -> str -> M unit) (x : node -> M unit) (n : node) :
  option node -> list (loc * node) -> list bool -> world -> world -> Prop :=
| il_none prev w : items_laid c gap x n prev [] [] w w
| il_more prev p m l b bs w w1 w' : (b = true <-> begins c gap x n prev m w) ->
    set_down c (b = true) (gap p (match prev with None => [] | Some _ => suffix_gap m end)) (x m) w w1 ->
    items_laid c gap x n (Some m) l bs w1 w' -> items_laid c gap x n prev ((p, m) :: l) (b :: bs) w w'.

(** the separator of the list [n] behind an item with the separator [z] of its own, and the blank behind it *)
Definition item_separator (c : config) (n : node) (z : str) : str :=
  match n_kind n with KFields => used_separator c z | KFuncName => s2l "." | _ => s2l "," end.
Definition separator_gap (n : node) : str := match n_kind n with KFuncName => [] | _ => [32%N] end.
Inductive rest_laid (c : config) (gap : loc -> str -> M unit) (x : node -> M unit) (n : node) :
  node -> str -> list (loc * node * loc * str) -> list bool -> str -> world -> world -> Prop :=
| rl_none prev z w : rest_laid c gap x n prev z [] [] z w w
| rl_more prev z p m q z1 l b bs z' w w1 w2 w3 w' : in_turn [emit (item_separator c n z)] w w1 -> (b = true <-> begins c gap x n (Some prev) m w1) ->
    set_down c (b = true) (gap p (separator_gap n)) (x m) w1 w2 -> in_turn [gap q []] w2 w3 ->
    rest_laid c gap x n m z1 l bs z' w3 w' -> rest_laid c gap x n prev z ((p, m, q, z1) :: l) (b :: bs) z' w w'.
(** a separator behind the last item *)
Definition ends_separated (c : config) (n : node) (z : str) (w : world) : Prop :=
  n_kind n = KFields /\ trailing c z /\
  ~ (cb c B_force_single_line_table = Some true /\
     (cn c N_newline_format_table_field = None /\ cn c N_newline_format_table_constructor = None \/ o_iv (n_opts n) = Some true /\ ~ noted_indented n w)).
Inductive list_laid (c : config) (gap : loc -> str -> M unit) (x : node -> M unit) (n : node) :
  list (loc * node * loc * str) -> list bool -> world -> world -> Prop :=
| ll_none w : list_laid c gap x n [] [] w w
| ll_more p m q z l b bs z' w w1 w2 w3 w' : (b = true <-> begins c gap x n None m w) -> set_down c (b = true) (gap p []) (x m) w w1 ->
    in_turn [gap q []] w1 w2 -> rest_laid c gap x n m z l bs z' w2 w3 ->
    (~ ends_separated c n z' w3 /\ w' = w3 \/ ends_separated c n z' w3 /\ in_turn [emit (item_separator c n z')] w3 w') ->
    list_laid c gap x n ((p, m, q, z) :: l) (b :: bs) w w'.

(** lists in two forms *)
Definition plain_lists : list kind := [KStatementList; KVarSuffixList; KElseIfThenVec].
Definition separated_lists : list kind := [KFields; KExpList; KNameList; KVarList; KParList; KFuncName].
Definition laid (c : config) (gap : loc -> str -> M unit) (x : node -> M unit) (n : node) (bs : list bool) (w w' : world) : Prop :=
  In (n_kind n) plain_lists /\ items_laid c gap x n None (n_items n) bs w w' \/ In (n_kind n) separated_lists /\ list_laid c gap x n (n_seps n) bs w w'.

(** the constructs with a list that may be indented: the steps before it, the list, the gap in front of it in the trial, the gap that is written, and
    the blank *)
Definition hanging (gap : loc -> str -> M unit) (x : node -> M unit) (n : node) : option (list (M unit) * node * loc * loc * str) :=
  let b := [32%N] in
  match n_kind n with
  | KVar => Some ([x (kid n 0)], kid n 1, nloc n 0, nloc n 0, [])
  | KArgsRoundBrackets => Some ([emit (s2l "(")], kid n 0, nloc n 0, nloc n 0, [])
  | KVarsExprs => Some ([x (kid n 0); gap (nloc n 0) b; emit (s2l "=")], kid n 1, nloc n 1, nloc n 1, b)
  | KVarRoundSuffix => Some ([emit (s2l "("); gap (nloc n 0) []; x (kid n 0); gap (nloc n 1) []; emit (s2l ")")], kid n 1, nloc n 0, nloc n 2, [])
  | KLocalNamesExprs => Some ([emit (s2l "local"); gap (nloc n 0) b; x (kid n 0); gap (nloc n 1) b; emit (s2l "=")], kid n 1, nloc n 2, nloc n 2, b)
  | KForRange | KForRangeB => Some ([emit (s2l "for"); gap (nloc n 0) b; x (kid n 0); gap (nloc n 1) b; emit (s2l "in")], kid n 1, nloc n 2, nloc n 2, b)
  | KRetStatExpr | KRetStatExprComma => Some ([emit (s2l "return")], kid n 0, nloc n 0, nloc n 0, b)
  | _ => None
  end.
Definition fails {A} (m : M A) (w : world) : Prop := fst (m w) = RErr.
(** the outcome [b] of a trial: some item of the list [m] begins a line; [y] writes the list *)
Definition trial (c : config) (gap : loc -> str -> M unit) (x y : node -> M unit) (m : node) (g : M unit) (w : world) (b : bool) : Prop :=
  (exists wg wt bs, in_turn [g] w wg /\ laid c gap x m bs wg wt /\ (b = true <-> In true bs))
  \/ (fails g w \/ exists wg, in_turn [g] w wg /\ fails (y m) wg) /\ b = false.
(** the list [m] is indented or not: [indent] is the option that allows it, [always] the one that does not ask for line breaks; no trial is made for
    [alone], one expression that cannot begin a line *)
Definition allowed (c : config) (gap : loc -> str -> M unit) (x y : node -> M unit) (indent always : bopt) (alone : Prop) (m : node) (g : M unit) (w : world) (b : bool) : Prop :=
  cb c indent <> Some true /\ b = false
  \/ cb c indent = Some true /\ cb c always = Some true /\ (alone \/ exists wg, in_turn [g] w wg) /\ b = true
  \/ cb c indent = Some true /\ cb c always = Some true /\ ~ alone /\ fails g w /\ b = false
  \/ cb c indent = Some true /\ cb c always <> Some true /\ alone /\ b = false
  \/ cb c indent = Some true /\ cb c always <> Some true /\ ~ alone /\ trial c gap x y m g w b.
Definition list_indented (c : config) (gap : loc -> str -> M unit) (x y : node -> M unit) (m : node) (g : M unit) (w : world) (b : bool) : Prop :=
  match n_kind m with
  | KVarSuffixList => n_items m = [] /\ b = false \/ n_items m <> [] /\ allowed c gap x y B_indent_var_suffix B_indent_one_line_var_suffix False m g w b
  | KExpList => n_seps m = [] /\ b = false \/ n_seps m <> [] /\
      allowed c gap x y B_indent_exp_list B_indent_one_line_exp_list (List.length (n_seps m) = 1 /\ cn c N_newline_format_exp_list_first = None) m g w b
  | KFields => n_seps m = [] /\ b = false \/ n_seps m <> [] /\ trial c gap x y m g w b
  | _ => b = false
  end.
