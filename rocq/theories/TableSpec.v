(** Specification vocabulary for tables over several lines. *)
From Verif Require Import Base Config State Ast WriterBase TotalSpec PrettySpec OperatorSpec.

(** under [force_single_line_table] a table of positional fields that is no field or the only one: its fields may stay on one line *)
Definition compact (c : config) (n : node) : Prop :=
  cb c B_force_single_line_table = Some true /\ o_iv (n_opts n) = Some true /\ o_single (n_opts n) = Some true.
(** the table has been put on one line in the course of some test *)
Definition marked (n : node) (w : world) : Prop := In (fst (n_span n)) (w_oneline w).
Definition brace_breaks (c : config) (n : node) (w : world) : Prop := cb c B_write_newline_at_multiline_table = Some true /\ ~ marked n w.
(** the closing brace begins a line by option, or because the last line is full *)
Definition closing_breaks (c : config) (w : world) : Prop :=
  cn c N_newline_format_table_constructor = Some 1%N \/
  exists mw k, cn c N_max_width = Some mw /\ last_line (w_f w) k /\ (mw <= N.of_nat k)%N.
Definition brace_hint (c : config) : str := match cs c S_hint_table_constructor with Some h => h | None => [] end.

(** from [w] to [w']: a new line, or the [gap] *)
Definition line_or_gap (c : config) (broken : Prop) (gap : M unit) (w w' : world) : Prop :=
  broken /\ new_line c w w' \/ ~ broken /\ in_turn [gap] w w'.

(** what [x] writes alone is one line and ends below column [mw], if it is put after the text of [w] *)
Definition line_fits (mw : N) (x : M unit) (w : world) : Prop :=
  exists wt k, in_turn [x] (set_f [] w) wt /\ ~ In 10%N (w_f wt) /\ last_line (w_f w ++ w_f wt) k /\ (N.of_nat k < mw)%N.
(** [x] after [gap], from [w] to [w'], on a new line if [broken] *)
Definition set_down (c : config) (broken : Prop) (gap x : M unit) (w w' : world) : Prop :=
  exists w1 w2, same_place w1 w /\ line_or_gap c broken gap w1 w2 /\ in_turn [x] w2 w'.
(** the value last noted for the fields [n] says that they are indented *)
Definition noted_indented (n : node) (w : world) : Prop :=
  exists l1 l2, w_indent w = l1 ++ (fst (n_span n), true) :: l2 /\ ~ In (fst (n_span n)) (map fst l1).
(** positional fields under [force_single_line_iv_table_field]: line breaks before the first, and before [m] after [prev] *)
Definition first_breaks (c : config) (mw : N) (n m : node) (x : M unit) (w : world) : Prop :=
  cb c B_force_single_line_table = Some true /\ (noted_indented n w \/ o_single (n_opts n) <> Some true) \/
  cb c B_force_single_line_table <> Some true /\ ~ field_short mw m x w.
Definition later_breaks (c : config) (mw : N) (prev : node) (x : M unit) (w : world) : Prop :=
  cb c B_force_single_line_table = Some true /\
  (n_kind (kid prev 0) = KTableConstructor /\ (marked (kid prev 0) w \/ line_fits mw x w)
   \/ n_kind (kid prev 0) <> KTableConstructor /\ ~ line_fits mw x w).
Inductive positional (c : config) (mw : N) (gap : loc -> str -> M unit) (x : node -> M unit) :
  node -> str -> list (loc * node * loc * str) -> str -> world -> world -> Prop :=
| po_none prev z w : positional c mw gap x prev z [] z w w
| po_more prev z p m q z1 l z' w w1 w2 w3 w' : in_turn [emit (used_separator c z)] w w1 ->
    set_down c (later_breaks c mw prev (x m) w1) (gap p [32%N]) (x m) w1 w2 -> in_turn [gap q []] w2 w3 ->
    positional c mw gap x m z1 l z' w3 w' -> positional c mw gap x prev z ((p, m, q, z1) :: l) z' w w'.
(** under [force_single_line_table] there is no separator behind the last of positional fields that are not indented *)
Definition iv_trailing (c : config) (n : node) (z : str) (w : world) : Prop :=
  ~ (cb c B_force_single_line_table = Some true /\ ~ noted_indented n w) /\ trailing c z.
