(** Vocabulary of the statements about outcomes, indentation and width. *)
From Verif Require Import Base Config State Ast.

(** every character of every text option is ASCII *)
Definition ascii_options (c : config) : Prop := forall k t a, cs c k = Some t -> In a t -> (a < 128)%N.
(** the options under which the writer tries whether something fits into a line *)
Definition line_options : list bopt :=
  [B_force_single_line_exp_list; B_force_single_line_var_suffix; B_force_single_line_binary_op;
   B_force_single_line_iv_table_field; B_force_single_line_kv_table_field].
(** they are only used together with a width *)
Definition width_known (c : config) : Prop :=
  forall k, In k line_options -> cb c k = Some true -> exists w, cn c N_max_width = Some w.

(** the last character of every text option is ASCII *)
Definition plain_ends (c : config) : Prop := forall k x a, cs c k = Some (x ++ [a]) -> (a < 128)%N.
(** the combinations of options under which the writer measures whether something fits into a line *)
Inductive measures (c : config) : Prop :=
| ms_exp_list : cb c B_force_single_line_exp_list = Some true ->
    cn c N_newline_format_exp_list = Some 1%N \/ cn c N_newline_format_exp_list_first = Some 1%N -> measures c
| ms_suffix : cb c B_force_single_line_var_suffix = Some true -> cn c N_newline_format_var_suffix <> None -> measures c
| ms_operator : cb c B_force_single_line_binary_op = Some true ->
    cn c N_newline_format_binary_op = Some 1%N \/ cn c N_newline_format_binary_op = Some 2%N -> measures c
| ms_fields : cb c B_force_single_line_iv_table_field = Some true -> cb c B_force_single_line_table = Some true ->
    cn c N_newline_format_table_field <> None -> measures c.

(** the last line of [f] has [k] characters *)
Definition last_line (f : str) (k : nat) : Prop :=
  exists a b, f = a ++ b /\ ~ In 10%N b /\ (a = [] \/ exists a', a = a' ++ [10%N]) /\ k = List.length b.

(** the configuration for a table on one line: [c], but no line breaks in or around tables and no separator after the
    last field *)
Definition one_line_config (c c' : config) : Prop :=
  line_range c' = line_range c /\ (forall k, cs c' k = cs c k) /\
  (forall k, cn c' k = match k with
                       | N_newline_format_table_constructor | N_newline_format_table_field => None
                       | _ => cn c k end) /\
  (forall k, cb c' k = match k with
                       | B_write_newline_at_explist_multiline_table | B_write_newline_at_multiline_table
                       | B_write_trailing_field_separator => Some false
                       | _ => cb c k end).
(** a table that may be put on one line of a width [mw]; in the source it has less than [2 * mw] characters *)
Definition may_be_one_line (c : config) (n : node) (mw : N) : Prop :=
  n_kind n = KTableConstructor /\ cn c N_max_width = Some mw /\ cn c N_newline_format_table_constructor <> None /\
  cb c B_force_single_line_table = Some true /\
  (N.of_nat (snd (n_span n) - fst (n_span n)) < (2 * mw) mod 2 ^ 64)%N.
(** the range, if there is one, covers the span *)
Definition covered (r : option (nat * nat)) (span : loc) : Prop :=
  forall a b, r = Some (a, b) -> a <= fst span /\ fst span < b /\ a < snd span /\ snd span <= b.
