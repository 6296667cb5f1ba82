(** Where the width matters. *)
From Verif Require Import Base Config WholeSpec.

(** The options under which something is measured: constructs that are put on one line if they fit. *)
Inductive uses_width (c : config) : Prop :=
| uw_exp_list : cb c B_force_single_line_exp_list = Some true ->
    cn c N_newline_format_exp_list = Some 1%N \/ cn c N_newline_format_exp_list_first = Some 1%N -> uses_width c
| uw_suffix : cb c B_force_single_line_var_suffix = Some true -> cn c N_newline_format_var_suffix <> None -> uses_width c
| uw_operator : cb c B_force_single_line_binary_op = Some true ->
    cn c N_newline_format_binary_op = Some 1%N \/ cn c N_newline_format_binary_op = Some 2%N -> uses_width c
| uw_fields : cb c B_force_single_line_iv_table_field = Some true \/ cb c B_force_single_line_kv_table_field = Some true ->
    cn c N_newline_format_table_field <> None -> uses_width c
| uw_table : cb c B_force_single_line_table = Some true -> cn c N_newline_format_table_constructor <> None -> uses_width c
| uw_if : cb c B_force_single_line_if = Some true -> cn c N_newline_format_if <> None -> uses_width c
| uw_function : cb c B_force_single_line_top_level_function = Some true \/ cb c B_force_single_line_scoped_function = Some true ->
    cn c N_newline_format_function <> None -> uses_width c.
(** The closing brace of a table with fields begins a line of its own behind a line that is too long, unless it always does. *)
Definition brace_settled (src : str) (c : config) : Prop :=
  cn c N_newline_format_table_constructor = Some 1%N \/ no_filled_table src.
