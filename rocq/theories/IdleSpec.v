(** Options that have nothing to act on. *)
From Verif Require Import Base Config.

(** The option is about line breaks that other options do not ask for, or needs a width that is not set, or refines an option
    that is not on. *)
Definition idle (c : config) (k : bopt) : Prop :=
  match k with
  | B_force_single_line_binary_op => cn c N_newline_format_binary_op <> Some 1%N /\ cn c N_newline_format_binary_op <> Some 2%N
  | B_force_single_line_exp_list => cn c N_newline_format_exp_list <> Some 1%N /\ cn c N_newline_format_exp_list_first <> Some 1%N
  | B_force_single_line_var_suffix => cn c N_newline_format_var_suffix = None
  | B_force_single_line_iv_table_field | B_force_single_line_kv_table_field => cn c N_newline_format_table_field = None
  | B_force_single_line_if => cn c N_newline_format_if = None \/ cn c N_max_width = None
  | B_force_single_line_top_level_function | B_force_single_line_scoped_function =>
      cn c N_newline_format_function = None \/ cn c N_max_width = None
  | B_indent_one_line_var_suffix => cb c B_indent_var_suffix <> Some true
  | B_indent_one_line_exp_list => cb c B_indent_exp_list <> Some true
  | _ => False
  end.
