(** Specification vocabulary for options and their values, written without the model's parsers. *)
From Verif Require Import Base Config.

(** Two configurations with the same value for every option. *)
Definition same_config (a b : config) : Prop :=
  line_range a = line_range b /\ (forall k, cb a k = cb b k) /\ (forall k, cn a k = cn b k)
  /\ (forall k, cs a k = cs b k).

(** The options and their types, as listed in the public structures of config.rs:33-102: an option has the name
    of its field. *)
Definition documented_options : list (string * optname) := [
  ("replace_zero_spaces_with_hint", OB B_replace_zero_spaces_with_hint);
  ("hint_after_multiline_comment", OS S_hint_after_multiline_comment);
  ("hint_after_multiline_comment_text", OS S_hint_after_multiline_comment_text);
  ("hint_before_comment", OS S_hint_before_comment);
  ("hint_before_multiline_comment_text", OS S_hint_before_multiline_comment_text);
  ("hint_before_oneline_comment_text", OS S_hint_before_oneline_comment_text);
  ("hint_table_constructor", OS S_hint_table_constructor);
  ("remove_comments", OB B_remove_comments);
  ("remove_single_newlines", OB B_remove_single_newlines);
  ("remove_all_newlines", OB B_remove_all_newlines);
  ("remove_spaces_between_tokens", OB B_remove_spaces_between_tokens);
  ("write_newline_at_eof", OB B_write_newline_at_eof);
  ("write_newline_at_multiline_table", OB B_write_newline_at_multiline_table);
  ("write_newline_at_explist_multiline_table", OB B_write_newline_at_explist_multiline_table);
  ("indentation_string", OS S_indentation_string);
  ("indent_var_suffix", OB B_indent_var_suffix);
  ("indent_one_line_var_suffix", OB B_indent_one_line_var_suffix);
  ("indent_exp_list", OB B_indent_exp_list);
  ("indent_one_line_exp_list", OB B_indent_one_line_exp_list);
  ("newline_format_first_oneline_comment", ON N_newline_format_first_oneline_comment);
  ("newline_format_first_multiline_comment", ON N_newline_format_first_multiline_comment);
  ("newline_format_oneline_comment", ON N_newline_format_oneline_comment);
  ("newline_format_multiline_comment", ON N_newline_format_multiline_comment);
  ("newline_format_statement", ON N_newline_format_statement);
  ("newline_format_do_end", ON N_newline_format_do_end);
  ("newline_format_for", ON N_newline_format_for);
  ("newline_format_function", ON N_newline_format_function);
  ("newline_format_if", ON N_newline_format_if);
  ("newline_format_repeat_until", ON N_newline_format_repeat_until);
  ("newline_format_table_constructor", ON N_newline_format_table_constructor);
  ("newline_format_table_field", ON N_newline_format_table_field);
  ("newline_format_while", ON N_newline_format_while);
  ("newline_format_binary_op", ON N_newline_format_binary_op);
  ("newline_format_var_suffix", ON N_newline_format_var_suffix);
  ("newline_format_exp_list", ON N_newline_format_exp_list);
  ("newline_format_exp_list_first", ON N_newline_format_exp_list_first);
  ("field_separator", OS S_field_separator);
  ("write_trailing_field_separator", OB B_write_trailing_field_separator);
  ("convert_charstring_to_normalstring", OB B_convert_charstring_to_normalstring);
  ("max_width", ON N_max_width);
  ("force_single_line_binary_op", OB B_force_single_line_binary_op);
  ("force_single_line_table", OB B_force_single_line_table);
  ("force_single_line_iv_table_field", OB B_force_single_line_iv_table_field);
  ("force_single_line_kv_table_field", OB B_force_single_line_kv_table_field);
  ("force_single_line_if", OB B_force_single_line_if);
  ("force_single_line_top_level_function", OB B_force_single_line_top_level_function);
  ("force_single_line_scoped_function", OB B_force_single_line_scoped_function);
  ("force_single_line_var_suffix", OB B_force_single_line_var_suffix);
  ("force_single_line_exp_list", OB B_force_single_line_exp_list);
  ("line_range", OLineRange)]%string.

(** The name [n] denotes the option [o]. *)
Definition names (n : str) (o : optname) : Prop := exists s, n = s2l s /\ In (s, o) documented_options.

(** A decimal numeral: at least one digit. *)
Definition decimal (ds : str) : Prop := ds <> [] /\ Forall (fun c => 48 <= c <= 57)%N ds.
Fixpoint decimal_value_from (acc : N) (ds : str) : N :=
  match ds with [] => acc | c :: r => decimal_value_from (10 * acc + (c - 48)) r end.
Definition decimal_value (ds : str) : N := decimal_value_from 0 ds.

(** Texts that are values of a type, with the value they denote. *)
Definition bool_text (v : str) (b : bool) : Prop := v = s2l (if b then "true" else "false")%string.
Definition nat_text (v : str) (n : N) : Prop :=
  exists ds, (v = ds \/ v = s2l "+" ++ ds) /\ decimal ds /\ n = decimal_value ds /\ (n < 2 ^ 64)%N.
Definition range_text (v : str) (r : N * N) : Prop :=
  exists a b, v = a ++ s2l ":" ++ b /\ decimal a /\ decimal b /\ r = (decimal_value a, decimal_value b)
              /\ (decimal_value a < 2 ^ 64)%N /\ (decimal_value b < 2 ^ 64)%N.

(** [v] is not a value of the type of [o]. *)
Definition invalid_for (o : optname) (v : str) : Prop :=
  match o with
  | OB _ => forall b, ~ bool_text v b
  | ON _ => forall n, ~ nat_text v n
  | OS _ => False
  | OLineRange => forall r, ~ range_text v r
  end.

(** [c'] is [c] with option [o] set to the value denoted by [v]. *)
Definition updates (o : optname) (v : str) (c c' : config) : Prop :=
  match o with
  | OB k => (exists b, bool_text v b /\ cb c' k = Some b) /\ line_range c' = line_range c
            /\ (forall j, j <> k -> cb c' j = cb c j) /\ (forall j, cn c' j = cn c j)
            /\ (forall j, cs c' j = cs c j)
  | ON k => (exists n, nat_text v n /\ cn c' k = Some n) /\ line_range c' = line_range c
            /\ (forall j, cb c' j = cb c j) /\ (forall j, j <> k -> cn c' j = cn c j)
            /\ (forall j, cs c' j = cs c j)
  | OS k => cs c' k = Some v /\ line_range c' = line_range c
            /\ (forall j, cb c' j = cb c j) /\ (forall j, cn c' j = cn c j)
            /\ (forall j, j <> k -> cs c' j = cs c j)
  | OLineRange => (exists r, range_text v r /\ line_range c' = Some r)
            /\ (forall j, cb c' j = cb c j) /\ (forall j, cn c' j = cn c j)
            /\ (forall j, cs c' j = cs c j)
  end.

Definition settings := list (str * str).

(** The last setting of the sequence that names [o] with a text valid for it. *)
Inductive last_valid (o : optname) : settings -> str -> Prop :=
| lv_here : forall n v l, names n o -> ~ invalid_for o v -> no_valid o l -> last_valid o ((n, v) :: l) v
| lv_later : forall n v l w, last_valid o l w -> last_valid o ((n, v) :: l) w
with no_valid (o : optname) : settings -> Prop :=
| nv_nil : no_valid o []
| nv_cons : forall n v l, ~ (names n o /\ ~ invalid_for o v) -> no_valid o l -> no_valid o ((n, v) :: l).

(** The value of option [o] in [c] is the one denoted by [v]. *)
Definition has_value (o : optname) (v : str) (c : config) : Prop :=
  match o with
  | OB k => exists b, bool_text v b /\ cb c k = Some b
  | ON k => exists n, nat_text v n /\ cn c k = Some n
  | OS k => cs c k = Some v
  | OLineRange => exists r, range_text v r /\ line_range c = Some r
  end.
(** Option [o] has the same value in both. *)
Definition same_at (o : optname) (c c' : config) : Prop :=
  match o with
  | OB k => cb c k = cb c' k
  | ON k => cn c k = cn c' k
  | OS k => cs c k = cs c' k
  | OLineRange => line_range c = line_range c'
  end.

(** Applying settings one after the other. *)
Definition apply_settings (l : settings) (c : config) : config :=
  fold_left (fun c nv => set_option (fst nv) (snd nv) c) l c.
