(** The configuration shipped as /repo/.luafmt.lua, loaded as the program loads it. *)
From Verif Require Import Base Config.

Definition shipped_text : str := s2l "replace_zero_spaces_with_hint = true
hint_after_multiline_comment = "" ""
hint_after_multiline_comment_text = "" ""
hint_before_comment = "" ""
hint_before_multiline_comment_text = "" ""
hint_before_oneline_comment_text = "" ""
hint_table_constructor = "" ""

-- remove_comments = false
remove_single_newlines = true
-- remove_all_newlines = false
remove_spaces_between_tokens = true
write_newline_at_eof = true
write_newline_at_multiline_table = false
write_newline_at_explist_multiline_table = true

-- indent
indentation_string = ""    ""
indent_var_suffix = true
-- indent_one_line_var_suffix = true
indent_exp_list = true
-- indent_one_line_exp_list = true

newline_format_oneline_comment = 1
-- newline_format_multiline_comment = 1
-- newline_format_first_oneline_comment = 1
-- newline_format_first_multiline_comment = 1
newline_format_statement = 1
newline_format_do_end = 1
newline_format_for = 1
newline_format_function = 1
newline_format_if = 1
newline_format_repeat_until = 1
newline_format_table_constructor = 1
newline_format_table_field = 1
newline_format_while = 1
newline_format_binary_op = 1
newline_format_var_suffix = 1
newline_format_exp_list = 1
-- newline_format_exp_list_first = 1

-- other
field_separator = "",""
write_trailing_field_separator = true
convert_charstring_to_normalstring = false

max_width = 110
force_single_line_table = true
force_single_line_iv_table_field = false
force_single_line_kv_table_field = false

force_single_line_binary_op = true
force_single_line_if = true
-- force_single_line_top_level_function = true
force_single_line_scoped_function = true
force_single_line_var_suffix = true
force_single_line_exp_list = true
".

Definition shipped : config :=
  match reload_format shipped_text default_config with Some c => c | None => default_config end.
