(** The configuration (src/config.rs). [FormatOpts] (config.rs:39-102) has 49 optional fields: 23 of
    type bool, 18 of type usize and 8 of type String. Here each type has an enumeration of its fields and a
    configuration maps fields to values; reading a field is application and assigning one is [set_b],
    [set_n], [set_s]. *)
From Verif Require Import Base Ast LuaParser.

Inductive bopt :=
| B_replace_zero_spaces_with_hint
| B_remove_comments
| B_remove_single_newlines
| B_remove_all_newlines
| B_remove_spaces_between_tokens
| B_write_newline_at_eof
| B_write_newline_at_multiline_table
| B_write_newline_at_explist_multiline_table
| B_indent_var_suffix
| B_indent_one_line_var_suffix
| B_indent_exp_list
| B_indent_one_line_exp_list
| B_write_trailing_field_separator
| B_convert_charstring_to_normalstring
| B_force_single_line_binary_op
| B_force_single_line_table
| B_force_single_line_iv_table_field
| B_force_single_line_kv_table_field
| B_force_single_line_if
| B_force_single_line_top_level_function
| B_force_single_line_scoped_function
| B_force_single_line_var_suffix
| B_force_single_line_exp_list.
Scheme Equality for bopt.

Inductive nopt :=
| N_newline_format_first_oneline_comment
| N_newline_format_first_multiline_comment
| N_newline_format_oneline_comment
| N_newline_format_multiline_comment
| N_newline_format_statement
| N_newline_format_do_end
| N_newline_format_for
| N_newline_format_function
| N_newline_format_if
| N_newline_format_repeat_until
| N_newline_format_table_constructor
| N_newline_format_table_field
| N_newline_format_while
| N_newline_format_binary_op
| N_newline_format_var_suffix
| N_newline_format_exp_list
| N_newline_format_exp_list_first
| N_max_width.
Scheme Equality for nopt.

Inductive sopt :=
| S_hint_after_multiline_comment
| S_hint_after_multiline_comment_text
| S_hint_before_comment
| S_hint_before_multiline_comment_text
| S_hint_before_oneline_comment_text
| S_hint_table_constructor
| S_indentation_string
| S_field_separator.
Scheme Equality for sopt.

(** config.rs:32-37 *)
Record config := mk_config {
  line_range : option (N * N);
  cb : bopt -> option bool;
  cn : nopt -> option N;
  cs : sopt -> option str
}.

(** config.rs:170-173 *)
Definition default_config : config := mk_config None (fun _ => None) (fun _ => None) (fun _ => None).

Definition set_b (k : bopt) (v : option bool) (c : config) : config :=
  mk_config (line_range c) (fun k' => if bopt_beq k' k then v else cb c k') (cn c) (cs c).
Definition set_n (k : nopt) (v : option N) (c : config) : config :=
  mk_config (line_range c) (cb c) (fun k' => if nopt_beq k' k then v else cn c k') (cs c).
Definition set_s (k : sopt) (v : option str) (c : config) : config :=
  mk_config (line_range c) (cb c) (cn c) (fun k' => if sopt_beq k' k then v else cs c k').
Definition set_line_range (v : option (N * N)) (c : config) : config :=
  mk_config v (cb c) (cn c) (cs c).

(** [field == Some(true)], [field == Some(n)], [field.is_some()] *)
Definition on (c : config) (k : bopt) : bool := obool_is (cb c k) true.
Definition nis (c : config) (k : nopt) (v : N) : bool :=
  match cn c k with Some x => N.eqb x v | None => false end.
Definition nsome (c : config) (k : nopt) : bool := is_some (cn c k).

Definition all_bopts : list bopt := [B_replace_zero_spaces_with_hint; B_remove_comments; B_remove_single_newlines; B_remove_all_newlines; B_remove_spaces_between_tokens; B_write_newline_at_eof; B_write_newline_at_multiline_table; B_write_newline_at_explist_multiline_table; B_indent_var_suffix; B_indent_one_line_var_suffix; B_indent_exp_list; B_indent_one_line_exp_list; B_write_trailing_field_separator; B_convert_charstring_to_normalstring; B_force_single_line_binary_op; B_force_single_line_table; B_force_single_line_iv_table_field; B_force_single_line_kv_table_field; B_force_single_line_if; B_force_single_line_top_level_function; B_force_single_line_scoped_function; B_force_single_line_var_suffix; B_force_single_line_exp_list].
Definition all_nopts : list nopt := [N_newline_format_first_oneline_comment; N_newline_format_first_multiline_comment; N_newline_format_oneline_comment; N_newline_format_multiline_comment; N_newline_format_statement; N_newline_format_do_end; N_newline_format_for; N_newline_format_function; N_newline_format_if; N_newline_format_repeat_until; N_newline_format_table_constructor; N_newline_format_table_field; N_newline_format_while; N_newline_format_binary_op; N_newline_format_var_suffix; N_newline_format_exp_list; N_newline_format_exp_list_first; N_max_width].
Definition all_sopts : list sopt := [S_hint_after_multiline_comment; S_hint_after_multiline_comment_text; S_hint_before_comment; S_hint_before_multiline_comment_text; S_hint_before_oneline_comment_text; S_hint_table_constructor; S_indentation_string; S_field_separator].

(** config.rs:175-177 *)
Definition has_empty_format (c : config) : bool :=
  forallb (fun k => is_none (cb c k)) all_bopts && forallb (fun k => is_none (cn c k)) all_nopts
    && forallb (fun k => is_none (cs c k)) all_sopts.

(** [str::parse::<bool>] *)
Definition parse_bool (s : str) : option bool :=
  if str_eqb s (s2l "true") then Some true
  else if str_eqb s (s2l "false") then Some false else None.

Definition usize_max : N := 18446744073709551615%N.

Fixpoint parse_digits (acc : N) (s : str) : option N :=
  match s with
  | [] => Some acc
  | c :: r =>
      if is_digit c then
        let acc' := (acc * 10 + (c - 48))%N in
        if N.leb acc' usize_max then parse_digits acc' r else None
      else None
  end.

(** [str::parse::<usize>]: an optional plus sign, then at least one digit, no overflow of 64 bits *)
Definition parse_usize (s : str) : option N :=
  match s with
  | [] => None
  | c :: r =>
      if ceq c (chr "+") then match r with [] => None | _ => parse_digits 0 r end
      else parse_digits 0 s
  end.

Fixpoint take_digits (s : str) : str * str :=
  match s with
  | c :: r => if is_digit c then let '(a, b) := take_digits r in (c :: a, b) else ([], s)
  | [] => ([], [])
  end.

(** config.rs:189, 266-272: the pattern ^([0-9]+):([0-9]+)$ and the two numbers *)
Definition parse_range (s : str) : option (N * N) :=
  let '(a, r1) := take_digits s in
  match a, r1 with
  | _ :: _, c :: r2 =>
      if ceq c (chr ":") then
        let '(b, r3) := take_digits r2 in
        match b, r3 with
        | _ :: _, [] =>
            match parse_usize a, parse_usize b with
            | Some l, Some r => Some (l, r)
            | _, _ => None
            end
        | _, _ => None
        end
      else None
  | _, _ => None
  end.

(** What an option name denotes. *)
Inductive optname := OB (k : bopt) | ON (k : nopt) | OS (k : sopt) | OLineRange.

(** config.rs:191-275, the arms of the match on the option name *)
Definition option_names : list (string * optname) := [
  ("replace_zero_spaces_with_hint", OB B_replace_zero_spaces_with_hint);
  ("remove_comments", OB B_remove_comments);
  ("remove_single_newlines", OB B_remove_single_newlines);
  ("remove_all_newlines", OB B_remove_all_newlines);
  ("remove_spaces_between_tokens", OB B_remove_spaces_between_tokens);
  ("write_newline_at_eof", OB B_write_newline_at_eof);
  ("write_newline_at_multiline_table", OB B_write_newline_at_multiline_table);
  ("write_newline_at_explist_multiline_table", OB B_write_newline_at_explist_multiline_table);
  ("indent_var_suffix", OB B_indent_var_suffix);
  ("indent_one_line_var_suffix", OB B_indent_one_line_var_suffix);
  ("indent_exp_list", OB B_indent_exp_list);
  ("indent_one_line_exp_list", OB B_indent_one_line_exp_list);
  ("write_trailing_field_separator", OB B_write_trailing_field_separator);
  ("convert_charstring_to_normalstring", OB B_convert_charstring_to_normalstring);
  ("force_single_line_binary_op", OB B_force_single_line_binary_op);
  ("force_single_line_table", OB B_force_single_line_table);
  ("force_single_line_iv_table_field", OB B_force_single_line_iv_table_field);
  ("force_single_line_kv_table_field", OB B_force_single_line_kv_table_field);
  ("force_single_line_if", OB B_force_single_line_if);
  ("force_single_line_top_level_function", OB B_force_single_line_top_level_function);
  ("force_single_line_scoped_function", OB B_force_single_line_scoped_function);
  ("force_single_line_var_suffix", OB B_force_single_line_var_suffix);
  ("force_single_line_exp_list", OB B_force_single_line_exp_list);
  ("newline_format_first_oneline_comment", ON N_newline_format_first_oneline_comment);
  ("newline_format_first_multiline_comment", ON N_newline_format_first_multiline_comment);
  ("newline_format_oneline_comment", ON N_newline_format_oneline_comment);
  ("newline_format_multiline_comment", ON N_newline_format_multiline_comment);
  ("newline_format_statement", ON N_newline_format_statement);
  ("newline_format_do_end", ON N_newline_format_do_end);
  ("newline_format_for", ON N_newline_format_for);
  ("newline_format_function", ON N_newline_format_function);
  ("newline_format_if", ON N_newline_format_if);
  ("newline_format_repeat_until", ON N_newline_format_repeat_until);
  ("newline_format_table_constructor", ON N_newline_format_table_constructor);
  ("newline_format_table_field", ON N_newline_format_table_field);
  ("newline_format_while", ON N_newline_format_while);
  ("newline_format_binary_op", ON N_newline_format_binary_op);
  ("newline_format_var_suffix", ON N_newline_format_var_suffix);
  ("newline_format_exp_list", ON N_newline_format_exp_list);
  ("newline_format_exp_list_first", ON N_newline_format_exp_list_first);
  ("max_width", ON N_max_width);
  ("hint_after_multiline_comment", OS S_hint_after_multiline_comment);
  ("hint_after_multiline_comment_text", OS S_hint_after_multiline_comment_text);
  ("hint_before_comment", OS S_hint_before_comment);
  ("hint_before_multiline_comment_text", OS S_hint_before_multiline_comment_text);
  ("hint_before_oneline_comment_text", OS S_hint_before_oneline_comment_text);
  ("hint_table_constructor", OS S_hint_table_constructor);
  ("indentation_string", OS S_indentation_string);
  ("field_separator", OS S_field_separator);
  ("line_range", OLineRange)]%string.

Fixpoint find_option (name : str) (l : list (string * optname)) : option optname :=
  match l with
  | [] => None
  | (n, o) :: r => if str_eqb name (s2l n) then Some o else find_option name r
  end.

(** config.rs:179-276 [Config::set]; a value that does not parse or an unknown name only prints a message *)
Definition set_option (name value : str) (c : config) : config :=
  match find_option name option_names with
  | Some (OB k) => match parse_bool value with Some v => set_b k (Some v) c | None => c end
  | Some (ON k) => match parse_usize value with Some v => set_n k (Some v) c | None => c end
  | Some (OS k) => set_s k (Some value) c
  | Some OLineRange => match parse_range value with Some v => set_line_range (Some v) c | None => c end
  | None => c
  end.

(** config.rs:278-303 [load_options_from_config] *)
Definition load_assignment (n : node) (c : config) : config :=
  match n_kids n with
  | [varlist; exprlist] =>
      match n_kind varlist, n_kind exprlist, n_seps varlist, n_seps exprlist with
      | KVarList, KExpList, v :: _, e :: _ =>
          let var := si_node v in
          let expr := si_node e in
          match n_kind var, n_kind expr with
          | KName, KNumeral | KName, KNormalStringLiteral | KName, KCharStringLiteral =>
              set_option (n_text var) (n_text expr) c
          | KName, KTrue => set_option (n_text var) (s2l "true") c
          | KName, KFalse => set_option (n_text var) (s2l "false") c
          | _, _ => c
          end
      | _, _, _, _ => c
      end
  | _ => c
  end.

Fixpoint load_options (n : node) (c : config) {struct n} : config :=
  match n with
  | Nd KVarsExprs _ _ _ _ _ _ _ _ => load_assignment n c
  | Nd KStatementList _ _ _ _ _ items _ _ =>
      (fix go (l : list (loc * node)) (c : config) {struct l} : config :=
         match l with [] => c | (_, m) :: r => go r (load_options m c) end) items c
  | _ => c
  end.

(** config.rs:305-326 [reload_format_from_file], from the content of the file on; [None] is the error
    for a file that does not parse *)
Definition reload_format (content : str) (c : config) : option config :=
  match parse_lua content with
  | Parsed n =>
      match n_kind n with
      | KChunk => Some (load_options (kid n 0) c)
      | KSheBangChunk => Some (load_options (kid n 1) c)
      | _ => Some c
      end
  | _ => None
  end.
