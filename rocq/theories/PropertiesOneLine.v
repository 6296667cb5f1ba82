(** C55: conditionals and functions that are put on one line fit on it. *)
From Verif Require Import Base Config State Ast WriterBase LuaParser LuaWriter Formatter RefuteSpec TotalSpec SettleNeeded OneLineSpec OneLineResults.

(** C55: a conditional or function that may be put on one line is written exactly as it is written alone without its line breaks, if that
    is one line and fits after the text before it; only otherwise its [end] is put on a line of its own. *)
Theorem C55_one_line_constructs : forall fuel (src : str) (c : config) (n : node) (k : nopt) (mw : N) (w w' : world),
  on_one_line c (function_nested_level (w_st w)) n k mw -> covered (pos_range (w_st w)) (n_span n) -> write (S fuel) src c n w = (ROk tt, w') ->
  exists c', without_breaks k c c' /\
  let fits line := ~ In 10%N line /\ exists k, last_line (w_f w ++ line) k /\ (N.of_nat k < mw)%N in
  let alone line := exists w1, write fuel src c' n (mk_world [] (w_st w) (w_oneline w) (w_indent w)) = (ROk tt, w1) /\ w_f w1 = line in
  (exists line, alone line /\ fits line /\ w_f w' = w_f w ++ line) \/ ~ (exists line, alone line /\ fits line) /\ (cn c k = Some 1%N -> end_line c (indent_level (w_st w)) (w_f w')).
Proof. exact construct_one_line. Qed.
Print Assumptions C55_one_line_constructs.

(** C55: a conditional or function that may not be put on one line has its [end] on a line of its own. *)
Theorem C55_other_constructs : forall fuel (src : str) (c : config) (n : node) (k : nopt) (w w' : world),
  broken_by n k -> (forall mw, ~ on_one_line c (function_nested_level (w_st w)) n k mw) -> cn c k = Some 1%N ->
  covered (pos_range (w_st w)) (n_span n) -> write (S fuel) src c n w = (ROk tt, w') -> end_line c (indent_level (w_st w)) (w_f w').
Proof. exact construct_broken. Qed.
Print Assumptions C55_other_constructs.

Definition one_line_options : config := with_options ["--max_width=26"; "--newline_format_if=1"; "--force_single_line_if=true";
  "--newline_format_function=1"; "--force_single_line_top_level_function=true"; "--remove_all_newlines=true"; "--remove_spaces_between_tokens=true";
  "--replace_zero_spaces_with_hint=true"; "--indentation_string= "]%string.
(** The conditional fits, the longer one does not; the function fits. *)
Example C55_case : process_buffer (s2l "if a then" ++ nl ++ s2l "  b()" ++ nl ++ s2l "end") one_line_options = Formatted (s2l "if a then b() end")
  /\ process_buffer (s2l "if a then b(c, dd, eee) end") one_line_options
     = Formatted (s2l "if a then" ++ nl ++ s2l " b(c, dd, eee)" ++ nl ++ s2l "end")
  /\ process_buffer (s2l "function f()" ++ nl ++ s2l "return a end") one_line_options = Formatted (s2l "function f() return a end").
Proof. vm_compute. auto. Qed.

(** The hypotheses at the conditional of the first text. *)
Example C55_case_node : exists n m, parse_lua (s2l "if a then b() end") = Parsed n /\ n_items (kid n 0) = [((0, 0), m)]
  /\ on_one_line one_line_options 0 m N_newline_format_if 26 /\ covered None (n_span m).
Proof.
  do 2 eexists. split; [vm_compute; reflexivity|]. split; [reflexivity|]. split; [|discriminate].
  split; [left; split; [cbn; tauto|split; vm_compute; reflexivity]|]. split; [vm_compute; reflexivity|]. split; [vm_compute; discriminate|vm_compute; reflexivity].
Qed.

(** The option for functions in functions and tables, at a function in none and at one in a function. *)
Definition scoped_options : config := with_options ["--max_width=40"; "--newline_format_function=1"; "--newline_format_statement=1"; "--force_single_line_scoped_function=true";
  "--remove_all_newlines=true"; "--remove_spaces_between_tokens=true"; "--replace_zero_spaces_with_hint=true"; "--indentation_string= "]%string.
Example C55_case_scoped : process_buffer (s2l "function f() local function g() return a end return g end") scoped_options
    = Formatted (s2l "function f()" ++ nl ++ s2l " local function g() return a end" ++ nl ++ s2l " return g" ++ nl ++ s2l "end")
  /\ forall n mw, ~ on_one_line scoped_options 0 n N_newline_format_function mw.
Proof.
  split; [vm_compute; reflexivity|]. intros n mw ([(_ & K & _)|(_ & _ & [[_ K]|[K _]])] & _); [discriminate|vm_compute in K; discriminate|discriminate].
Qed.
