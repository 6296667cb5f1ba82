(** C56, C57, C58, C59: operators, expressions, suffixes and fields are put on new lines exactly if they do not fit. *)
From Verif Require Import Base Config State Ast WriterBase LuaParser LuaWriter Recon Formatter RefuteSpec TotalSpec SettleNeeded PrettySpec OperatorSpec OperatorResults.

(** C56: with [force_single_line_binary_op], an operator and its right operand continue the line of the left operand if their first line
    fits on it. If it does not, a new line begins before the operator (option value 1) or after it (2). *)
Theorem C56_operator_breaks : forall fuel (src : str) (c : config) (n : node) (p mw : N) (w w' : world),
  n_kind n = KBinaryOp -> cb c B_force_single_line_binary_op = Some true -> cn c N_max_width = Some mw ->
  cn c N_newline_format_binary_op = Some p -> p = 1%N \/ p = 2%N -> covered (pos_range (w_st w)) (n_span n) -> write (S fuel) src c n w = (ROk tt, w') ->
  let gap i := comment_hint c src (nloc n i) [32%N] in
  let operator := emit (n_text n) in
  let right := write fuel src c (kid n 1) in
  exists w0 wl w1 w2, w_f w0 = w_f w /\ in_turn [write fuel src c (kid n 0)] w0 wl /\ same_place w1 wl /\ w_f w2 = w_f w' /\
  let short := fits mw [gap 0; operator; gap 1; right] wl in
  (short /\ in_turn [gap 0; operator; gap 1; right] w1 w2
   \/ ~ short /\ p = 1%N /\ (exists wb, new_line c w1 wb /\ in_turn [operator; gap 1; right] wb w2)
   \/ ~ short /\ p = 2%N /\ (exists wa wb, in_turn [gap 0; operator] w1 wa /\ new_line c wa wb /\ in_turn [right] wb w2)).
Proof. exact operator_break. Qed.
Print Assumptions C56_operator_breaks.

(** C57: with [force_single_line_exp_list], the first expression of a list begins a new line if [newline_format_exp_list_first] is 1 and
    its first line does not fit, and each later one if [newline_format_exp_list] is 1 and its first line does not fit; else not. *)
Theorem C57_expression_breaks : forall fuel (src : str) (c : config) (n : node) (p : loc) (m : node) (q : loc) (z : str) l (mw : N) (w w' : world),
  n_kind n = KExpList -> n_seps n = (p, m, q, z) :: l -> cb c B_force_single_line_exp_list = Some true -> cn c N_max_width = Some mw ->
  cb c B_write_newline_at_explist_multiline_table <> Some true -> pos_range (w_st w) = None -> write (S fuel) src c n w = (ROk tt, w') ->
  let gap := comment_hint c src in
  let x := write fuel src c in
  exists w1 w2, placed c mw (cn c N_newline_format_exp_list_first = Some 1%N) [x m] (gap p []) (x m) w w1 /\ in_turn [gap q []] w1 w2 /\
    expressions c mw gap x l w2 w'.
Proof. exact expressions_break. Qed.
Print Assumptions C57_expression_breaks.

(** C58: with [force_single_line_var_suffix] and [newline_format_var_suffix], each .name and each :name() after an expression begins a new line if its
    first line does not fit, or the name does not fit if the arguments may have line breaks of their own; else not, and other suffixes never. *)
Theorem C58_suffix_breaks : forall fuel (src : str) (c : config) (n : node) (p : loc) (m : node) l (mw : N) (w w' : world),
  n_kind n = KVarSuffixList -> n_items n = (p, m) :: l -> cb c B_force_single_line_var_suffix = Some true -> cn c N_max_width = Some mw ->
  pos_range (w_st w) = None -> write (S fuel) src c n w = (ROk tt, w') ->
  let gap := comment_hint c src in
  let x := write fuel src c in
  exists part w1, suffix_part c gap x m part /\ placed c mw (suffix_breaks c m) part (gap p []) (x m) w w1 /\ suffixes c mw gap x l w1 w'.
Proof. exact suffixes_break. Qed.
Print Assumptions C58_suffix_breaks.

(** C59: with [force_single_line_kv_table_field] and [newline_format_table_field], a field of a table with a named field begins a new line unless it
    is short in the source and its text is one line that fits.  Each separator is the one set or its own; the last one is there by option. *)
Theorem C59_field_breaks : forall fuel (src : str) (c : config) (n : node) (p : loc) (m : node) (q : loc) (z : str) l (mw : N) (w w' : world),
  n_kind n = KFields -> n_seps n = (p, m, q, z) :: l -> o_iv (n_opts n) = Some false -> cb c B_force_single_line_kv_table_field = Some true ->
  cn c N_max_width = Some mw -> cn c N_newline_format_table_field <> None -> pos_range (w_st w) = None -> write (S fuel) src c n w = (ROk tt, w') ->
  let gap := comment_hint c src in
  let x := write fuel src c in
  exists w1 w2 w3 z', field_placed c mw m (gap p []) (x m) w w1 /\ in_turn [gap q []] w1 w2 /\ fields c mw gap x z l z' w2 w3 /\
    (~ trailing c z' /\ w_f w' = w_f w3 \/ trailing c z' /\ w_f w' = w_f w3 ++ used_separator c z').
Proof. exact fields_break. Qed.
Print Assumptions C59_field_breaks.

Definition operator_options (p : string) : config := with_options ["--max_width=16"; p; "--force_single_line_binary_op=true"; "--remove_all_newlines=true";
  "--remove_spaces_between_tokens=true"; "--replace_zero_spaces_with_hint=true"; "--indentation_string= "]%string.
(** The first operator fits, the second does not. *)
Example C56_case : process_buffer (s2l "x = aaa + bbb - cc") (operator_options "--newline_format_binary_op=1") = Formatted (s2l "x = aaa + bbb" ++ nl ++ s2l " - cc")
  /\ process_buffer (s2l "x = aaa + bbb - cc") (operator_options "--newline_format_binary_op=2") = Formatted (s2l "x = aaa + bbb -" ++ nl ++ s2l " cc").
Proof. vm_compute. auto. Qed.

(** The hypotheses of C56 at the outer operator. *)
Example C56_case_node : exists n m w, parse_lua (s2l "x = a + b - c") = Parsed n /\ n_items (kid n 0) = [((0, 0), m)]
  /\ n_kind (si_node (nth 0 (n_seps (kid m 1)) (dummy_loc, dummy_node, dummy_loc, []))) = KBinaryOp
  /\ write 9 (s2l "x = a + b - c") (operator_options "--newline_format_binary_op=1") (si_node (nth 0 (n_seps (kid m 1)) (dummy_loc, dummy_node, dummy_loc, [])))
       (mk_world [] (start_state (s2l "x = a + b - c") None) [] []) = (ROk tt, w) /\ w_f w = s2l "a + b - c".
Proof. do 3 eexists. split; [vm_compute; reflexivity|]. split; [reflexivity|]. split; [reflexivity|]. split; vm_compute; reflexivity. Qed.

Definition list_options : config := with_options ["--max_width=12"; "--newline_format_exp_list=1"; "--newline_format_exp_list_first=1"; "--force_single_line_exp_list=true";
  "--remove_all_newlines=true"; "--remove_spaces_between_tokens=true"; "--replace_zero_spaces_with_hint=true"; "--indentation_string= "]%string.
(** Of three arguments the last does not fit; in the other text the first does not fit. *)
Example C57_case : process_buffer (s2l "f(aa, bb, cccc)") list_options = Formatted (s2l "f(aa, bb," ++ nl ++ s2l "cccc)")
  /\ process_buffer (s2l "ffffff(aaaaaaa)") list_options = Formatted (s2l "ffffff(" ++ nl ++ s2l "aaaaaaa)").
Proof. vm_compute. auto. Qed.

(** The hypotheses of C57 at a list of two expressions. *)
Example C57_case_node : exists n m w, parse_lua (s2l "x, y = aa, b") = Parsed n /\ n_items (kid n 0) = [((0, 0), m)]
  /\ n_kind (kid m 1) = KExpList /\ List.length (n_seps (kid m 1)) = 2
  /\ write 9 (s2l "x, y = aa, b") list_options (kid m 1) (mk_world [] (start_state (s2l "x, y = aa, b") None) [] []) = (ROk tt, w) /\ w_f w = s2l "aa, b".
Proof. do 3 eexists. split; [vm_compute; reflexivity|]. split; [reflexivity|]. split; [reflexivity|]. split; [reflexivity|]. split; vm_compute; reflexivity. Qed.

Definition suffix_options : config := with_options ["--max_width=14"; "--newline_format_var_suffix=1"; "--force_single_line_var_suffix=true"; "--indent_var_suffix=true";
  "--remove_all_newlines=true"; "--remove_spaces_between_tokens=true"; "--replace_zero_spaces_with_hint=true"; "--indentation_string= "]%string.
(** The first call fits, the second does not; of a call with a table only the name counts. *)
Example C58_case : process_buffer (s2l "a:bb(c):ddd(eee)") suffix_options = Formatted (s2l "a:bb(c)" ++ nl ++ s2l " :ddd(eee)")
  /\ process_buffer (s2l "a:bb(c):ddd{eeeee}") suffix_options = Formatted (s2l "a:bb(c):ddd{eeeee" ++ nl ++ s2l "}").
Proof. vm_compute. auto. Qed.

(** The hypotheses of C58 at a list of two suffixes. *)
Example C58_case_node : exists n m w, parse_lua (s2l "x = a.b.c") = Parsed n /\ n_items (kid n 0) = [((0, 0), m)]
  /\ let l := kid (si_node (nth 0 (n_seps (kid m 1)) (dummy_loc, dummy_node, dummy_loc, []))) 1 in
     n_kind l = KVarSuffixList /\ List.length (n_items l) = 2
     /\ write 9 (s2l "x = a.b.c") suffix_options l (mk_world [] (start_state (s2l "x = a.b.c") None) [] []) = (ROk tt, w) /\ w_f w = s2l ".b.c".
Proof. do 3 eexists. split; [vm_compute; reflexivity|]. split; [reflexivity|]. cbv zeta. split; [reflexivity|]. split; [reflexivity|]. split; vm_compute; reflexivity. Qed.

Definition field_options : config := with_options ["--max_width=18"; "--newline_format_table_field=1"; "--force_single_line_kv_table_field=true";
  "--newline_format_table_constructor=1"; "--field_separator=;"; "--remove_all_newlines=true"; "--remove_spaces_between_tokens=true";
  "--replace_zero_spaces_with_hint=true"; "--indentation_string= "]%string.
(** Two fields fit on each line. *)
Example C59_case : process_buffer (s2l "x={a=1,b=2,c=3,d=4}") field_options
  = Formatted (s2l "x = {a = 1; b = 2;" ++ nl ++ s2l " c = 3; d = 4" ++ nl ++ s2l "}").
Proof. vm_compute. auto. Qed.

(** The hypotheses of C59 at the fields of a table. *)
Example C59_case_node : exists n m w, parse_lua (s2l "x={a=1,b=2}") = Parsed n /\ n_items (kid (fst (reconstruct field_options n None)) 0) = [((0, 0), m)]
  /\ let l := kid (si_node (nth 0 (n_seps (kid m 1)) (dummy_loc, dummy_node, dummy_loc, []))) 0 in
     n_kind l = KFields /\ List.length (n_seps l) = 2 /\ o_iv (n_opts l) = Some false
     /\ write 9 (s2l "x={a=1,b=2}") field_options l (mk_world [] (start_state (s2l "x={a=1,b=2}") None) [] []) = (ROk tt, w) /\ w_f w = s2l "a = 1; b = 2".
Proof. do 3 eexists. split; [vm_compute; reflexivity|]. split; [vm_compute; reflexivity|]. cbv zeta. split; [reflexivity|]. split; [reflexivity|]. split; [reflexivity|]. split; vm_compute; reflexivity. Qed.
