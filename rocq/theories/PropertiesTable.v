(** C60, C61: the braces of tables and their positional fields over several lines. *)
From Verif Require Import Base Config State Ast WriterBase LuaParser LuaWriter Recon Formatter RefuteSpec TotalSpec SettleNeeded PrettySpec OperatorSpec TableSpec TableResults.

(** C60: a table, unless its fields may stay on one line, is put on one line as a whole, or: its opening brace begins a new line if and only if
    [write_newline_at_multiline_table] is on and the table has not been put on one line in a test; its fields are one step deeper; its closing brace
    is back at the depth of the table and begins a new line if and only if [newline_format_table_constructor] is 1 or the last line is full. *)
Theorem C60_table_braces : forall fuel (src : str) (c : config) (n : node) (w w' : world),
  n_kind n = KTableConstructor -> ~ compact c n -> covered (pos_range (w_st w)) (n_span n) -> write (S fuel) src c n w = (ROk tt, w') ->
  let gap l := comment_hint c src l (brace_hint c) in
  (exists mw line, may_be_one_line c n mw /\ ~ In 10%N line /\ w_f w' = w_f w ++ line) \/
  exists wa wb wc wd we wf, same_place wa w /\ line_or_gap c (brace_breaks c n wa) (gap (0, 0)) wa wb /\
    w_f wc = w_f wb ++ s2l "{" /\ indent_level (w_st wc) = (indent_level (w_st w) + 1)%Z /\
    in_turn [gap (nloc n 0); write fuel src c (kid n 0)] wc wd /\
    w_f we = w_f wd /\ indent_level (w_st we) = indent_level (w_st w) /\
    line_or_gap c (closing_breaks c wd) (gap (nloc n 1)) we wf /\ w_f w' = w_f wf ++ s2l "}".
Proof. exact table_braces. Qed.
Print Assumptions C60_table_braces.

(** C61: with [force_single_line_iv_table_field] and [newline_format_table_field], which positional fields of a table begin new lines.  Without
    [force_single_line_table]: the first unless it is short, and no other.  With it: the first if the fields are indented or the table is one of several
    fields; another one if it does not fit on the line, but after a table if it fits or that table has been put on one line. *)
Theorem C61_positional_fields : forall fuel (src : str) (c : config) (n : node) (p : loc) (m : node) (q : loc) (z : str) l (mw : N) (w w' : world),
  n_kind n = KFields -> n_seps n = (p, m, q, z) :: l -> o_iv (n_opts n) = Some true -> Forall (fun x => n_kind (snd (fst (fst x))) = KFieldSequential) (n_seps n) ->
  cb c B_force_single_line_iv_table_field = Some true ->
  cn c N_max_width = Some mw -> cn c N_newline_format_table_field <> None -> pos_range (w_st w) = None -> write (S fuel) src c n w = (ROk tt, w') ->
  let gap := comment_hint c src in
  let x := write fuel src c in
  exists w1 w2 w3 z', set_down c (first_breaks c mw n m (x m) w) (gap p []) (x m) w w1 /\ in_turn [gap q []] w1 w2 /\ positional c mw gap x m z l z' w2 w3 /\
    (~ iv_trailing c n z' w3 /\ w_f w' = w_f w3 \/ iv_trailing c n z' w3 /\ w_f w' = w_f w3 ++ used_separator c z').
Proof. exact positional_break. Qed.
Print Assumptions C61_positional_fields.

Definition table_options (l : list string) : config := with_options (List.app l ["--max_width=16"; "--newline_format_table_field=1"; "--hint_table_constructor= ";
  "--remove_all_newlines=true"; "--remove_spaces_between_tokens=true"; "--replace_zero_spaces_with_hint=true"; "--indentation_string= "])%string.
(** Braces on lines of their own; a closing brace on the line of the last field unless that is full. *)
Example C60_case :
  process_buffer (s2l "x={aa,{bb},c=3}") (table_options ["--newline_format_table_constructor=1"; "--write_newline_at_multiline_table=true"]%string)
    = Formatted (s2l "x =" ++ nl ++ s2l "{" ++ nl ++ s2l " aa," ++ nl ++ s2l " {" ++ nl ++ s2l "  bb" ++ nl ++ s2l " }," ++ nl ++ s2l " c = 3" ++ nl ++ s2l "}")
  /\ process_buffer (s2l "x={aa,c=3}") (table_options []) = Formatted (s2l "x =  {" ++ nl ++ s2l " aa," ++ nl ++ s2l " c = 3 }")
  /\ process_buffer (s2l "x={aa,c=34567890123}") (table_options []) = Formatted (s2l "x =  {" ++ nl ++ s2l " aa," ++ nl ++ s2l " c = 34567890123" ++ nl ++ s2l "}").
Proof. vm_compute. auto. Qed.

(** The hypotheses of C60 at a table. *)
Example C60_case_node : exists n m w, parse_lua (s2l "x={a,b=2}") = Parsed n /\ n_items (kid (fst (reconstruct (table_options []) n None)) 0) = [((0, 0), m)]
  /\ let l := si_node (nth 0 (n_seps (kid m 1)) (dummy_loc, dummy_node, dummy_loc, [])) in
     n_kind l = KTableConstructor /\ ~ compact (table_options []) l
     /\ write 9 (s2l "x={a,b=2}") (table_options []) l (mk_world [] (start_state (s2l "x={a,b=2}") None) [] []) = (ROk tt, w)
     /\ w_f w = s2l " {" ++ nl ++ s2l " a," ++ nl ++ s2l " b = 2 }".
Proof.
  do 3 eexists. split; [vm_compute; reflexivity|]. split; [vm_compute; reflexivity|]. cbv zeta. split; [reflexivity|].
  split; [intros (_ & X & _); vm_compute in X; discriminate|]. split; vm_compute; reflexivity.
Qed.

Definition positional_options (t : string) : config := table_options ["--newline_format_table_constructor=1"; "--force_single_line_iv_table_field=true";
  "--force_single_line_table=" ++ t; "--write_trailing_field_separator=true"; "--field_separator=;"]%string.
(** As many fields on a line as fit; tables on lines of their own; all fields on one line. *)
Example C61_case :
  process_buffer (s2l "x={aa,bb,ccccc,ddddd,e,f}") (positional_options "true") = Formatted (s2l "x =  {" ++ nl ++ s2l " aa; bb; ccccc;" ++ nl ++ s2l " ddddd; e; f;" ++ nl ++ s2l "}")
  /\ process_buffer (s2l "x={{aa,bb},ccccc,{ddddd,e},f}") (positional_options "true")
     = Formatted (s2l "x =  {" ++ nl ++ s2l "  { aa; bb };" ++ nl ++ s2l " ccccc;" ++ nl ++ s2l "  { ddddd; e };" ++ nl ++ s2l " f;" ++ nl ++ s2l "}")
  /\ process_buffer (s2l "x={aa,bb,ccccc,ddddd,e,f}") (positional_options "false") = Formatted (s2l "x =  { aa; bb; ccccc; ddddd; e; f;" ++ nl ++ s2l "}").
Proof. vm_compute. auto. Qed.

(** The hypotheses of C61 at the fields of a table. *)
Example C61_case_node : exists n m w, parse_lua (s2l "x={{a},bbbb,cccccc}") = Parsed n /\ n_items (kid (fst (reconstruct (positional_options "true") n None)) 0) = [((0, 0), m)]
  /\ let l := kid (si_node (nth 0 (n_seps (kid m 1)) (dummy_loc, dummy_node, dummy_loc, []))) 0 in
     n_kind l = KFields /\ List.length (n_seps l) = 3 /\ o_iv (n_opts l) = Some true /\ Forall (fun x => n_kind (snd (fst (fst x))) = KFieldSequential) (n_seps l)
     /\ write 9 (s2l "x={{a},bbbb,cccccc}") (positional_options "true") l (mk_world [] (start_state (s2l "x={{a},bbbb,cccccc}") None) [] []) = (ROk tt, w)
     /\ w_f w = s2l " { a };" ++ nl ++ s2l "bbbb; cccccc".
Proof.
  do 3 eexists. split; [vm_compute; reflexivity|]. split; [vm_compute; reflexivity|]. cbv zeta. split; [reflexivity|]. split; [reflexivity|]. split; [reflexivity|].
  split; [repeat constructor|]. split; vm_compute; reflexivity.
Qed.
