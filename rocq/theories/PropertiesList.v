(** C60, C62, C63: where the items of lists begin new lines, and which lists are indented. *)
From Verif Require Import Base Config State Ast WriterBase LuaParser LuaWriter Recon Formatter RefuteSpec TotalSpec SettleNeeded PrettySpec OperatorSpec TableSpec ListSpec ListResults.

(** C62: under every configuration, a list that is written out of range restrictions is written item by item, each on a new line if and only if it
    [begins] one, and otherwise after the gap before it; with the separators of the list between the items, and behind the last one if and only if the
    list [ends_separated]. *)
Theorem C62_lists_laid : forall fuel (src : str) (c : config) (n : node) (w w' : world),
  In (n_kind n) (plain_lists ++ separated_lists) -> pos_range (w_st w) = None -> write (S fuel) src c n w = (ROk tt, w') ->
  exists bs, laid c (comment_hint c src) (write fuel src c) n bs w w'.
Proof. exact lists_laid. Qed.
Print Assumptions C62_lists_laid.

(** C63: under every configuration, a list of expressions or suffixes in a construct is written one step deeper than the construct if and only if it is
    [list_indented]: the option that allows it is on, and some item begins a line in a trial that starts where the list does, or the option that does not
    ask for line breaks is on. *)
Theorem C63_list_indentation : forall fuel (src : str) (c : config) (n : node) ms (m : node) (l l' : loc) (h : str) (w w' : world),
  hanging (comment_hint c src) (write fuel src c) n = Some (ms, m, l, l', h) -> pos_range (w_st w) = None -> write (S fuel) src c n w = (ROk tt, w') ->
  let gap := comment_hint c src in
  let x := write fuel src c in
  exists w1 w2 w3 b, in_turn ms w w1 /\ indent_level (w_st w1) = indent_level (w_st w) /\ list_indented c gap x (write (S fuel) src c) m (gap l h) w1 b /\
    w_f w2 = w_f w1 /\ indent_level (w_st w2) = (indent_level (w_st w) + if b then 1 else 0)%Z /\ in_turn [gap l' h; x m] w2 w3.
Proof. exact lists_indented. Qed.
Print Assumptions C63_list_indentation.

(** C60: a table whose fields may stay on one line is put on one line as a whole, or: its opening brace begins a new line as that of any other table; its
    fields are one step deeper if and only if one of them begins a line in a trial, and this is noted for them; its closing brace is back at the depth of
    the table and begins a new line if and only if the fields are indented and it would in any other table. *)
Theorem C60_compact_tables : forall fuel (src : str) (c : config) (n : node) (w w' : world),
  n_kind n = KTableConstructor -> compact c n -> pos_range (w_st w) = None -> write (S fuel) src c n w = (ROk tt, w') ->
  let gap l := comment_hint c src l (brace_hint c) in
  (exists mw line, may_be_one_line c n mw /\ ~ In 10%N line /\ w_f w' = w_f w ++ line) \/
  exists wa wb wc wi wd we wf b, same_place wa w /\ line_or_gap c (brace_breaks c n wa) (gap (0, 0)) wa wb /\
    w_f wc = w_f wb ++ s2l "{" /\ indent_level (w_st wc) = indent_level (w_st w) /\
    list_indented c (comment_hint c src) (write fuel src c) (write (S fuel) src c) (kid n 0) (gap (nloc n 0)) wc b /\
    w_f wi = w_f wc /\ indent_level (w_st wi) = (indent_level (w_st w) + if b then 1 else 0)%Z /\
    (n_kind (kid n 0) = KFields -> (b = true <-> noted_indented (kid n 0) wi)) /\
    in_turn [gap (nloc n 0); write fuel src c (kid n 0)] wi wd /\
    w_f we = w_f wd /\ indent_level (w_st we) = indent_level (w_st w) /\
    line_or_gap c (b = true /\ closing_breaks c wd) (gap (nloc n 1)) we wf /\ w_f w' = w_f wf ++ s2l "}".
Proof. exact compact_braces. Qed.
Print Assumptions C60_compact_tables.

Definition list_options (l : list string) : config := with_options (List.app l ["--max_width=16"; "--remove_all_newlines=true";
  "--remove_spaces_between_tokens=true"; "--replace_zero_spaces_with_hint=true"; "--indentation_string=   "])%string.
Definition text_of (l : list string) : str := match l with [] => [] | a :: r => fold_left (fun t s => t ++ nl ++ s2l s) r (s2l a) end.
(** Expressions on new lines where they do not fit; the first one by option, and a table in any case; fields. *)
Example C62_case :
  process_buffer (s2l "return aaaa,bbbbbb,ccc,f{1}") (list_options ["--newline_format_exp_list=1"; "--force_single_line_exp_list=true"]%string)
    = Formatted (text_of ["return aaaa,"; "bbbbbb, ccc,"; "f{1}"]%string)
  /\ process_buffer (s2l "return a,{1},b") (list_options ["--newline_format_exp_list_first=1"; "--write_newline_at_explist_multiline_table=true"; "--write_newline_at_multiline_table=false"]%string)
    = Formatted (text_of ["return"; "a,"; "{1}, b"]%string)
  /\ process_buffer (s2l "local x={1;b=2}") (list_options ["--newline_format_table_field=1"; "--write_trailing_field_separator=true"]%string)
    = Formatted (text_of ["local x = {"; "   1;"; "   b = 2}"]%string).
Proof. vm_compute. auto. Qed.

(** A list of expressions indented and not indented, for the same line breaks; suffixes; arguments in one line, indented by the second option. *)
Example C63_case :
  process_buffer (s2l "local a=bbbbb,cccccc") (list_options ["--newline_format_exp_list=1"; "--force_single_line_exp_list=true"; "--indent_exp_list=true"]%string)
    = Formatted (text_of ["local a = bbbbb,"; "   cccccc"]%string)
  /\ process_buffer (s2l "local a=bbbbb,cccccc") (list_options ["--newline_format_exp_list=1"; "--force_single_line_exp_list=true"]%string)
    = Formatted (text_of ["local a = bbbbb,"; "cccccc"]%string)
  /\ process_buffer (s2l "aaaa.bbbb.cccc()") (list_options ["--newline_format_var_suffix=1"; "--indent_var_suffix=true"]%string)
    = Formatted (text_of ["aaaa"; "   .bbbb"; "   .cccc()"]%string)
  /\ process_buffer (s2l "f(function() return 1 end)") (list_options ["--newline_format_function=1"; "--indent_exp_list=true"; "--indent_one_line_exp_list=true"]%string)
    = Formatted (text_of ["f(function()"; "      return 1"; "   end)"]%string)
  /\ process_buffer (s2l "f(function() return 1 end)") (list_options ["--newline_format_function=1"; "--indent_exp_list=true"]%string)
    = Formatted (text_of ["f(function()"; "   return 1"; "end)"]%string).
Proof. vm_compute. auto 6. Qed.

(** The hypotheses of C62 and C63 at a statement and its list of expressions. *)
Example C63_case_node : exists n m w w1, parse_lua (s2l "local x=aaa,bbbbbb,ccc,f{1}") = Parsed n
  /\ let c := list_options ["--newline_format_exp_list=1"; "--force_single_line_exp_list=true"; "--indent_exp_list=true"]%string in
     n_items (kid (fst (reconstruct c n None)) 0) = [((0, 0), m)]
     /\ hanging (comment_hint c (s2l "local x=aaa,bbbbbb,ccc,f{1}")) (write 9 (s2l "local x=aaa,bbbbbb,ccc,f{1}") c) m
        = Some ([emit (s2l "local"); comment_hint c (s2l "local x=aaa,bbbbbb,ccc,f{1}") (nloc m 0) [32%N]; write 9 (s2l "local x=aaa,bbbbbb,ccc,f{1}") c (kid m 0);
                 comment_hint c (s2l "local x=aaa,bbbbbb,ccc,f{1}") (nloc m 1) [32%N]; emit (s2l "=")], kid m 1, nloc m 2, nloc m 2, [32%N])
     /\ write 10 (s2l "local x=aaa,bbbbbb,ccc,f{1}") c m (mk_world [] (start_state (s2l "local x=aaa,bbbbbb,ccc,f{1}") None) [] []) = (ROk tt, w)
     /\ w_f w = text_of ["local x = aaa,"; "   bbbbbb, ccc,"; "   f{1}"]%string
     /\ n_kind (kid m 1) = KExpList /\ List.length (n_seps (kid m 1)) = 4
     /\ write 9 (s2l "local x=aaa,bbbbbb,ccc,f{1}") c (kid m 1) (mk_world [] (start_state (s2l "local x=aaa,bbbbbb,ccc,f{1}") None) [] []) = (ROk tt, w1)
     /\ w_f w1 = text_of ["aaa, bbbbbb, ccc,"; "f{1}"]%string.
Proof.
  do 4 eexists. split; [vm_compute; reflexivity|]. cbv zeta. split; [vm_compute; reflexivity|]. split; [reflexivity|]. split; [vm_compute; reflexivity|].
  split; [vm_compute; reflexivity|]. split; [reflexivity|]. split; [reflexivity|]. split; vm_compute; reflexivity.
Qed.

Definition compact_options : config := list_options ["--newline_format_table_constructor=1"; "--newline_format_table_field=1"; "--force_single_line_table=true";
  "--force_single_line_iv_table_field=true"]%string.
(** Of two tables that are the only fields, the outer one is not indented, the inner one is. *)
Example C60_compact_case : process_buffer (s2l "x={{aaaa,bb,cc,dd,ee}}") compact_options = Formatted (text_of ["x = {{"; "   aaaa, bb, cc,"; "   dd, ee"; "}}"]%string).
Proof. vm_compute. reflexivity. Qed.

(** The hypotheses of C60_compact_tables. *)
Example C60_compact_case_node : exists n m w, parse_lua (s2l "x={{aaaa,bb,cc,dd,ee}}") = Parsed n /\ n_items (kid (fst (reconstruct compact_options n None)) 0) = [((0, 0), m)]
  /\ let l := si_node (nth 0 (n_seps (kid m 1)) (dummy_loc, dummy_node, dummy_loc, [])) in
     n_kind l = KTableConstructor /\ compact compact_options l
     /\ write 12 (s2l "x={{aaaa,bb,cc,dd,ee}}") compact_options l (mk_world [] (start_state (s2l "x={{aaaa,bb,cc,dd,ee}}") None) [] []) = (ROk tt, w)
     /\ w_f w = text_of ["{{"; "   aaaa, bb, cc,"; "   dd, ee"; "}}"]%string.
Proof.
  do 3 eexists. split; [vm_compute; reflexivity|]. split; [vm_compute; reflexivity|]. cbv zeta. split; [reflexivity|]. split; [vm_compute; auto|]. split; vm_compute; reflexivity.
Qed.
