(** C64: the layout of statements and expressions under every configuration. *)
From Verif Require Import Base Config State LuaLexer Ast WriterBase LuaParser LuaWriter Recon Formatter RefuteSpec LayoutSpec TotalSpec SettleNeeded PrettySpec OneLineSpec OperatorSpec TableSpec
  ListSpec ConstructSpec ConstructResults PropertiesList.

(** C64: under every configuration, a construct of a fixed form is put on one line as a whole, if it may be, or written part by part: what stands between
    two parts is a line break or the gap from the source, at the depth of the construct or one deeper, as its [glues] say; a list in it is one step deeper if
    and only if it is [list_indented]. *)
Theorem C64_constructs : forall fuel (src : str) (c : config) (n : node) (w w' : world),
  regular (n_kind n) -> pos_range (w_st w) = None -> write (S fuel) src c n w = (ROk tt, w') ->
  (exists k mw line, on_one_line c (function_nested_level (w_st w)) n k mw /\ ~ In 10%N line /\ w_f w' = w_f w ++ line) \/
  exists wa hung, same_place wa w /\
    woven c (comment_hint c src) (write fuel src c) (write (S fuel) src c) n (indent_level (w_st w)) hung 0 0 (glues c (n_kind n)) (template (n_kind n)) wa w'.
Proof. exact constructs_laid. Qed.
Print Assumptions C64_constructs.

Definition construct_options : config := with_options ["--newline_format_if=1"; "--newline_format_for=1"; "--newline_format_statement=1"; "--force_single_line_if=true";
  "--newline_format_exp_list=1"; "--force_single_line_exp_list=true"; "--indent_exp_list=true"; "--max_width=22"; "--remove_all_newlines=true";
  "--remove_spaces_between_tokens=true"; "--replace_zero_spaces_with_hint=true"; "--indentation_string=   "]%string.
Definition loop_text : str := s2l "for a,b in pairs(c),ddddd do if x then y() end if x then yyyy() end end".
(** A loop whose list of expressions is indented and that contains a conditional on one line and one on several. *)
Example C64_case : process_buffer loop_text construct_options
  = Formatted (text_of ["for a, b in pairs(c),"; "   ddddd do"; "   if x then y() end"; "   if x then"; "      yyyy()"; "   end"; "end"]%string).
Proof. vm_compute. reflexivity. Qed.

(** The hypotheses of C64 at the loop. *)
Example C64_case_node : exists n m w, parse_lua loop_text = Parsed n /\ n_items (kid (fst (reconstruct construct_options n None)) 0) = [((0, 0), m)]
  /\ n_kind m = KForRangeB /\ regular (n_kind m) /\ write 20 loop_text construct_options m (mk_world [] (start_state loop_text None) [] []) = (ROk tt, w)
  /\ List.length (w_f w) = 91.
Proof.
  do 3 eexists. split; [vm_compute; reflexivity|]. split; [vm_compute; reflexivity|]. split; [reflexivity|]. split; [split; [discriminate|cbn; intuition discriminate]|].
  split; vm_compute; reflexivity.
Qed.

(** C65: under every configuration, the nodes that are neither lists, nor tables with fields, nor of a fixed form are laid out as follows; and no other
    nodes remain. *)
Theorem C65_other_nodes : forall fuel (src : str) (c : config) (n : node) (w w' : world),
  In (n_kind n) other_kinds -> pos_range (w_st w) = None -> write (S fuel) src c n w = (ROk tt, w') ->
  other_laid c (comment_hint c src) (write fuel src c) n w w'.
Proof. exact others_laid. Qed.
Print Assumptions C65_other_nodes.

Theorem C65_all_nodes : forall k, regular k \/ In k (plain_lists ++ separated_lists) \/ k = KTableConstructor \/ In k other_kinds.
Proof. exact every_kind. Qed.
Print Assumptions C65_all_nodes.

Definition operator_options : config := with_options ["--max_width=16"; "--newline_format_binary_op=1"; "--force_single_line_binary_op=true"; "--write_newline_at_eof=true"; "--remove_all_newlines=true";
  "--remove_spaces_between_tokens=true"; "--replace_zero_spaces_with_hint=true"; "--indentation_string=   "]%string.
(** Operands of the same operator are at one depth, those of another one are deeper; the file ends with a line break. *)
Example C65_case : process_buffer (s2l "x=aaaa+bbbb+ccccc*dddddd-f(-e)") operator_options
  = Formatted (text_of ["x = aaaa + bbbb"; "      + ccccc"; "         * dddddd"; "   - f(-e)"; ""]%string).
Proof. vm_compute. reflexivity. Qed.
Example C65_case_node : exists n m w, parse_lua (s2l "x=aaaa+bbbb+ccccc*dddddd-f(-e)") = Parsed n /\ n_items (kid (fst (reconstruct operator_options n None)) 0) = [((0, 0), m)]
  /\ let l := si_node (nth 0 (n_seps (kid m 1)) (dummy_loc, dummy_node, dummy_loc, [])) in
     n_kind l = KBinaryOp /\ write 12 (s2l "x=aaaa+bbbb+ccccc*dddddd-f(-e)") operator_options l (mk_world [] (start_state (s2l "x=aaaa+bbbb+ccccc*dddddd-f(-e)") None) [] []) = (ROk tt, w)
     /\ w_f w = text_of ["aaaa + bbbb"; "      + ccccc"; "         * dddddd"; "   - f(-e)"]%string.
Proof.
  do 3 eexists. split; [vm_compute; reflexivity|]. split; [vm_compute; reflexivity|]. cbv zeta. split; [reflexivity|]. split; vm_compute; reflexivity.
Qed.
