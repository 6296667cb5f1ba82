(** C39: the exact layout of the output. *)
From Verif Require Import Base Config State LuaLexer Ast LuaParser Formatter RefuteSpec PrettySpec PrettyUnique PrettyProofs.

(** C39: without the options that force constructs onto one line, the output is the text the pieces of the syntax tree
    stand for, and there is only one such text. *)
Theorem C39_layout : forall (src : str) (c : config) (n : node) (o : str), no_forcing c -> line_range c = None ->
  parse_lua src = Parsed n -> process_buffer src c = Formatted o ->
  prints c src [] (pieces c n 0 None) o /\ forall o', prints c src [] (pieces c n 0 None) o' -> o' = o.
Proof. exact format_layout. Qed.
Print Assumptions C39_layout.

Definition nl : str := [10%N].
(** Blocks, operands, lists and comments on lines of their own, each with its indentation; a blank line is kept. *)
Example C39_case : let c := with_options ["--replace_zero_spaces_with_hint=true"; "--remove_spaces_between_tokens=true";
    "--remove_single_newlines=true"; "--indentation_string=  "; "--newline_format_statement=1"; "--newline_format_if=1";
    "--newline_format_function=1"; "--newline_format_binary_op=1"; "--newline_format_exp_list=1";
    "--newline_format_exp_list_first=1"; "--indent_exp_list=true"; "--newline_format_oneline_comment=1"; "--newline_format_first_oneline_comment=1";
    "--hint_before_comment= "; "--max_width=12"; "--write_newline_at_eof=true"]%string in
  no_forcing c /\ process_buffer (s2l "local function f ( a,b ) if a then return 1+2*a+b" ++ nl ++ s2l "end" ++ nl ++ nl ++ s2l "-- c" ++ nl
      ++ s2l "g(a, {b,c})  end x={y}") c
    = Formatted (s2l "local function f(a, b)" ++ nl ++ s2l "  if a then" ++ nl ++ s2l "    return" ++ nl ++
      s2l "      1" ++ nl ++ s2l "        + 2" ++ nl ++ s2l "          * a" ++ nl ++ s2l "        + b" ++ nl ++
      s2l "  end" ++ nl ++ nl ++ s2l "  -- c" ++ nl ++ s2l "  g(" ++ nl ++ s2l "    a," ++ nl ++
      s2l "    {b, c})" ++ nl ++ s2l "end" ++ nl ++ s2l "x =" ++ nl ++ s2l "  {y}" ++ nl).
Proof.
  cbn zeta. split; [intros k H; cbn in H; decompose [or] H; subst; try contradiction; reflexivity|vm_compute; reflexivity].
Qed.
