(** C02, C03, C13, C14, C30: outcomes of the formatter, its last line, indentation and the width of tables. *)
From Verif Require Import Base Config State Ast WriterBase LuaParser LuaWriter Formatter RefuteSpec RangeKeepSpec TotalSpec TotalResults OutcomeRange.

(** C02: a text that parses is never answered with a formatting error, for any configuration and any line range. ([Internal]
    stands for the model running out of fuel: that does not happen either.) *)
Theorem C02_no_formatting_error : forall (src : str) (c : config),
  process_buffer src c <> FormattingError /\ process_buffer src c <> Internal.
Proof. exact format_no_error. Qed.
Print Assumptions C02_no_formatting_error.

Example C02_case : process_buffer (s2l "f( --[==[x]] ]==] ) --a" ++ [10]%N ++ s2l "--[b") (with_options ["--remove_comments=true"]%string)
  = Formatted (s2l "f(  ) " ++ [10; 10]%N).
Proof. vm_compute. reflexivity. Qed.

(** C03: with ASCII text options, and with a width wherever it is needed, every text is formatted or rejected by the
    parser, if it is ASCII or there is no line range. Missing: a line range in a text with other characters. *)
Theorem C03_no_panic_partial : forall (src : str) (c : config), ascii_options c -> width_known c -> line_range c = None \/ ascii src ->
  (exists o, process_buffer src c = Formatted o) \/ process_buffer src c = ParsingError.
Proof. exact format_total_part. Qed.
Print Assumptions C03_no_panic_partial.

(** The missing part is false: the position of a comment is taken for a position in the file. *)
Theorem C03_no_panic_refuted : exists (src : str) (c : config), ascii_options c /\ width_known c /\ process_buffer src c = Panicked.
Proof. exact format_total_range. Qed.
Print Assumptions C03_no_panic_refuted.

Example C03_case : let c := with_options ["--max_width=20"; "--newline_format_exp_list=1"; "--force_single_line_exp_list=true"]%string in
  process_buffer (s2l "f('" ++ [233; 233]%N ++ s2l "', 123456, 1234567) --" ++ [233]%N) c
  = Formatted (s2l "f('" ++ [233; 233]%N ++ s2l "', 123456," ++ [10]%N ++ s2l "1234567) --" ++ [233; 10]%N).
Proof. vm_compute. reflexivity. Qed.

Example C03_case_range : process_buffer (s2l "a  =1" ++ [10]%N ++ s2l "b = --[[x]] --[[y]]" ++ [10]%N ++ s2l "  2" ++ [10]%N ++ s2l "c  =3")
    (with_options ["--line_range=2:2"; "--remove_spaces_between_tokens=true"; "--hint_after_multiline_comment= "]%string)
  = Formatted (s2l "a  =1" ++ [10]%N ++ s2l "b=--[[x]]--[[y]]" ++ [10]%N ++ s2l "2" ++ [10]%N ++ s2l "c  =3").
Proof. vm_compute. reflexivity. Qed.

(** C13: the last character is a line feed, if that is asked for; also with a line range. *)
Theorem C13_newline_at_eof : forall (src : str) (c : config) (o : str), on c B_write_newline_at_eof = true ->
  process_buffer src c = Formatted o -> exists x, o = x ++ [10%N].
Proof. exact format_ends. Qed.
Print Assumptions C13_newline_at_eof.

Example C13_case : process_buffer (s2l "a=1 --[[x]]  ") (with_options ["--write_newline_at_eof=true"; "--indentation_string=  "]%string)
  = Formatted (s2l "a=1 --[[x]]" ++ [10]%N).
Proof. vm_compute. reflexivity. Qed.

(** C14: writing a tree leaves the indentation, the stack of indentations and the function level as they were. *)
Theorem C14_balanced : forall fuel (src : str) (c : config) (n : node) (w : world) (a : unit) (w' : world), write fuel src c n w = (ROk a, w') ->
  indent_level (w_st w') = indent_level (w_st w) /\ stack_indent (w_st w') = stack_indent (w_st w)
  /\ function_nested_level (w_st w') = function_nested_level (w_st w) /\ pos_range (w_st w') = pos_range (w_st w).
Proof. exact write_keeps_indent. Qed.
Print Assumptions C14_balanced.

Example C14_case : process_buffer (s2l "function f() a=1+2 end b=3")
    (with_options ["--newline_format_function=1"; "--newline_format_statement=1"; "--indentation_string=  "]%string)
  = Formatted (s2l "function f()" ++ [10]%N ++ s2l "  a=1+2" ++ [10]%N ++ s2l "end" ++ [10]%N ++ s2l "b=3").
Proof. vm_compute. reflexivity. Qed.

(** C30: a table that may be put on one line is written exactly as it is written alone in the one-line configuration, if
    that is one line and fits after the text before it; only otherwise it is written in another way. *)
Theorem C30_one_line_fits : forall fuel (src : str) (c : config) (n : node) (mw : N) (w w' : world),
  may_be_one_line c n mw -> covered (pos_range (w_st w)) (n_span n) -> write (S fuel) src c n w = (ROk tt, w') ->
  exists c', one_line_config c c' /\
  let fits line := ~ In 10%N line /\ exists k, last_line (w_f w ++ line) k /\ (N.of_nat k < mw)%N in
  let alone line := exists w1, write fuel src c' n (mk_world [] (w_st w) (w_oneline w) (w_indent w)) = (ROk tt, w1) /\ w_f w1 = line in
  (exists line, alone line /\ fits line /\ w_f w' = w_f w ++ line) \/ ~ (exists line, alone line /\ fits line).
Proof. exact table_one_line. Qed.
Print Assumptions C30_one_line_fits.

Example C30_case : let c := with_options ["--max_width=16"; "--newline_format_table_constructor=1"; "--newline_format_table_field=1";
                                          "--force_single_line_table=true"; "--remove_all_newlines=true"]%string in
  process_buffer (s2l "aa = {" ++ [10]%N ++ s2l "b=1," ++ [10]%N ++ s2l "c=2}") c = Formatted (s2l "aa = {b=1,c=2}")
  /\ process_buffer (s2l "aaaa = {" ++ [10]%N ++ s2l "b=1," ++ [10]%N ++ s2l "c=2}") c
     = Formatted (s2l "aaaa = {" ++ [10]%N ++ s2l "b=1," ++ [10]%N ++ s2l "c=2" ++ [10]%N ++ s2l "}").
Proof. vm_compute. split; reflexivity. Qed.
