(** C01: without any option the text is kept. *)
From Verif Require Import Base Config State LuaLexer Ast LuaParser Formatter LexSpec LayoutSpec FormatSpec RefuteSpec RenderExact TotalResults.

(** C01: without options a text that parses is formatted and the output is the source, with a line feed added after a last
    line that is a comment or a shebang line. Not for a text that ends in an opening bracket of a comment, and not for a pair
    of braces with line feeds between them of which none is directly before the closing one. *)
Theorem C01_lossless_partial : forall (src : str) (c : config) (n : node), unset c -> line_range c = None ->
  ~ (exists x k, src = x ++ [45; 45; 91]%N ++ repeat 61%N k) ->
  (forall ts pre l r l' r' post, lex src = LexOk ts -> ts = pre ++ (l, OpenCurlyBracket, r) :: (l', CloseCurlyBracket, r') :: post ->
     lines_end (text_at src r l')) ->
  parse_lua src = Parsed n ->
  process_buffer src c = Formatted src \/ (process_buffer src c = Formatted (src ++ [10%N]) /\ open_line src (layout n)).
Proof. exact format_lossless. Qed.
Print Assumptions C01_lossless_partial.

(** C01 is false in general: blanks before the closing brace of an empty table are lost. *)
Theorem C01_lossless_refuted : exists (src : str) (c : config) (o : str), unset c /\ line_range c = None /\
  process_buffer src c = Formatted o /\ o <> src /\ o <> src ++ [10%N].
Proof. exact exact_loses_blank. Qed.
Print Assumptions C01_lossless_refuted.

(** The text of a comment that is an opening bracket at the end of the text is lost too. *)
Theorem C01_lossless_at_end_refuted : exists (src : str) (c : config) (o : str), unset c /\ line_range c = None /\
  (forall ts pre l r l' r' post, lex src = LexOk ts -> ts = pre ++ (l, OpenCurlyBracket, r) :: (l', CloseCurlyBracket, r') :: post ->
     lines_end (text_at src r l')) /\
  process_buffer src c = Formatted o /\ o <> src /\ o <> src ++ [10%N].
Proof. exact exact_loses_bracket. Qed.
Print Assumptions C01_lossless_at_end_refuted.

Example C01_case : let src := s2l "#!x" ++ [10; 9]%N ++ s2l "f {  'a' ;} --[=[y" ++ [10]%N ++ s2l " ]=] --z" in
  process_buffer src (with_options []) = Formatted (src ++ [10%N]).
Proof. vm_compute. reflexivity. Qed.
