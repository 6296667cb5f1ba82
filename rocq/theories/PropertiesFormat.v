(** C05, C08, C09, C29, C35: what the formatted text consists of, without a line range. *)
From Verif Require Import Base Config State LuaLexer CommentLexer Ast LuaParser Formatter LexSpec CommentSpec LayoutSpec RenderSpec FormatSpec
  RefuteSpec FormatProofs.

(** C05: the output is the tokens of the tree in their order, each once, with gap texts between them. Only the
    separators of table fields and the quotes of strings may change. *)
Theorem C05_tokens_in_order : forall (src : str) (c : config) (o : str), line_range c = None ->
  process_buffer src c = Formatted o -> output_with (fun gs => gap_written c (comments gs)) c src o.
Proof. exact format_written. Qed.
Print Assumptions C05_tokens_in_order.

Example C05_case : process_buffer (s2l "f{'a';b}") (with_options ["--convert_charstring_to_normalstring=true"; "--field_separator=, "]%string)
  = Formatted (s2l "f{""a"", b}").
Proof. vm_compute. reflexivity. Qed.

(** C08: the comments of the source are written in their order, each once, of the same kind and with the same text,
    unless the source ends in an opening bracket of a comment. *)
Theorem C08_comments_kept_partial : forall (src : str) (c : config) (o : str), line_range c = None ->
  on c B_remove_comments = false -> ~ (exists x k, src = x ++ [45; 45; 91]%N ++ repeat 61%N k) ->
  process_buffer src c = Formatted o -> output_with (keeps c) c src o.
Proof. exact format_keeps. Qed.
Print Assumptions C08_comments_kept_partial.

(** C08 is false in general: the comment [--[] at the end of the text loses its text. *)
Theorem C08_comments_kept_refuted : exists (src : str) (c : config) (o : str), line_range c = None /\
  on c B_remove_comments = false /\ process_buffer src c = Formatted o /\
  src = gap_text [GLast [91%N]] /\ ~ keeps c [GLast [91%N]] o.
Proof. exact format_loses_comment. Qed.
Print Assumptions C08_comments_kept_refuted.

Example C08_case : process_buffer (s2l "a=1--[=[ x ]=]--y") (with_options ["--hint_before_comment= "; "--hint_before_oneline_comment_text= "]%string)
  = Formatted (s2l "a=1 --[=[ x ]=]-- y" ++ [10%N]).
Proof. vm_compute. reflexivity. Qed.

(** C09: with [remove_comments] a gap is written as blanks, line feeds and hints only. *)
Theorem C09_comments_removed : forall (src : str) (c : config) (o : str), line_range c = None ->
  on c B_remove_comments = true -> process_buffer src c = Formatted o -> output_with (fun _ => filler c True) c src o.
Proof. exact format_removes. Qed.
Print Assumptions C09_comments_removed.

Example C09_case : process_buffer (s2l "a=1--[=[ x ]=] --y") (with_options ["--remove_comments=true"]%string) = Formatted (s2l "a=1 " ++ [10%N]).
Proof. vm_compute. reflexivity. Qed.

(** C29: with [field_separator] every separator of table fields is written as this text (without the blanks at its end
    where a line ends); a comma elsewhere is written as it is. *)
Theorem C29_field_separator : forall (src : str) (c : config) (o fs : str), line_range c = None ->
  cs c S_field_separator = Some fs -> process_buffer src c = Formatted o ->
  exists n xs, parse_lua src = Parsed n /\ o = List.concat xs /\
    Forall2 (fun s x => match s with
      | SSep _ => cut_of fs x
      | STrail _ => x = [] \/ cut_of fs x
      | STok t => exists t', token_becomes c t t' /\ x = token_out t'
      | _ => True
      end) (layout n) xs.
Proof. exact (fun src c o fs H1 H2 H3 => format_separators src c o fs H1 H2 H3). Qed.
Print Assumptions C29_field_separator.

Example C29_case : process_buffer (s2l "f(x,{1;2,})") (with_options ["--field_separator=;"]%string) = Formatted (s2l "f(x,{1;2;})").
Proof. vm_compute. reflexivity. Qed.

(** C35: with [remove_spaces_between_tokens] a gap is written as its comments and line feeds with hints only between
    them: no blank of the source is left. *)
Theorem C35_blanks_removed : forall (src : str) (c : config) (o : str), line_range c = None ->
  on c B_remove_spaces_between_tokens = true -> process_buffer src c = Formatted o ->
  output_with (fun gs x => hinted c (may_break c (comments gs)) (comments gs) x
    \/ (on c B_remove_single_newlines = true /\ comments gs = [CNewLine] /\ hinted c (may_break c (comments gs)) [] x)) c src o.
Proof. exact format_no_blanks. Qed.
Print Assumptions C35_blanks_removed.

(** C35: with [remove_all_newlines] and [remove_comments] no line feed of the source is left: there are line feeds only
    for options that ask for them, or in hints. *)
Theorem C35_newlines_removed : forall (src : str) (c : config) (o : str), line_range c = None ->
  on c B_remove_comments = true -> on c B_remove_all_newlines = true -> process_buffer src c = Formatted o ->
  output_with (fun _ => filler c (breaks_lines c \/ exists k h, cs c k = Some h /\ In 10%N h)) c src o.
Proof. exact format_no_newlines. Qed.
Print Assumptions C35_newlines_removed.

Example C35_case : process_buffer (s2l "a  = 1" ++ [10%N; 10%N] ++ s2l "  --x" ++ [10%N] ++ s2l "b=2")
    (with_options ["--remove_comments=true"; "--remove_all_newlines=true"; "--remove_spaces_between_tokens=true"; "--replace_zero_spaces_with_hint=true"]%string)
  = Formatted (s2l "a = 1 b = 2").
Proof. vm_compute. reflexivity. Qed.
