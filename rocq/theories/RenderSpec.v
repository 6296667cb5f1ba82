(** What may be written between two tokens. *)
From Verif Require Import Base State CommentLexer LexSpec CommentSpec Config LayoutSpec.

(** A comment as it is written: [--] and the text up to the end of the line, or the text in long brackets. With a hint
    for that place the white space of the text there is replaced by the hint. A removed one-line comment leaves its
    line feed unless line feeds are removed too. *)
Definition text_with (lead trail : option str) (s : str) : str :=
  let s1 := match lead with Some _ => trim_start s | None => s end in
  let s2 := match trail with Some _ => trim_end s1 | None => s1 end in
  match lead with Some p => p | None => [] end ++ s2 ++ match trail with Some q => q | None => [] end.
Definition line_feed (c : config) : str := if on c B_remove_all_newlines then [] else [10%N].
Definition comment_text (c : config) (t : ctoken) : str :=
  match t with
  | COneLine s =>
      if on c B_remove_comments then line_feed c
      else [45; 45]%N
           ++ match cs c S_hint_before_oneline_comment_text with
              | Some p => if forallb is_whitespace s then [] else text_with (Some p) None s
              | None => s
              end
           ++ [10%N]
  | CMultiLine level s =>
      if on c B_remove_comments then []
      else [45; 45]%N
           ++ long level (text_with (cs c S_hint_before_multiline_comment_text) (cs c S_hint_after_multiline_comment_text) s)
  | CNewLine => line_feed c
  | CEOF => []
  end.

(** Text that is neither token nor comment: blanks of the source unless they are removed, hints, and, if [nl], line
    feeds and indentation; trailing blanks may have been cut off. *)
Inductive filler (c : config) (nl : Prop) : str -> Prop :=
| fl_nil : filler c nl []
| fl_app : forall x y, filler c nl x -> filler c nl y -> filler c nl (x ++ y)
| fl_blank : forall b, on c B_remove_spaces_between_tokens = false -> In b [32; 13; 9]%N -> filler c nl [b]
| fl_before : forall h, cs c S_hint_before_comment = Some h -> filler c nl h
| fl_after : forall h, cs c S_hint_after_multiline_comment = Some h -> filler c nl h
| fl_space : on c B_replace_zero_spaces_with_hint = true -> filler c nl [32%N]
| fl_table : forall h, on c B_replace_zero_spaces_with_hint = true -> cs c S_hint_table_constructor = Some h -> filler c nl h
| fl_newline : nl -> filler c nl [10%N]
| fl_indent : forall h, nl -> cs c S_indentation_string = Some h -> filler c nl h
| fl_trim : forall x b, filler c nl (x ++ [b]) -> b = 32%N \/ b = 9%N -> filler c nl x.

(** [x] is the comments and line feeds [ts] in their order, each once, with filler between them *)
Inductive interleaved (c : config) (nl : Prop) : list ctoken -> str -> Prop :=
| il_nil : interleaved c nl [] []
| il_filler : forall x ts y, filler c nl x -> interleaved c nl ts y -> interleaved c nl ts (x ++ y)
| il_comment : forall t ts y, interleaved c nl ts y -> interleaved c nl (t :: ts) (comment_text c t ++ y).

(** an option that asks for new lines is set *)
Definition breaks_lines (c : config) : Prop :=
  (exists k, cn c k <> None) \/ on c B_write_newline_at_eof = true \/ on c B_write_newline_at_multiline_table = true
  \/ on c B_write_newline_at_explist_multiline_table = true.
(** Line feeds are written for an option, because of a line feed inside a hint, and at the end of an empty table written
    over several lines. *)
Definition may_break (c : config) (ts : list ctoken) : Prop :=
  breaks_lines c \/ (exists k h, cs c k = Some h /\ In 10%N h) \/ exists t, In t ts /\ In 10%N (comment_text c t).

(** a gap with the comments and line feeds [ts]; a single line feed may be dropped *)
Definition gap_written (c : config) (ts : list ctoken) (x : str) : Prop :=
  interleaved c (may_break c ts) ts x
  \/ (on c B_remove_single_newlines = true /\ ts = [CNewLine] /\ interleaved c (may_break c ts) [] x).
