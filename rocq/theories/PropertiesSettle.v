(** C34: formatting a formatted text again, with comments and line feeds in the source. *)
From Verif Require Import Base Config LuaLexer Formatter RefuteSpec SafeSpec IdemSpec IdemProofs SettleSpec SettleProofs SettleNeeded.

(** C34 for the configurations [calm] and every source, with any comments, blanks and line feeds: a formatted text is formatted
    to itself. Missing for the whole claim: the other configurations, where it fails (below). *)
Theorem C34_with_comments_partial : forall (src : str) (c : config) (o : str), calm c -> readable c src ->
  process_buffer src c = Formatted o -> process_buffer o c = Formatted o.
Proof. exact format_stays. Qed.
Print Assumptions C34_with_comments_partial.

(** [calm] is thirteen conditions. *)
Theorem C34_conditions : forall c : config, calm c <-> Forall (fun P => P) (calm_parts c).
Proof. exact calm_is_parts. Qed.
Print Assumptions C34_conditions.
(** None of them can be left out: with the twelve others there is a text that is changed by formatting it again. *)
Theorem C34_conditions_refuted : forall i : nat, i < 13 -> exists (src o o2 : str) (c : config),
  calm_but i c /\ readable c src /\ process_buffer src c = Formatted o /\ process_buffer o c = Formatted o2 /\ o2 <> o.
Proof. exact all_needed. Qed.
Print Assumptions C34_conditions_refuted.

(** Comments at the start, within an expression, in a table and at the end; the line feeds of the source are kept, the hints,
    separators, quotes and indentation are written. *)
Definition calm_options : config := with_options ["--remove_spaces_between_tokens=true"; "--replace_zero_spaces_with_hint=true";
    "--newline_format_statement=1"; "--newline_format_table_field=1"; "--newline_format_oneline_comment=1"; "--newline_format_multiline_comment=1";
    "--newline_format_first_oneline_comment=1"; "--hint_after_multiline_comment= "; "--hint_before_oneline_comment_text= ";
    "--indentation_string=  "; "--hint_before_comment= "; "--field_separator=,"; "--write_newline_at_eof=true";
    "--write_trailing_field_separator=true"; "--convert_charstring_to_normalstring=true"; "--newline_format_do_end=1"]%string.
Example C34_calm_case : let src := s2l "--one" ++ nl ++ s2l "x =--[[two]]y;  do f{a;--three" ++ nl ++ nl ++ s2l "'b'}end--[[four]]--five" in
  calm calm_options /\ readable calm_options src
  /\ let o := nl ++ s2l "-- one" ++ nl ++ s2l "x = --[[two]] y" ++ nl ++ s2l ";" ++ nl
       ++ s2l "do" ++ nl ++ s2l "  f{" ++ nl ++ s2l "    a," ++ nl ++ s2l "    -- three" ++ nl ++ nl
       ++ s2l "    ""b"",}" ++ nl ++ s2l "end --[[four]]" ++ nl ++ s2l "-- five" ++ nl in
     process_buffer src calm_options = Formatted o /\ process_buffer o calm_options = Formatted o.
Proof.
  cbn zeta. split; [apply calm_is_parts; unfold calm_parts; repeat (apply Forall_cons; [one_part|]); apply Forall_nil|]. split.
  - apply plainly_readable. intros ts L. vm_compute in L. injection L as <-. repeat constructor.
  - split; vm_compute; reflexivity.
Qed.
