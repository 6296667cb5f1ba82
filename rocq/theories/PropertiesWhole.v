(** C33, C36, C41: ranges of lines that choose the whole text. *)
From Verif Require Import Base Config LuaLexer Formatter UtilSpec RefuteSpec WholeSpec WholeProofs.

(** C33, for runs that do not panic, when the configuration puts no hint before the brace of a table or the text has no table
    with fields: a range that covers all
    lines gives the same result as no range. ([C33_full_range_refuted] and [C33_panic_refuted] say why both are needed.) *)
Theorem C33_full_range_partial : forall (src : str) (c : config) (L R : N), covers src L R ->
  line_range c = None -> no_brace_hint c \/ no_filled_table src -> process_buffer src c <> Panicked ->
  process_buffer src (set_line_range (Some (L, R)) c) = process_buffer src c.
Proof. exact format_covered. Qed.
Print Assumptions C33_full_range_partial.

Definition whole_options : config :=
  with_options ["--remove_spaces_between_tokens=true"; "--replace_zero_spaces_with_hint=true"; "--write_newline_at_eof=true";
                "--hint_before_comment= "; "--indentation_string=  "; "--newline_format_if=1"]%string.
Definition whole_source : str :=
  s2l "--[[a]]" ++ [10%N] ++ s2l "x={1  ,2}--b" ++ [10%N; 10%N] ++ s2l "if  x  then f ( x )end--c".
Example C33_full_range_case : covers whole_source 1 4 /\ line_range whole_options = None /\ no_brace_hint whole_options
  /\ process_buffer whole_source whole_options
     = Formatted (s2l " --[[a]]" ++ [10%N] ++ s2l "x = {1, 2} --b" ++ [10%N; 10%N] ++ s2l "if x then" ++ [10%N] ++ s2l "  f(x)" ++ [10%N] ++ s2l "end --c" ++ [10%N])
  /\ process_buffer whole_source (set_line_range (Some (1, 4)%N) whole_options) = process_buffer whole_source whole_options
  /\ process_buffer whole_source (set_line_range (Some (2, 3)%N) whole_options) <> process_buffer whole_source whole_options.
Proof.
  split; [vm_compute; split; discriminate|]. split; [reflexivity|]. split; [left; reflexivity|]. split; [vm_compute; reflexivity|].
  split; [vm_compute; reflexivity|]. vm_compute. discriminate.
Qed.

(** the hint of tables does no harm where all tables are empty: it goes between the braces, with or without a range *)
Definition hinted_options : config :=
  with_options ["--remove_spaces_between_tokens=true"; "--replace_zero_spaces_with_hint=true"; "--hint_table_constructor=--[[t]]"]%string.
Definition hinted_source : str := s2l "x   =  {  }" ++ [10%N] ++ s2l "f{  }".
Example C33_empty_tables_case : covers hinted_source 1 2 /\ line_range hinted_options = None /\ no_filled_table hinted_source
  /\ ~ no_brace_hint hinted_options
  /\ process_buffer hinted_source hinted_options = Formatted (s2l "x = {--[[t]]}" ++ [10%N] ++ s2l "f{--[[t]]}")
  /\ process_buffer hinted_source (set_line_range (Some (1, 2)%N) hinted_options) = process_buffer hinted_source hinted_options.
Proof.
  split; [vm_compute; split; discriminate|]. split; [reflexivity|]. split.
  { intros ts a l r x b E. vm_compute in E. injection E as <-. intros E.
    repeat (destruct a as [|? a]; [first [discriminate E | injection E as _ _ <- _; reflexivity]|injection E as _ E]). destruct a; discriminate E. }
  split; [intros [H|[H|H]]; vm_compute in H; first [discriminate H | now apply H]|].
  split; vm_compute; reflexivity.
Qed.

(** C33, the second reason why it is false: without a range the gap behind the last token is always written, and writing it may
    panic; a range of all lines does not reach it when it is empty. *)
Theorem C33_panic_refuted : exists (src : str) (c : config), covers src 1 1 /\ line_range c = None /\ no_brace_hint c
  /\ process_buffer src c = Panicked /\ exists o, process_buffer src (set_line_range (Some (1, 1)%N) c) = Formatted o.
Proof. exact covered_panic. Qed.
Print Assumptions C33_panic_refuted.

(** C41 (and what holds instead of C36): a range behind the last line or with its ends swapped is as good as no range. *)
Theorem C41_missed_range_partial : forall (src : str) (c : config) (L R : N), misses src L R ->
  line_range c = None -> no_brace_hint c \/ no_filled_table src -> process_buffer src c <> Panicked ->
  process_buffer src (set_line_range (Some (L, R)) c) = process_buffer src c.
Proof. exact format_missed. Qed.
Print Assumptions C41_missed_range_partial.

Example C41_missed_range_case : misses whole_source 5 9 /\ misses whole_source 3 2
  /\ process_buffer whole_source (set_line_range (Some (5, 9)%N) whole_options) = process_buffer whole_source whole_options
  /\ process_buffer whole_source (set_line_range (Some (3, 2)%N) whole_options) = process_buffer whole_source whole_options
  /\ process_buffer whole_source whole_options <> Formatted whole_source.
Proof.
  split; [left; reflexivity|]. split; [right; reflexivity|]. split; [vm_compute; reflexivity|]. split; [vm_compute; reflexivity|]. vm_compute. discriminate.
Qed.

(** C41, false as stated, for the two reasons of C33: the hint before the brace of a table with fields, and a panic in the empty
    gap behind the last token. *)
Theorem C41_missed_range_refuted : exists (src : str) (c : config) (L R : N), misses src L R /\ line_range c = None
  /\ process_buffer src (set_line_range (Some (L, R)) c) <> process_buffer src c /\ process_buffer src c <> Panicked.
Proof.
  exists (s2l "x = {1}"), (with_options ["--hint_table_constructor= "; "--replace_zero_spaces_with_hint=true"]%string), 5%N, 9%N.
  split; [left; reflexivity|]. split; [reflexivity|]. split; vm_compute; discriminate.
Qed.
Print Assumptions C41_missed_range_refuted.
Theorem C41_panic_refuted : exists (src : str) (c : config) (L R : N), misses src L R /\ line_range c = None /\ no_brace_hint c
  /\ process_buffer src c = Panicked /\ exists o, process_buffer src (set_line_range (Some (L, R)) c) = Formatted o.
Proof.
  exists (s2l "--[[x]]"), (set_s S_hint_after_multiline_comment (Some [233%N]) default_config), 5%N, 9%N. split; [left; reflexivity|]. split; [reflexivity|].
  split; [left; reflexivity|]. split; [vm_compute; reflexivity|]. eexists. vm_compute. reflexivity.
Qed.
Print Assumptions C41_panic_refuted.
