(** C04: which configurations make the formatter panic. *)
From Verif Require Import Base Config State Formatter RefuteSpec RangeKeepSpec TotalSpec OutcomeRange MeasureProofs.

(** C04: every text is formatted or rejected by the parser, if no text option ends in a character that is not ASCII, a width
    is given whenever lines are measured, and the text is ASCII or there is no line range. Missing: all the other
    configurations; for them the claim is false. *)
Theorem C04_no_panic_partial : forall (src : str) (c : config), plain_ends c -> (measures c -> cn c N_max_width <> None) ->
  line_range c = None \/ ascii src -> (exists o, process_buffer src c = Formatted o) \/ process_buffer src c = ParsingError.
Proof. exact format_total_plain. Qed.
Print Assumptions C04_no_panic_partial.

Example C04_case_partial : let c := set_s S_hint_before_comment (Some [8212; 32]%N)
    (with_options ["--force_single_line_exp_list=true"; "--newline_format_exp_list_first=2"; "--remove_spaces_between_tokens=true"]%string) in
  process_buffer (s2l "return f(a, --[[b]] c) --d") c = Formatted (s2l "returnf(a," ++ [8212; 32]%N ++ s2l "--[[b]]c)" ++ [8212; 32]%N ++ s2l "--d" ++ [10]%N).
Proof. vm_compute. reflexivity. Qed.

(** C04, false for every other configuration as to the width: there is a text for which the formatter panics under every
    configuration that measures lines and gives no width, whatever its other options. *)
Theorem C04_width_refuted : exists src : str, forall c : config, line_range c = None -> cn c N_max_width = None -> measures c ->
  process_buffer src c = Panicked.
Proof. exact (ex_intro _ code measuring_panics). Qed.
Print Assumptions C04_width_refuted.

Example C04_case_width : let c := set_s S_indentation_string (Some [9]%N)
    (with_options ["--force_single_line_iv_table_field=true"; "--force_single_line_table=true"; "--newline_format_table_field=3"]%string) in
  process_buffer (s2l "return {1,2}") c = Panicked /\ process_buffer (s2l "return {1}") c = Formatted (s2l "return {1}").
Proof. vm_compute. split; reflexivity. Qed.

(** C04, false for a text option ending in another character, without any measuring. *)
Theorem C04_hint_refuted : exists (src : str) (c : config), line_range c = None /\ ~ measures c /\ process_buffer src c = Panicked.
Proof. exact hint_panics. Qed.
Print Assumptions C04_hint_refuted.
