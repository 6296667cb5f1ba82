(** C67: where the width matters. *)
From Verif Require Import Base Config Formatter RefuteSpec WidthSpec WidthProofs.

(** C67: if nothing is measured and the width cannot move a brace, any two widths, or none, give the same result, with or without a line range. *)
Theorem C67_width_unused : forall (src : str) (c : config) (v : option N), ~ uses_width c -> brace_settled src c ->
  process_buffer src (set_n N_max_width v c) = process_buffer src c.
Proof. exact (fun src c v => width_unused c v src). Qed.
Print Assumptions C67_width_unused.

(** C67, the other direction: each of the options that measure makes a difference, when the closing braces of tables always begin lines and all other options are unset. *)
Theorem C67_width_used : forall l, In l
  [ ["--force_single_line_exp_list=true"; "--newline_format_exp_list=1"];
    ["--force_single_line_exp_list=true"; "--newline_format_exp_list_first=1"];
    ["--force_single_line_var_suffix=true"; "--newline_format_var_suffix=7"];
    ["--force_single_line_binary_op=true"; "--newline_format_binary_op=1"];
    ["--force_single_line_binary_op=true"; "--newline_format_binary_op=2"];
    ["--force_single_line_iv_table_field=true"; "--newline_format_table_field=7"];
    ["--force_single_line_kv_table_field=true"; "--newline_format_table_field=7"];
    ["--force_single_line_table=true"];
    ["--force_single_line_if=true"; "--newline_format_if=1"];
    ["--force_single_line_top_level_function=true"; "--newline_format_function=1"];
    ["--force_single_line_scoped_function=true"; "--newline_format_function=1"] ]%string ->
  let c := with_options ("--newline_format_table_constructor=1"%string :: l) in
  uses_width c /\ exists src o1 o2, process_buffer src (set_n N_max_width (Some 5%N) c) = Formatted o1
    /\ process_buffer src (set_n N_max_width (Some 60%N) c) = Formatted o2 /\ o1 <> o2.
Proof. exact width_used. Qed.
Print Assumptions C67_width_used.

(** C67: the brace alone makes a difference too, without any option. *)
Theorem C67_width_and_brace : exists src c o1 o2, ~ uses_width c /\ process_buffer src (set_n N_max_width (Some 5%N) c) = Formatted o1
  /\ process_buffer src (set_n N_max_width (Some 60%N) c) = Formatted o2 /\ o1 <> o2.
Proof. exact brace_width. Qed.
Print Assumptions C67_width_and_brace.

Definition wide_options : config := with_options
  ["--newline_format_table_constructor=1"; "--newline_format_table_field=1"; "--newline_format_exp_list=1"; "--newline_format_function=1"; "--newline_format_statement=1";
   "--force_single_line_if=true"; "--force_single_line_table=false"; "--indentation_string=  "; "--max_width=4"]%string.
Definition wide_source : str := s2l "f(aaaaaa,bbbbbb) x={aaaaaa,bbbbbb}".
(** Lines longer than the width, which is not used. *)
Example C67_case : ~ uses_width wide_options /\ brace_settled wide_source wide_options
  /\ process_buffer wide_source wide_options = Formatted (s2l "f(aaaaaa," ++ [10%N] ++ s2l "bbbbbb)" ++ [10%N] ++ s2l "x={" ++ [10%N] ++ s2l "  aaaaaa," ++ [10%N] ++ s2l "  bbbbbb" ++ [10%N] ++ s2l "}")
  /\ process_buffer wide_source (set_n N_max_width None wide_options) = process_buffer wide_source wide_options.
Proof.
  split; [intros H; vm_compute in H; inversion H as [A B|A B|A B|[A|A] B|A B|A B|[A|A] B]; vm_compute in A; first [discriminate A | vm_compute in B; now apply B]|].
  split; [left; reflexivity|].
  split; vm_compute; reflexivity.
Qed.
