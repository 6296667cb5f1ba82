(** C68: options that have nothing to act on. *)
From Verif Require Import Base Config Formatter RefuteSpec IdleSpec IdleProofs.

(** C68: the result depends on the values of the options only, and not on the values of those that have nothing to act on. *)
Theorem C68_idle_options : forall (src : str) (c c' : config), line_range c' = line_range c -> (forall k, cn c' k = cn c k) -> (forall k, cs c' k = cs c k) ->
  (forall k, cb c' k = cb c k \/ idle c k) -> process_buffer src c' = process_buffer src c.
Proof. exact idle_unused. Qed.
Print Assumptions C68_idle_options.

(** C68, the other direction: each of these options makes a difference when it has something to act on, all other options being unset. *)
Theorem C68_acting_options : forall k l, In (k, l)
  [ (B_force_single_line_binary_op, ["--newline_format_binary_op=1"; "--max_width=60"]);
    (B_force_single_line_binary_op, ["--newline_format_binary_op=2"; "--max_width=60"]);
    (B_force_single_line_exp_list, ["--newline_format_exp_list=1"; "--max_width=60"]);
    (B_force_single_line_exp_list, ["--newline_format_exp_list_first=1"; "--max_width=60"]);
    (B_force_single_line_var_suffix, ["--newline_format_var_suffix=7"; "--max_width=60"]);
    (B_force_single_line_iv_table_field, ["--newline_format_table_field=7"; "--max_width=60"]);
    (B_force_single_line_kv_table_field, ["--newline_format_table_field=7"; "--max_width=60"]);
    (B_force_single_line_if, ["--newline_format_if=1"; "--max_width=60"]);
    (B_force_single_line_top_level_function, ["--newline_format_function=1"; "--max_width=60"]);
    (B_force_single_line_scoped_function, ["--newline_format_function=1"; "--max_width=60"]);
    (B_indent_one_line_var_suffix, ["--indent_var_suffix=true"; "--newline_format_function=1"; "--indentation_string=  "]);
    (B_indent_one_line_exp_list, ["--indent_exp_list=true"; "--newline_format_function=1"; "--indentation_string=  "]) ]%string -> let c := with_options l in
  ~ idle c k /\ exists src o1 o2, process_buffer src (set_b k (Some true) c) = Formatted o1 /\ process_buffer src c = Formatted o2 /\ o1 <> o2.
Proof. exact idle_used. Qed.
Print Assumptions C68_acting_options.

(** C68: [force_single_line_table] is never idle: without any other option it removes the separator behind the last field. *)
Theorem C68_table_option_refuted : exists src o1 o2, process_buffer src (set_b B_force_single_line_table (Some true) default_config) = Formatted o1
  /\ process_buffer src default_config = Formatted o2 /\ o1 <> o2.
Proof. exact table_option_used. Qed.
Print Assumptions C68_table_option_refuted.

Definition plain_options : config := with_options
  ["--newline_format_statement=1"; "--newline_format_table_field=1"; "--newline_format_if=1"; "--force_single_line_kv_table_field=true"; "--indentation_string=  "]%string.
Definition idle_options : config := with_options
  ["--newline_format_statement=1"; "--newline_format_table_field=1"; "--newline_format_if=1"; "--force_single_line_kv_table_field=true"; "--indentation_string=  ";
   "--force_single_line_exp_list=true"; "--force_single_line_if=true"; "--force_single_line_binary_op=true"; "--force_single_line_scoped_function=false";
   "--indent_one_line_exp_list=true"]%string.
Definition idle_source : str := s2l "if a then f(1+2,{b=1}) end x=1".
(** Five options that have nothing to act on, beside some that do. *)
Example C68_case : (forall k, cb idle_options k = cb plain_options k \/ idle plain_options k)
  /\ process_buffer idle_source idle_options = process_buffer idle_source plain_options
  /\ exists o, process_buffer idle_source plain_options = Formatted o /\ o <> idle_source.
Proof.
  split; [intros k; destruct k; first [left; vm_compute; reflexivity | right; vm_compute; intuition discriminate]|].
  split; [vm_compute; reflexivity|]. eexists. split; [vm_compute; reflexivity|]. discriminate.
Qed.
