(** C04, C07, C11, C31, C32, C33, C34: claims that do not hold, each with a witness. *)
From Verif Require Import Base Lib Config LuaLexer LuaParser Formatter Shipped RefuteSpec.

(** C04, false: formatting panics for a configuration with forced single-line operators and no maximum width. *)
Theorem C04_no_panic_refuted : exists (src : str) (opts : list string), process_buffer src (with_options opts) = Panicked.
Proof.
  exists (s2l "x = a + b"), ["--newline_format_binary_op=1"; "--force_single_line_binary_op=true"]%string.
  vm_compute. reflexivity.
Qed.
Print Assumptions C04_no_panic_refuted.

(** C07, false: under the shipped configuration an accepted program can become text that is not accepted. *)
Theorem C07_shipped_preserves_refuted : exists (src out : str),
  process_buffer src shipped = Formatted out /\ parse_lua out = ParseError.
Proof. exists (s2l "x = a[ [[k]] ]"). eexists. split; vm_compute; reflexivity. Qed.
Print Assumptions C07_shipped_preserves_refuted.

(** C11, false: with a line range tokens can get lost, and the result is a different accepted program. *)
Theorem C11_partial_keeps_code_refuted : exists (src out : str) (opts : list string) (ts us : list token),
  process_buffer src (with_options opts) = Formatted out
  /\ tokens src = Some ts /\ tokens out = Some us /\ List.length us < List.length ts.
Proof.
  exists (s2l "return (f" ++ [ch_nl] ++ s2l ")(x)"). eexists. exists ["--line_range=1:1"]%string. do 2 eexists.
  split; [vm_compute; reflexivity|]. split; [vm_compute; reflexivity|]. split; [vm_compute; reflexivity|].
  vm_compute. do 3 constructor.
Qed.
Print Assumptions C11_partial_keeps_code_refuted.

(** C31, false: a long string does not end at its first closing bracket when a backslash precedes it. *)
Theorem C31_long_bracket_refuted : exists (s p rest t : str) (e : nat),
  first_closing 0 s p rest
  /\ lex (s2l "[[" ++ s) = LexOk [(0, MultiLineStringLiteral 0 t, e); (e, EOF, e)] /\ t <> p.
Proof.
  exists (s2l "\]] ]]"), (s2l "\"), (s2l " ]]"). do 2 eexists. split; [|split; [vm_compute; reflexivity|]].
  - split; [reflexivity|]. intros [|c p'] rest' E; [|cbn; lia].
    cbn in E. injection E as E _. vm_compute in E. discriminate.
  - vm_compute. discriminate.
Qed.
Print Assumptions C31_long_bracket_refuted.

(** C32, false: a numeral with a plus sign in its exponent is not one token, and formatting splits it. *)
Theorem C32_signed_exponent_refuted : exists (s out : str) (opts : list string),
  numeral [[]; [43%N]; [45%N]] s
  /\ (forall t e, lex s <> LexOk [(0, t, e); (e, EOF, e)])
  /\ process_buffer (s2l "return " ++ s) (with_options opts) = Formatted out /\ parse_lua out <> ParseError
  /\ tokens out <> Some [Return; Numeral s; EOF].
Proof.
  exists (s2l "1e+5"). eexists. exists ["--replace_zero_spaces_with_hint=true"]%string.
  repeat apply conj.
  - exists (s2l "1"), (s2l "e+5"). split; [reflexivity|]. split.
    + left. split; [discriminate|]. constructor; [|constructor]. vm_compute. split; discriminate.
    + right. exists 101%N, [43%N], (s2l "5"). repeat apply conj; try (cbn; tauto); try discriminate.
      constructor; [|constructor]. vm_compute. split; discriminate.
  - intros t e. vm_compute. discriminate.
  - vm_compute. reflexivity.
  - vm_compute. discriminate.
  - vm_compute. discriminate.
Qed.
Print Assumptions C32_signed_exponent_refuted.

(** C33, false: a line range of all lines gives a different result from no line range. *)
Theorem C33_full_range_refuted : exists (src : str) (n : N) (c : config),
  line_count src n /\ line_range c = None
  /\ process_buffer src (set_line_range (Some (1%N, n)) c) <> process_buffer src c.
Proof.
  exists (s2l "x = {1}"), 1%N,
    (with_options ["--hint_table_constructor= "; "--replace_zero_spaces_with_hint=true"]%string).
  repeat split. vm_compute. discriminate.
Qed.
Print Assumptions C33_full_range_refuted.

(** C34, false: formatting again changes the text again. *)
Theorem C34_idempotent_refuted : exists (src out out2 : str) (c : config),
  process_buffer src c = Formatted out /\ process_buffer out c = Formatted out2 /\ out2 <> out.
Proof.
  exists (s2l "x = {1}"). do 2 eexists.
  exists (with_options ["--hint_table_constructor= "; "--replace_zero_spaces_with_hint=true"]%string).
  split; [vm_compute; reflexivity|]. split; [vm_compute; reflexivity|]. vm_compute. discriminate.
Qed.
Print Assumptions C34_idempotent_refuted.

(** C34, false for the configuration in [.luafmt/luafmt.lua] too: a construct is put on one line only if its source is short. *)
Theorem C34_shipped_refuted : exists (src out out2 : str),
  process_buffer src shipped = Formatted out /\ process_buffer out shipped = Formatted out2 /\ out2 <> out.
Proof.
  exists (s2l "if a then x()" ++ repeat 32%N 230 ++ s2l "end"). do 2 eexists.
  split; [vm_compute; reflexivity|]. split; [vm_compute; reflexivity|]. vm_compute. discriminate.
Qed.
Print Assumptions C34_shipped_refuted.
