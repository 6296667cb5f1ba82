(** Texts with blanks at the ends of lines, and comments after a shebang line. *)
From Coq Require Import Lia.
From Verif Require Import Base Config State LuaLexer Ast LuaParser Formatter LexSpec LayoutSpec RefuteSpec SafeSpec IdemSpec IdemProofs PrettySpec SettleSpec SettleProofs SettleNeeded TrailSpec.

Theorem blanks_stay : exists src c o ts p before g,
  process_buffer src c = Formatted o /\ lex o = LexOk ts /\ between ts p before /\ gap_text_at o p g /\ ~ no_trailing g.
Proof.
  exists (s2l "x=p " ++ nl ++ s2l "y=q"), (with_options []), (s2l "x=p " ++ nl ++ s2l "y=q"). eexists. exists (3, 5), (Some (Variable_ (s2l "p"))), [GBlank 32%N; GNewline].
  split; [vm_compute; reflexivity|]. split; [vm_compute; reflexivity|]. split; [|split].
  - right. exists [(0, Variable_ (s2l "x"), 1); (1, EqualsSign, 2)]. do 5 eexists. split; reflexivity.
  - split; [cbn; lia|]. split; [vm_compute; lia|]. split; [left; repeat constructor|vm_compute; reflexivity].
  - intros H. exact (H [] _ [] eq_refl).
Qed.

Definition trail_options : config := with_options ["--remove_spaces_between_tokens=true"; "--replace_zero_spaces_with_hint=true";
    "--newline_format_statement=1"; "--newline_format_function=1"; "--newline_format_if=1"; "--newline_format_while=1";
    "--newline_format_repeat_until=1"; "--newline_format_for=1"; "--newline_format_do_end=1"; "--newline_format_oneline_comment=1";
    "--newline_format_first_oneline_comment=1"; "--indentation_string=  "; "--hint_before_comment= ";
    "--newline_format_multiline_comment=1"; "--hint_after_multiline_comment= "; "--hint_before_oneline_comment_text= ";
    "--write_newline_at_eof=true"]%string.
Theorem shebang_comment : exists src c o ts p before g,
  calm c /\ readable c src /\ process_buffer src c = Formatted o /\ lex o = LexOk ts /\ between ts p before /\ gap_text_at o p g /\ ~ own_lines c g.
Proof.
  exists (s2l "#!a" ++ nl ++ s2l "--b" ++ nl ++ s2l "x=p"), trail_options, (s2l "#!a" ++ nl ++ s2l " -- b" ++ nl ++ s2l "x = p" ++ nl). eexists.
  exists (4, 10), (Some (SheBang (s2l "#!a"))), [GBlank 32%N; GLine (s2l " b")].
  split; [apply calm_is_parts; unfold calm_parts; repeat (apply Forall_cons; [one_part|]); apply Forall_nil|]. split.
  { apply plainly_readable. intros ts L. vm_compute in L. injection L as <-. repeat constructor. }
  split; [vm_compute; reflexivity|]. split; [vm_compute; reflexivity|]. split; [|split].
  - right. exists []. do 5 eexists. split; reflexivity.
  - split; [cbn; lia|]. split; [vm_compute; lia|]. split; [left; repeat constructor|vm_compute; reflexivity]; vm_compute; intuition discriminate.
  - intros H. destruct (H [GBlank 32%N] (GLine (s2l " b")) [] eq_refl) as (a0 & j & d & E & J); [split; vm_compute; reflexivity|].
    destruct a0 as [|? [|? ?]]; try discriminate. injection E as <- _. destruct J as [J|[s J]]; discriminate.
Qed.
