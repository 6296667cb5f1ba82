(** C52: statements and blocks of a formatted text are on lines of their own, indented by their depth. *)
From Verif Require Import Base Config State Ast LuaParser Formatter RefuteSpec SafeSpec IdemSpec IdemProofs PrettySpec SettleSpec SettleProofs SettleNeeded LineSpec LineResults.

(** C52 for the configurations [calm] that put statements and all kinds of blocks on lines of their own. The positions are those of
    the tree of the formatted text itself; all parts of the tree are reached. Missing: other configurations. *)
Theorem C52_lines_indented_partial : forall (src : str) (c : config) (o : str), calm c -> readable c src -> breaking c ->
  process_buffer src c = Formatted o ->
  exists n, parse_lua o = Parsed n
    /\ forall m e op q d, within c n 0 None m e op -> opens_line m e q d -> line_at c o q d.
Proof. exact lines_indented. Qed.
Print Assumptions C52_lines_indented_partial.

Definition line_options : config := with_options ["--remove_spaces_between_tokens=true"; "--replace_zero_spaces_with_hint=true";
    "--newline_format_statement=1"; "--newline_format_function=1"; "--newline_format_if=1"; "--newline_format_while=1";
    "--newline_format_repeat_until=1"; "--newline_format_for=1"; "--newline_format_do_end=1"; "--newline_format_oneline_comment=1";
    "--newline_format_first_oneline_comment=1"; "--indentation_string=  "; "--hint_before_comment= ";
    "--newline_format_multiline_comment=1"; "--hint_after_multiline_comment= "; "--hint_before_oneline_comment_text= ";
    "--write_newline_at_eof=true"]%string.
Definition line_source : str := s2l "function f()if a then x=p y=q elseif b then repeat g()until z--one" ++ nl ++ s2l "else return end end".
Definition line_output : str :=
  s2l "function f()" ++ nl ++ s2l "  if a then" ++ nl ++ s2l "    x = p" ++ nl ++ s2l "    y = q" ++ nl ++ s2l "  elseif b then" ++ nl
  ++ s2l "    repeat" ++ nl ++ s2l "      g()" ++ nl ++ s2l "    until z" ++ nl ++ s2l "  -- one" ++ nl ++ s2l "  else" ++ nl
  ++ s2l "    return" ++ nl ++ s2l "  end" ++ nl ++ s2l "end" ++ nl.
(** Every construct on its lines; the body of the [repeat] is one of the blocks found, three deep. *)
Example C52_case : calm line_options /\ readable line_options line_source /\ breaking line_options
  /\ process_buffer line_source line_options = Formatted line_output
  /\ exists n m op q, parse_lua line_output = Parsed n /\ within line_options n 0 None m 2 op /\ opens_line m 2 q 3
       /\ firstn 3 (skipn q line_output) = s2l "g()" /\ indentation line_options 3 = s2l "      ".
Proof.
  split; [apply calm_is_parts; unfold calm_parts; repeat (apply Forall_cons; [one_part|]); apply Forall_nil|]. split.
  { apply plainly_readable. intros ts L. vm_compute in L. injection L as <-. repeat constructor. }
  split; [split; [vm_compute; discriminate|intros k I; cbn [In] in I; decompose [or] I; try contradiction; subst k; vm_compute; reflexivity]|].
  split; [vm_compute; reflexivity|]. do 4 eexists. split; [vm_compute; reflexivity|]. split; [|split; [|split; [|vm_compute; reflexivity]]].
  - eapply wi_chunk; [left; reflexivity|left; reflexivity|]. eapply wi_item; [left; reflexivity|left; reflexivity|].
    eapply (wi_part _ _ _ _ 2); [reflexivity|discriminate|intros []|intros []|reflexivity|]. eapply (wi_deeper _ _ _ _ 2); [left; reflexivity|reflexivity|].
    eapply wi_item; [left; reflexivity|left; reflexivity|]. eapply (wi_part _ _ _ _ 4); [reflexivity|discriminate|cbn; intuition discriminate|intros []|reflexivity|].
    eapply wi_item; [right; left; reflexivity|left; reflexivity|]. eapply (wi_deeper _ _ _ _ 3); [left; reflexivity|reflexivity|].
    eapply wi_item; [left; reflexivity|left; reflexivity|]. apply wi_here.
  - apply (ol_block _ _ 0). left. reflexivity.
  - vm_compute. reflexivity.
Qed.

Definition fn_source : str := s2l "x=a and function()p()q()end".
Definition fn_output : str := s2l "x = a and function()" ++ nl ++ s2l "    p()" ++ nl ++ s2l "    q()" ++ nl ++ s2l "  end" ++ nl.
(** A function in an operand: one step for the operand, one for the block. *)
Example C52_case_function : readable line_options fn_source /\ process_buffer fn_source line_options = Formatted fn_output
  /\ exists n m op q, parse_lua fn_output = Parsed n /\ within line_options n 0 None m 2 op /\ opens_line m 2 q 2 /\ firstn 3 (skipn q fn_output) = s2l "q()".
Proof.
  split; [apply plainly_readable; intros ts L; vm_compute in L; injection L as <-; repeat constructor|].
  split; [vm_compute; reflexivity|]. do 4 eexists. split; [vm_compute; reflexivity|]. split; [|split].
  - eapply wi_chunk; [left; reflexivity|left; reflexivity|]. eapply wi_item; [left; reflexivity|left; reflexivity|].
    eapply (wi_part _ _ _ _ 2); [reflexivity|discriminate|intros []| |reflexivity|]; [intros _; vm_compute; reflexivity|].
    eapply wi_element; [left; reflexivity|left; reflexivity|]. eapply (wi_operand _ _ _ _ 1); [reflexivity|repeat constructor|reflexivity|].
    eapply (wi_part _ _ _ _ 1); [reflexivity|discriminate|intros []|intros []|reflexivity|]. eapply (wi_deeper _ _ _ _ 2); [left; reflexivity|reflexivity|]. apply wi_here.
  - eapply (ol_item _ _ [_]); [left; reflexivity|reflexivity|discriminate].
  - vm_compute. reflexivity.
Qed.
