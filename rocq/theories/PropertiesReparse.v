(** C37, C38: the formatted text is parsed to the same tree. *)
From Verif Require Import Base Config State LuaLexer Ast LuaParser Formatter Shipped RefuteSpec LexSpec LayoutSpec FormatSpec SafeSpec
  RelexProofs ReparseSpec ReparseProofs.

(** C37: with a configuration that keeps tokens apart, the output is accepted, and its tree is the tree of the source. *)
Theorem C37_same_tree : forall (src : str) (c : config) (o : str) (ts : list ptok), tidy c -> line_range c = None ->
  process_buffer src c = Formatted o -> lex src = LexOk ts -> ~ brackets_meet ts -> (open_numeral ts -> on c B_write_newline_at_eof = true) ->
  exists n n', parse_lua src = Parsed n /\ parse_lua o = Parsed n' /\ same_tree c n n'.
Proof. exact format_reparse. Qed.
Print Assumptions C37_same_tree.

(** Quotes and field separators change, the tree does not; another number is another tree. *)
Example C37_case : let c := with_options ["--replace_zero_spaces_with_hint=true"; "--hint_before_comment= ";
    "--convert_charstring_to_normalstring=true"; "--field_separator=; "; "--write_trailing_field_separator=true"]%string in
  let o := s2l "x = {""a"";  2; } --c" in
  process_buffer (s2l "x={'a', 2}--c") c = Formatted (o ++ [10%N])
  /\ (exists n n', parse_lua (s2l "x={'a', 2}--c") = Parsed n /\ parse_lua (o ++ [10%N]) = Parsed n' /\ same_tree c n n')
  /\ (forall n n', parse_lua (s2l "x=1") = Parsed n -> parse_lua (s2l "x=2") = Parsed n' -> ~ same_tree c n n').
Proof.
  cbn zeta. split; [vm_compute; reflexivity|]. split.
  - do 2 eexists. split; [vm_compute; reflexivity|]. split; [vm_compute; reflexivity|].
    repeat (first [apply st_string; [vm_compute; reflexivity|vm_compute; reflexivity]|constructor]; cbn [map snd si_node fst]).
  - intros n n' P P'. vm_compute in P, P'. injection P as <-. injection P' as <-. intros H.
    repeat match goal with
      | H : same_tree _ _ _ |- _ => inversion H; subst; clear H
      | H : same_trees _ (map _ _) _ |- _ => cbn [map snd si_node fst] in H
      | H : same_trees _ (_ :: _) _ |- _ => inversion H; subst; clear H
      end.
Qed.

(** C38: the shipped configuration can be applied any number of times, and the tree is still that of the source. *)
Theorem C38_repeated : forall (k : nat) (src : str) (ts : list ptok) (n : node), lex src = LexOk ts -> ~ brackets_meet ts ->
  parse_lua src = Parsed n -> exists o n', runs shipped k src o /\ parse_lua o = Parsed n' /\ same_tree shipped n n'.
Proof. exact shipped_runs. Qed.
Print Assumptions C38_repeated.

Example C38_case : runs shipped 2 (s2l "f{'a'}") (s2l "f { 'a' }" ++ [10%N]).
Proof. econstructor; [vm_compute; reflexivity|]. econstructor; [vm_compute; reflexivity|]. apply rs_none. Qed.
