(** C53 and C54: the text between the tokens of a formatted text. *)
From Coq Require Import Lia.
From Verif Require Import Base Config State LuaLexer Ast LuaParser Formatter LexSpec LayoutSpec RefuteSpec SafeSpec IdemSpec IdemProofs PrettySpec SettleSpec SettleProofs SettleNeeded TrailSpec TrailResults TrailNeeded.

(** C53 for the configurations [calm]: between two tokens of a formatted text no blank is directly before a line feed.
    Missing: other configurations. (Blanks inside comments and strings belong to those.) *)
Theorem C53_no_trailing_blanks_partial : forall (src : str) (c : config) (o : str) (ts : list ptok) (p : loc) (before : option token) (g : list gitem),
  calm c -> readable c src -> process_buffer src c = Formatted o -> lex o = LexOk ts ->
  between ts p before -> gap_text_at o p g -> no_trailing g.
Proof. exact no_trailing_blanks. Qed.
Print Assumptions C53_no_trailing_blanks_partial.

(** Not for all configurations: without options the blanks stay. *)
Theorem C53_no_trailing_blanks_refuted : exists (src : str) (c : config) (o : str) (ts : list ptok) (p : loc) (before : option token) (g : list gitem),
  process_buffer src c = Formatted o /\ lex o = LexOk ts /\ between ts p before /\ gap_text_at o p g /\ ~ no_trailing g.
Proof. exact blanks_stay. Qed.
Print Assumptions C53_no_trailing_blanks_refuted.

(** C54 for the configurations [calm]: with the options that put comments on their own lines, every comment of a formatted text
    comes after a line feed and the indentation of some depth. Missing: the place after a shebang line, other configurations. *)
Theorem C54_comments_on_lines_partial : forall (src : str) (c : config) (o : str) (ts : list ptok) (p : loc) (before : option token) (g : list gitem),
  calm c -> readable c src -> process_buffer src c = Formatted o -> lex o = LexOk ts ->
  between ts p before -> gap_text_at o p g -> (forall s, before <> Some (SheBang s)) -> own_lines c g.
Proof. exact comments_on_lines. Qed.
Print Assumptions C54_comments_on_lines_partial.

(** Not after a shebang line: the hint for comments is put at the start of the line. *)
Theorem C54_comments_on_lines_refuted : exists (src : str) (c : config) (o : str) (ts : list ptok) (p : loc) (before : option token) (g : list gitem),
  calm c /\ readable c src /\ process_buffer src c = Formatted o /\ lex o = LexOk ts /\ between ts p before /\ gap_text_at o p g /\ ~ own_lines c g.
Proof. exact shebang_comment. Qed.
Print Assumptions C54_comments_on_lines_refuted.

Definition trail_source : str := s2l "do   " ++ nl ++ s2l "  " ++ nl ++ s2l "x=p  --one" ++ nl ++ s2l "   --two" ++ nl ++ s2l "  y=q   " ++ nl ++ s2l "end".
Definition trail_output : str :=
  s2l "do" ++ nl ++ nl ++ s2l "  x = p" ++ nl ++ s2l "  -- one" ++ nl ++ s2l "  -- two" ++ nl ++ s2l "  y = q" ++ nl ++ s2l "end" ++ nl.
(** For both: the gap with the two comments is between [p] and [y]. *)
Example C53_case : calm trail_options /\ readable trail_options trail_source /\ process_buffer trail_source trail_options = Formatted trail_output
  /\ exists ts p g, lex trail_output = LexOk ts /\ between ts p (Some (Variable_ (s2l "p"))) /\ gap_text_at trail_output p g
       /\ g = [GNewline; GBlank 32; GBlank 32; GLine (s2l " one"); GBlank 32; GBlank 32; GLine (s2l " two"); GBlank 32; GBlank 32]%N
       /\ on_own_line trail_options (GLine (s2l " two"))
       /\ ~ no_trailing [GBlank 32; GNewline] /\ ~ own_lines trail_options [GBlank 32; GLine (s2l " two")]%N.
Proof.
  split; [apply calm_is_parts; unfold calm_parts; repeat (apply Forall_cons; [one_part|]); apply Forall_nil|]. split.
  { apply plainly_readable. intros ts L. vm_compute in L. injection L as <-. repeat constructor. }
  split; [vm_compute; reflexivity|]. eexists _, (11, 32), _. split; [vm_compute; reflexivity|]. split; [|split; [|split; [reflexivity|split; [|split]]]].
  - right. exists [(0, Do, 2); (6, Variable_ (s2l "x"), 7); (8, EqualsSign, 9)]. do 5 eexists. split; reflexivity.
  - split; [cbn; lia|]. split; [vm_compute; lia|]. split; [left; repeat constructor|vm_compute; reflexivity]; vm_compute; intuition discriminate.
  - split; vm_compute; reflexivity.
  - intros H. exact (H [] _ [] eq_refl).
  - intros H. destruct (H [GBlank 32%N] (GLine (s2l " two")) [] eq_refl) as (a0 & j & d & E & J); [split; vm_compute; reflexivity|].
    destruct a0 as [|? [|? ?]]; try discriminate. injection E as <- _. destruct J as [J|[s J]]; discriminate.
Qed.
