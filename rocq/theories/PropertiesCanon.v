(** C40: the blanks of the source do not matter. *)
From Verif Require Import Base Config State LuaLexer CommentLexer LexSpec FormatSpec Formatter Shipped RefuteSpec CanonSpec CanonProofs.

(** C40: with the blanks between tokens removed and no option that measures the source, two texts with the same tokens,
    comments and line feeds have the same outcome. Which line feeds count depends on the options that remove them. *)
Theorem C40_blanks_irrelevant : forall (c : config) (src src' : str), no_size_tests c -> line_range c = None ->
  on c B_remove_spaces_between_tokens = true -> same_but_blanks c src src' -> process_buffer src c = process_buffer src' c.
Proof. exact format_blanks. Qed.
Print Assumptions C40_blanks_irrelevant.

Definition nl : str := [10%N].
Definition C40_options : config := with_options ["--remove_spaces_between_tokens=true"; "--replace_zero_spaces_with_hint=true";
    "--remove_single_newlines=true"; "--newline_format_statement=1"; "--hint_before_comment= "]%string.
Lemma C40_hole : forall c g g', gap g -> gap g' -> same_marks c (comments g) (comments g') -> same_hole c (gap_text g) (gap_text g').
Proof.
  intros c g g' H H' S. assert (L : forall g, gap g -> last_gap g) by (intros k K; exists k, []; rewrite app_nil_r; auto).
  exists (comments g), (comments g'). split; [exists g; auto|]. split; [exists g'; auto|exact S].
Qed.
(** A comment stays; the line feeds after [x] and [y] and the blanks do not matter. *)
Example C40_case : let src := s2l "x  =1  --c" ++ nl ++ s2l " y=2" in let src' := s2l "x" ++ nl ++ s2l "= 1--c" ++ nl ++ s2l "y" ++ nl ++ s2l " =2  " in
  no_size_tests C40_options /\ same_but_blanks C40_options src src'
  /\ process_buffer src C40_options = Formatted (s2l "x = 1 --c" ++ nl ++ s2l "y = 2")
  /\ process_buffer src' C40_options = Formatted (s2l "x = 1 --c" ++ nl ++ s2l "y = 2").
Proof.
  cbn zeta. split; [intros k H; cbn in H; decompose [or] H; subst; try contradiction; reflexivity|].
  split; [|split; vm_compute; reflexivity].
  eexists. eexists. split; [vm_compute; reflexivity|]. split; [vm_compute; reflexivity|]. split; [reflexivity|].
  assert (B : forall g, Forall (fun i => i = GBlank 32%N \/ i = GNewline \/ i = GLine (s2l "c")) g -> gap g).
  { intros g H. eapply Forall_impl; [|exact H]. intros i [->|[->| ->]]; cbn; repeat split; auto. unfold no_newline. cbn. intuition discriminate. }
  assert (M : forall m m', (m = [] \/ m = [CNewLine]) /\ (m' = [] \/ m' = [CNewLine]) -> same_marks C40_options m m') by (intros m m' H; right; right; split; [reflexivity|exact H]).
  apply Forall2_cons; [refine (C40_hole _ [] [] (B _ _) (B _ _) (or_introl eq_refl)); repeat apply Forall_cons; auto; apply Forall_nil|].
  apply Forall2_cons; [refine (C40_hole _ [GBlank 32%N; GBlank 32%N] [GNewline] (B _ _) (B _ _) (M _ _ _)); [| |cbn; auto]; repeat apply Forall_cons; auto; apply Forall_nil|].
  apply Forall2_cons; [refine (C40_hole _ [] [GBlank 32%N] (B _ _) (B _ _) (or_introl eq_refl)); repeat apply Forall_cons; auto; apply Forall_nil|].
  apply Forall2_cons; [refine (C40_hole _ [GBlank 32%N; GBlank 32%N; GLine (s2l "c"); GBlank 32%N] [GLine (s2l "c")] (B _ _) (B _ _) (or_introl eq_refl)); repeat apply Forall_cons; auto; apply Forall_nil|].
  apply Forall2_cons; [refine (C40_hole _ [] [GNewline; GBlank 32%N] (B _ _) (B _ _) (M _ _ _)); [| |cbn; auto]; repeat apply Forall_cons; auto; apply Forall_nil|].
  apply Forall2_cons; [refine (C40_hole _ [] [] (B _ _) (B _ _) (or_introl eq_refl)); repeat apply Forall_cons; auto; apply Forall_nil|].
  apply Forall2_cons; [refine (C40_hole _ [] [GBlank 32%N; GBlank 32%N] (B _ _) (B _ _) (or_introl eq_refl)); repeat apply Forall_cons; auto; apply Forall_nil|].
  constructor.
Qed.

(** C40 does not hold without the restriction on the options: the configuration the tool ships with puts an [if] on one line
    or not depending on the blanks in it. *)
Theorem C40_size_refuted : exists src src', line_range shipped = None /\ on shipped B_remove_spaces_between_tokens = true
  /\ same_but_blanks shipped src src' /\ process_buffer src shipped <> process_buffer src' shipped.
Proof. exact size_matters. Qed.
Print Assumptions C40_size_refuted.
