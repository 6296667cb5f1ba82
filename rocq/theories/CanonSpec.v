(** When two texts differ in nothing that the output depends on. *)
From Verif Require Import Base Config State LuaLexer CommentLexer LexSpec CommentSpec FormatSpec SafeSpec.

(** None of the options that compare the length of a construct in the source with the width of a line. *)
Definition no_size_tests (c : config) : Prop :=
  forall k, In k [B_force_single_line_table; B_force_single_line_iv_table_field; B_force_single_line_kv_table_field;
                  B_force_single_line_if; B_force_single_line_top_level_function; B_force_single_line_scoped_function] ->
    on c k = false.

(** the texts before the tokens [ts], the first of which starts at or after [p] *)
Fixpoint holes (src : str) (p : nat) (ts : list ptok) : list str :=
  match ts with
  | [] => []
  | (l, _, r) :: rest => text_at src p l :: holes src r rest
  end.

(** [x] is blanks around the comments and line feeds [m] *)
Definition marked (x : str) (m : list ctoken) : Prop := exists g, last_gap g /\ x = gap_text g /\ m = comments g.
Definition line_feeds (m : list ctoken) : Prop := Forall (fun t => t = CNewLine) m.
(** The same comments and line feeds; or line feeds only, when all of them go; or at most one, when a single one goes. *)
Definition same_marks (c : config) (m m' : list ctoken) : Prop :=
  m = m'
  \/ (on c B_remove_all_newlines = true /\ line_feeds m /\ line_feeds m')
  \/ (on c B_remove_single_newlines = true /\ (m = [] \/ m = [CNewLine]) /\ (m' = [] \/ m' = [CNewLine])).
Definition same_hole (c : config) (x x' : str) : Prop :=
  exists m m', marked x m /\ marked x' m' /\ same_marks c m m'.

(** The same tokens, and between them the same up to blanks. *)
Definition same_but_blanks (c : config) (src src' : str) : Prop :=
  exists ts ts', lex src = LexOk ts /\ lex src' = LexOk ts' /\ tokens_of ts = tokens_of ts'
    /\ Forall2 (same_hole c) (holes src 0 ts) (holes src' 0 ts').
