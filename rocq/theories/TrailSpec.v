(** Specification vocabulary for the text between the tokens of a formatted text. *)
From Verif Require Import Base Config LuaLexer LexSpec Ast LayoutSpec CommentLexer CommentSpec RenderSpec PrettySpec.

(** [p] is the place before the first token of [ts] or between two of them; [t] is the token before it. *)
Definition between (ts : list ptok) (p : loc) (before : option token) : Prop :=
  (exists t r ts', ts = (snd p, t, r) :: ts' /\ fst p = 0 /\ before = None)
  \/ exists a l t b t' r', ts = a ++ (l, t, fst p) :: (snd p, t', r') :: b /\ before = Some t.

(** no blank is directly before a line feed (blanks of comments are part of the comments) *)
Definition no_trailing (g : list gitem) : Prop := forall a x b, g <> a ++ GBlank x :: GNewline :: b.

(** the comments that get a line of their own *)
Definition on_own_line (c : config) (i : gitem) : Prop :=
  match i with
  | GLine _ => cn c N_newline_format_first_oneline_comment = Some 1%N /\ cn c N_newline_format_oneline_comment = Some 1%N
  | GLong _ _ => cn c N_newline_format_first_multiline_comment = Some 1%N /\ cn c N_newline_format_multiline_comment = Some 1%N
  | _ => False
  end.
(** each of them comes after a line feed and an indentation *)
Definition own_lines (c : config) (g : list gitem) : Prop :=
  forall a i b, g = a ++ i :: b -> on_own_line c i ->
  exists a0 j d, a = a0 ++ j :: map GBlank (indentation c d) /\ (j = GNewline \/ exists s, j = GLine s).
