(** Configurations under which a formatted text stays as it is, comments included. *)
From Verif Require Import Base Config State LexSpec SafeSpec PrettySpec.

(** what gets a line of its own as the first comment of a gap gets one later in the gap too; without the line feeds of the
    source every later comment does *)
Definition steady_lines (c : config) : Prop :=
  (nis c N_newline_format_first_oneline_comment 1 = true -> nis c N_newline_format_oneline_comment 1 = true)
  /\ (nis c N_newline_format_first_multiline_comment 1 = true -> nis c N_newline_format_multiline_comment 1 = true)
  /\ (on c B_remove_all_newlines = true ->
      nis c N_newline_format_oneline_comment 1 = true /\ nis c N_newline_format_multiline_comment 1 = true).
(** Tokens are kept apart and blanks removed, comments are kept, nothing is forced onto one line; the separator, the hint
    after a long comment and the one in tables are at most one character; a trailing separator is not removed. *)
Definition calm (c : config) : Prop :=
  tidy c /\ no_forcing c /\ line_range c = None
  /\ on c B_remove_spaces_between_tokens = true /\ on c B_remove_comments = false
  /\ on c B_write_newline_at_multiline_table = false
  /\ cb c B_write_trailing_field_separator <> Some false
  /\ (forall k s, In k [S_field_separator; S_hint_after_multiline_comment; S_hint_table_constructor] -> cs c k = Some s ->
        List.length s <= 1)
  /\ steady_lines c.
(** the same, one condition at a time *)
Definition calm_parts (c : config) : list Prop :=
  [tidy c; no_forcing c; line_range c = None; on c B_remove_spaces_between_tokens = true; on c B_remove_comments = false;
   on c B_write_newline_at_multiline_table = false; cb c B_write_trailing_field_separator <> Some false;
   (forall s, cs c S_field_separator = Some s -> List.length s <= 1);
   (forall s, cs c S_hint_after_multiline_comment = Some s -> List.length s <= 1);
   (forall s, cs c S_hint_table_constructor = Some s -> List.length s <= 1);
   (nis c N_newline_format_first_oneline_comment 1 = true -> nis c N_newline_format_oneline_comment 1 = true);
   (nis c N_newline_format_first_multiline_comment 1 = true -> nis c N_newline_format_multiline_comment 1 = true);
   (on c B_remove_all_newlines = true -> nis c N_newline_format_oneline_comment 1 = true /\ nis c N_newline_format_multiline_comment 1 = true)].
(** all of the conditions, but perhaps one *)
Definition calm_but (i : nat) (c : config) : Prop := forall j P, nth_error (calm_parts c) j = Some P -> j <> i -> P.
