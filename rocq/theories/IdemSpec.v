(** When formatting a formatted text again is expected to change nothing. *)
From Verif Require Import Base State LuaLexer Config FormatSpec CanonSpec SafeSpec.

(** blanks and line feeds only *)
Definition only_blanks (x : str) : Prop := Forall (fun a => In a [32; 9; 13; 10]%N) x.
(** a gap that leaves nothing behind: no comments, and its line feeds are removed *)
Definition removed_gap (c : config) (x : str) : Prop :=
  only_blanks x /\ (on c B_remove_all_newlines = true \/ (on c B_remove_single_newlines = true /\ count_occ N.eq_dec x 10%N <= 1)).
(** the tokens of [src], and what is between them *)
Definition gaps_are (P : str -> Prop) (src : str) : Prop := exists ts, lex src = LexOk ts /\ Forall P (holes src 0 ts).

(** A configuration whose output can be read back (see [tidy]), that removes the blanks of the source and does not measure it. *)
Definition settled (c : config) : Prop :=
  tidy c /\ no_size_tests c /\ line_range c = None /\ on c B_remove_spaces_between_tokens = true.
(** No [[] directly before a long string; and no numeral with an open exponent at the end, unless a line feed is put there. *)
Definition readable (c : config) (src : str) : Prop :=
  forall ts, lex src = LexOk ts -> ~ brackets_meet ts /\ (open_numeral ts -> on c B_write_newline_at_eof = true).
