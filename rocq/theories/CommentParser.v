(** [parse_comment] (src/parser/mod.rs:30-33). *)
From Verif Require Import Base LuaLexer CommentLexer LR CommentGrammar CommentTables.

Definition comment_max_rank : nat := 5.

Definition parse_ctokens (ts : list (nat * ctoken * nat)) : parse_result (val := cval) :=
  lr_parse comment_grammar comment_rows ct_eoi comment_max_rank ts.

(** [None] is the parsing error. *)
Definition parse_comment (src : str) : option cchunk :=
  match clex src with
  | LexOk ts => match parse_ctokens ts with POk (CVChunk c) => Some c | _ => None end
  | _ => None
  end.
