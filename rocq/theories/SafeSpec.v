(** What the formatted text is when it is read again. *)
From Verif Require Import Base State LuaLexer Config LexSpec LayoutSpec FormatSpec.

(** A configuration that keeps tokens apart: removed blanks are replaced by hints, there is a blank before comments, and
    the texts that are inserted are blanks, or a comma or semicolon between table fields. *)
Definition blanks (s : str) : Prop := Forall (fun a => a = 32%N \/ a = 9%N) s.
Definition tidy (c : config) : Prop :=
  on c B_replace_zero_spaces_with_hint = true
  /\ (exists h, cs c S_hint_before_comment = Some h /\ h <> [] /\ blanks h)
  /\ (forall k h, In k [S_hint_after_multiline_comment; S_hint_table_constructor; S_indentation_string; S_hint_before_multiline_comment_text] ->
        cs c k = Some h -> blanks h)
  /\ (forall k h, In k [S_hint_before_oneline_comment_text; S_hint_after_multiline_comment_text] -> cs c k = Some h -> h <> [] /\ blanks h)
  /\ (forall h, cs c S_field_separator = Some h -> exists b, (h = 44%N :: b \/ h = 59%N :: b) /\ blanks b).

(** [[] directly followed by a long string, and a numeral with an open exponent or [0x] as the last token *)
Definition brackets_meet (ts : list ptok) : Prop :=
  exists a p q r s lv body b, ts = a ++ (p, OpenSquareBracket, q) :: (r, MultiLineStringLiteral lv body, s) :: b.
Definition open_numeral (ts : list ptok) : Prop :=
  exists a p s q e, ts = a ++ [(p, Numeral s, q); e] /\ can_follow (Numeral s) None = false.

(** the token of the text written for a separator *)
Definition separator_tokens (x : str) : list token :=
  match x with [] => [] | a :: _ => [if N.eqb a 59 then Semicolon else Comma] end.
(** [writes c ss ts]: the tokens [ts] are written for the slots [ss] *)
Inductive writes (c : config) : list slot -> list token -> Prop :=
| ws_nil : writes c [] []
| ws_tok : forall t t' ss ts, token_becomes c t t' -> writes c ss ts -> writes c (STok t :: ss) (t' :: ts)
| ws_gap : forall p ss ts, writes c ss ts -> writes c (SGap p :: ss) ts
| ws_void : forall ss ts, writes c ss ts -> writes c (SVoid :: ss) ts
| ws_sep : forall z ss ts, writes c ss ts -> writes c (SSep z :: ss) (separator_tokens (separator_out c z) ++ ts)
| ws_trail : forall z x ss ts, trailing_out c z x -> writes c ss ts -> writes c (STrail z :: ss) (separator_tokens x ++ ts).

(** The same, said about token sequences only: a token stays, or is a string that changes its quotes, or is a comma or
    semicolon that becomes another one; one of these before a closing brace may appear or go. *)
Definition is_separator (t : token) : Prop := t = Comma \/ t = Semicolon.
Inductive same_program (c : config) : list token -> list token -> Prop :=
| sp_nil : same_program c [] []
| sp_tok : forall t t' a b, token_becomes c t t' -> same_program c a b -> same_program c (t :: a) (t' :: b)
| sp_sep : forall t t' a b, is_separator t -> is_separator t' -> cs c S_field_separator <> None -> same_program c a b -> same_program c (t :: a) (t' :: b)
| sp_drop : forall t a b, is_separator t -> same_program c (CloseCurlyBracket :: a) b -> same_program c (t :: CloseCurlyBracket :: a) b
| sp_add : forall t a b, is_separator t -> same_program c (CloseCurlyBracket :: a) b -> same_program c (CloseCurlyBracket :: a) (t :: b).

(** tokens without their positions *)
Definition tokens_of (ts : list ptok) : list token := map (fun x => snd (fst x)) ts.
