(** Ranges of lines that choose the whole text. *)
From Verif Require Import Base Config LuaLexer UtilSpec.

(** all lines of the text are in the range *)
Definition covers (src : str) (L R : N) : Prop := (L <= 1 /\ N.of_nat (lines src) <= R)%N.
(** no line of the text is in the range, or the range is empty *)
Definition misses (src : str) (L R : N) : Prop := (N.of_nat (lines src) < L \/ R < L)%N.
(** no hint is written in front of the brace of a table *)
Definition no_brace_hint (c : config) : Prop :=
  cs c S_hint_table_constructor = None \/ cs c S_hint_table_constructor = Some [] \/ cb c B_replace_zero_spaces_with_hint <> Some true.
(** every opening brace of the text is directly followed by the closing one *)
Definition no_filled_table (src : str) : Prop :=
  forall ts a l r x b, lex src = LexOk ts -> ts = a ++ (l, OpenCurlyBracket, r) :: x :: b -> snd (fst x) = CloseCurlyBracket.
