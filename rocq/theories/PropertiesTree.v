(** C18: the syntax tree of a text is the text. *)
From Verif Require Import Base LuaLexer Ast LuaParser LexSpec LayoutSpec LayoutProofs LayoutText.

(** C18: reading the tree of an accepted text from left to right, the spellings of its tokens and the texts at the
    positions between them give back the text. *)
Theorem C18_tree_reads_source : forall (src : str) (n : node), parse_lua src = Parsed n -> reads src (layout n) src.
Proof. exact (fun src n P => proj1 (tree_reads src n P)). Qed.
Print Assumptions C18_tree_reads_source.

(** C18: its tokens are those the lexer found, in the same order and at the same positions; each position between
    two of them is the hole between them or empty. *)
Theorem C18_tree_has_the_tokens : forall (src : str) (n : node), parse_lua src = Parsed n ->
  exists ts, lex src = LexOk ts /\ lay 0 (layout n) (List.length src) ts.
Proof. exact (fun src n P => match parse_lua_layout src n P with ex_intro _ ts (conj L (conj H _)) => ex_intro _ ts (conj L H) end). Qed.
Print Assumptions C18_tree_has_the_tokens.

(** C18: between the tokens there are only blanks, newlines and comments. *)
Theorem C18_gaps_are_blank : forall (src : str) (n : node), parse_lua src = Parsed n -> Forall (slot_ok src) (layout n).
Proof. exact (fun src n P => proj2 (tree_reads src n P)). Qed.
Print Assumptions C18_gaps_are_blank.

(** C18: the spans of the children of every node are disjoint, ordered and inside its own (the root's own span is not
    used by the code and is left out). *)
Theorem C18_spans_nest : forall (src : str) (n : node), parse_lua src = Parsed n ->
  ordered 0 (List.length src) (map n_span (children n)) /\ Forall nested (children n).
Proof. exact tree_spans. Qed.
Print Assumptions C18_spans_nest.

(** C17, C18: parsing a text ends with a tree or with an error. *)
Theorem C18_parsing_total : forall (src : str), parse_lua src <> ParseInternal.
Proof. exact parse_lua_total. Qed.
Print Assumptions C18_parsing_total.

Example tree_slots : exists n, parse_lua (s2l "f{1;2} --x") = Parsed n /\
  layout n = [SGap (0, 0); SGap (0, 0); STok (Variable_ (s2l "f")); SGap (1, 1); SGap (1, 1); SVoid; STok OpenCurlyBracket;
              SGap (2, 2); SGap (2, 2); STok (Numeral (s2l "1")); SGap (3, 3); SSep (s2l ";"); SGap (4, 4);
              STok (Numeral (s2l "2")); SGap (5, 5); STrail []; SGap (5, 5); STok CloseCurlyBracket; SGap (6, 10); STok EOF].
Proof. eexists. split; vm_compute; reflexivity. Qed.
