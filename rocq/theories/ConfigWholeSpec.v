(** Specification vocabulary for arbitrary configuration files, on their tokens (config.rs:278-326). *)
From Verif Require Import Base Config ConfigSpec LuaLexer LR LRSpec LuaGrammar ConfigFileSpec.

(** [w] is a phrase of the nonterminal [x]; [w] is a list separated by commas whose first element is the phrase [w1] of [x] and whose
    other elements, if there are any, form a phrase of [xs] *)
Definition phrase (x : N) (w : list (located token)) : Prop := exists v, derives lua_grammar (NT x) w v.
Definition list_of (x xs : N) (w1 w : list (located token)) : Prop :=
  phrase x w1 /\ (w = w1 \/ exists l r w2, w = w1 ++ (l, Comma, r) :: w2 /\ phrase xs w2).
Definition variables := list_of n_VarNoExp_ n_TSepList_VarMayExp_.
Definition expressions := list_of n_OpExp_ n_TSepList_OpExp_.
(** one token that is a literal with the text [s], or a name *)
Definition is_literal (w : list (located token)) (s : str) : Prop := exists l t r, w = [(l, t, r)] /\ literal_text t s.
Definition is_name (w : list (located token)) (n : str) : Prop := exists l r, w = [(l, Variable_ n, r)].
Definition starts_with_name (w : list (located token)) : Prop := exists l n r w', w = (l, Variable_ n, r) :: w'.
Definition single_statement (w : list (located token)) : Prop :=
  phrase n_StatNoPar_ w \/ phrase n_StatMayEndsPar_ w \/ phrase n_StatStartsMayEndsPar_ w.

(** The settings of one statement. An assignment counts by its first variable and its first expression. *)
Inductive statement_sets : list (located token) -> settings -> Prop :=
| ss_assignment : forall v1 vs l r e1 es n s, variables v1 vs -> expressions e1 es -> is_name v1 n -> is_literal e1 s ->
    statement_sets (vs ++ (l, EqualsSign, r) :: es) [(n, s)]
| ss_other : forall v1 vs l r e1 es, variables v1 vs -> expressions e1 es ->
    (forall n, ~ is_name v1 n) \/ (forall s, ~ is_literal e1 s) -> statement_sets (vs ++ (l, EqualsSign, r) :: es) []
| ss_call : forall w, call_statement w -> statement_sets w []
| ss_no_name : forall w, single_statement w -> ~ starts_with_name w -> statement_sets w [].

(** A statement that starts with a parenthesis is the first one or comes directly after a statement that cannot go on with one. *)
Definition starts_with_parenthesis (w : list (located token)) : Prop := exists l r w', w = (l, OpenRoundBracket, r) :: w'.
Definition separated (ws : list (list (located token))) : Prop := forall ws1 w1 w2 ws2,
  ws = ws1 ++ w1 :: w2 :: ws2 -> starts_with_parenthesis w2 -> phrase n_StatNoPar_ w1.
