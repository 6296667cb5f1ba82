(** Specification vocabulary for configuration files, on the tokens of the file (config.rs:305-326). *)
From Verif Require Import Base Config ConfigSpec LuaLexer LR LRSpec LuaGrammar.

(** The text that a literal token gives to [set_option]. *)
Inductive literal_text : token -> str -> Prop :=
| lt_number : forall s, literal_text (Numeral s) s
| lt_normal : forall s, literal_text (NormalStringLiteral s) s
| lt_char : forall s, literal_text (CharStringLiteral s) s
| lt_true : literal_text True_ (s2l "true")
| lt_false : literal_text False_ (s2l "false").

(** [name = literal] *)
Inductive assigns : list (located token) -> settings -> Prop :=
| assigns_one : forall l1 r1 l2 r2 l3 r3 n t v, literal_text t v ->
    assigns [(l1, Variable_ n, r1); (l2, EqualsSign, r2); (l3, t, r3)] [(n, v)].

(** The tokens of a statement (of the grammar) that does not start with a name or a parenthesis: no assignment. *)
Definition keyword_statement (w : list (located token)) : Prop :=
  (exists v, derives lua_grammar (NT n_Stat_) w v)
  /\ forall l n r w', w <> (l, Variable_ n, r) :: w'.
(** The tokens of a call [name suffixes]. *)
Definition call_statement (w : list (located token)) : Prop :=
  exists v, derives lua_grammar (NT n_FunctionCallNoStartsMayEndsPar_) w v.

(** The settings of one top-level statement. *)
Inductive sets : list (located token) -> settings -> Prop :=
| sets_assignment : forall w l, assigns w l -> sets w l
| sets_keyword : forall w, keyword_statement w -> sets w []
| sets_call : forall w, call_statement w -> sets w [].

(** An optional first line [#!...]. *)
Inductive shebang : list (located token) -> Prop :=
| shebang_none : shebang []
| shebang_one : forall l s r, shebang [(l, SheBang s, r)].
