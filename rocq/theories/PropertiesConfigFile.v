(** Properties of configuration files: C23. *)
From Verif Require Import Base LuaLexer LR LRSpec LuaGrammar Config ConfigSpec ConfigFileSpec ConfigFileProofs.

(** C23, for a file whose tokens are top-level statements (after an optional [#!] line), each of them [name = literal],
    or a statement that starts with neither a name nor a parenthesis, or a call: the file parses, and loading it applies
    the assignments in order and ignores the rest. Files that end in [return], assignments to several variables, and
    assignments of anything but a short literal are left out: see the refutations. *)
Theorem C23_config_file_partial : forall t sb ws ls p q c,
  lex t = LexOk (sb ++ List.concat ws ++ [(p, EOF, q)]) -> shebang sb -> Forall2 sets ws ls ->
  reload_format t c = Some (apply_settings (List.concat ls) c).
Proof. exact reload_file. Qed.
Print Assumptions C23_config_file_partial.

Definition c23_file : str := s2l "#!/usr/bin/lua
local x = 1; indentation_string = '  ' max_width = 80 f() remove_comments = true max_width = 60".
Definition c23_out : option config := reload_format c23_file default_config.
Example C23_config_file_ex :
  (exists sb ws ls p q, lex c23_file = LexOk (sb ++ List.concat ws ++ [(p, EOF, q)]) /\ shebang sb /\ Forall2 sets ws ls
    /\ List.concat ls = [(s2l "indentation_string", s2l "  "); (s2l "max_width", s2l "80"); (s2l "remove_comments", s2l "true");
                    (s2l "max_width", s2l "60")])
  /\ option_map (fun c => (cs c S_indentation_string, cn c N_max_width, cb c B_remove_comments)) c23_out
     = Some (Some (s2l "  "), Some 60%N, Some true).
Proof.
  split; [|vm_compute; reflexivity].
  eexists [_], [[_; _; _; _]; [_]; [_; _; _]; [_; _; _]; [_; _; _]; [_; _; _]; [_; _; _]], [_; _; _; _; _; _; _], _, _.
  split; [vm_compute; reflexivity|]. split; [constructor|]. split.
  - constructor; [apply sets_keyword; eapply local_assignment; constructor|].
    constructor; [apply sets_keyword, semicolon_statement|].
    constructor; [apply sets_assignment; repeat constructor|].
    constructor; [apply sets_assignment; repeat constructor|].
    constructor; [apply sets_call, call_empty|].
    constructor; [apply sets_assignment; apply assigns_one, lt_true|].
    constructor; [apply sets_assignment; repeat constructor|constructor].
  - reflexivity.
Qed.

(** The full statement is false: a file that ends in [return] sets nothing. *)
Theorem C23_return_refuted : exists t ws ls p q r c',
  Forall2 sets ws ls /\ lex t = LexOk (List.concat ws ++ [(p, Return, q); (r, EOF, r)]) /\
  reload_format t default_config = Some c' /\ c' = default_config /\
  cn (apply_settings (List.concat ls) default_config) N_max_width = Some 80%N.
Proof. exact return_sets_nothing. Qed.
Print Assumptions C23_return_refuted.

(** The full statement is false: of an assignment to several variables, the first one is set. *)
Theorem C23_multiple_refuted : exists t toks c',
  lex t = LexOk toks /\ map (fun x => snd (fst x)) toks =
    [Variable_ (s2l "max_width"); Comma; Variable_ (s2l "x"); EqualsSign; Numeral (s2l "80"); Comma; Numeral (s2l "1"); EOF] /\
  reload_format t default_config = Some c' /\ cn default_config N_max_width = None /\ cn c' N_max_width = Some 80%N.
Proof. exact first_of_several. Qed.
Print Assumptions C23_multiple_refuted.
