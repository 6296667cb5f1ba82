(** Properties of configuration files: C23, for every file that is loaded at all. *)
From Verif Require Import Base LuaLexer LR LRSpec LuaGrammar Config ConfigSpec ConfigFileSpec ConfigWholeSpec ConfigWholeProofs.

(** C23, for every file: it is loaded if and only if its tokens are an optional [#!] line, statements and possibly a [return],
    where a statement that starts with a parenthesis is the first or follows a statement that cannot go on with one. Each statement
    sets at most one option. It does so if and only if it is an assignment whose first variable is a plain name and whose first
    expression is a short literal. Without [return] these settings are applied in order, with [return] the configuration stays as
    it was. *)
Theorem C23_every_file : forall t c c',
  reload_format t c = Some c' <-> exists sb ws rt p q ls,
  lex t = LexOk (sb ++ List.concat ws ++ rt ++ [(p, EOF, q)]) /\ shebang sb /\ Forall2 statement_sets ws ls /\ separated ws /\
  (rt = [] /\ c' = apply_settings (List.concat ls) c \/ phrase n_RetStat_ rt /\ c' = c).
Proof. exact any_file. Qed.
Print Assumptions C23_every_file.

Definition c23_whole : str := s2l "max_width, x = 80, 2 t.y = 5 remove_comments = f(true) if a then max_width = 1 end indentation_string = 'z'".
Example C23_every_file_ex :
  option_map (fun c => (cn c N_max_width, cb c B_remove_comments, cs c S_indentation_string)) (reload_format c23_whole default_config)
  = Some (Some 80%N, None, Some (s2l "z")).
Proof. vm_compute. reflexivity. Qed.
Definition c23_return : str := s2l "max_width = 80 return 1".
Example C23_every_file_return_ex :
  option_map (fun c => cn c N_max_width) (reload_format c23_return default_config) = Some (cn default_config N_max_width).
Proof. vm_compute. reflexivity. Qed.
(** A statement that starts with a parenthesis may follow a semicolon but not an assignment of a number. *)
Example C23_every_file_separated_ex :
  option_map (fun c => cn c N_max_width) (reload_format (s2l "max_width = 80; (f)() ") default_config) = Some (Some 80%N)
  /\ reload_format (s2l "max_width = 80 (f)() ") default_config = None.
Proof. split; vm_compute; reflexivity. Qed.
