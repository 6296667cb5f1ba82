(** src/main.rs and src/formatter.rs:34-87 again, with everything they print: what Cli.v leaves out. *)
From Verif Require Import Base Config Ast LuaParser LuaError Formatter FileUtil Cli.

(** Why a text was not formatted: formatter.rs:12-33 [FormatterError]. The text of an error of the parser is the error; the
    debug print of the tree in [FormattingError] is left out (it does not occur, C02). *)
Inductive failure :=
| CannotRead                               (* "cannot read file" *)
| NoConfigFile                             (* "configure file was not found" *)
| BadConfigFile (q : path) (e : lua_error) (* "invalid configure file: ..." *)
| NoParse (e : lua_error)                  (* "parsing error: ..." *)
| NoFormat.                                (* "formatting error: ..." *)

(** The lines on stderr. Simplified: a path is printed as it was found, here it is the absolute one; the system's reason for a
    failed write is left out. *)
Inductive message :=
| UnrecognizedOption (o : str)             (* main.rs:46 *)
| InvalidValue (n v : str)                 (* config.rs:184, 269, 271 *)
| InvalidName (n : str)                    (* config.rs:274 *)
| UnresolvedPath (a : str)                 (* main.rs:98 *)
| FileFailed (p : path) (e : failure)      (* main.rs:66 *)
| WriteFailed (p : path)                   (* main.rs:60 *)
| BufferFailed (e : failure).              (* main.rs:86 *)

(** The lines on stdout with [-v]. *)
Inductive info :=
| IPaths (l : list str)                    (* main.rs:76 *)
| IOptions (o : program_opts)              (* main.rs:77 *)
| IFile (p : path)                         (* formatter.rs:40 *)
| IFormat (c : config).                    (* formatter.rs:66 *)

Inductive event :=
| Out (p : option path) (s : str)          (* formatted text on stdout, of a file or of standard input *)
| Info (i : info)
| Err (m : message)
| Put (p : path) (s : str).                (* a file replaced *)

(** config.rs:179-276: what [set] prints *)
Definition set_report (n v : str) : list message :=
  match find_option n option_names with
  | Some (OB _) => if is_some (parse_bool v) then [] else [InvalidValue n v]
  | Some (ON _) => if is_some (parse_usize v) then [] else [InvalidValue n v]
  | Some (OS _) => []
  | Some OLineRange => if is_some (parse_range v) then [] else [InvalidValue n v]
  | None => [InvalidName n]
  end.
(** main.rs:36-49: what is printed for one option *)
Definition is_flag (w : str) : bool :=
  existsb (str_eqb w) (map s2l ["i"; "inplace"; "r"; "recursive"; "v"; "verbose"]%string).
Definition option_report (o : str) : list message :=
  match match_config_opt o with
  | Some (n, v) => set_report n v
  | None => match match_program_opt o with
            | Some w => if is_flag w then [] else [UnrecognizedOption o]
            | None => [UnrecognizedOption o]
            end
  end.

(** config.rs:278-303: what reading a configuration file prints *)
Definition assignment_report (n : node) : list message :=
  match n_kids n with
  | [varlist; exprlist] =>
      match n_kind varlist, n_kind exprlist, n_seps varlist, n_seps exprlist with
      | KVarList, KExpList, v :: _, e :: _ =>
          let var := si_node v in
          let expr := si_node e in
          match n_kind var, n_kind expr with
          | KName, KNumeral | KName, KNormalStringLiteral | KName, KCharStringLiteral => set_report (n_text var) (n_text expr)
          | KName, KTrue => set_report (n_text var) (s2l "true")
          | KName, KFalse => set_report (n_text var) (s2l "false")
          | _, _ => []
          end
      | _, _, _, _ => []
      end
  | _ => []
  end.
Fixpoint load_report (n : node) {struct n} : list message :=
  match n with
  | Nd KVarsExprs _ _ _ _ _ _ _ _ => assignment_report n
  | Nd KStatementList _ _ _ _ _ items _ _ =>
      (fix go (l : list (loc * node)) {struct l} : list message :=
         match l with [] => [] | (_, m) :: r => load_report m ++ go r end) items
  | _ => []
  end.
(** config.rs:305-326 *)
Definition reload_report (content : str) : list message :=
  match parse_lua content with
  | Parsed n =>
      match n_kind n with
      | KChunk => load_report (kid n 0)
      | KSheBangChunk => load_report (kid n 1)
      | _ => []
      end
  | _ => []
  end.

(** [Ok], [Err], or a panic *)
Inductive result := Done (s : str) | Fail (e : failure) | Stop.
Definition noted (v : bool) (i : info) : list event := if v then [Info i] else [].

(** formatter.rs:64-87 *)
Definition buffer_run (v : bool) (t : str) (c : config) : list event * result :=
  (noted v (IFormat c),
   match process_buffer t c with
   | Formatted s => Done s
   | ParsingError => match parse_lua_outcome t with Failed e => Fail (NoParse e) | _ => Stop end
   | FormattingError => Fail NoFormat
   | Panicked | Formatter.Internal => Stop
   end).
(** formatter.rs:34-62 *)
Definition file_run (v : bool) (root : FileUtil.entry) (p : path) (c : config) : list event * result :=
  match lookup p root with
  | Some (EFile content _) =>
      let '(es, r) :=
        match content with
        | None => ([], Fail CannotRead)
        | Some t =>
            if has_empty_format c then
              match get_file_config root p cfg_prefix with
              | None => ([], Fail NoConfigFile)
              | Some q =>
                  match file_content root q with
                  | None => ([], Stop)
                  | Some u =>
                      match reload_format u c with
                      | Some c' => let '(es, r) := buffer_run v t c' in (map Err (reload_report u) ++ es, r)
                      | None => ([], match parse_lua_outcome u with Failed e => Fail (BadConfigFile q e) | _ => Stop end)
                      end
                  end
              end
            else buffer_run v t c
        end in
      (noted v (IFile p) ++ es, r)
  | _ => ([], Fail CannotRead)
  end.
(** main.rs:54-69 *)
Definition path_run (root : FileUtil.entry) (p : path) (c : config) (o : program_opts) : FileUtil.entry * list event * exit :=
  let '(es, r) := file_run (verbose o) root p c in
  match r with
  | Done s =>
      if inplace o then
        if is_writable root p then (write_entry p s root, es ++ [Put p s], Exited)
        else (root, es ++ [Err (WriteFailed p)], Exited)
      else (root, es ++ [Out (Some p) s], Exited)
  | Fail e => (root, es ++ [Err (FileFailed p e)], Exited)
  | Stop => (root, es, Aborted)
  end.
Fixpoint paths_run (root : FileUtil.entry) (ps : list path) (c : config) (o : program_opts) : FileUtil.entry * list event * exit :=
  match ps with
  | [] => (root, [], Exited)
  | p :: r =>
      match path_run root p c o with
      | (root', es, Exited) => let '(root'', es', x) := paths_run root' r c o in (root'', es ++ es', x)
      | (root', es, Aborted) => (root', es, Aborted)
      end
  end.
(** main.rs:88-101 *)
Definition source_run (root : FileUtil.entry) (cwd : path) (a : str) (c : config) (o : program_opts) : FileUtil.entry * list event * exit :=
  match resolve cwd a with
  | Some q =>
      match get_path_files root q (recursive o) (s2l "lua") cfg_prefix with
      | Some ps => paths_run root ps c o
      | None => (root, [Err (UnresolvedPath a)], Exited)
      end
  | None => (root, [Err (UnresolvedPath a)], Exited)
  end.
Fixpoint sources_run (root : FileUtil.entry) (cwd : path) (ss : list str) (c : config) (o : program_opts) : FileUtil.entry * list event * exit :=
  match ss with
  | [] => (root, [], Exited)
  | a :: r =>
      match source_run root cwd a c o with
      | (root', es, Exited) => let '(root'', es', x) := sources_run root' cwd r c o in (root'', es ++ es', x)
      | (root', es, Aborted) => (root', es, Aborted)
      end
  end.
(** main.rs:71-102 *)
Definition run (root : FileUtil.entry) (cwd : path) (stdin : option str) (args : list str) : FileUtil.entry * list event * exit :=
  let '(c, o) := parse_options (options_of args) in
  let first := map Err (flat_map option_report (options_of args))
                 ++ noted (verbose o) (IPaths (sources_of args)) ++ noted (verbose o) (IOptions o) in
  match sources_of args with
  | [] =>
      match stdin with
      | None => (root, first, Aborted)
      | Some t =>
          let '(es, r) := buffer_run (verbose o) t c in
          match r with
          | Done s => (root, first ++ es ++ [Out None s], Exited)
          | Fail e => (root, first ++ es ++ [Err (BufferFailed e)], Exited)
          | Stop => (root, first ++ es, Aborted)
          end
      end
  | ss => let '(root', es, x) := sources_run root cwd ss c o in (root', first ++ es, x)
  end.
