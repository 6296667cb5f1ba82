(** src/formatter.rs:34-62 and src/main.rs. *)
From Verif Require Import Base Config Formatter FileUtil.

(** lib.rs: [CFG_PREFIX] *)
Definition cfg_prefix : str := s2l ".luafmt".

(** formatter.rs:12-19 and the panic of [reload_format_from_file] on a configuration file that cannot be read
    (config.rs:306-307) *)
Inductive file_result :=
| FOk (s : str)
| FReadingError
| FNoConfigureFile
| FInvalidConfigFile
| FParsingError
| FFormattingError
| FPanic
| FInternal.

Definition of_outcome (o : outcome) : file_result :=
  match o with
  | Formatted s => FOk s
  | ParsingError => FParsingError
  | FormattingError => FFormattingError
  | Panicked => FPanic
  | Internal => FInternal
  end.

Definition file_content (root : entry) (p : path) : option str :=
  match lookup p root with Some (EFile c _) => c | _ => None end.

(** formatter.rs:34-62 *)
Definition process_file (root : entry) (p : path) (c : config) : file_result :=
  match file_content root p with
  | None => FReadingError
  | Some content =>
      if has_empty_format c then
        match get_file_config root p cfg_prefix with
        | Some q =>
            match file_content root q with
            | None => FPanic
            | Some t =>
                match reload_format t c with
                | Some c' => of_outcome (process_buffer content c')
                | None => FInvalidConfigFile
                end
            end
        | None => FNoConfigureFile
        end
      else of_outcome (process_buffer content c)
  end.

(** main.rs:19-30 *)
Record program_opts := mk_popts { inplace : bool; recursive : bool; verbose : bool }.
Definition default_popts : program_opts := mk_popts false false false.

Definition is_word (c : char) : bool := is_alpha c || is_digit c || ceq c (chr "_").

Fixpoint span_while (p : char -> bool) (s : str) : str * str :=
  match s with
  | c :: r => if p c then let '(a, b) := span_while p r in (c :: a, b) else ([], s)
  | [] => ([], [])
  end.

(** main.rs:37: two dashes, one or more letters, digits or underscores, an equals sign, and any text without
    a line feed *)
Definition match_config_opt (s : str) : option (str * str) :=
  match s with
  | a :: b :: r =>
      if ceq a (chr "-") && ceq b (chr "-") then
        let '(n, t) := span_while is_word r in
        match n, t with
        | _ :: _, e :: v =>
            if ceq e (chr "=") && forallb (fun c => negb (ceq c ch_nl)) v then Some (n, v) else None
        | _, _ => None
        end
      else None
  | _ => None
  end.

(** main.rs:38: one or two dashes and one or more lower case letters *)
Definition lower_word (s : str) : option str :=
  match s with [] => None | _ => if forallb is_lower s then Some s else None end.
Definition match_program_opt (s : str) : option str :=
  match s with
  | a :: r =>
      if ceq a (chr "-") then
        match r with
        | b :: r' => if ceq b (chr "-") then lower_word r' else lower_word r
        | [] => None
        end
      else None
  | [] => None
  end.

(** main.rs:40-48 *)
Definition parse_option (cp : config * program_opts) (o : str) : config * program_opts :=
  let '(c, p) := cp in
  match match_config_opt o with
  | Some (n, v) => (set_option n v c, p)
  | None =>
      match match_program_opt o with
      | Some w =>
          if str_eqb w (s2l "i") || str_eqb w (s2l "inplace") then (c, mk_popts true (recursive p) (verbose p))
          else if str_eqb w (s2l "r") || str_eqb w (s2l "recursive")
          then (c, mk_popts (inplace p) true (verbose p))
          else if str_eqb w (s2l "v") || str_eqb w (s2l "verbose")
          then (c, mk_popts (inplace p) (recursive p) true)
          else (c, p)
      | None => (c, p)
      end
  end.
(** main.rs:32-52 *)
Definition parse_options (opts : list str) : config * program_opts :=
  fold_left parse_option opts (default_config, default_popts).

(** [sources.sort()]: by bytes, which is by code points *)
Fixpoint str_leb (a b : str) : bool :=
  match a, b with
  | [], _ => true
  | _ :: _, [] => false
  | x :: a', y :: b' => if ceq x y then str_leb a' b' else N.ltb x y
  end.
Fixpoint insert_str (x : str) (l : list str) : list str :=
  match l with
  | [] => [x]
  | y :: r => if str_leb x y then x :: l else y :: insert_str x r
  end.
Definition sort_strs (l : list str) : list str := fold_right insert_str [] l.

Definition is_option (s : str) : bool := starts_with (s2l "-") s.

(** main.rs:11-17 *)
Definition options_of (args : list str) : list str := filter is_option args.
Definition sources_of (args : list str) : list str := sort_strs (filter (fun a => negb (is_option a)) args).

(** Resolving a path on the command line against the current directory; [None] for the empty path, which
    leads nowhere. Simplified: a trailing slash is ignored. *)
Fixpoint split_on (c : char) (s : str) : list str :=
  match s with
  | [] => [[]]
  | x :: r => if ceq x c then [] :: split_on c r
              else match split_on c r with h :: t => (x :: h) :: t | [] => [[x]] end
  end.
Fixpoint normalize (acc : path) (l : list str) : path :=
  match l with
  | [] => rev acc
  | x :: r => if is_empty x || str_eqb x (s2l ".") then normalize acc r
              else if str_eqb x (s2l "..") then normalize (tl acc) r
              else normalize (x :: acc) r
  end.
Definition resolve (cwd : path) (s : str) : option path :=
  match s with
  | c :: _ => Some (normalize (if ceq c (chr "/") then [] else rev cwd) (split_on (chr "/") s))
  | [] => None
  end.

(** What a run does; what it prints on stderr and with [-v] is in Report.v. *)
Inductive effect :=
| Print (s : str)                     (* formatted text on stdout *)
| Message                             (* a line on stderr *)
| Write (p : path) (s : str).         (* a file replaced *)

Inductive exit := Exited | Aborted.    (* [Aborted]: a panic *)

Definition is_writable (root : entry) (p : path) : bool :=
  match lookup p root with Some (EFile _ w) => w | _ => false end.

(** main.rs:54-69 *)
Definition process_path (root : entry) (p : path) (c : config) (o : program_opts)
  : entry * list effect * exit :=
  match process_file root p c with
  | FOk s =>
      if inplace o then
        if is_writable root p then (write_entry p s root, [Write p s], Exited) else (root, [Message], Exited)
      else (root, [Print s], Exited)
  | FPanic | FInternal => (root, [], Aborted)
  | _ => (root, [Message], Exited)
  end.

Fixpoint process_paths (root : entry) (ps : list path) (c : config) (o : program_opts)
  : entry * list effect * exit :=
  match ps with
  | [] => (root, [], Exited)
  | p :: r =>
      match process_path root p c o with
      | (root', es, Exited) =>
          let '(root'', es', x) := process_paths root' r c o in (root'', es ++ es', x)
      | (root', es, Aborted) => (root', es, Aborted)
      end
  end.

Fixpoint process_sources (root : entry) (cwd : path) (ss : list str) (c : config) (o : program_opts)
  : entry * list effect * exit :=
  match ss with
  | [] => (root, [], Exited)
  | s :: r =>
      let step :=
        match resolve cwd s with
        | Some q =>
            match get_path_files root q (recursive o) (s2l "lua") cfg_prefix with
            | Some ps => process_paths root ps c o
            | None => (root, [Message], Exited)
            end
        | None => (root, [Message], Exited)
        end in
      match step with
      | (root', es, Exited) =>
          let '(root'', es', x) := process_sources root' cwd r c o in (root'', es ++ es', x)
      | (root', es, Aborted) => (root', es, Aborted)
      end
  end.

(** main.rs:71-102; [stdin] is [None] when it is not UTF-8 (the [unwrap] of main.rs:82) *)
Definition main (root : entry) (cwd : path) (stdin : option str) (args : list str)
  : entry * list effect * exit :=
  let '(c, o) := parse_options (options_of args) in
  match sources_of args with
  | [] =>
      match stdin with
      | None => (root, [], Aborted)
      | Some t =>
          match process_buffer t c with
          | Formatted s => (root, [Print s], Exited)
          | ParsingError | FormattingError => (root, [Message], Exited)
          | Panicked | Internal => (root, [], Aborted)
          end
      end
  | ss => process_sources root cwd ss c o
  end.
