(** C26, C27, C28: the command line. *)
From Coq Require Import Permutation.
From Verif Require Import Base Lib Config ConfigSpec Formatter FileUtil FileSpec Cli CliSpec CliProofs.

(** C26: only the options, in their order, and the paths, in any order, matter. *)
Theorem C26_argument_positions : forall (root : entry) (cwd : path) (stdin : option str) (a b : list str),
  same_arguments a b -> main root cwd stdin a = main root cwd stdin b.
Proof. exact main_same_arguments. Qed.
Print Assumptions C26_argument_positions.

Example C26_positions_case :
  same_arguments [s2l "b.lua"; s2l "-i"; s2l "a.lua"; s2l "--max_width=80"]
                 [s2l "-i"; s2l "--max_width=80"; s2l "a.lua"; s2l "b.lua"].
Proof. split; [reflexivity|]. cbn. apply perm_swap. Qed.

(** C26: the configuration is that of the [--name=value] arguments in order, and a flag is on exactly when it is
    among the arguments. *)
Theorem C26_options_meaning : forall (l : list str),
  (forall s, arg_settings l s -> fst (parse_options l) = apply_settings s default_config)
  /\ (exists s, arg_settings l s)
  /\ (inplace (snd (parse_options l)) = true <-> exists a, In a l /\ flag_arg "i" "inplace" a)
  /\ (recursive (snd (parse_options l)) = true <-> exists a, In a l /\ flag_arg "r" "recursive" a)
  /\ (verbose (snd (parse_options l)) = true <-> exists a, In a l /\ flag_arg "v" "verbose" a).
Proof. exact parse_options_spec. Qed.
Print Assumptions C26_options_meaning.

Example C26_meaning_case :
  arg_settings [s2l "--max_width=80"; s2l "--inplace"; s2l "--x"; s2l "--indentation_string= ="]
    [(s2l "max_width", s2l "80"); (s2l "indentation_string", s2l " =")]
  /\ flag_arg "i" "inplace" (s2l "--inplace")
  /\ cn (fst (parse_options [s2l "--max_width=80"; s2l "--inplace"])) N_max_width = Some 80%N
  /\ inplace (snd (parse_options [s2l "--max_width=80"; s2l "--inplace"])) = true.
Proof.
  repeat split.
  - apply arg_settings_iff. reflexivity.
  - exists "--"%string, "inplace"%string. auto.
Qed.

(** C27: a run changes the file system only by replacing selected, writable files by the result of formatting
    them. *)
Theorem C27_only_good_output : forall (root : entry) (cwd : path) (stdin : option str) (args : list str),
  wf_entry root ->
  let '(c, o) := parse_options (filter dash args) in
  let '(root', _, _) := main root cwd stdin args in
  formats_to (selected_by root cwd (recursive o) args) c root root'.
Proof. exact main_formats. Qed.
Print Assumptions C27_only_good_output.

(** C27: without [-i] the file system is unchanged. *)
Theorem C27_no_inplace_no_change : forall (root : entry) (cwd : path) (stdin : option str) (args : list str),
  (forall a, In a args -> ~ flag_arg "i" "inplace" a) -> fst (fst (main root cwd stdin args)) = root.
Proof. exact main_no_inplace. Qed.
Print Assumptions C27_no_inplace_no_change.

(** C27: with one path and some format option a completed run replaces exactly the selected, writable, formattable
    files, each by its formatted text, and leaves every other file as it was. *)
Theorem C27_inplace_result : forall (root : entry) (cwd : path) (stdin : option str) (opts : list str) (arg : str)
    (d : path) (c : config),
  wf_entry root -> Forall (fun a => dash a = true) opts -> dash arg = false -> resolve cwd arg = Some d ->
  (exists a, In a opts /\ flag_arg "i" "inplace" a) ->
  fst (parse_options opts) = c -> ~ no_format_option c ->
  ~ not_expandable root (recursive (snd (parse_options opts))) d ->
  let '(root', _, x) := main root cwd stdin (opts ++ [arg]) in
  x = Exited ->
  forall q t w, leads root q (EFile t w) ->
    ((exists u s, selected root (recursive (snd (parse_options opts))) d q /\ w = true /\ t = Some u
                  /\ process_buffer u c = Formatted s /\ leads root' q (EFile (Some s) true))
     \/ ((selected root (recursive (snd (parse_options opts))) d q -> w = true ->
          forall u s, t = Some u -> process_buffer u c <> Formatted s)
         /\ leads root' q (EFile t w))).
Proof. exact main_exact. Qed.
Print Assumptions C27_inplace_result.

Example C27_case :
  main before [s2l "p"] None [s2l "-i"; s2l "--remove_spaces_between_tokens=true"; s2l "."]
    = (after, [Write [s2l "p"; s2l "a.lua"] (s2l "x=1"); Message], Exited)
  /\ resolve [s2l "p"] (s2l ".") = Some [s2l "p"].
Proof. split; vm_compute; reflexivity. Qed.

(** C28: with some format option set no configuration file matters; without one the nearest configuration file
    decides, and its absence is an error. *)
Theorem C28_config_source : forall (root : entry) (p : path) (c : config) (t : str) (w : bool),
  wf_entry root -> leads root p (EFile (Some t) w) ->
  (~ no_format_option c -> process_file root p c = of_outcome (process_buffer t c))
  /\ (no_format_option c ->
      ((forall d q, above d p -> ~ config_in root d q) -> process_file root p c = FNoConfigureFile)
      /\ ((exists d q, above d p /\ config_in root d q) ->
          exists d q, above d p /\ config_in root d q
            /\ (forall d' q', above d' p -> above d d' -> ~ config_in root d' q')
            /\ forall u w', leads root q (EFile (Some u) w') ->
                 (forall c', reload_format u c = Some c' -> process_file root p c = of_outcome (process_buffer t c'))
                 /\ (reload_format u c = None -> process_file root p c = FInvalidConfigFile))).
Proof. exact config_source. Qed.
Print Assumptions C28_config_source.

(** C28: text from standard input is formatted with the command-line configuration, whatever the file system. *)
Theorem C28_stdin : forall (root root' : entry) (cwd cwd' : path) (t : str) (args : list str),
  filter (fun a => negb (dash a)) args = [] ->
  main root cwd (Some t) args =
    (root, match process_buffer t (fst (parse_options (filter dash args))) with
           | Formatted s => [Print s] | ParsingError | FormattingError => [Message] | _ => [] end,
     match process_buffer t (fst (parse_options (filter dash args))) with Panicked | Internal => Aborted | _ => Exited end)
  /\ snd (fst (main root cwd (Some t) args)) = snd (fst (main root' cwd' (Some t) args)).
Proof. exact main_stdin. Qed.
Print Assumptions C28_stdin.

Example C28_case :
  process_file (EDir (Some [(s2l ".luafmt.lua", EFile (Some (s2l "remove_spaces_between_tokens = true")) true);
                            (s2l "a.lua", EFile (Some (s2l "x  =  1")) true)])) [s2l "a.lua"] default_config
    = FOk (s2l "x=1")
  /\ process_file before [s2l "c.lua"] default_config = FNoConfigureFile.
Proof. split; vm_compute; reflexivity. Qed.
