(** C50, C51: what the program prints, and its exit status. *)
From Verif Require Import Base Lib Config ConfigSpec ConfigProofs LuaLexer LuaParser LuaError Formatter FileUtil FileSpec Cli CliSpec CliProofs RerunSpec Report ReportSpec ReportProofs.

(** The run with its texts is the run of C26 to C28. *)
Theorem C50_run_is_main : forall (root : entry) (cwd : path) (stdin : option str) (args : list str) (root' : entry)
    (es : list event) (x : exit),
  wf_entry root -> run root cwd stdin args = (root', es, x) ->
  main root cwd stdin args = (root', flat_map effect_of es, x).
Proof. exact run_is_main. Qed.
Print Assumptions C50_run_is_main.

(** C50: exactly the options that are neither settings nor flags are reported as unrecognized; every setting with an unknown
    name or an invalid value is reported, and when no configuration file is read no other one is; nothing is remarked on
    stdout without [-v]. *)
Theorem C50_options_reported : forall (root : entry) (cwd : path) (stdin : option str) (args : list str) (root' : entry)
    (es : list event) (x : exit),
  wf_entry root -> run root cwd stdin args = (root', es, x) ->
  (forall a, In (Err (UnrecognizedOption a)) es <-> In a args /\ strange_option a)
  /\ (forall a n v, In a args -> setting_arg a n v ->
        ((forall o, ~ names n o) -> In (Err (InvalidName n)) es)
        /\ (forall o, names n o -> invalid_for o v -> In (Err (InvalidValue n v)) es))
  /\ (~ no_format_option (fst (parse_options (filter dash args))) ->
        (forall n, In (Err (InvalidName n)) es -> exists a v, In a args /\ setting_arg a n v /\ forall o, ~ names n o)
        /\ (forall n v, In (Err (InvalidValue n v)) es -> exists a o, In a args /\ setting_arg a n v /\ names n o /\ invalid_for o v))
  /\ (forall i, In (Info i) es -> exists a, In a args /\ flag_arg "v" "verbose" a).
Proof. exact options_reported. Qed.
Print Assumptions C50_options_reported.

(** C50: a run that ends reports exactly the paths that cannot be expanded; and about every file there are as many events (it is
    printed, replaced, or said not to be) as arguments that select it. *)
Theorem C50_files_reported : forall (root : entry) (cwd : path) (stdin : option str) (args : list str) (root' : entry)
    (es : list event),
  wf_entry root -> run root cwd stdin args = (root', es, Exited) ->
  let rec := recursive (snd (parse_options (filter dash args))) in
  (forall a, In (Err (UnresolvedPath a)) es <-> In a args /\ lost_path root cwd rec a)
  /\ forall p, exists n, counted (about p) es n /\ counted (asks_for root cwd rec p) args n.
Proof. exact files_reported. Qed.
Print Assumptions C50_files_reported.

(** C50: the reason given for a file that was not formatted is a true one, in the state of the files at that time. *)
Theorem C50_reasons_true : forall (root : entry) (cwd : path) (stdin : option str) (args : list str) (root' : entry)
    (es : list event) (x : exit) (p : path) (f : failure),
  wf_entry root -> run root cwd stdin args = (root', es, x) -> In (Err (FileFailed p f)) es ->
  let c := fst (parse_options (filter dash args)) in
  let sel := selected_by root cwd (recursive (snd (parse_options (filter dash args)))) args in
  sel p /\ exists r, formats_to sel c root r /\ reason r c p f.
Proof. exact failures_reported. Qed.
Print Assumptions C50_reasons_true.

Example C50_case :
  run before [s2l "p"] None [s2l "-i"; s2l "--remove_spaces_between_tokens=true"; s2l "--max_width=x"; s2l "-x"; s2l "."; s2l "q"]
    = (after, [Err (InvalidValue (s2l "max_width") (s2l "x")); Err (UnrecognizedOption (s2l "-x"));
               Put [s2l "p"; s2l "a.lua"] (s2l "x=1");
               Err (FileFailed [s2l "p"; s2l "b.lua"] (NoParse (UnrecognizedToken 4 EqualsSign 5)));
               Err (UnresolvedPath (s2l "q"))], Exited)
  /\ strange_option (s2l "-x").
Proof.
  split; [vm_compute; reflexivity|]. split; [reflexivity|]. split.
  - intros n v H. apply match_config_opt_iff in H. vm_compute in H. discriminate.
  - repeat split; intros (d & w & [-> | ->] & [-> | ->] & H); vm_compute in H; discriminate.
Qed.

(** C51: the exit status does not tell a run in which a file could not be formatted from one in which all were. *)
Theorem C51_exit_status_refuted : exists (root : entry) (cwd : path) (args : list str) (root' : entry) (es : list event)
    (p : path) (f : failure),
  wf_entry root /\ run root cwd None args = (root', es, Exited) /\ In (Err (FileFailed p f)) es.
Proof. exact silent_exit. Qed.
Print Assumptions C51_exit_status_refuted.

(** C51: what is left of it: a run does not end normally only when it stops at standard input or at a file with a panic. *)
Theorem C51_exit_status_partial : forall (root : entry) (cwd : path) (stdin : option str) (args : list str) (root' : entry)
    (es : list event),
  wf_entry root -> run root cwd stdin args = (root', es, Aborted) ->
  let c := fst (parse_options (filter dash args)) in
  let sel := selected_by root cwd (recursive (snd (parse_options (filter dash args)))) args in
  ((forall a, In a args -> dash a = true) /\ (stdin = None \/ exists t, stdin = Some t /\ process_buffer t c = Panicked))
  \/ exists p r t w, sel p /\ formats_to sel c root r /\ leads r p (EFile (Some t) w)
       /\ ((exists c', settings_for r c p c' /\ process_buffer t c' = Panicked)
           \/ (no_format_option c /\ exists q w', nearest r p q /\ leads r q (EFile None w'))).
Proof. exact aborted_run. Qed.
Print Assumptions C51_exit_status_partial.

(** A configuration file that cannot be read stops the program: config.rs:306-307 expects its text. *)
Example C51_case :
  let root := EDir (Some [(s2l ".luafmt.lua", EFile None true); (s2l "a.lua", EFile (Some (s2l "x = 1")) true)]) in
  run root [] None [s2l "-v"; s2l "a.lua"; s2l "b.lua"]
    = (root, [Info (IPaths [s2l "a.lua"; s2l "b.lua"]); Info (IOptions (mk_popts false false true)); Info (IFile [s2l "a.lua"])], Aborted).
Proof. vm_compute. reflexivity. Qed.
