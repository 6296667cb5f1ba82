(** Specification vocabulary for the messages of the program. *)
From Verif Require Import Base Config ConfigSpec LuaParser LuaError Formatter FileUtil FileSpec Cli CliSpec Report.

(** What Cli.v keeps of an event. *)
Definition effect_of (e : event) : list effect :=
  match e with
  | Out _ s => [Print s]
  | Put p s => [Write p s]
  | Err (UnresolvedPath _) | Err (FileFailed _ _) | Err (WriteFailed _) | Err (BufferFailed _) => [Message]
  | _ => []
  end.

(** An option that is neither a setting nor a flag. *)
Definition strange_option (a : str) : Prop :=
  dash a = true /\ (forall n v, ~ setting_arg a n v)
  /\ ~ flag_arg "i" "inplace" a /\ ~ flag_arg "r" "recursive" a /\ ~ flag_arg "v" "verbose" a.

(** The event is about the file [p]: it was printed or replaced, or it is said that it was not. *)
Definition about (p : path) (e : event) : Prop :=
  match e with
  | Put q _ | Out (Some q) _ | Err (FileFailed q _) | Err (WriteFailed q) => q = p
  | _ => False
  end.
Inductive counted {A} (P : A -> Prop) : list A -> nat -> Prop :=
| c_nil : counted P [] 0
| c_yes : forall a l n, P a -> counted P l n -> counted P (a :: l) (S n)
| c_no : forall a l n, ~ P a -> counted P l n -> counted P (a :: l) n.

(** The path argument [a] can be expanded and selects the file [p]. *)
Definition asks_for (root : entry) (cwd : path) (rec : bool) (p : path) (a : str) : Prop :=
  dash a = false /\ exists d, resolve cwd a = Some d /\ ~ not_expandable root rec d /\ selected root rec d p.
(** The path argument [a] cannot be expanded. *)
Definition lost_path (root : entry) (cwd : path) (rec : bool) (a : str) : Prop :=
  dash a = false /\ forall d, resolve cwd a = Some d -> not_expandable root rec d.

(** The configuration file [q] is one of the nearest to [p]. *)
Definition nearest (root : entry) (p q : path) : Prop :=
  exists d, above d p /\ config_in root d q /\ forall d' q', above d' p -> above d d' -> ~ config_in root d' q'.
(** [e] is the reason why the file [p] cannot be formatted with the options [c]. *)
Definition reason (root : entry) (c : config) (p : path) (e : failure) : Prop :=
  match e with
  | CannotRead => forall t w, ~ leads root p (EFile (Some t) w)
  | NoConfigFile => no_format_option c /\ forall d q, above d p -> ~ config_in root d q
  | BadConfigFile q e => no_format_option c /\ nearest root p q
      /\ exists u w, leads root q (EFile (Some u) w) /\ parse_lua_outcome u = Failed e
  | NoParse e => exists t w, leads root p (EFile (Some t) w) /\ parse_lua_outcome t = Failed e
  | NoFormat => False
  end.
