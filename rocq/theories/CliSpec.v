(** Specification vocabulary for the command line. *)
From Coq Require Import Permutation.
From Verif Require Import Base Config ConfigSpec Formatter FileUtil FileSpec Cli.

(** An argument is an option when it starts with a dash. *)
Definition dash (a : str) : bool := match a with c :: _ => N.eqb c 45 | [] => false end.

(** The same options in the same order, and the same paths in any order. *)
Definition same_arguments (a b : list str) : Prop :=
  filter dash a = filter dash b
  /\ Permutation (filter (fun x => negb (dash x)) a) (filter (fun x => negb (dash x)) b).

(** Letters, digits and underscore. *)
Definition word_char (c : char) : Prop := (48 <= c <= 57 \/ 65 <= c <= 90 \/ 97 <= c <= 122 \/ c = 95)%N.

(** The argument [--name=value]. *)
Definition setting_arg (a n v : str) : Prop :=
  a = s2l "--" ++ n ++ s2l "=" ++ v /\ n <> [] /\ Forall word_char n /\ ~ In ch_nl v.

(** The settings among the arguments, in order. *)
Inductive arg_settings : list str -> settings -> Prop :=
| as_nil : arg_settings [] []
| as_set : forall a n v l s, setting_arg a n v -> arg_settings l s -> arg_settings (a :: l) ((n, v) :: s)
| as_skip : forall a l s, (forall n v, ~ setting_arg a n v) -> arg_settings l s -> arg_settings (a :: l) s.

(** A program flag with a short and a long name, after one or two dashes. *)
Definition flag_arg (short long : string) (a : str) : Prop :=
  exists d w, (d = "-" \/ d = "--")%string /\ (w = short \/ w = long) /\ a = s2l d ++ s2l w.

(** No format option is set. *)
Definition no_format_option (c : config) : Prop :=
  (forall k, cb c k = None) /\ (forall k, cn c k = None) /\ (forall k, cs c k = None).

(** [root'] is [root] with the content of the file [p] replaced by [s] and nothing else changed. *)
Definition replaces (root : entry) (p : path) (s : str) (root' : entry) : Prop :=
  leads root' p (EFile (Some s) true)
  /\ (forall q c w, q <> p -> (leads root q (EFile c w) <-> leads root' q (EFile c w)))
  /\ (forall q, directory root q <-> directory root' q)
  /\ (forall q, leads root q EOther <-> leads root' q EOther).

(** [p] is selected by one of the path arguments. *)
Definition selected_by (root : entry) (cwd : path) (rec : bool) (args : list str) (p : path) : Prop :=
  exists a d, In a args /\ dash a = false /\ resolve cwd a = Some d /\ selected root rec d p.

(** A sequence of replacements, each of a selected, writable file by the result of formatting it at that point. *)
Inductive formats_to (sel : path -> Prop) (c : config) : entry -> entry -> Prop :=
| ft_done : forall root, formats_to sel c root root
| ft_step : forall root root1 root2 p t s,
    sel p -> leads root p (EFile (Some t) true) -> process_file root p c = FOk s ->
    replaces root p s root1 -> formats_to sel c root1 root2 -> formats_to sel c root root2.

(** For examples: two files in /p, of which one does not parse, and one outside: only the good one changes. *)
Definition before : entry :=
  EDir (Some [(s2l "p", EDir (Some [(s2l "a.lua", EFile (Some (s2l "x  =  1")) true);
                                    (s2l "b.lua", EFile (Some (s2l "x = = 1")) true)]));
              (s2l "c.lua", EFile (Some (s2l "y  =  2")) true)]).
Definition after : entry :=
  EDir (Some [(s2l "p", EDir (Some [(s2l "a.lua", EFile (Some (s2l "x=1")) true);
                                    (s2l "b.lua", EFile (Some (s2l "x = = 1")) true)]));
              (s2l "c.lua", EFile (Some (s2l "y  =  2")) true)]).
