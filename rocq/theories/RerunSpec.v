(** Specification vocabulary for running the program a second time. *)
From Verif Require Import Base Config FileUtil FileSpec Cli CliSpec IdemSpec SettleSpec.

(** The configurations the file [p] may be formatted with: the one of the options [c] when it has a format option, otherwise
    one read from a configuration file in the nearest directory above [p] that has one. *)
Definition settings_for (root : entry) (c : config) (p : path) (c' : config) : Prop :=
  (~ no_format_option c /\ c' = c)
  \/ (no_format_option c /\ exists d q u w, above d p /\ config_in root d q
        /\ (forall d' q', above d' p -> above d d' -> ~ config_in root d' q')
        /\ leads root q (EFile (Some u) w) /\ reload_format u c = Some c').

(** Every selected file is readable and formatted with a configuration that keeps formatted texts; configuration files are not
    formatted themselves. *)
Definition calm_run (root : entry) (cwd : path) (args : list str) : Prop :=
  let c := fst (parse_options (filter dash args)) in
  let sel := selected_by root cwd (recursive (snd (parse_options (filter dash args)))) args in
  (forall p t w c', sel p -> leads root p (EFile (Some t) w) -> settings_for root c p c' -> calm c' /\ readable c' t)
  /\ (no_format_option c -> forall d x, sel (d ++ [x]) -> ~ luafmt_name x).
