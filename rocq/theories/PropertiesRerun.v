(** C49: running the program a second time. *)
From Verif Require Import Base Lib Config ConfigSpec Formatter FileUtil FileSpec FileProofs Cli CliSpec CliProofs RefuteSpec IdemSpec IdemProofs SettleSpec SettleNeeded RerunSpec RerunProofs RerunCases.

(** C49: when the configurations in use keep formatted texts ([calm]), a second run with the same arguments and input does the
    same as the first and leaves the file system as the first left it. *)
Theorem C49_second_run : forall (root : entry) (cwd : path) (stdin : option str) (args : list str) (root' : entry)
    (es : list effect) (x : exit),
  wf_entry root -> calm_run root cwd args ->
  main root cwd stdin args = (root', es, x) -> main root' cwd stdin args = (root', es, x).
Proof. exact run_again. Qed.
Print Assumptions C49_second_run.

(** With a configuration that is not [calm] a second run may change a file again. *)
Theorem C49_every_configuration_refuted : exists (root : entry) (cwd : path) (args : list str) (r1 r2 : entry) (es1 es2 : list effect),
  wf_entry root /\ main root cwd None args = (r1, es1, Exited) /\ main r1 cwd None args = (r2, es2, Exited) /\ r2 <> r1.
Proof. exact run_again_changes. Qed.
Print Assumptions C49_every_configuration_refuted.

(** Two files below /p with the configuration file /p/.luafmt.lua, one of them not Lua: the good one is formatted, and again. *)
Example C49_case :
  wf_entry untidy /\ calm_run untidy [s2l "p"] [s2l "-i"; s2l "-r"; s2l "."]
  /\ main untidy [s2l "p"] None [s2l "-i"; s2l "-r"; s2l "."]
     = (tidied, [Write [s2l "p"; s2l "s"; s2l "a.lua"] (s2l "x = y --[[z]]"); Message], Exited)
  /\ main tidied [s2l "p"] None [s2l "-i"; s2l "-r"; s2l "."]
     = (tidied, [Write [s2l "p"; s2l "s"; s2l "a.lua"] (s2l "x = y --[[z]]"); Message], Exited).
Proof.
  split; [exact untidy_wf|]. split; [exact untidy_calm|]. split; vm_compute; reflexivity.
Qed.
