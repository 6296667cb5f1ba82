(** C24, C25: configuration file lookup and directory expansion. *)
From Verif Require Import Base FileUtil FileSpec FileProofs.

(** C24: the configuration found for a file lies in the nearest directory above the file that has one; none is
    found only if no directory above has one. *)
Theorem C24_nearest_config_file : forall (root : entry) (p : path), wf_entry root -> regular root p ->
  match get_file_config root p (s2l ".luafmt") with
  | Some q => exists d, above d p /\ config_in root d q
                        /\ forall d' q', above d' p -> above d d' -> ~ config_in root d' q'
  | None => forall d q, above d p -> ~ config_in root d q
  end.
Proof. exact nearest_config. Qed.
Print Assumptions C24_nearest_config_file.

Example C24_case :
  wf_entry tree /\ regular tree [s2l "p"; s2l "s"; s2l "b.lua"]
  /\ get_file_config tree [s2l "p"; s2l "s"; s2l "b.lua"] (s2l ".luafmt") = Some [s2l "p"; s2l ".luafmt.lua"]
  /\ get_file_config tree [s2l "q"; s2l "c.lua"] (s2l ".luafmt") = None.
Proof.
  split; [|split; [|split; reflexivity]].
  - repeat (constructor || (cbn; intuition discriminate) || (intros ? ? H; cbn in H; decompose [or] H; clear H;
      try contradiction; match goal with E : (_, _) = (_, _) |- _ => injection E as <- <- end)).
  - exists (Some (s2l "x = 1")), true. apply lookup_leads. reflexivity.
Qed.

(** C25: expanding a path gives each selected source once, and fails exactly when the path cannot be expanded. *)
Theorem C25_directory_expansion : forall (root : entry) (rec : bool) (p : path), wf_entry root ->
  match get_path_files root p rec (s2l "lua") (s2l ".luafmt") with
  | Some l => NoDup l /\ (forall q, In q l <-> selected root rec p q) /\ ~ not_expandable root rec p
  | None => not_expandable root rec p
  end.
Proof. exact expansion. Qed.
Print Assumptions C25_directory_expansion.

Example C25_case :
  get_path_files tree [s2l "p"] true (s2l "lua") (s2l ".luafmt")
    = Some [[s2l "p"; s2l "a.lua"]; [s2l "p"; s2l "s"; s2l "b.lua"]]
  /\ get_path_files tree [s2l "p"] false (s2l "lua") (s2l ".luafmt") = Some [[s2l "p"; s2l "a.lua"]]
  /\ get_path_files tree [s2l "nowhere"] true (s2l "lua") (s2l ".luafmt") = None.
Proof. repeat split. Qed.
