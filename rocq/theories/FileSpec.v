(** Specification vocabulary for files and directories, over the directory tree of FileUtil.v. *)
From Verif Require Import Base FileUtil.

(** Entry names within a directory are distinct, at every depth. *)
Inductive wf_entry : entry -> Prop :=
| wf_file : forall c w, wf_entry (EFile c w)
| wf_other : wf_entry EOther
| wf_closed : wf_entry (EDir None)
| wf_dir : forall l, NoDup (map fst l) -> (forall x e, In (x, e) l -> wf_entry e) -> wf_entry (EDir (Some l)).

(** What is found by following names from the root. *)
Inductive leads : entry -> path -> entry -> Prop :=
| leads_here : forall e, leads e [] e
| leads_down : forall l x e p e', In (x, e) l -> leads e p e' -> leads (EDir (Some l)) (x :: p) e'.

Definition regular (root : entry) (p : path) : Prop := exists c w, leads root p (EFile c w).
Definition directory (root : entry) (p : path) : Prop := exists l, leads root p (EDir l).
Definition unlistable (root : entry) (p : path) : Prop := leads root p (EDir None).

(** [x] is a name ending in ".lua" with something before it. *)
Definition lua_name (x : name) : Prop := exists b, b <> [] /\ x = b ++ s2l ".lua".
(** [x] starts with ".luafmt". *)
Definition luafmt_name (x : name) : Prop := exists b, x = s2l ".luafmt" ++ b.

(** [d] is a directory above [p]. *)
Definition above (d p : path) : Prop := exists r, r <> [] /\ p = d ++ r.

(** [q] is a configuration file directly in [d]. *)
Definition config_in (root : entry) (d q : path) : Prop :=
  exists x, q = d ++ [x] /\ regular root q /\ luafmt_name x /\ lua_name x.

(** The sources selected by a path: a file itself; for a directory the Lua files directly in it or, recursively,
    below it, without configuration files. *)
Definition selected (root : entry) (rec : bool) (p q : path) : Prop :=
  (regular root p /\ q = p)
  \/ (directory root p /\
      exists mid x, q = p ++ mid ++ [x] /\ (rec = false -> mid = []) /\ regular root q
                    /\ lua_name x /\ ~ luafmt_name x).

(** The path cannot be expanded: nothing usable is there, or a directory that has to be read cannot be listed. *)
Definition not_expandable (root : entry) (rec : bool) (p : path) : Prop :=
  (~ regular root p /\ ~ directory root p)
  \/ unlistable root p
  \/ (rec = true /\ exists mid, unlistable root (p ++ mid)).

(** For examples, a small tree: /p holds .luafmt.lua, a.lua and t.txt, /p/s holds b.lua. *)
Definition tree : entry :=
  EDir (Some [(s2l "p", EDir (Some [(s2l ".luafmt.lua", EFile (Some (s2l "max_width = 80")) true);
                                    (s2l "a.lua", EFile (Some (s2l "return 1")) true);
                                    (s2l "t.txt", EFile (Some []) true);
                                    (s2l "s", EDir (Some [(s2l "b.lua", EFile (Some (s2l "x = 1")) true)]))]));
              (s2l "q", EDir (Some [(s2l "c.lua", EFile (Some []) true)]))]).
