(** C66: the order in which the program does its work. *)
From Coq Require Import Permutation Sorted.
From Verif Require Import Base FileUtil FileSpec Cli CliSpec Report ReportSpec OrderSpec OrderResults.

(** C66: a run complains about the options in their order, then works through the path arguments in the order of their texts; it
    deals with a path (works once on every file it selects, or says that it leads nowhere) before it begins with the next, and stops
    only with a panic. *)
Theorem C66_order_of_work : forall (root : entry) (cwd : path) (stdin : option str) (args : list str) (root' : entry)
    (es : list event) (x : exit),
  wf_entry root -> run root cwd stdin args = (root', es, x) ->
  let o := snd (parse_options (filter dash args)) in
  exists ss first remarks rest, es = first ++ remarks ++ rest
  /\ Permutation (filter (fun a => negb (dash a)) args) ss /\ Sorted comes_before ss
  /\ complaints (filter dash args) first
  /\ remarks = (if verbose o then [Info (IPaths ss); Info (IOptions o)] else [])
  /\ (ss <> [] -> in_order root cwd (recursive o) ss rest x).
Proof. exact run_order. Qed.
Print Assumptions C66_order_of_work.

(** C66: the order of texts is total, so that it decides which path is next. *)
Theorem C66_order_decides : forall (a b : str),
  (comes_before a b \/ comes_before b a) /\ (comes_before a b -> comes_before b a -> a = b).
Proof. exact order_total. Qed.
Print Assumptions C66_order_decides.

Example C66_case :
  snd (fst (run before [] None [s2l "-x"; s2l "p/a.lua"; s2l "q"; s2l "--max_width=x"; s2l "c.lua"; s2l "--remove_spaces_between_tokens=true"]))
    = [Err (UnrecognizedOption (s2l "-x")); Err (InvalidValue (s2l "max_width") (s2l "x"));
       Out (Some [s2l "c.lua"]) (s2l "y=2"); Out (Some [s2l "p"; s2l "a.lua"]) (s2l "x=1"); Err (UnresolvedPath (s2l "q"))]
  /\ comes_before (s2l "c.lua") (s2l "p/a.lua") /\ comes_before (s2l "p/a.lua") (s2l "q").
Proof.
  split; [vm_compute; reflexivity|]. split.
  - apply (cb_smaller [] _ _ (s2l ".lua") (s2l "/a.lua")). vm_compute. reflexivity.
  - apply (cb_smaller [] _ _ (s2l "/a.lua") []). vm_compute. reflexivity.
Qed.
