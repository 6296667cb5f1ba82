(** Specification vocabulary for the order in which the program does its work. *)
From Verif Require Import Base Config ConfigSpec FileUtil FileSpec Cli CliSpec Report ReportSpec.

(** The order of texts: a text follows its beginnings, and of two texts with the same beginning the one with the smaller next
    character is the first. The order of code points is that of the bytes of UTF-8. *)
Inductive comes_before : str -> str -> Prop :=
| cb_beginning : forall a b, comes_before a (a ++ b)
| cb_smaller : forall p x y a b, (x < y)%N -> comes_before (p ++ x :: a) (p ++ y :: b).

(** What is said of the option [a]. *)
Inductive complaint (a : str) : message -> Prop :=
| co_strange : strange_option a -> complaint a (UnrecognizedOption a)
| co_name : forall n v, setting_arg a n v -> (forall o, ~ names n o) -> complaint a (InvalidName n)
| co_value : forall n v o, setting_arg a n v -> names n o -> invalid_for o v -> complaint a (InvalidValue n v).
Definition complained (a : str) (h : list event) : Prop :=
  (exists m, complaint a m /\ h = [Err m]) \/ ((forall m, ~ complaint a m) /\ h = []).

(** The files that the events are about, in order. *)
Definition file_of (e : event) : list path :=
  match e with
  | Put q _ | Out (Some q) _ | Err (FileFailed q _) | Err (WriteFailed q) => [q]
  | _ => []
  end.
Definition files_of (es : list event) : list path := flat_map file_of es.

(** The events [g] are the work on files that the path [a] selects, each at most once; or on all of them. *)
Definition some_work (root : entry) (cwd : path) (rec : bool) (a : str) (g : list event) : Prop :=
  (forall b, ~ In (Err (UnresolvedPath b)) g) /\ NoDup (files_of g)
  /\ exists d, resolve cwd a = Some d /\ ~ not_expandable root rec d /\ forall p, In p (files_of g) -> selected root rec d p.
Definition all_work (root : entry) (cwd : path) (rec : bool) (a : str) (g : list event) : Prop :=
  (lost_path root cwd rec a /\ g = [Err (UnresolvedPath a)])
  \/ (some_work root cwd rec a g /\ forall d p, resolve cwd a = Some d -> selected root rec d p -> In p (files_of g)).

(** The work on the paths, one after the other: all of it, or up to a panic. *)
Inductive in_order (root : entry) (cwd : path) (rec : bool) : list str -> list event -> exit -> Prop :=
| io_end : in_order root cwd rec [] [] Exited
| io_next : forall a l g es x, all_work root cwd rec a g -> in_order root cwd rec l es x -> in_order root cwd rec (a :: l) (g ++ es) x
| io_panic : forall a l g, some_work root cwd rec a g -> in_order root cwd rec (a :: l) g Aborted.

(** The complaints about the options, in their order. *)
Inductive complaints : list str -> list event -> Prop :=
| cs_none : complaints [] []
| cs_more : forall a l h es, complained a h -> complaints l es -> complaints (a :: l) (h ++ es).
