(** What the comment parser should find in the text between two tokens. *)
From Verif Require Import Base LexSpec CommentLexer CommentGrammar.

(** [--[===] at the very end of the text: the code forgets what follows the dashes. *)
Definition cut_off (s : str) : bool := match s with c :: r => N.eqb c 91 && forallb (N.eqb 61) r | [] => false end.

(** the comment token of an item of a gap, if it is not a blank *)
Definition comment_token (g : gitem) : option ctoken :=
  match g with
  | GBlank _ => None
  | GNewline => Some CNewLine
  | GLine s => Some (COneLine s)
  | GLong level s => Some (CMultiLine level s)
  | GLast s => Some (COneLine (if cut_off s then [] else s))
  end.
(** the tokens of a gap starting at index [p], each spanning its item *)
Fixpoint comment_tokens (p : nat) (gs : list gitem) : list (nat * ctoken * nat) :=
  match gs with
  | [] => []
  | g :: r =>
      let e := p + List.length (gitem_text g) in
      match comment_token g with
      | Some t => (p, t, e) :: comment_tokens e r
      | None => comment_tokens e r
      end
  end.

(** A comment tree from left to right: positions between atoms, and atoms. *)
Inductive cslot := CSp (l : loc) | CAt (a : catom).
Definition atoms_slots (l : list (loc * catom)) : list cslot := flat_map (fun x => [CSp (fst x); CAt (snd x)]) l.
Definition group_slots (g : cgroup) : list cslot :=
  match g with GComments _ l => atoms_slots l | GNewLines _ l => atoms_slots l end.
Definition groups_slots (gs : list (loc * cgroup)) : list cslot :=
  flat_map (fun x => CSp (fst x) :: group_slots (snd x)) gs.
Definition chunk_slots (t : cchunk) : list cslot :=
  CSp (cc_locl t) :: groups_slots (cc_groups t) ++ [CSp (cc_locr t)].

Definition atom_of (x : nat * ctoken * nat) : option catom :=
  let '(l, t, r) := x in
  match t with
  | COneLine s => Some (AOneLine (l, r) s)
  | CMultiLine lv s => Some (AMultiLine (l, r) lv s)
  | CNewLine => Some (ANewLine (l, r))
  | CEOF => None
  end.
(** [clay p ss e w]: from index [p] to [e] the slots are the tokens [w], the positions between them the holes between
    the tokens (or empty). *)
Inductive clay : nat -> list cslot -> nat -> list (nat * ctoken * nat) -> Prop :=
| cl_nil : forall p, clay p [] p []
| cl_end : forall p r, clay p [] r [(p, CEOF, r)]
| cl_sp : forall a b ss e w, a = b \/ (exists t r w', w = (b, t, r) :: w') -> clay b ss e w ->
    clay a (CSp (a, b) :: ss) e w
| cl_at : forall l t r a ss e w, atom_of (l, t, r) = Some a -> clay r ss e w ->
    clay l (CAt a :: ss) e ((l, t, r) :: w).
