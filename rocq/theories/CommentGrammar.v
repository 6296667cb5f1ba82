(** The grammar of src/parser/comment_syntax.lalrpop as data, and the comment tree of
    src/parser/comment_ast.rs:10-20. *)
From Verif Require Import Base CommentLexer LR.

(** comment_ast.rs:10-20. The tree has a fixed shape (chunk > groups > atoms), so the variants of the
    Rust enum are spread over three types. *)
Inductive catom :=
| AOneLine (sp : loc) (s : str)
| AMultiLine (sp : loc) (level : nat) (s : str)
| ANewLine (sp : loc).
Inductive cgroup :=
| GComments (sp : loc) (l : list (loc * catom))
| GNewLines (sp : loc) (l : list (loc * catom)).
(** [Chunk(locl, VariantList(span, groups), locr)] *)
Record cchunk := mk_cchunk { cc_locl : loc; cc_span : loc; cc_groups : list (loc * cgroup); cc_locr : loc }.

Inductive cval :=
| CVTok (t : ctoken)
| CVAtom (a : catom)
| CVGroup (g : cgroup)
| CVAtoms (l : list (loc * catom))
| CVGroups (l : list (loc * cgroup))
| CVVariants (sp : loc) (l : list (loc * cgroup))
| CVChunk (c : cchunk)
| CVBad.

Definition cargs := list (located cval).

Definition cspan (a : cargs) : loc := (a_start a, a_end a).
Definition clstart (a : cargs) : loc := (a_start a, a_start a).
(** position between the symbols number [i] and [i + 1] *)
Fixpoint cgap (i : nat) (a : cargs) : loc :=
  match a with
  | (_, _, r) :: (((l, _, _) :: _) as rest) => match i with O => (r, l) | S j => cgap j rest end
  | _ => (0, 0)
  end.
Definition carg (i : nat) (a : cargs) : cval := nth i (map (fun x => snd (fst x)) a) CVBad.
Definition cgroup_of (v : cval) : cgroup := match v with CVGroup g => g | _ => GComments (0, 0) [] end.
Definition catom_of (v : cval) : catom := match v with CVAtom x => x | _ => ANewLine (0, 0) end.
Definition catoms_of (v : cval) := match v with CVAtoms l => l | _ => [] end.
Definition cgroups_of (v : cval) := match v with CVGroups l => l | _ => [] end.
Definition cvariants_of (v : cval) := match v with CVVariants s l => (s, l) | _ => ((0, 0), []) end.

(** comment_syntax.lalrpop:54-57 *)
Definition cact_empty (a : cargs) : cval :=
  let rs := a_start a in CVChunk (mk_cchunk (0, rs) (rs, rs) [] (rs, rs)).
(** comment_syntax.lalrpop:58-60 *)
Definition cact_chunk (a : cargs) : cval :=
  let v := cvariants_of (carg 0 a) in
  CVChunk (mk_cchunk (0, a_start a) (fst v) (snd v) (cgap 0 a)).
(** comment_syntax.lalrpop:64-65 *)
Definition cact_variants (a : cargs) : cval := CVVariants (cspan a) (cgroups_of (carg 0 a)).
(** comment_syntax.lalrpop:69, 73 *)
Definition cact_comments (a : cargs) : cval := CVGroup (GComments (cspan a) (catoms_of (carg 0 a))).
Definition cact_newlines (a : cargs) : cval := CVGroup (GNewLines (cspan a) (catoms_of (carg 0 a))).
(** comment_syntax.lalrpop:77-78, 82 *)
Definition cact_atom (a : cargs) : cval :=
  match carg 0 a with
  | CVTok (COneLine s) => CVAtom (AOneLine (cspan a) s)
  | CVTok (CMultiLine lv s) => CVAtom (AMultiLine (cspan a) lv s)
  | CVTok CNewLine => CVAtom (ANewLine (cspan a))
  | _ => CVBad
  end.
Definition cpass (a : cargs) : cval := carg 0 a.
(** comment_syntax.lalrpop:10-14, 15-19 *)
Definition cact_tlist1 (a : cargs) : cval := CVAtoms [(clstart a, catom_of (carg 0 a))].
Definition cact_tlist_snoc (a : cargs) : cval :=
  CVAtoms (catoms_of (carg 0 a) ++ [(cgap 0 a, catom_of (carg 1 a))]).
(** comment_syntax.lalrpop:24-28, 30-34 *)
Definition cact_alt1 (a : cargs) : cval := CVGroups [(clstart a, cgroup_of (carg 0 a))].
Definition cact_alt_snoc (a : cargs) : cval :=
  CVGroups (cgroups_of (carg 0 a) ++ [(cgap 0 a, cgroup_of (carg 1 a))]).
(** comment_syntax.lalrpop:38-43, 44-49 *)
Definition cact_helper2 (a : cargs) : cval :=
  CVGroups [(clstart a, cgroup_of (carg 0 a)); (cgap 0 a, cgroup_of (carg 1 a))].
Definition cact_helper_snoc2 (a : cargs) : cval :=
  CVGroups (cgroups_of (carg 0 a) ++ [(cgap 0 a, cgroup_of (carg 1 a)); (cgap 1 a, cgroup_of (carg 2 a))]).

(** Terminals, comment_syntax.lalrpop:89-94 *)
Definition ct_OneLine : N := 0%N.
Definition ct_MultiLine : N := 1%N.
Definition ct_NewLine : N := 2%N.
Definition ct_EOF : N := 3%N.
Definition ct_eoi : N := 4%N.

Definition cterm_of (t : ctoken) : N :=
  match t with
  | COneLine _ => ct_OneLine
  | CMultiLine _ _ => ct_MultiLine
  | CNewLine => ct_NewLine
  | CEOF => ct_EOF
  end.

(** Nonterminals *)
Definition cn_Chunk : N := 0%N.
Definition cn_VariantList : N := 1%N.
Definition cn_AltCN : N := 2%N.
Definition cn_AltNC : N := 3%N.
Definition cn_HelperCN : N := 4%N.
Definition cn_HelperNC : N := 5%N.
Definition cn_CommentList : N := 6%N.
Definition cn_NewLineList : N := 7%N.
Definition cn_Comment : N := 8%N.
Definition cn_NewLine : N := 9%N.
Definition cn_TListC : N := 10%N.
Definition cn_TListN : N := 11%N.

Notation P := (mk_prod (val := cval)).

Definition comment_prods : list (prod cval) := [
  (* comment_syntax.lalrpop:53-61 Chunk *)
  P cn_Chunk [T ct_EOF] (cact_empty);
  P cn_Chunk [NT cn_VariantList; T ct_EOF] (cact_chunk);
  (* comment_syntax.lalrpop:63-66 VariantList *)
  P cn_VariantList [NT cn_AltCN] (cact_variants);
  P cn_VariantList [NT cn_AltNC] (cact_variants);
  (* comment_syntax.lalrpop:23-35 TAltList<CommentList, NewLineList> *)
  P cn_AltCN [NT cn_CommentList] (cact_alt1);
  P cn_AltCN [NT cn_HelperCN] (cpass);
  P cn_AltCN [NT cn_HelperCN; NT cn_CommentList] (cact_alt_snoc);
  (* comment_syntax.lalrpop:23-35 TAltList<NewLineList, CommentList> *)
  P cn_AltNC [NT cn_NewLineList] (cact_alt1);
  P cn_AltNC [NT cn_HelperNC] (cpass);
  P cn_AltNC [NT cn_HelperNC; NT cn_NewLineList] (cact_alt_snoc);
  (* comment_syntax.lalrpop:37-50 TAltListHelper, both instances *)
  P cn_HelperCN [NT cn_CommentList; NT cn_NewLineList] (cact_helper2);
  P cn_HelperCN [NT cn_HelperCN; NT cn_CommentList; NT cn_NewLineList] (cact_helper_snoc2);
  P cn_HelperNC [NT cn_NewLineList; NT cn_CommentList] (cact_helper2);
  P cn_HelperNC [NT cn_HelperNC; NT cn_NewLineList; NT cn_CommentList] (cact_helper_snoc2);
  (* comment_syntax.lalrpop:68-74 CommentList, NewLineList *)
  P cn_CommentList [NT cn_TListC] (cact_comments);
  P cn_NewLineList [NT cn_TListN] (cact_newlines);
  (* comment_syntax.lalrpop:76-83 Comment, NewLine *)
  P cn_Comment [T ct_OneLine] (cact_atom);
  P cn_Comment [T ct_MultiLine] (cact_atom);
  P cn_NewLine [T ct_NewLine] (cact_atom);
  (* comment_syntax.lalrpop:9-20 TList<Comment>, TList<NewLine> *)
  P cn_TListC [NT cn_Comment] (cact_tlist1);
  P cn_TListC [NT cn_TListC; NT cn_Comment] (cact_tlist_snoc);
  P cn_TListN [NT cn_NewLine] (cact_tlist1);
  P cn_TListN [NT cn_TListN; NT cn_NewLine] (cact_tlist_snoc)
].

Definition comment_grammar : grammar ctoken cval :=
  mk_grammar cterm_of CVTok comment_prods cn_Chunk.
