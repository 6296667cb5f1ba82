(** When two syntax trees are the same program. *)
From Verif Require Import Base State LuaLexer Ast Config LexSpec UtilSpec LayoutSpec FormatSpec Formatter.

(** [same_tree c n n']: the nodes have the same kind, the same text and the same children, whatever their positions and
    the separators between table fields are; a single-quoted string may have become a double-quoted one of the same
    value when that is asked for. *)
Inductive same_tree (c : config) : node -> node -> Prop :=
| st_node : forall k sp sp' ls ls' t lv ks ks' is is' ss ss' o,
    same_trees c ks ks' -> same_trees c (map snd is) (map snd is') -> same_trees c (map si_node ss) (map si_node ss') ->
    same_tree c (Nd k sp ls t lv ks is ss o) (Nd k sp' ls' t lv ks' is' ss' o)
| st_string : forall sp sp' ls ls' s s' o, on c B_convert_charstring_to_normalstring = true -> lua_value s' = lua_value s ->
    same_tree c (Nd KCharStringLiteral sp ls s 0 [] [] [] o) (Nd KNormalStringLiteral sp' ls' s' 0 [] [] [] o)
with same_trees (c : config) : list node -> list node -> Prop :=
| sts_nil : same_trees c [] []
| sts_cons : forall n n' l l', same_tree c n n' -> same_trees c l l' -> same_trees c (n :: l) (n' :: l').

(** formatting [k] times *)
Inductive runs (c : config) : nat -> str -> str -> Prop :=
| rs_none : forall s, runs c 0 s s
| rs_more : forall k s m o, process_buffer s c = Formatted m -> runs c k m o -> runs c (S k) s o.
