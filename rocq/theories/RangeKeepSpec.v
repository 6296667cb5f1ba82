(** What an output consists of when only some lines are formatted. *)
From Verif Require Import Base State LuaLexer CommentLexer Ast LuaParser LexSpec CommentSpec Config LayoutSpec UtilSpec RenderSpec FormatSpec.

(** text that is neither token nor comment; outside of the range the blanks of the source stay *)
Inductive white (c : config) : str -> Prop :=
| wh_filler : forall x, filler c True x -> white c x
| wh_blank : forall b, In b [32; 13; 9]%N -> white c [b]
| wh_app : forall x y, white c x -> white c y -> white c (x ++ y)
| wh_cut : forall x b, white c (x ++ [b]) -> b = 32%N \/ b = 9%N -> white c x.

(** The text between two tokens: its comments in their order, each once, as they are or as the options ask for, with
    blanks, line feeds and hints around them. *)
Inductive kept_gap (c : config) : list gitem -> str -> Prop :=
| kg_nil : kept_gap c [] []
| kg_white : forall x gs y, white c x -> kept_gap c gs y -> kept_gap c gs (x ++ y)
| kg_blank : forall b gs y, kept_gap c gs y -> kept_gap c (GBlank b :: gs) y
| kg_newline : forall gs y, kept_gap c gs y -> kept_gap c (GNewline :: gs) y
| kg_same : forall g x gs y, cut_of (gitem_text g) x -> kept_gap c gs y -> kept_gap c (g :: gs) (x ++ y)
| kg_comment : forall g t gs y, comment_token g = Some t -> kept_gap c gs y -> kept_gap c (g :: gs) (comment_text c t ++ y).

(** the slots: as in the source or as the options ask for *)
Definition slot_kept (c : config) (src : str) (s : slot) (x : str) : Prop :=
  match s with
  | STok t => exists t', (t' = t \/ token_becomes c t t') /\ x = token_out t'
  | SGap (a, b) => exists gs, gap_at src b gs /\ text_at src a b = gap_text gs /\ kept_gap c gs x
  | SSep z => cut_of (separator_out c z) x \/ x = z
  | STrail z => trailing_out c z x \/ x = z
  | SVoid => white c x
  end.
Definition output_kept (c : config) (src o : str) : Prop :=
  exists n xs, parse_lua src = Parsed n /\ Forall2 (slot_kept c src) (layout n) xs /\ o = List.concat xs.

Definition ascii (s : str) : Prop := Forall (fun a => (a < 128)%N) s.

(** the parts of a tree *)
Inductive within : node -> node -> Prop :=
| wi_here : forall n, within n n
| wi_part : forall n m x, In m (children n) -> within m x -> within n x.
(** the statements of the outermost block, without a last [return] and without those which the grammar packs into a list
    of their own, as the second one of [a = 1 (f)()] *)
Definition list_statements (b : node) : list node :=
  filter (fun x => match n_kind x with KStatementList => false | _ => true end) (map snd (n_items b)).
Definition block_statements (b : node) : list node :=
  match n_kind b with
  | KStatementList => list_statements b
  | KStatsRetStat => match n_kids b with [a; _] => list_statements a | _ => [] end
  | _ => []
  end.
Definition top_statements (n : node) : list node :=
  match n_kind n, n_kids n with
  | KChunk, [b] => block_statements b
  | KSheBangChunk, [_; b] => block_statements b
  | _, _ => []
  end.
(** every expression [(e)] with something behind it, as [(f)(x)], is written on one line or part of such a statement *)
Definition prefixes_kept (src : str) (n : node) : Prop :=
  forall x, within n x -> n_kind x = KVarRoundSuffix ->
    ~ In 10%N (text_at src (fst (n_span x)) (snd (n_span x))) \/ exists y, In y (top_statements n) /\ within y x.
