(** The pieces of a tree and its tokens, read together. *)
From Coq Require Import Lia.
From Verif Require Import Base Config State LuaLexer Ast LR LRSpec LuaGrammar LuaParser ParserProofs LexSpec LayoutSpec LayoutProofs SafeSpec PrettySpec SettleSpec.

(** the text written for a token *)
Definition shown (c : config) (t : token) : str :=
  match t with
  | CharStringLiteral s => if on c B_convert_charstring_to_normalstring then PrettySpec.quoted 34%N (requote s) else PrettySpec.quoted 39%N s
  | SheBang s => s ++ [10%N]
  | _ => spelling t
  end.
Definition shows (c : config) (t : token) (w : str) : Prop := w = shown c t \/ (is_separator t /\ w = field_separator c (spelling t)).
Definition is_minus (t : token) : bool := match t with Minus => true | _ => false end.
Definition is_shebang (t : token) : bool := match t with SheBang _ => true | _ => false end.

(** Where a walk is: after a token (at the start of a line?); after an empty gap; after the gap between two tokens, written as a
    gap, as a line break, as one of the two; after a line break added to a gap; after a hint. *)
Inductive phase := QA (s : bool) | QN (s : bool) | QG | QL | QF | QC | QD.
Definition inside (q : phase) : bool := match q with QG | QL | QC => true | _ => false end.
Definition ready (q : phase) : bool := match q with QG | QL | QF | QC | QD => true | _ => false end.
Lemma inside_ready q : inside q = true -> ready q = true. Proof. now destruct q. Qed.
(** the phase, whether a minus may be the last thing written, the end of the last token, and the tokens to come *)
Definition spot := (phase * bool * nat * list ptok)%type.
Definition null_at (x e : nat) (ts : list ptok) : Prop := x = 0 \/ x = e \/ begins ts x.

Section Walk.
  Variable c : config.
  Inductive walk : spot -> list piece -> spot -> Prop :=
  | wk_nil : forall s, walk s [] s
  | wk_tok : forall q m e l t r ts w ps z, ready q = true -> shows c t w -> t <> EOF -> (m = true -> is_minus t = false) ->
      walk (QA (is_shebang t), is_minus t, r, ts) ps z -> walk (q, m, e, (l, t, r) :: ts) (PTok w :: ps) z
  | wk_none : forall s m e ts ps z, walk (QA s, m, e, ts) ps z -> walk (QN s, m, e, ts) (PTok [] :: ps) z
  | wk_add : forall s m e l r ts w ps z, w = [44%N] \/ w = [59%N] -> walk (QA false, false, e, (l, CloseCurlyBracket, r) :: ts) ps z ->
      walk (QN s, m, e, (l, CloseCurlyBracket, r) :: ts) (PTok w :: ps) z
  | wk_gap : forall s m e l t r ts d h ps z, (s = true -> d = 0 /\ h = []) -> blanks h -> List.length h <= 1 ->
      walk (QG, m && is_empty h, e, (l, t, r) :: ts) ps z -> walk (QA s, m, e, (l, t, r) :: ts) (PGap (e, l) d h :: ps) z
  | wk_null : forall s m e ts x d ps z, null_at x e ts -> walk (QN s, m, e, ts) ps z -> walk (QA s, m, e, ts) (PGap (x, x) d [] :: ps) z
  | wk_skip : forall q m e ts x d ps z, inside q = true -> null_at x e ts -> walk (q, m, e, ts) ps z -> walk (q, m, e, ts) (PGap (x, x) d [] :: ps) z
  | wk_hint : forall q m e ts x d h ps z, inside q = true -> null_at x e ts -> blanks h ->
      walk (QD, m, e, ts) ps z -> walk (q, m, e, ts) (PGap (x, x) d h :: ps) z
  | wk_line : forall s m e l t r ts d ps z, walk (QL, false, e, (l, t, r) :: ts) ps z -> walk (QA s, m, e, (l, t, r) :: ts) (PLine (e, l) d :: ps) z
  | wk_break : forall m e ts x d ps z, null_at x e ts -> walk (QC, false, e, ts) ps z -> walk (QG, m, e, ts) (PLine (x, x) d :: ps) z
  | wk_full : forall m e l t r ts d h ps z, blanks h -> walk (QF, m, e, (l, t, r) :: ts) ps z ->
      walk (QA false, m, e, (l, t, r) :: ts) (PFull (e, l) d h :: ps) z
  | wk_empty : forall m e l t r ts d h ps z, blanks h -> walk (QF, m, e, (l, t, r) :: ts) ps z ->
      walk (QA false, m, e, (l, t, r) :: ts) (PEmpty (e, l) d h :: ps) z.

  Lemma walk_app a ps b : walk a ps b -> forall ps2 z, walk b ps2 z -> walk a (ps ++ ps2) z.
  Proof.
    induction 1; intros ps2 z2 W; cbn [app]; [exact W|..].
    - eapply wk_tok; eauto.
    - apply wk_none; auto.
    - apply wk_add; auto.
    - apply wk_gap; auto.
    - apply wk_null; auto.
    - apply wk_skip; auto.
    - apply wk_hint; auto.
    - apply wk_line; auto.
    - apply wk_break; auto.
    - apply wk_full; auto.
    - apply wk_empty; auto.
  Qed.

  Hypothesis C : calm c.
  Let Ti : tidy c. Proof. apply C. Qed.

  Lemma space_ok : blanks space /\ List.length space <= 1. Proof. split; [repeat constructor|apply Nat.le_refl]. Qed.
  Lemma table_hint_ok : blanks (table_hint c) /\ List.length (table_hint c) <= 1.
  Proof.
    unfold table_hint. destruct (cs c S_hint_table_constructor) as [h|] eqn:E; cbn [text]; [|split; [constructor|apply Nat.le_0_l]]. split.
    - destruct (Ti) as (_ & _ & A & _). apply (A S_hint_table_constructor); [cbn; auto|exact E].
    - destruct C as (_ & _ & _ & _ & _ & _ & _ & A & _). apply (A S_hint_table_constructor); [cbn; auto|exact E].
  Qed.
  Lemma separator_ok z : z = [44%N] \/ z = [59%N] \/ z = [] -> field_separator c z = [44%N] \/ field_separator c z = [59%N] \/ (field_separator c z = [] /\ z = []).
  Proof.
    intros Hz. unfold field_separator. destruct (cs c S_field_separator) as [h|] eqn:E; [|tauto].
    destruct (Ti) as (_ & _ & _ & _ & A). destruct (A h E) as (b & Hb & _).
    destruct C as (_ & _ & _ & _ & _ & _ & _ & L & _). specialize (L S_field_separator h (or_introl eq_refl) E).
    destruct Hb as [-> | ->]; cbn [List.length] in L; (destruct b; [auto|cbn in L; lia]).
  Qed.
  Lemma last_ok z : last_separator c z = field_separator c z \/ (z = [] /\ last_separator c z = []).
  Proof.
    unfold last_separator. destruct C as (_ & _ & _ & _ & _ & _ & A & _). destruct (cb c B_write_trailing_field_separator) as [[|]|]; auto; [now elim A|].
    destruct z; cbn [is_empty]; auto.
  Qed.

  (** ** what is true of the values of the symbols *)
  Definition soft (n : N) : bool := existsb (N.eqb n) [n_ExpList_; n_VarSuffixList_; n_FieldList_].
  Definition minus_first (n : N) : bool :=
    existsb (N.eqb n) [n_OpExp_; n_Op0_; n_Op1_; n_Op2_; n_Op3_; n_Op4_; n_Op5_; n_Op6_; n_Op7_; n_Op8_; n_Op9_; n_Op10_; n_ExpList_; n_Field_; n_FieldList_;
                       n_TSepList_OpExp_; n_TSepEndList_Field_].
  Definition guard (n : N) (u : list ptok) : Prop := N.eqb n n_FieldList_ = true -> exists l r u', u = (l, CloseCurlyBracket, r) :: u'.
  Definition node_walk (n : N) (w : list ptok) (r : nat) (x : node) : Prop :=
    forall u d op q m e, inside q = true -> (soft n = true -> q = QG) -> (minus_first n = true -> m = false) -> guard n u ->
      walk (q, m, e, w ++ u) (pieces c x d op) (QA (N.eqb n n_SheBangLine_), false, r, u).
  Definition items_walk (w : list ptok) (r : nat) (x : node) (its : list (loc * node)) : Prop :=
    forall k u d op q m e, inside q = true ->
      walk (q, m, e, w ++ u) (pieces c x d op ++ items_from c k false d op (map (fun x => (x, pieces c (snd x))) its)) (QA false, false, r, u).
  Definition printed (ss : list sitem) := map (fun x : sitem => (x, pieces c (snd (fst (fst x))))) ss.
  Definition commas_walk (n : N) (t : token) (w : list ptok) (r : nat) (x : node) (q0 : loc) (ss : list sitem) : Prop :=
    forall k h u d op q m e, inside q = true -> (minus_first n = true -> m = false) -> blanks h -> List.length h <= 1 ->
      walk (q, m, e, w ++ u) (pieces c x d op ++ PGap q0 d [] :: PTok (match printed ss with [] => [] | _ => spelling t end)
          :: seps_from c k false d op h (fun _ => spelling t) (fun _ => []) (printed ss)) (QA false, false, r, u).
  Definition fields_walk (w : list ptok) (r : nat) (x : node) (q0 : loc) (z : str) (ss : list sitem) : Prop :=
    forall u d op q m e, inside q = true -> m = false -> (exists l r u', u = (l, CloseCurlyBracket, r) :: u') ->
      walk (q, m, e, w ++ u) (pieces c x d op ++ PGap q0 d [] :: PTok (match printed ss with [] => last_separator c z | _ => field_separator c z end)
          :: seps_from c KFields false d op space (field_separator c) (last_separator c) (printed ss)) (QA false, false, r, u).
  Definition walks (x : sym) (w : list ptok) (lv : located val) : Prop :=
    let '(l, v, r) := lv in
    match x with
    | T _ => True
    | NT n =>
        match nclass_of n with
        | QNode => forall x, v = VNode x -> node_walk n w r x
        | QItems => forall p x its, v = VItems ((p, x) :: its) -> items_walk w r x its
        | QCommas t => forall p x q0 z ss, v = VSeps ((p, x, q0, z) :: ss) -> commas_walk n t w r x q0 ss
        | QFields => forall p x q0 z ss, v = VSeps ((p, x, q0, z) :: ss) -> fields_walk w r x q0 z ss
        | QSep => True
        | QChunk => forall x, v = VNode x -> exists q m e l, ready q = true /\ walk (QA true, false, 0, w) (pieces c x 0 None) (q, m, e, [(l, EOF, r)])
        end
    end.
  Definition val_both (x : sym) (w : list ptok) (v : located val) : Prop := val_ok x w v /\ walks x w v.
  Inductive vals_both : list sym -> list ptok -> list (located val) -> Prop :=
  | vb_nil : vals_both [] [] []
  | vb_cons : forall x xs w1 w2 v vs, val_both x w1 v -> vals_both xs w2 vs -> vals_both (x :: xs) (w1 ++ w2) (v :: vs).

  (** ** steps *)
  Lemma glue b m e l t r ts d h ps z : blanks h /\ List.length h <= 1 -> (m = true -> h <> []) ->
    (forall q, inside q = true -> (b = false -> q = QG) -> walk (q, false, e, (l, t, r) :: ts) ps z) ->
    walk (QA false, m, e, (l, t, r) :: ts) (gap_or_line b (e, l) d h :: ps) z.
  Proof.
    intros [Hb Hh] Hm W. destruct b; cbn [gap_or_line].
    - apply wk_line, W; [reflexivity|discriminate].
    - apply wk_gap; [discriminate|exact Hb|exact Hh|]. replace (m && is_empty h) with false; [apply W; auto|].
      destruct m; [|reflexivity]. destruct h; [now elim Hm|reflexivity].
  Qed.
  Lemma glue_at b m e l w u d h ps z : begins w l -> blanks h /\ List.length h <= 1 -> (m = true -> h <> []) ->
    (forall q, inside q = true -> (b = false -> q = QG) -> walk (q, false, e, w ++ u) ps z) ->
    walk (QA false, m, e, w ++ u) (gap_or_line b (e, l) d h :: ps) z.
  Proof. intros (t & r & w' & ->). cbn [app]. apply glue. Qed.
  Lemma nil_ok : blanks [] /\ List.length (@nil char) <= 1. Proof. split; [constructor|apply Nat.le_0_l]. Qed.
  Lemma items_snoc k d op l x : items_from c k false d op (map (fun x => (x, pieces c (snd x))) (l ++ [x]))
    = items_from c k false d op (map (fun x => (x, pieces c (snd x))) l) ++ gap_or_line (starts_line c k false (snd x)) (fst x) d (item_hint (snd x)) :: pieces c (snd x) d op.
  Proof.
    induction l as [|[p y] l IH]; cbn [app map items_from].
    - destruct x as [p y]. cbn [fst snd]. now rewrite app_nil_r.
    - rewrite IH. cbn [snd]. now rewrite <- app_assoc.
  Qed.
  Lemma item_hint_ok x : blanks (item_hint x) /\ List.length (item_hint x) <= 1.
  Proof. unfold item_hint. destruct (n_kind x); first [apply nil_ok|apply space_ok]. Qed.
End Walk.
