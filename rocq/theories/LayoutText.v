(** Reading a tree from left to right gives back the text. *)
From Verif Require Import Base Lib LuaLexer Ast LuaParser LexSpec LexLoop LayoutSpec LayoutProofs CommentProofs.

Lemma skipn_split (src : str) a b : a <= b -> skipn a src = text_at src a b ++ skipn b src.
Proof.
  intros H. unfold text_at. rewrite <- (firstn_skipn (b - a) (skipn a src)) at 1. f_equal.
  rewrite skipn_skipn. f_equal. lia.
Qed.
Lemma empty_gap : last_gap [].
Proof. exists [], []. repeat split; auto. constructor. Qed.
Lemma gap_last g : LexSpec.gap g -> last_gap g.
Proof. intros H. exists g, []. rewrite app_nil_r. auto. Qed.

Lemma gap_at_last src b g : gap_at src b g -> last_gap g.
Proof. intros [H|[_ H]]; [now apply gap_last|exact H]. Qed.

Definition at_tokens (src : str) (p : nat) (w : list ptok) : Prop :=
  (w = [] /\ p = List.length src) \/ exists q, tiles src q w /\ (p = q \/ (LayoutSpec.begins w p /\ q <= p)).

Lemma tiles_head src q l t r w : tiles src q ((l, t, r) :: w) ->
  q <= l /\ l <= r /\ r <= List.length src /\ (token_ok t \/ t = EOF)
  /\ (exists g, gap_at src l g /\ text_at src q l = gap_text g)
  /\ written t (text_at src l r) (skipn r src) /\ ((w = [] /\ r = List.length src) \/ tiles src r w).
Proof.
  cbn [tiles]. destruct w.
  - intros (-> & H1 & -> & -> & g & Hg & Eg). repeat split; auto; [exists g; split; [now right|auto]|cbn; apply text_at_empty].
  - intros (H1 & H2 & H3 & H4 & (g & Hg & Eg) & H5 & H6). repeat split; auto; try lia. exists g. split; [now left|auto].
Qed.
Lemma written_sep t z w rest : is_sep t z -> written t w rest -> w = z.
Proof. intros [[-> | ->] ->]; cbn; auto. Qed.

Lemma lay_reads src p ss e w : lay p ss e w -> at_tokens src p w -> p <= List.length src -> e = List.length src ->
  reads src ss (skipn p src) /\ Forall (slot_ok src) ss.
Proof.
  assert (Step : forall l t r w, at_tokens src l ((l, t, r) :: w) -> l <= r /\ r <= List.length src /\ (token_ok t \/ t = EOF)
    /\ written t (text_at src l r) (skipn r src) /\ at_tokens src r w).
  { clear. intros l t r w [[D _]|(q & T & Hq)]; [discriminate|]. apply tiles_head in T as (H1 & H2 & H3 & H4 & _ & H5 & H6).
    repeat split; auto. destruct H6 as [H6|H6]; [now left|right; eauto]. }
  induction 1 as [p|a b ss e w Hb L IH|l t r ss e w L IH|l t z r ss e w Hz L IH|l t z r ss e w Hz L IH|p ss e w L IH|p ss e w L IH];
    intros A Hp He.
  - subst. rewrite skipn_all. repeat constructor.
  - assert (a = b \/ (a <= b /\ b <= List.length src /\ at_tokens src b w
      /\ exists g, gap_at src b g /\ text_at src a b = gap_text g)) as [->|(H1 & H2 & H3 & H4)].
    { destruct Hb as [->|B]; [now left|]. destruct A as [[-> _]|(q & T & Hq)]; [destruct B as (? & ? & ? & ?); discriminate|].
      destruct Hq as [-> |[B' _]].
      - right. destruct B as (t & r & w' & ->). pose proof (tiles_head _ _ _ _ _ _ T) as (H1 & H2 & H3 & _ & H5 & _).
        repeat split; auto; [lia|]. right. exists q. split; [exact T|]. right. split; [unfold LayoutSpec.begins; eauto|lia].
      - left. destruct B as (? & ? & ? & E), B' as (? & ? & ? & E'). congruence. }
    + destruct (IH A Hp He) as [R F]. split.
      * change (skipn b src) with ([] ++ skipn b src). rewrite <- (text_at_empty src b). now apply rd_gap.
      * constructor; [|exact F]. cbn. repeat split; auto. exists []. split; [left; constructor|]. apply text_at_empty.
    + destruct (IH H3 H2 He) as [R F]. split; [rewrite (skipn_split src a b H1); now apply rd_gap|].
      constructor; [|exact F]. cbn. auto.
  - destruct (Step _ _ _ _ A) as (H1 & H2 & H3 & H4 & H5). destruct (IH H5 H2 He) as [R F].
    split; [rewrite (skipn_split src l r H1); now apply rd_tok|]. constructor; auto.
  - destruct (Step _ _ _ _ A) as (H1 & H2 & H3 & H4 & H5). destruct (IH H5 H2 He) as [R F].
    split; [rewrite (skipn_split src l r H1), (written_sep _ _ _ _ Hz H4); now apply rd_sep|].
    constructor; [|exact F]. destruct Hz as [[-> | ->] ->]; cbn; auto.
  - destruct (Step _ _ _ _ A) as (H1 & H2 & H3 & H4 & H5). destruct (IH H5 H2 He) as [R F].
    split; [rewrite (skipn_split src l r H1), (written_sep _ _ _ _ Hz H4); now apply rd_trail|].
    constructor; [|exact F]. destruct Hz as [[-> | ->] ->]; cbn; auto.
  - destruct (IH A Hp He) as [R F]. split; [now apply (rd_trail src [])|]. constructor; [cbn; auto|exact F].
  - destruct (IH A Hp He) as [R F]. split; [now apply rd_void|]. constructor; [exact I|exact F].
Qed.

Theorem tree_reads src n : parse_lua src = Parsed n -> reads src (layout n) src /\ Forall (slot_ok src) (layout n).
Proof.
  intros P. destruct (parse_lua_layout src n P) as (ts & L & Hl & _). apply lex_tiles in L.
  apply (lay_reads src 0 _ _ _ Hl); [|lia|reflexivity]. right. exists 0. auto.
Qed.
Theorem tree_spans src n : parse_lua src = Parsed n -> ordered 0 (List.length src) (map n_span (children n)) /\ Forall nested (children n).
Proof. intros P. destruct (parse_lua_layout src n P) as (ts & _ & _ & H). exact H. Qed.
