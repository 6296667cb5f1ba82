(** Reading the formatted text again. *)
From Verif Require Import Base Shipped RefuteSpec Lib Config State Ast LuaLexer LuaParser LuaGrammar CommentLexer Recon WriterBase LuaWriter Formatter LexSpec LexProofs LexLoop CommentSpec
  LayoutSpec LayoutProofs LayoutText UtilSpec RenderSpec FormatSpec SafeSpec CanonSpec WriterFrame GapProofs RenderProofs RenderGeneral ReconProofs FormatProofs TotalResults HintProofs ScanProofs.


Lemma blanks_blank_text s : blanks s -> blank_text s. Proof. exact (fun H => H). Qed.

(** what is written, with the new string for a converted one *)
Inductive wrote (c : config) : list slot -> list token -> Prop :=
| wt_nil : wrote c [] []
| wt_tok : forall t t' ss ts, conv c (STok t) = STok t' -> token_becomes c t t' -> wrote c ss ts -> wrote c (STok t :: ss) (t' :: ts)
| wt_gap : forall p ss ts, wrote c ss ts -> wrote c (SGap p :: ss) ts
| wt_void : forall ss ts, wrote c ss ts -> wrote c (SVoid :: ss) ts
| wt_sep : forall z ss ts, z = s2l "," \/ z = s2l ";" -> wrote c ss ts -> wrote c (SSep z :: ss) (separator_tokens (separator_out c z) ++ ts)
| wt_trail : forall z x ss ts, z = [] \/ z = s2l "," \/ z = s2l ";" -> trailing_out c z x -> wrote c ss ts -> wrote c (STrail z :: ss) (separator_tokens x ++ ts).
Lemma wrote_writes c ss ts : wrote c ss ts -> writes c ss ts.
Proof. induction 1; now constructor. Qed.

(** ** texts without comments *)
Definition white (x : str) : Prop := Forall (fun a => In a [32; 9; 13; 10]%N) x.
Inductive open_tokens : nat -> str -> list ptok -> Prop :=
| ot_end : forall n x, white x -> open_tokens n x [(n + List.length x, EOF, n + List.length x)]
| ot_tok : forall n x t w rest ts, white x -> open_tokens (n + List.length x + List.length w) rest ts ->
    open_tokens n (x ++ w ++ rest) ((n + List.length x, t, n + List.length x + List.length w) :: ts).
Lemma open_holes n y ts : open_tokens n y ts -> forall pre, List.length pre = n -> Forall white (holes (pre ++ y) n ts).
Proof.
  induction 1 as [n x Hx|n x t w rest ts Hx H IH]; intros pre Hp; cbn [holes]; (constructor; [|]).
  - subst n. unfold text_at. rewrite skipn_app, skipn_all, Nat.sub_diag. cbn [app skipn]. rewrite Nat.add_comm, Nat.add_sub, firstn_all. exact Hx.
  - constructor.
  - subst n. unfold text_at. rewrite skipn_app, skipn_all, Nat.sub_diag. cbn [app skipn]. rewrite Nat.add_comm, Nat.add_sub, firstn_app, firstn_all, Nat.sub_diag.
    cbn [firstn]. now rewrite app_nil_r.
  - replace (pre ++ x ++ w ++ rest) with ((pre ++ x ++ w) ++ rest) by now rewrite <- !app_assoc. apply IH. rewrite !app_length. lia.
Qed.
Lemma white_line_feeds gs : white (gap_text gs) -> line_feeds (comments gs).
Proof.
  induction gs as [|g gs IH]; intros H; [constructor|]. unfold gap_text in H. cbn [flat_map] in H. apply Forall_app in H as [Hg H]. specialize (IH H).
  destruct g as [b| |s|lv s|s]; cbn [comments flat_map comment_token app] in *; auto; try (inversion Hg as [|? ? X _]; subst; cbn in X; decompose [or] X; discriminate || contradiction).
  constructor; auto.
Qed.
Definition clean_slot (src : str) (s : slot) : Prop := match s with SGap (a, b) => white (text_at src a b) | _ => True end.
Lemma lay_clean src p ss e w : lay p ss e w -> Forall white (holes src p w) -> Forall (clean_slot src) ss.
Proof.
  induction 1 as [p|a b ss e w Hb H IH|l t r ss e w H IH|l t z r ss e w Hz H IH|l t z r ss e w Hz H IH|p ss e w H IH|p ss e w H IH]; intros Hh.
  - constructor.
  - destruct Hb as [<-|(t & r & w' & ->)].
    + constructor; [|auto]. cbn. unfold text_at. rewrite Nat.sub_diag. constructor.
    + cbn [holes] in Hh. apply Forall_cons_iff in Hh as [Ha Hh]. constructor; [exact Ha|]. apply IH. cbn [holes]. constructor; [|exact Hh].
      unfold text_at. rewrite Nat.sub_diag. constructor.
  - cbn [holes] in Hh. apply Forall_cons_iff in Hh as [_ Hh]. constructor; [exact Logic.I|auto].
  - cbn [holes] in Hh. apply Forall_cons_iff in Hh as [_ Hh]. constructor; [exact Logic.I|auto].
  - cbn [holes] in Hh. apply Forall_cons_iff in Hh as [_ Hh]. constructor; [exact Logic.I|auto].
  - constructor; [exact Logic.I|auto].
  - constructor; [exact Logic.I|auto].
Qed.

(** ** comments *)
Lemma ws_not_bracket a : is_whitespace a = true -> a <> 92%N /\ a <> 93%N.
Proof. intros H. split; intros ->; discriminate. Qed.
Lemma starts_closing_hd level a r : starts_with (closing level) (a :: r) = true -> a = 93%N.
Proof. rewrite closing_cons. cbn [starts_with]. rewrite andb_true_iff. intros [H _]. now apply N.eqb_eq in H. Qed.
Lemma long_body_tail level a s : a <> 92%N -> long_body level (a :: s) -> long_body level s.
Proof.
  unfold long_body. intros Ha H. cbn [app] in H. rewrite long_end_cons in H. destruct (negb false && starts_with _ _); [discriminate|].
  destruct (N.eqb a 92) eqn:E; [apply N.eqb_eq in E; contradiction|]. destruct (long_end level false (s ++ closing level)) as [[b r]|]; [|discriminate].
  now injection H as -> ->.
Qed.
Lemma long_body_cons level a s : a <> 92%N -> a <> 93%N -> long_body level s -> long_body level (a :: s).
Proof.
  unfold long_body. intros Ha Hb H. cbn [app]. rewrite long_end_cons. destruct (starts_with (closing level) (a :: s ++ closing level)) eqn:E.
  - apply starts_closing_hd in E. contradiction.
  - rewrite andb_false_r. destruct (N.eqb a 92) eqn:E1; [apply N.eqb_eq in E1; contradiction|]. now rewrite H.
Qed.
Lemma long_body_drop level w s : forallb is_whitespace w = true -> long_body level (w ++ s) -> long_body level s.
Proof.
  induction w as [|a w IH]; [auto|]. cbn [forallb app]. rewrite andb_true_iff. intros [Ha Hw] H. apply ws_not_bracket in Ha as [Ha _].
  apply IH; [exact Hw|]. now apply (long_body_tail _ a).
Qed.
Lemma long_body_blanks level p s : blanks p -> long_body level s -> long_body level (p ++ s).
Proof.
  induction 1 as [|a p Ha Hp IH]; [auto|]. intros H. cbn [app]. apply long_body_cons; [destruct Ha; subst; discriminate..|]. now apply IH.
Qed.
Lemma starts_with_parted p b : ~ In b p -> forall x y, starts_with p (x ++ b :: y) = true -> forall z, starts_with p (x ++ z) = true.
Proof.
  induction p as [|a p IH]; intros Hb x y H z; [reflexivity|]. destruct x as [|c x]; cbn [app starts_with] in *.
  - apply andb_true_iff in H as [H _]. apply N.eqb_eq in H. elim Hb. now left.
  - apply andb_true_iff in H as [H1 H2]. rewrite H1. cbn. eapply IH; eauto. intros X. apply Hb. now right.
Qed.
Lemma closing_chars level b : In b (closing level) -> b = 93%N \/ b = 61%N.
Proof.
  unfold closing, brackets. rewrite !in_app_iff. cbn. intros [[H|[]]|[H|[H|[]]]]; auto. apply repeat_spec in H. auto.
Qed.
Lemma long_blanks level q : q <> [] -> blanks q -> forall e, long_end level e (q ++ closing level) = Some (q, []).
Proof.
  intros H0 H. induction H as [|a q Ha Hq IH]; [contradiction|]. intros e. cbn [app]. rewrite long_end_cons.
  destruct (starts_with (closing level) (a :: q ++ closing level)) eqn:E; [apply starts_closing_hd in E; destruct Ha; congruence|].
  rewrite andb_false_r. assert (Ea : N.eqb a 92 = false) by (apply N.eqb_neq; destruct Ha; subst; discriminate). rewrite Ea.
  destruct q as [|b q]; [|now rewrite (IH ltac:(discriminate))].
  cbn [app]. assert (L : long_body level []). { unfold long_body. rewrite <- (app_nil_r (closing level)). cbn [app]. destruct (long_end level false (closing level ++ [])) as [[b r]|] eqn:L.
    - rewrite closing_cons in L. cbn [app] in L. rewrite long_end_cons in L.
      change (93%N :: (repeat 61%N level ++ [93%N]) ++ []) with (closing level ++ []) in L.
      assert (starts_with (closing level) (closing level ++ []) = true) as X by (apply starts_with_app; eauto). rewrite X in L. cbn [negb andb] in L.
      rewrite app_nil_r in L. rewrite <- closing_length, skipn_all in L. congruence.
    - rewrite closing_cons in L. cbn [app] in L. rewrite long_end_cons in L.
      change (93%N :: (repeat 61%N level ++ [93%N]) ++ []) with (closing level ++ []) in L.
      assert (starts_with (closing level) (closing level ++ []) = true) as X by (apply starts_with_app; eauto). rewrite X in L. discriminate. }
  unfold long_body in L. cbn [app] in L. now rewrite L.
Qed.
Lemma long_end_retail level w q : q <> [] -> blanks q -> forall m e, long_end level e (m ++ w ++ closing level) = Some (m ++ w, []) ->
  long_end level e (m ++ q ++ closing level) = Some (m ++ q, []).
Proof.
  intros H0 Hq. induction m as [|a m IH]; intros e H; cbn [app] in *; [now apply long_blanks|].
  rewrite long_end_cons in *. destruct (negb e && starts_with (closing level) (a :: m ++ w ++ closing level)) eqn:E; [discriminate|].
  assert (negb e && starts_with (closing level) (a :: m ++ q ++ closing level) = false) as ->.
  { destruct e; [reflexivity|]. cbn [negb andb] in *. destruct (starts_with (closing level) (a :: m ++ q ++ closing level)) eqn:E1; [|reflexivity].
    destruct q as [|b q]; [contradiction|]. change (starts_with (closing level) ((a :: m) ++ b :: q ++ closing level) = true) in E1.
    assert (Hb : ~ In b (closing level)) by (intros X; apply closing_chars in X; inversion Hq as [|? ? [-> | ->] _]; subst; destruct X; discriminate).
    pose proof (starts_with_parted _ b Hb _ _ E1 (w ++ closing level)) as X. cbn [app] in X. congruence. }
  destruct (long_end level (N.eqb a 92) (m ++ w ++ closing level)) as [[b r]|] eqn:E1; [|discriminate]. injection H as -> ->.
  now rewrite (IH _ E1).
Qed.
Lemma long_text level lead trail s : (forall p, lead = Some p -> blanks p) -> (forall q, trail = Some q -> q <> [] /\ blanks q) ->
  long_body level s -> long_body level (text_with lead trail s).
Proof.
  intros Hp Hq H. unfold text_with.
  set (s1 := match lead with Some _ => trim_start s | None => s end).
  assert (H1 : long_body level s1).
  { unfold s1. destruct lead; [|exact H]. destruct (drop_while_split is_whitespace s) as (a & E & Ha). rewrite E in H. now apply long_body_drop in H. }
  assert (G : forall u, long_body level u -> long_body level (match lead with Some p => p | None => [] end ++ u)).
  { intros u Hu. destruct lead; [|exact Hu]. apply long_body_blanks; auto. }
  apply G. destruct trail as [q|]; [|now rewrite app_nil_r]. destruct (Hq q eq_refl) as [Hq0 Hqb].
  destruct (trim_end_split s1) as (b & E & _). unfold long_body in *. rewrite <- app_assoc. apply (long_end_retail level b); auto. rewrite E in H1 at 1 2. now rewrite <- app_assoc in H1.
Qed.

(** a comment of the source *)
Definition comment_ok (t : ctoken) : Prop :=
  match t with COneLine s => no_newline s /\ opens_long s = false | CMultiLine level s => long_body level s | _ => True end.
Lemma comments_ok gs : last_gap gs -> Forall comment_ok (comments gs).
Proof.
  assert (A : forall g, gitem_ok g -> Forall comment_ok match comment_token g with Some t => [t] | None => [] end).
  { intros g Hg. destruct g; cbn [comment_token]; repeat constructor; cbn in *; try tauto; destruct (cut_off s); cbn; try tauto; intros []. }
  assert (B : forall l, gap l -> Forall comment_ok (comments l)).
  { induction 1 as [|g l [Hg _] _ IH]; [constructor|]. cbn [comments flat_map]. apply Forall_app. auto. }
  intros (l0 & l1 & -> & H0 & H1). unfold comments. rewrite flat_map_app. apply Forall_app. split; [now apply B|].
  destruct H1 as [-> |(s & -> & Hs)]; [constructor|]. cbn [flat_map]. rewrite app_nil_r. now apply A.
Qed.

Section Tidy.
  Variables (c : config) (src : str).
  Hypothesis T : tidy c.
  Lemma tidy_spaced : spaced c.
  Proof.
    destruct T as (_ & H1 & H2 & _). split; [exact H1|]. intros k h Hk. apply H2. cbn in *. tauto.
  Qed.
  Definition is_gap (x : str) : Prop := exists gs, gap gs /\ x = gap_text gs.
  Lemma is_gap_nil : is_gap []. Proof. exists []. split; [constructor|reflexivity]. Qed.
  Lemma is_gap_app x y : is_gap x -> is_gap y -> is_gap (x ++ y).
  Proof.
    intros (a & Ha & ->) (b & Hb & ->). exists (a ++ b). split; [now apply Forall_app|]. unfold gap_text. now rewrite flat_map_app.
  Qed.
  Lemma is_gap_item g : gitem_ok g -> is_last g = false -> is_gap (gitem_text g).
  Proof. intros H1 H2. exists [g]. split; [repeat constructor; auto|]. unfold gap_text. cbn [flat_map]. now rewrite app_nil_r. Qed.
  Lemma is_gap_chars x : Forall (fun a => In a [32; 9; 13; 10]%N) x -> is_gap x.
  Proof.
    induction 1 as [|a x Ha _ IH]; [apply is_gap_nil|]. change (a :: x) with ([a] ++ x). apply is_gap_app; [|exact IH].
    cbn in Ha. decompose [or] Ha; try contradiction; subst a.
    - now apply (is_gap_item (GBlank 32%N)); cbn; auto.
    - now apply (is_gap_item (GBlank 9%N)); cbn; auto.
    - now apply (is_gap_item (GBlank 13%N)); cbn; auto.
    - now apply (is_gap_item GNewline); cbn; auto.
  Qed.
  Lemma blanks_chars h : blanks h -> Forall (fun a => In a [32; 9; 13; 10]%N) h.
  Proof. apply Forall_impl. intros a [-> | ->]; cbn; auto. Qed.
  Lemma filler_chars (p : Prop) x : filler c p x -> Forall (fun a => In a [32; 9; 13; 10]%N) x.
  Proof.
    destruct T as (_ & (h0 & E0 & _ & H0) & H2 & _).
    assert (S : forall k h, In k [S_hint_after_multiline_comment; S_hint_table_constructor; S_indentation_string] -> cs c k = Some h ->
      Forall (fun a => In a [32; 9; 13; 10]%N) h) by (intros k h Hk Ek; apply blanks_chars; eapply H2; [|exact Ek]; cbn in *; tauto).
    induction 1 as [|x y Hx IHx Hy IHy|b Hb Hin|h Hh|h Hh|Hr|h Hr Hh|Hn|h Hn Hh|x b Hx IH Hb].
    - constructor.
    - now apply Forall_app.
    - constructor; [|constructor]. cbn in *. tauto.
    - apply blanks_chars. congruence.
    - eapply S; [|exact Hh]. cbn; auto.
    - constructor; [|constructor]. cbn; auto.
    - eapply S; [|exact Hh]. cbn; auto.
    - constructor; [|constructor]. cbn; auto.
    - eapply S; [|exact Hh]. cbn; auto.
    - apply Forall_app in IH. tauto.
  Qed.
  Lemma line_feed_gap : is_gap (line_feed c).
  Proof. unfold line_feed. destruct (on c B_remove_all_newlines); [apply is_gap_nil|]. now apply (is_gap_item GNewline). Qed.
  Lemma comment_gap t : comment_ok t -> is_gap (comment_text c t).
  Proof.
    destruct T as (_ & _ & H2 & H3 & _). intros H. destruct t as [s|level s| |]; cbn [comment_text comment_ok] in *.
    - destruct (on c B_remove_comments); [apply line_feed_gap|].
      match goal with |- is_gap (_ ++ ?s ++ _) => change (is_gap (gitem_text (GLine s))) end.
      apply is_gap_item; [|reflexivity]. cbn. destruct (cs c S_hint_before_oneline_comment_text) as [p|] eqn:E; [|exact H].
      destruct (forallb is_whitespace s); [split; [intros []|reflexivity]|].
      destruct (H3 _ p (or_introl eq_refl) E) as [Hp Hb]. unfold text_with. rewrite app_nil_r. split.
      + intros X. apply in_app_or in X as [X|X].
        * unfold blanks in Hb. rewrite Forall_forall in Hb. apply Hb in X as [X|X]; discriminate.
        * destruct (drop_while_split is_whitespace s) as (a & Ea & _). apply (proj1 H). rewrite Ea. apply in_or_app. right. exact X.
      + destruct Hb as [|a p Ha Hb]; [contradiction|]. cbn. destruct Ha as [-> | ->]; reflexivity.
    - destruct (on c B_remove_comments); [apply is_gap_nil|].
      apply (is_gap_item (GLong level (text_with (cs c S_hint_before_multiline_comment_text) (cs c S_hint_after_multiline_comment_text) s))); [|reflexivity].
      apply long_text; [|intros q Hq; eapply H3; [|exact Hq]; cbn; auto|exact H]. intros p Hp. eapply H2; [|exact Hp]. cbn; auto.
    - apply line_feed_gap.
    - apply is_gap_nil.
  Qed.
  Lemma interleaved_gap p ts x : Forall comment_ok ts -> interleaved c p ts x -> is_gap x.
  Proof.
    intros Ht H. revert Ht. induction H as [|z ts u Hz H IH|t ts u H IH]; intros Ht.
    - apply is_gap_nil.
    - apply is_gap_app; [|auto]. apply is_gap_chars. eapply filler_chars; eauto.
    - inversion Ht; subst. apply is_gap_app; [now apply comment_gap|auto].
  Qed.
  Lemma interleaved_white p ts x : line_feeds ts -> interleaved c p ts x -> white x.
  Proof.
    intros Ht H. revert Ht. induction H as [|z ts u Hz H IH|t ts u H IH]; intros Ht.
    - constructor.
    - apply Forall_app. split; [eapply filler_chars; eauto|now apply IH].
    - apply Forall_cons_iff in Ht as [-> Ht]. apply Forall_app. split; [|now apply IH]. cbn. unfold line_feed.
      destruct (on c B_remove_all_newlines); [constructor|constructor; [cbn; auto|constructor]].
  Qed.
  (** the text of a gap starts with a blank *)
  Lemma gap_first x : is_gap x -> ~ dash x -> match x with [] => True | a :: _ => In a [32; 9; 13; 10]%N end.
  Proof.
    intros (gs & Hg & ->) Hd. destruct Hg as [|g gs [Hg Hl] _]; [exact Logic.I|]. destruct g as [b| |s|lv s|s]; cbn in *; try (elim Hd; reflexivity).
    - tauto.
    - auto.
  Qed.
  Definition gap_slot (s : slot) : Prop := match s with SGap _ | SVoid => True | _ => False end.
  Lemma slot_gap s h x : slot_ok src s -> gap_slot s -> gL c src (s, h) x -> is_gap x /\ match x with [] => True | a :: _ => In a [32; 9; 13; 10]%N end /\ (clean_slot src s -> white x).
  Proof.
    intros Ho Hs H. assert (G : (is_gap x /\ lead c x) /\ (clean_slot src s -> white x)).
    { destruct s as [t|[a b]|z|z|]; try destruct Hs; unfold gL in H; cbn [fst] in H.
      - destruct Ho as (_ & _ & gs & Hg & E). pose proof (gap_at_last _ _ _ Hg) as Hl. destruct (H gs Hl E) as [Hw Hd]. split; [split; [|exact Hd]|].
        2:{ intros Hc. cbn [clean_slot] in Hc. rewrite E in Hc. apply white_line_feeds in Hc. destruct Hw as [Hw|(_ & _ & Hw)]; (eapply interleaved_white; [|exact Hw]); [exact Hc|constructor]. }
        destruct Hw as [Hw|(_ & Ec & Hw)]; eapply interleaved_gap; [|exact Hw| |exact Hw]; [now apply comments_ok|constructor].
      - destruct H as [H Hd]. split; [split; [|exact Hd]; apply is_gap_chars; eapply filler_chars; eauto|intros _; eapply filler_chars; eauto]. }
    destruct G as [[G Hd] Gw]. split; [exact G|]. split; [|exact Gw]. apply gap_first; [exact G|]. apply Hd, tidy_spaced.
  Qed.
  (** a written separator *)
  Definition sep_text (x : str) : Prop := exists a b, x = a :: b /\ (a = 44%N \/ a = 59%N) /\ blanks b.
  Lemma cut_sep y x : sep_text y -> cut_of y x -> sep_text x.
  Proof.
    intros (a & b & -> & Ha & Hb) (l & E & Hl). destruct x as [|a' x].
    - cbn in E. subst l. inversion Hl as [|? ? [X|X] _]; subst; destruct Ha; discriminate.
    - injection E as <- ->. exists a, x. repeat split; auto. now apply Forall_app in Hb.
  Qed.
  Lemma separator_sep z : z = s2l "," \/ z = s2l ";" -> sep_text (separator_out c z).
  Proof.
    destruct T as (_ & _ & _ & _ & H). unfold separator_out. destruct (cs c S_field_separator) as [h|].
    - intros _. destruct (H h eq_refl) as (b & [-> | ->] & Hb); [exists 44%N, b|exists 59%N, b]; auto.
    - intros [-> | ->]; [exists 44%N, []|exists 59%N, []]; repeat split; auto; constructor.
  Qed.
  Lemma trailing_sep z x : z = [] \/ z = s2l "," \/ z = s2l ";" -> trailing_out c z x -> x = [] \/ sep_text x.
  Proof.
    intros Hz (o & _ & H). assert (N : forall x, cut_of [] x -> x = []) by (intros y (b & E & _); now destruct y).
    destruct Hz as [-> |Hz].
    - destruct o as [[]|]; auto. unfold separator_out in H. destruct (cs c S_field_separator) as [h|] eqn:E; auto.
      right. eapply cut_sep; [|exact H]. pose proof (separator_sep (s2l ",") (or_introl eq_refl)) as X. unfold separator_out in X. now rewrite E in X.
    - pose proof (separator_sep z Hz) as X. destruct o as [[]|]; auto; [right; eapply cut_sep; eauto|].
      right. eapply cut_sep; [|exact H]. destruct Hz as [-> | ->]; exact X.
  Qed.
  Lemma sep_tokens a b : a = 44%N \/ a = 59%N ->
    exists u, separator_tokens (a :: b) = [u] /\ spelling u = [a] /\ token_ok u /\ (forall o, can_follow u o = true) /\ (forall w r, w = spelling u -> written u w r).
  Proof. intros [-> | ->]; eexists; repeat split; auto. Qed.
End Tidy.

(** ** what follows a token; [E] says that the text ends in a line feed *)
Section Fine.
Variable E : Prop.
Definition after_token (t u : token) : Prop :=
  match u with EOF => can_follow t None = true \/ E | _ => glued (canon t) (canon u) = false end.
Fixpoint next_token (ss : list slot) : option token :=
  match ss with STok t :: _ => Some t | SGap _ :: r | SVoid :: r => next_token r | _ => None end.
Fixpoint fine (ss : list slot) : Prop :=
  match ss with
  | STok t :: r => (forall u, next_token r = Some u -> after_token t u) /\ fine r
  | _ :: r => fine r
  | [] => True
  end.
End Fine.
Lemma conv_not_tok c s : (forall t, s <> STok t) -> conv c s = s.
Proof. intros H. destruct s as [t| | | |]; try reflexivity. now elim (H t). Qed.
Lemma conv_canon c t t' : conv c (STok t) = STok t' -> canon t' = canon t /\ (t' = EOF <-> t = EOF) /\ (can_follow t None = true -> can_follow t' None = true).
Proof.
  intros E. destruct t; try (injection E as <-; tauto). cbn in E. destruct (on c _); injection E as <-; repeat split; auto; discriminate.
Qed.
Lemma conv_tok c t : exists t', conv c (STok t) = STok t'.
Proof. destruct t; cbn; eauto. destruct (on c _); eauto. Qed.
Lemma scan_conv c l : forall s, scan s (map (hconv c) l) = scan s l.
Proof.
  induction l as [|[x h] l IH]; intros s; [reflexivity|]. cbn [map scan].
  assert (step s (hconv c (x, h)) = step s (x, h)) as ->; [|destruct (step s (x, h)); auto].
  unfold hconv. cbn [fst snd]. destruct x as [t| | | |]; try reflexivity. destruct (conv_tok c t) as (t' & E). rewrite E. apply conv_canon in E as (E & _).
  unfold step. cbn [fst]. now rewrite E.
Qed.
Lemma next_conv c ss u' : next_token (map (conv c) ss) = Some u' -> exists u, next_token ss = Some u /\ conv c (STok u) = STok u'.
Proof.
  induction ss as [|s ss IH]; [discriminate|]. destruct s as [t| | | |]; try (cbn; auto; discriminate).
  cbn [map]. destruct (conv_tok c t) as (t' & E). rewrite E. cbn. intros [= <-]. eauto.
Qed.
Lemma after_conv E c t t' u u' : conv c (STok t) = STok t' -> conv c (STok u) = STok u' -> after_token E t u -> after_token E t' u'.
Proof.
  intros Ht Hu. apply conv_canon in Ht as (E1 & _ & F1). apply conv_canon in Hu as (E2 & X2 & _). unfold after_token. rewrite E1, E2.
  destruct u'; try (destruct u; auto; discriminate (proj2 X2 eq_refl)).
  rewrite (proj1 X2 eq_refl). intros [H|H]; auto.
Qed.
Lemma fine_conv P c ss : fine P ss -> fine P (map (conv c) ss).
Proof.
  induction ss as [|s ss IH]; [auto|]. destruct s as [t| | | |]; try exact IH. intros [H1 H2]. cbn [map].
  destruct (conv_tok c t) as (t' & E). rewrite E. split; [|auto]. intros u' Hu. apply next_conv in Hu as (u & Hu & Eu). eapply after_conv; eauto.
Qed.

(** the conditions on the tokens of the source *)
Lemma begins_next p ss e w u : lay p ss e w -> next_token ss = Some u -> exists l r w', w = (l, u, r) :: w'.
Proof. induction 1; cbn [next_token]; try discriminate; auto. intros [= <-]. eauto. Qed.
Lemma lay_fine P p ss e w : lay p ss e w -> (forall a p q t r s u b, w = a ++ (p, t, q) :: (r, u, s) :: b -> after_token P t u) -> fine P ss.
Proof.
  induction 1 as [|a b ss e w _ H IH|l t r ss e w H IH|l t z r ss e w Hz H IH|l t z r ss e w Hz H IH|p ss e w H IH|p ss e w H IH]; intros Hw; cbn [fine]; auto.
  - split.
    + intros u Hu. destruct (begins_next _ _ _ _ _ H Hu) as (l' & r' & w' & ->). exact (Hw [] _ _ _ _ _ _ _ eq_refl).
    + apply IH. intros a p q t0 r0 s u b ->. apply (Hw ((l, t, r) :: a) p q t0 r0 s u b). reflexivity.
  - apply IH. intros a p q t0 r0 s u b ->. apply (Hw ((l, t, r) :: a) p q t0 r0 s u b). reflexivity.
  - apply IH. intros a p q t0 r0 s u b ->. apply (Hw ((l, t, r) :: a) p q t0 r0 s u b). reflexivity.
Qed.

Section Follow.
  Variables (c : config) (src : str).
  Hypothesis T : tidy c.
  Notation rnc := (rn (gR c src) (gL c src) true).
  Lemma fits_L r pre x rest : fits (gR c src) (gL c src) true r pre x rest -> gL c src r x.
  Proof. intros [H|(_ & H & _)]; [now apply gRL|exact H]. Qed.
  Lemma blank_can_follow t a rest : token_ok t -> In a [32; 9; 13; 10; 44; 59; 125]%N -> can_follow t (hd_error (a :: rest)) = true.
  Proof. intros Ht Ha. apply follows_ok; [exact Ht|]. now apply blank_follows. Qed.
  Lemma canon_glued t u : glued (canon t) (canon u) = false -> forall b, glued (canon t) (canon u) || b = b.
  Proof. now intros ->. Qed.

  Lemma follow E l p : forall s s' pre y t, scan s l = Some s' -> s' <> Trail -> s = After (canon t) \/ s = Trail ->
    rnc pre (l ++ [hg p []; ht EOF]) y [] -> Forall (slot_ok src) (map fst (l ++ [hg p []; ht EOF])) -> token_ok t ->
    (ends_with_nl pre -> exists b, t = SheBang b) ->
    (s <> Trail -> forall u, next_token (map fst (l ++ [hg p []; ht EOF])) = Some u -> after_token E t u) -> (E -> ends_with_nl (pre ++ y)) ->
    can_follow t (hd_error y) = true.
  Proof.
    (* a gap *)
    assert (G : forall s h pre x rest t, slot_ok src s -> gap_slot s -> token_ok t -> (ends_with_nl pre -> exists b, t = SheBang b) ->
      fits (gR c src) (gL c src) true (s, h) pre x rest -> (x = [] -> h = [] -> can_follow t (hd_error rest) = true) ->
      can_follow t (hd_error (x ++ rest)) = true).
    { intros s h pre x rest t Ho Hs Ht Hpre Hf K. pose proof (slot_gap c src T _ _ _ Ho Hs (fits_L _ _ _ _ Hf)) as [_ Hx].
      destruct x as [|a x]; [|cbn [app]; apply blank_can_follow; [exact Ht|cbn in *; tauto]].
      cbn [app]. destruct Hf as [[_ Hf]|(_ & _ & [[]|[Hn|(r & ->)]])].
      - apply K; [reflexivity|]. destruct s as [?|?|?|?|]; try destruct Hs; cbn [fst snd] in Hf; apply Hf; auto; apply (proj1 T).
      - destruct (Hpre Hn) as (b & ->). reflexivity.
      - apply blank_can_follow; [exact Ht|]. cbn; auto. }
    induction l as [|[x0 h] l IH]; intros s s' pre y t Hs Hs' Hst Hr Ho Ht Hpre Hn He.
    - cbn [app] in Hr. inversion Hr as [|? ? x ? y' ? Hf Hr1]; subst. rewrite app_nil_r in Hf. apply (G _ _ _ _ _ _ (Forall_inv Ho) Logic.I Ht Hpre Hf).
      intros -> _. inversion Hr1 as [|? ? x2 ? y2 ? Hf2 Hr2]; subst. inversion Hr2; subst. apply fits_L in Hf2 as [_ ->]. cbn.
      injection Hs as <-. destruct (Hn Hs' EOF eq_refl) as [Hq|Hq]; [exact Hq|].
      apply He in Hq. cbn [app] in Hq. rewrite app_nil_r in Hq. destruct (Hpre Hq) as (b & ->). reflexivity.
    - cbn [app] in Hr. inversion Hr as [|? ? x ? y' ? Hf Hr1]; subst. rewrite app_nil_r in Hf. cbn [map app] in Ho. pose proof (Forall_inv Ho) as Ho0. apply Forall_inv_tail in Ho.
      cbn [fst] in Ho0. cbn [scan] in Hs. destruct (step s (x0, h)) as [s1|] eqn:Es; [|discriminate].
      rewrite app_assoc in He. assert (Z : x = [] -> pre ++ x = pre) by (intros ->; apply app_nil_r).
      destruct x0 as [u|q|z|z|].
      + unfold step in Es. cbn [fst] in Es. destruct (negb (N.eqb (canon u) t_EOF)) eqn:Eu; [|discriminate]. cbn [andb] in Es.
        destruct (admits s (canon u)) eqn:Ea; [|discriminate]. apply fits_L in Hf as [Hu ->]. destruct Hu as [Hu| ->]; [|discriminate].
        destruct (first_char u Hu) as (a & w & Ew & Ha). rewrite Ew. cbn [app hd_error]. destruct Hst as [-> | ->]; cbn [admits] in Ea.
        * apply pair_ok_parted in Ea. unfold parted in Ea. apply orb_true_iff in Ea as [Ea|Ea].
          -- apply follows_ok; [exact Ht|]. rewrite forallb_forall in Ea. now apply Ea.
          -- specialize (Hn ltac:(discriminate) u eq_refl). unfold after_token in Hn. destruct u; try (rewrite Hn in Ea; discriminate). discriminate.
        * apply N.eqb_eq in Ea. assert (u = CloseCurlyBracket) as -> by (destruct u; vm_compute in Ea; try discriminate; reflexivity).
          injection Ew as <- _. apply (blank_can_follow t 125%N []); [exact Ht|]. cbn; tauto.
      + apply (G _ _ _ _ _ _ Ho0 Logic.I Ht Hpre Hf). intros Ex ->. rewrite (Z Ex) in Hr1, He. cbn in Es. injection Es as <-.
        eapply IH; eauto.
      + apply fits_L in Hf. unfold gL in Hf. cbn [fst] in Hf. apply (cut_sep _ _ (separator_sep c T z Ho0)) in Hf as (a & b & -> & Ha & _).
        cbn [app]. apply blank_can_follow; [exact Ht|]. cbn. destruct Ha as [-> | ->]; tauto.
      + apply fits_L in Hf. unfold gL in Hf. cbn [fst] in Hf. apply (trailing_sep c T _ _ Ho0) in Hf as [Ex|(a & b & -> & Ha & _)].
        * rewrite (Z Ex) in Hr1, He. subst x. cbn [app]. cbn in Es. destruct s; try discriminate; injection Es as <-; eapply (IH Trail); eauto; intros X; now elim X.
        * cbn [app]. apply blank_can_follow; [exact Ht|]. cbn. destruct Ha as [-> | ->]; tauto.
      + apply (G _ _ _ _ _ _ Ho0 Logic.I Ht Hpre Hf). intros Ex ->. rewrite (Z Ex) in Hr1, He. cbn in Es. injection Es as <-.
        eapply IH; eauto.
  Qed.
End Follow.

Lemma token_line t x : token_ok t -> tok_text t = x ++ [10%N] -> exists b, t = SheBang b.
Proof.
  intros Ht E.
  assert (G : forall (z : str) a, z ++ [a] = x ++ [10%N] -> a = 10%N) by (intros z a E1; now apply app_inj_tail in E1 as [_ ->]).
  assert (El : lastc (tok_text t) = Some 10%N) by (rewrite E; apply lastc_snoc).
  destruct t; cbn [tok_text spelling] in *; try (vm_compute in El; discriminate).
  - destruct s as [|a s]; [destruct x; discriminate|]. destruct Ht as (Ha & Hs & _).
    assert (A : letter 10%N || digit 10%N = true).
    { destruct x as [|a' x]; cbn in E; injection E as -> E; [subst; now rewrite Ha|]. rewrite E in Hs. apply Forall_app in Hs as [_ Hs]. now inversion Hs. }
    discriminate.
  - destruct Ht as (st & Hr & _). rewrite E, num_run_app in Hr. destruct (num_run NStart x) as [st'|]; [|discriminate]. destruct st'; discriminate.
  - rewrite app_assoc in E. apply G in E. discriminate.
  - rewrite app_assoc in E. apply G in E. discriminate.
  - unfold long, closing, brackets in E. rewrite !app_assoc in E. apply G in E. discriminate.
  - eauto.
Qed.

Section Relex.
  Variables (c : config) (src : str).
  Hypothesis T : tidy c.
  Notation rnc := (rn (gR c src) (gL c src) true).
  Notation tail p := [hg p []; ht EOF].
  Lemma gap_join a b : gap a -> gap b -> gap (a ++ b).
  Proof. intros. now apply Forall_app. Qed.
  Lemma gap_text_app a b : gap_text (a ++ b) = gap_text a ++ gap_text b.
  Proof. apply flat_map_app. Qed.
  Lemma gap_last a : gap a -> last_gap a.
  Proof. intros H. exists a, []. rewrite app_nil_r. auto. Qed.

  Lemma relex E p l : forall s s' pre y n0 gs, scan s (map (hconv c) l) = Some s' -> s' <> Trail ->
    rnc pre (map (hconv c) l ++ tail p) y [] -> Forall (slot_ok src) (map fst (map (hconv c) l ++ tail p)) ->
    fine E (map fst (map (hconv c) l ++ tail p)) -> (E -> ends_with_nl (pre ++ y)) -> gap gs ->
    exists ts, tokenization n0 (gap_text gs ++ y) ts /\ wrote c (map fst l ++ [SGap p; STok EOF]) (tokens_of ts) /\
      (white (gap_text gs) -> Forall (clean_slot src) (map fst l ++ [SGap p]) -> open_tokens n0 (gap_text gs ++ y) ts).
  Proof.
    induction l as [|[x0 h] l IH]; intros s s' pre y n0 gs Hs Hs' Hr Ho Hf He Hg.
    - cbn [map app] in *. inversion Hr as [|? ? x ? y' ? F1 Hr1]; subst. inversion Hr1 as [|? ? x2 ? y2 ? F2 Hr2]; subst. inversion Hr2; subst.
      apply fits_L in F2 as [_ ->]. cbn [tok_text spelling app]. rewrite app_nil_r.
      pose proof (slot_gap c src T _ _ _ (Forall_inv Ho) Logic.I (fits_L _ _ _ _ _ _ F1)) as [(g1 & Hg1 & ->) [_ Hw1]].
      rewrite <- gap_text_app. eexists. split; [apply tz_end, gap_last, gap_join; assumption|]. split.
      + cbn. apply wt_gap. apply wt_tok; [reflexivity|reflexivity|apply wt_nil].
      + intros A B. apply ot_end. rewrite gap_text_app. apply Forall_app. split; [exact A|]. apply Hw1. exact (Forall_inv B).
    - cbn [map app] in *. inversion Hr as [|? ? x ? y' ? F1 Hr1]; subst. rewrite app_assoc in He. rewrite app_nil_r in F1. pose proof (Forall_inv Ho) as Ho0. apply Forall_inv_tail in Ho.
      cbn [scan] in Hs. destruct (step s (hconv c (x0, h))) as [s1|] eqn:Es; [|discriminate]. cbn [fst snd] in *.
      assert (Gp : gap_slot x0 -> (forall ts, wrote c (map fst l ++ [SGap p; STok EOF]) ts -> wrote c (x0 :: map fst l ++ [SGap p; STok EOF]) ts) ->
        exists ts, tokenization n0 (gap_text gs ++ x ++ y') ts /\ wrote c (x0 :: map fst l ++ [SGap p; STok EOF]) (tokens_of ts) /\
          (white (gap_text gs) -> Forall (clean_slot src) (x0 :: map fst l ++ [SGap p]) -> open_tokens n0 (gap_text gs ++ x ++ y') ts)).
      { intros Hx0 Hw. assert (conv c x0 = x0) as Ec by (destruct x0; try destruct Hx0; reflexivity).
        unfold hconv in F1, Hf, Ho0. cbn [fst snd] in F1, Hf, Ho0. rewrite Ec in F1, Hf, Ho0.
        pose proof (slot_gap c src T _ _ _ Ho0 Hx0 (fits_L _ _ _ _ _ _ F1)) as [(g1 & Hg1 & ->) [_ Hw1]].
        assert (Hf' : fine E (map fst (map (hconv c) l ++ tail p))) by (destruct x0; try destruct Hx0; exact Hf).
        destruct (IH s1 s' _ _ n0 (gs ++ g1) Hs Hs' Hr1 Ho Hf' He (gap_join _ _ Hg Hg1)) as (ts & Ht & Hts & Ho1).
        rewrite gap_text_app, <- app_assoc in Ht, Ho1. exists ts. split; [exact Ht|]. split; [auto|]. intros A B. apply Forall_cons_iff in B as [B1 B2].
        apply Ho1; [apply Forall_app; split; [exact A|now apply Hw1]|exact B2]. }
      assert (Sp : forall a b, x = a :: b -> a = 44%N \/ a = 59%N -> blanks b -> fine E (map fst (map (hconv c) l ++ tail p)) ->
        (forall ts, wrote c (map fst l ++ [SGap p; STok EOF]) ts -> wrote c (x0 :: map fst l ++ [SGap p; STok EOF]) (separator_tokens x ++ ts)) ->
        exists ts, tokenization n0 (gap_text gs ++ x ++ y') ts /\ wrote c (x0 :: map fst l ++ [SGap p; STok EOF]) (tokens_of ts) /\
          (white (gap_text gs) -> Forall (clean_slot src) (x0 :: map fst l ++ [SGap p]) -> open_tokens n0 (gap_text gs ++ x ++ y') ts)).
      { intros a b -> Ha Hb Hf' Hw. destruct (sep_tokens a b Ha) as (u & Eu & Su & Ou & Fu & Wu).
        destruct (is_gap_chars b (blanks_chars b Hb)) as (g1 & Hg1 & Eb).
        destruct (IH s1 s' _ _ (n0 + List.length (gap_text gs) + List.length [a]) g1 Hs Hs' Hr1 Ho Hf' He Hg1) as (ts & Ht & Hts & Ho1).
        rewrite <- Eb in Ht, Ho1. exists ((n0 + List.length (gap_text gs), u, n0 + List.length (gap_text gs) + List.length [a]) :: ts). split.
        - change ((a :: b) ++ y') with ([a] ++ (b ++ y')). apply tz_tok; auto.
        - split; [rewrite Eu in Hw; now apply Hw|]. intros A B. apply Forall_cons_iff in B as [_ B].
          change ((a :: b) ++ y') with ([a] ++ (b ++ y')). apply ot_tok; [exact A|]. apply Ho1; [exact (blanks_chars b Hb)|exact B]. }
      destruct x0 as [t|q|z|z|].
      + destruct (conv_tok c t) as (t' & Et). unfold hconv in F1, Hf, Ho0, Es. cbn [fst snd] in F1, Hf, Ho0, Es. rewrite Et in F1, Hf, Ho0, Es.
        unfold step in Es. cbn [fst] in Es. destruct (negb (N.eqb (canon t') t_EOF)) eqn:Eu; [|discriminate]. cbn [andb] in Es.
        destruct (admits s (canon t')); [|discriminate]. injection Es as <-. apply fits_L in F1 as [Hu Ex]. cbn [fst] in Hu, Ex. subst x.
        assert (Hok : token_ok t') by (destruct Hu as [Hu| ->]; [exact Hu|discriminate]).
        destruct Hf as [Hn Hf].
        assert (Fo : can_follow t' (hd_error y') = true).
        { eapply (follow c src T); [exact Hs|exact Hs'|left; reflexivity|exact Hr1|exact Ho|exact Hok| |intros _; exact Hn|exact He].
          intros (z & Ez). apply (token_line t' (skipn (List.length pre) z) Hok).
          destruct (first_char t' Hok) as (a & w & Ew & _). rewrite Ew in *.
          assert (L : List.length pre <= List.length z). { apply (f_equal (@List.length N)) in Ez. rewrite !app_length in Ez. cbn in Ez. lia. }
          apply (f_equal (skipn (List.length pre))) in Ez. rewrite skipn_app, skipn_all, Nat.sub_diag in Ez. cbn [app skipn] in Ez. rewrite Ez.
          rewrite skipn_app. replace (List.length pre - List.length z) with 0 by lia. reflexivity. }
        destruct (IH _ s' _ _ (n0 + List.length (gap_text gs) + List.length (tok_text t')) [] Hs Hs' Hr1 Ho Hf He ltac:(constructor)) as (ts & Ht & Hts & Ho1).
        cbn [gap_text flat_map app] in Ht, Ho1. exists ((n0 + List.length (gap_text gs), t', n0 + List.length (gap_text gs) + List.length (tok_text t')) :: ts). split; [|split].
        * apply tz_tok; auto. destruct t'; cbn; auto.
        * cbn [map tokens_of fst snd]. apply wt_tok; [exact Et| |exact Hts]. apply conv_becomes; [exact Et|now left].
        * intros A B. apply Forall_cons_iff in B as [_ B]. apply ot_tok; [exact A|]. apply Ho1; [constructor|exact B].
      + apply Gp; [exact Logic.I|]. intros ts. apply wt_gap.
      + apply fits_L in F1 as F2. unfold gL in F2. cbn [fst hconv conv] in F2. pose proof (cut_sep _ _ (separator_sep c T z Ho0) F2) as (a & b & Ex & Ha & Hb).
        eapply Sp; eauto. intros ts Hts. replace (separator_tokens x) with (separator_tokens (separator_out c z)); [now apply wt_sep|].
        destruct F2 as (l2 & E2 & _). rewrite E2, Ex. reflexivity.
      + apply fits_L in F1 as F2. unfold gL in F2. cbn [fst hconv conv] in F2. pose proof (trailing_sep c T _ _ Ho0 F2) as [Ex|(a & b & Ex & Ha & Hb)].
        * subst x. destruct (IH s1 s' _ _ n0 gs Hs Hs' Hr1 Ho Hf He Hg) as (ts & Ht & Hts & Ho1). exists ts. split; [exact Ht|]. split; [exact (wt_trail c z [] _ _ Ho0 F2 Hts)|]. intros A B. apply Forall_cons_iff in B as [_ B]. auto.
        * eapply Sp; eauto. intros ts Hts. now apply wt_trail.
      + apply Gp; [exact Logic.I|]. intros ts. apply wt_void.
  Qed.
End Relex.

Lemma source_fine (P : Prop) ts : ~ brackets_meet ts -> (open_numeral ts -> P) -> (exists a l r, ts = a ++ [(l, EOF, r)] /\ Forall (fun x => snd (fst x) <> EOF) a) ->
  forall a p q t r s u b, ts = a ++ (p, t, q) :: (r, u, s) :: b -> after_token P t u.
Proof.
  intros H1 H2 (a0 & l0 & r0 & E0 & Ha0) a p q t r s u b E.
  assert (D : u = EOF -> b = []).
  { intros ->. destruct (snoc_cases b) as [->|(b' & z & ->)]; [reflexivity|]. exfalso.
    rewrite E in E0. replace (a ++ (p, t, q) :: (r, EOF, s) :: b' ++ [z]) with ((a ++ (p, t, q) :: (r, EOF, s) :: b') ++ [z]) in E0 by (rewrite <- app_assoc; reflexivity).
    apply app_inj_tail in E0 as [<- _]. apply Forall_app in Ha0 as [_ Ha0]. inversion Ha0 as [|? ? _ Ha1]; subst. inversion Ha1 as [|? ? X _]; subst. now apply X. }
  unfold after_token. destruct u; try (destruct t; reflexivity); try (destruct t; left; reflexivity).
  - destruct t; try reflexivity. exfalso. apply H1. unfold brackets_meet. do 8 eexists. exact E.
  - specialize (D eq_refl). subst b. destruct t; try (left; reflexivity). destruct (can_follow (Numeral s0) None) eqn:X; [now left|right].
    apply H2. unfold open_numeral. do 5 eexists. split; [exact E|exact X].
Qed.
Lemma tokenization_end n src ts : tokenization n src ts -> exists a l r, ts = a ++ [(l, EOF, r)] /\ Forall (fun x => snd (fst x) <> EOF) a.
Proof.
  induction 1 as [n l Hl|n l t w rest ts Hl Ht Hw Hc H (a & l' & r & -> & Ha)].
  - eexists [], _, _. split; [reflexivity|constructor].
  - eexists (_ :: a), l', r. split; [reflexivity|]. constructor; [|exact Ha]. cbn. intros ->. exact Ht.
Qed.

Theorem format_wrote src c o ts : tidy c -> line_range c = None -> process_buffer src c = Formatted o -> lex src = LexOk ts ->
  ~ brackets_meet ts -> (open_numeral ts -> on c B_write_newline_at_eof = true) ->
  exists n ts', parse_lua src = Parsed n /\ lex o = LexOk ts' /\ wrote c (layout n) (tokens_of ts') /\
    (Forall white (holes src 0 ts) -> Forall white (holes o 0 ts')).
Proof.
  intros T Hl E L B1 B2. pose proof (fun H => format_ends src c o (B2 H) E) as Hend. unfold process_buffer in E. destruct (parse_lua src) as [n| |] eqn:P; try discriminate. rewrite Hl in E. cbn [line_range_to_pos_range] in E.
  unfold reconstruct in E. pose proof (recon_layout c n None (0%Z, None)) as El. pose proof (recon_pos c n None (0%Z, None) eq_refl) as Ep.
  pose proof (proj1 (recon_hlayout c no_mark (table_hint c) n None (0%Z, None))) as Eh.
  destruct (recon c None n (0%Z, None)) as [n' st] eqn:Er. cbn [fst snd] in *. rewrite Ep in E.
  destruct (write _ _ _ _ _) as [[[]| | |] w] eqn:W; try discriminate. injection E as <-.
  assert (HG : gG src (layout n')) by (rewrite El; apply conv_ok; exact (proj2 (tree_reads src n P))).
  apply (general_wr c src _ c n' (kin_self c) HG) in W; [|split; reflexivity]. destruct W as [_ W]. apply adds_from_nil in W.
  destruct (parse_scan (table_hint c) src n P) as (l & p & s & Es & Hs & Hn).
  destruct (parse_lua_layout src n P) as (ts0 & L0 & Hlay & _). rewrite L in L0. injection L0 as <-.
  rewrite Eh, Es, map_app in W. cbn [map] in W. change (hconv c (hg p [])) with (hg p []) in W. change (hconv c (ht EOF)) with (ht EOF) in W.
  assert (Ef : layout n = map fst l ++ [SGap p; STok EOF]) by (rewrite <- (hlayout_fst no_mark (table_hint c)), Es, map_app; reflexivity).
  assert (Ef' : layout n' = map fst (map (hconv c) l ++ [hg p []; ht EOF])).
  { rewrite <- (hlayout_fst no_mark (table_hint c)), Eh, Es, map_app. reflexivity. }
  assert (Fn : fine (open_numeral ts) (layout n')).
  { rewrite El. apply fine_conv. eapply lay_fine; [exact Hlay|]. apply source_fine; auto. eapply tokenization_end. apply lex_correct. exact L. }
  rewrite <- (scan_conv c) in Hs. unfold gG in HG. rewrite Ef' in HG, Fn.
  destruct (relex c src T _ p l Free s [] _ 0 [] Hs Hn W HG Fn Hend ltac:(constructor)) as (ts' & Ht & Hw & Ho).
  exists n, ts'. split; [reflexivity|]. split; [now apply lex_correct|]. split; [now rewrite Ef|]. intros A. refine (open_holes 0 _ ts' _ [] eq_refl).
  apply Ho; [constructor|]. pose proof (lay_clean src _ _ _ _ Hlay A) as B. rewrite Ef in B. change [SGap p; STok EOF] with ([SGap p] ++ [STok EOF]) in B.
  rewrite app_assoc in B. apply Forall_app in B. exact (proj1 B).
Qed.
Theorem format_relex src c o ts : tidy c -> line_range c = None -> process_buffer src c = Formatted o -> lex src = LexOk ts ->
  ~ brackets_meet ts -> (open_numeral ts -> on c B_write_newline_at_eof = true) ->
  exists n ts', parse_lua src = Parsed n /\ lex o = LexOk ts' /\ writes c (layout n) (tokens_of ts').
Proof.
  intros T Hl E L B1 B2. destruct (format_wrote src c o ts T Hl E L B1 B2) as (n & ts' & P & L' & W & _). exists n, ts'. auto using wrote_writes.
Qed.

(** ** the separator after the last field is before the closing brace *)
Lemma trail_next l : forall s' more, scan Trail l = Some s' -> s' <> Trail ->
  exists gs r, map fst l ++ more = gs ++ STok CloseCurlyBracket :: r /\ Forall gap_slot gs.
Proof.
  induction l as [|[x h] l IH]; intros s' more H Hn; [injection H as <-; now elim Hn|]. cbn [scan] in H. unfold step in H. cbn [fst snd] in H.
  destruct x as [t|q|z|z|]; try discriminate.
  - cbn [admits] in H. destruct (negb _ && N.eqb (canon t) t_CloseCurlyBracket) eqn:E; [|discriminate]. apply andb_true_iff in E as [_ E].
    apply N.eqb_eq in E. exists [], (map fst l ++ more). split; [|constructor]. cbn. do 2 f_equal. destruct t; vm_compute in E; try discriminate; reflexivity.
  - assert (past h Trail = Trail) as Ep by (destruct h; reflexivity). rewrite Ep in H.
    destruct (IH s' more H Hn) as (gs & r & E & Hg). exists (SGap q :: gs), r. cbn. rewrite E. split; [reflexivity|]. constructor; [exact Logic.I|exact Hg].
  - assert (past h Trail = Trail) as Ep by (destruct h; reflexivity). rewrite Ep in H.
    destruct (IH s' more H Hn) as (gs & r & E & Hg). exists (SVoid :: gs), r. cbn. rewrite E. split; [reflexivity|]. constructor; [exact Logic.I|exact Hg].
Qed.
Lemma scan_split s l1 r l2 s' : scan s (l1 ++ r :: l2) = Some s' -> exists s1 s2, step s1 r = Some s2 /\ scan s2 l2 = Some s'.
Proof.
  rewrite scan_app. destruct (scan s l1) as [s1|]; [|discriminate]. cbn [scan]. destruct (step s1 r) as [s2|] eqn:E; [|discriminate]. eauto.
Qed.
Theorem trail_before_brace src n a z b : parse_lua src = Parsed n -> layout n = a ++ STrail z :: b ->
  exists gs r, b = gs ++ STok CloseCurlyBracket :: r /\ Forall (fun s => match s with SGap _ | SVoid => True | _ => False end) gs.
Proof.
  intros P E. destruct (parse_scan [] src n P) as (l & p & s & Es & Hs & Hn).
  assert (Ef : layout n = map fst l ++ [SGap p; STok EOF]) by (rewrite <- (hlayout_fst no_mark []), Es, map_app; reflexivity).
  rewrite E in Ef. symmetry in Ef. apply app_eq_app in Ef as (m & [[Ea Eb]|[Ea Eb]]).
    destruct m as [|x m]; cbn in Eb; [discriminate|]. injection Eb as <- ->.
    apply map_eq_app in Ea as (l1 & l2 & -> & <- & E2). destruct l2 as [|[x h] l2]; [discriminate|]. cbn in E2. injection E2 as -> <-.
    apply scan_split in Hs as (s1 & s2 & St & Hs). assert (s2 = Trail) as -> by (destruct s1; cbn in St; congruence).
    destruct (trail_next l2 s [SGap p; STok EOF] Hs Hn) as (gs & r & E1 & Hg). exists gs, r. auto.
  - exfalso. destruct m as [|x [|y [|]]]; discriminate.
Qed.

(** ** the tokens of both texts *)
Lemma lay_brace gs : Forall gap_slot gs -> forall p r e w, lay p (gs ++ STok CloseCurlyBracket :: r) e w -> exists i j w', w = (i, CloseCurlyBracket, j) :: w'.
Proof.
  induction 1 as [|s gs Hs _ IH]; intros p r e w H; cbn [app] in H.
  - inversion H; subst. eauto.
  - destruct s; try destruct Hs; inversion H; subst; eauto.
Qed.
Lemma sep_tokens_is c z : tidy c -> z = s2l "," \/ z = s2l ";" -> exists u, separator_tokens (separator_out c z) = [u] /\ is_separator u.
Proof.
  intros T Hz. destruct (separator_sep c T z Hz) as (a & b & -> & Ha & _). cbn. eexists. split; [reflexivity|]. destruct Ha as [-> | ->]; [now left|now right].
Qed.
Lemma sep_same c t z u : is_sep t z -> separator_tokens (separator_out c z) = [u] -> is_separator u -> forall a b, same_program c a b -> same_program c (t :: a) (u :: b).
Proof.
  intros [Ht ->] E Hu a b H. unfold separator_out in E. destruct (cs c S_field_separator) as [f|] eqn:Ef.
  - apply sp_sep; auto. congruence.
  - apply sp_tok; [|exact H]. destruct Ht as [-> | ->]; vm_compute in E; injection E as <-; reflexivity.
Qed.
Lemma trailing_tokens c z x : tidy c -> z = [] \/ z = s2l "," \/ z = s2l ";" -> trailing_out c z x ->
  separator_tokens x = [] \/ exists u, separator_tokens x = [u] /\ is_separator u /\ (z <> [] -> separator_tokens (separator_out c z) = [u]).
Proof.
  intros T Hz H. destruct (trailing_sep c T z x Hz H) as [-> |(a & b & -> & Ha & _)]; [now left|right]. cbn. eexists. split; [reflexivity|].
  split; [destruct Ha as [-> | ->]; [now left|now right]|]. intros Hn. destruct H as (o & _ & l & E & _).
  destruct o as [[]|]; [|discriminate|]; [rewrite E; reflexivity|]. destruct z; [contradiction|]. now rewrite E.
Qed.
Lemma writes_same c src l : tidy c -> forall s s' m p e w ts, scan s l = Some s' -> s' <> Trail -> Forall (slot_ok src) (map fst l) ->
  lay p (map fst l ++ [SGap m; STok EOF]) e w -> writes c (map fst l ++ [SGap m; STok EOF]) ts -> same_program c (tokens_of w) ts.
Proof.
  intros T. induction l as [|[x h] l IH]; intros s s' m p e w ts Hs Hn Ho Hl Hw.
  - cbn in Hl, Hw. inversion Hl; subst. inversion Hw; subst. match goal with H : lay _ [STok EOF] _ _ |- _ => inversion H; subst end.
    match goal with H : writes _ [STok EOF] _ |- _ => inversion H; subst end. match goal with H : lay _ [] _ _ |- _ => inversion H; subst end.
    match goal with H : writes _ [] _ |- _ => inversion H; subst end. apply sp_tok; [assumption|apply sp_nil].
  - cbn [map app fst] in *. cbn [scan] in Hs. destruct (step s (x, h)) as [s1|] eqn:Es; [|discriminate]. inversion Ho as [|? ? Ho0 Ho1]; subst.
    destruct x as [t|q|z|z|]; inversion Hw; subst.
    + inversion Hl; subst. cbn [tokens_of map fst snd]. apply sp_tok; [assumption|]. eapply IH; eauto.
    + inversion Hl; subst. eapply IH; eauto.
    + inversion Hl; subst. destruct (sep_tokens_is c z T Ho0) as (u & Eu & Hu). rewrite Eu. cbn [app tokens_of map fst snd]. eapply sep_same; try eassumption. eapply IH; eauto.
    + match goal with H : trailing_out _ _ _ |- _ => pose proof (trailing_tokens c z _ T Ho0 H) as Ht end.
      assert (s1 = Trail) as -> by (destruct s; cbn in Es; congruence).
      destruct (trail_next l s' [SGap m; STok EOF] Hs Hn) as (gs & r & Eb & Hg).
      inversion Hl; subst.
      * match goal with H : lay _ (map fst l ++ _) _ _ |- _ => rename H into Hl1 end.
        match goal with H : writes _ (map fst l ++ _) _ |- _ => rename H into Hw1 end.
        pose proof (IH _ _ _ _ _ _ _ Hs Hn Ho1 Hl1 Hw1) as G. rewrite Eb in Hl1. destruct (lay_brace gs Hg _ _ _ _ Hl1) as (i & j & w' & ->).
        match goal with H : is_sep ?t ?z |- _ => rename H into Hz; destruct Hz as [Hz0 Hz1] end. destruct Ht as [-> |(u & -> & Hu & Ez)].
        -- cbn [app tokens_of map fst snd] in *. apply sp_drop; auto.
        -- cbn [app]. cbn [tokens_of map fst snd]. eapply sep_same; [split; eassumption|apply Ez|exact Hu|exact G]. intros ->. destruct Hz0; subst; discriminate.
      * match goal with H : lay _ (map fst l ++ _) _ _ |- _ => rename H into Hl1 end.
        match goal with H : writes _ (map fst l ++ _) _ |- _ => rename H into Hw1 end.
        pose proof (IH _ _ _ _ _ _ _ Hs Hn Ho1 Hl1 Hw1) as G. rewrite Eb in Hl1. destruct (lay_brace gs Hg _ _ _ _ Hl1) as (i & j & w' & ->).
        destruct Ht as [-> |(u & -> & Hu & _)]; [exact G|]. cbn [app tokens_of map fst snd] in *. apply sp_add; auto.
    + inversion Hl; subst. eapply IH; eauto.
Qed.
Theorem format_same_program src c o ts : tidy c -> line_range c = None -> process_buffer src c = Formatted o -> lex src = LexOk ts ->
  ~ brackets_meet ts -> (open_numeral ts -> on c B_write_newline_at_eof = true) -> exists ts', lex o = LexOk ts' /\ same_program c (tokens_of ts) (tokens_of ts').
Proof.
  intros T Hl E L B1 B2. destruct (format_relex src c o ts T Hl E L B1 B2) as (n & ts' & P & L' & Hw). exists ts'. split; [exact L'|].
  destruct (parse_scan [] src n P) as (l & p & s & Es & Hs & Hn). destruct (parse_lua_layout src n P) as (ts0 & L0 & Hlay & _). rewrite L in L0. injection L0 as <-.
  assert (Ef : layout n = map fst l ++ [SGap p; STok EOF]) by (rewrite <- (hlayout_fst no_mark []), Es, map_app; reflexivity).
  pose proof (proj2 (tree_reads src n P)) as HG. rewrite Ef in *. apply Forall_app in HG as [HG _]. eapply writes_same; eauto.
Qed.

(** ** configurations *)
Ltac tidy_tac :=
  split; [vm_compute; reflexivity|]; split; [eexists; split; [vm_compute; reflexivity|split; [discriminate|repeat constructor]]|];
  split; [intros k h Hk; cbn in Hk; decompose [or] Hk; try contradiction; subst k; intros H; vm_compute in H; first [discriminate|injection H as <-; repeat constructor]|];
  split; [intros k h Hk; cbn in Hk; decompose [or] Hk; try contradiction; subst k; intros H; vm_compute in H; first [discriminate|injection H as <-; split; [discriminate|repeat constructor]]|];
  intros h H; vm_compute in H; first [discriminate|injection H as <-; eexists; split; [left; reflexivity|repeat constructor]].
Lemma shipped_tidy : tidy shipped /\ line_range shipped = None.
Proof. split; [tidy_tac|vm_compute; reflexivity]. Qed.
Theorem shipped_same_program src o ts : process_buffer src shipped = Formatted o -> lex src = LexOk ts ->
  ~ brackets_meet ts -> exists ts', lex o = LexOk ts' /\ same_program shipped (tokens_of ts) (tokens_of ts').
Proof. intros. destruct shipped_tidy. eapply format_same_program; eauto. Qed.

Definition tight : config := with_options
  ["--replace_zero_spaces_with_hint=true"; "--hint_before_comment= "; "--remove_spaces_between_tokens=true"; "--remove_all_newlines=true"]%string.
Lemma tight_tidy : tidy tight /\ line_range tight = None.
Proof. split; [tidy_tac|vm_compute; reflexivity]. Qed.
Theorem numeral_lost : exists src c o ts, tidy c /\ line_range c = None /\ process_buffer src c = Formatted o /\ lex src = LexOk ts /\ ~ brackets_meet ts /\
  forall ts', lex o <> LexOk ts'.
Proof.
  exists (s2l "x=1e" ++ [10%N]), tight. eexists. eexists. split; [apply tight_tidy|]. split; [apply tight_tidy|].
  split; [vm_compute; reflexivity|]. split; [vm_compute; reflexivity|]. split.
  - intros (a & p & q & r & s & lv & body & b & E). repeat (destruct a as [|? a]; [discriminate|injection E as _ E]). destruct a; discriminate.
  - intros ts' H. vm_compute in H. discriminate.
Qed.
Theorem brackets_glued : exists src c o ts, tidy c /\ line_range c = None /\ process_buffer src c = Formatted o /\ lex src = LexOk ts /\ ~ open_numeral ts /\
  forall ts', lex o = LexOk ts' -> ~ same_program c (tokens_of ts) (tokens_of ts').
Proof.
  exists (s2l "x=a[ [[b]] ]"), tight. eexists. eexists. split; [apply tight_tidy|]. split; [apply tight_tidy|].
  split; [vm_compute; reflexivity|]. split; [vm_compute; reflexivity|]. split.
  - intros (a & p & q & r & s & E & X). repeat (destruct a as [|? a]; [discriminate|injection E as _ E]). destruct a; discriminate.
  - intros ts' H S. vm_compute in H. injection H as <-. cbn in S.
    repeat match goal with
    | H : same_program _ _ _ |- _ => inversion H; subst; clear H
    | H : token_becomes _ _ _ |- _ => cbn in H; try discriminate H; clear H
    | H : is_separator _ |- _ => destruct H; discriminate
    end.
Qed.
