(** What the formatter returns. *)
From Verif Require Import Base Lib Config State Ast LuaLexer CommentLexer LuaParser Recon WriterBase LuaWriter Formatter LexSpec CommentSpec
  CommentProofs LayoutSpec LayoutProofs LayoutText UtilSpec UtilProofs RefuteSpec RenderSpec FormatSpec WriterFrame GapProofs RenderProofs RenderGeneral ReconProofs.

Lemma write_fresh src c n : line_range_to_pos_range src (line_range c) = None ->
  exists n', reconstruct c n None = (n', None) /\ layout n' = map (conv c) (layout n).
Proof.
  intros _. unfold reconstruct. pose proof (recon_layout c n None (0%Z, None)) as A. pose proof (recon_pos c n None (0%Z, None) eq_refl) as B.
  destruct (recon c None n (0%Z, None)) as [n' s]. cbn in *. exists n'. now rewrite B.
Qed.
Lemma kin_self c : kin c c. Proof. apply kin_refl. Qed.
Theorem format_renders src c o : line_range c = None -> process_buffer src c = Formatted o ->
  exists n n', parse_lua src = Parsed n /\ layout n' = map (conv c) (layout n) /\ gG src (layout n') /\
    renders (gR c src) (gL c src) true (hlayout no_mark (table_hint c) n') o.
Proof.
  intros Hl. unfold process_buffer. destruct (parse_lua src) as [n| |] eqn:P; try discriminate. rewrite Hl. cbn [line_range_to_pos_range].
  destruct (write_fresh src c n) as (n' & -> & El); [now rewrite Hl|].
  destruct (write _ _ _ _ _) as [[[]| | |] w] eqn:W; try discriminate. intros [= <-].
  exists n, n'. split; [reflexivity|]. split; [exact El|].
  assert (HG : gG src (layout n')) by (rewrite El; apply conv_ok; exact (proj2 (tree_reads src n P))).
  split; [exact HG|]. apply (general_wr c src _ c n' (kin_self c) HG) in W; [|split; reflexivity]. destruct W as [_ W]. now apply adds_from_nil in W.
Qed.
Lemma conv_becomes c t t' : conv c (STok t) = STok t' -> token_ok t' \/ t' = EOF -> token_becomes c t t'.
Proof.
  intros E Ht. destruct t; try (injection E as <-; reflexivity). cbn in *. destruct (on c _); injection E as <-; [|reflexivity].
  destruct Ht as [Ht|]; [|discriminate]. exists (charstring_to_normalstring s). repeat split; auto. apply quote_value.
Qed.
Lemma conv_gap c s s' : conv c s = s' -> (forall t, s <> STok t) -> s' = s.
Proof. intros <- H. destruct s as [t| | | |]; try reflexivity. now elim (H t). Qed.

Theorem format_written src c o : line_range c = None -> process_buffer src c = Formatted o ->
  output_with (fun gs => gap_written c (comments gs)) c src o.
Proof.
  intros Hl E. destruct (format_renders src c o Hl E) as (n & n' & P & El & HG & Hr).
  destruct (rn_loose _ _ _ (gRL c src) _ _ _ _ Hr) as (xs & F & ->). exists n, xs. repeat split; auto.
  pose proof (hlayout_fst no_mark (table_hint c) n') as Ef. rewrite El in Ef. rewrite El in HG. clear - F Ef HG. revert Ef HG.
  generalize (layout n) as ss. induction F as [|[s h] x rss xs Hx F IH]; intros ss Ef HG; destruct ss as [|s0 ss]; try discriminate; constructor.
  - cbn in Ef. injection Ef as -> _. inversion HG as [|? ? Ho _]; subst.
    destruct s0 as [t|[u v]|z|z|]; cbn [fst gL] in *; cbn [slot_with]; try exact Hx.
    + destruct (conv_token c t) as (t' & Et & _). rewrite Et in Hx, Ho. destruct Hx as [Hx ->]. exists t'. split; [now apply conv_becomes|]. now destruct t'.
    + destruct Ho as (_ & _ & gs & Hg & Et). exists gs. repeat split; auto. exact (proj1 (Hx gs (gap_at_last _ _ _ Hg) Et)).
    + left. rewrite <- (app_nil_r x). apply il_filler; [exact (proj1 Hx)|apply il_nil].
  - apply IH; [cbn in Ef; now injection Ef|now inversion HG].
Qed.

(** ** special configurations *)
Lemma slots_with_mono (P Q : list gitem -> str -> Prop) c src ss xs :
  (forall a b gs x, a <= b -> gap_at src b gs -> text_at src a b = gap_text gs -> P gs x -> Q gs x) -> (forall x, P [] x -> Q [] x) ->
  Forall (slot_ok src) ss -> Forall2 (slot_with P c src) ss xs -> Forall2 (slot_with Q c src) ss xs.
Proof.
  intros H H0 Hs F. induction F as [|s x ss xs Hx F IH]; constructor; inversion Hs as [|? ? Ho Hs']; subst; [|now apply IH].
  destruct s as [t|[a b]|z|z|]; cbn [slot_with] in *; auto. destruct Hx as (gs & A & B & C). exists gs. destruct Ho as (Ho & _). repeat split; eauto.
Qed.
Lemma output_mono (P Q : list gitem -> str -> Prop) c src o :
  (forall a b gs x, a <= b -> gap_at src b gs -> text_at src a b = gap_text gs -> P gs x -> Q gs x) -> (forall x, P [] x -> Q [] x) ->
  output_with P c src o -> output_with Q c src o.
Proof.
  intros H H0 (n & xs & E & F & ->). exists n, xs. repeat split; auto. eapply slots_with_mono; eauto. exact (proj2 (tree_reads src n E)).
Qed.
Lemma filler_hints c (nl : Prop) x : on c B_remove_spaces_between_tokens = true -> filler c nl x -> hints c nl x.
Proof.
  intros Hr. induction 1 as [|x y Hx IHx Hy IHy|b Hb Hin|h Hh|h Hh|Hz|h Hz Hh|Hn|h Hn Hh|x b Hx IH Hb].
  - apply hi_nil.
  - now apply hi_app.
  - congruence.
  - eapply hi_text; [|exact Hh]. cbn; auto.
  - eapply hi_text; [|exact Hh]. cbn; auto.
  - apply hi_zero; auto.
  - apply hi_zero; auto.
  - apply hi_line; auto.
  - apply hi_line; auto.
  - eapply hi_cut; eauto.
Qed.
Lemma interleaved_hinted c nl ts x : on c B_remove_spaces_between_tokens = true -> interleaved c nl ts x -> hinted c nl ts x.
Proof. intros Hr. induction 1; [apply hd_nil|apply hd_hints; [now apply filler_hints|assumption]|now apply hd_comment]. Qed.
Lemma interleaved_removed c nl ts x : on c B_remove_comments = true -> interleaved c nl ts x -> filler c True x.
Proof.
  intros Hr. assert (L : filler c True (line_feed c)) by (unfold line_feed; destruct (on c B_remove_all_newlines); [apply fl_nil|now apply fl_newline]).
  induction 1 as [|z ts u Hz H IH|t ts u H IH]; [apply fl_nil|apply fl_app; [eapply filler_mono; [|exact Hz]; auto|exact IH]|].
  apply fl_app; [|exact IH]. destruct t; cbn [comment_text]; rewrite ?Hr; try exact L; apply fl_nil.
Qed.
Lemma drop_while_split p s : exists a, s = a ++ drop_while p s /\ forallb p a = true.
Proof.
  induction s as [|x s (a & E & H)]; [exists []; auto|]. cbn. destruct (p x) eqn:Ex; [|exists []; auto].
  exists (x :: a). cbn. rewrite Ex, H. split; [congruence|reflexivity].
Qed.
Lemma forallb_rev {A} (p : A -> bool) l : forallb p (rev l) = forallb p l.
Proof. induction l as [|x l IH]; [reflexivity|]. cbn. rewrite forallb_app, IH. cbn. now rewrite andb_true_r, andb_comm. Qed.
Lemma trim_end_split s : exists b, s = trim_end s ++ b /\ forallb is_whitespace b = true.
Proof.
  destruct (drop_while_split is_whitespace (rev s)) as (a & E & H). exists (rev a). rewrite forallb_rev. split; [|exact H].
  unfold trim_end. rewrite <- rev_app_distr, <- E. symmetry. apply rev_involutive.
Qed.
Lemma text_with_same lead trail s : same_text lead trail s (text_with lead trail s).
Proof.
  unfold text_with.
  assert (exists a, s = a ++ (match lead with Some _ => trim_start s | None => s end) /\ (lead <> None -> forallb is_whitespace a = true)
    /\ (lead = None -> a = [])) as (a & Ea & Ha & Ha').
  { destruct lead; [|exists []; repeat split; auto; congruence]. destruct (drop_while_split is_whitespace s) as (a & E & H). exists a. repeat split; auto. discriminate. }
  set (s1 := match lead with Some _ => trim_start s | None => s end) in *.
  assert (exists b, s1 = (match trail with Some _ => trim_end s1 | None => s1 end) ++ b /\ (trail <> None -> forallb is_whitespace b = true)
    /\ (trail = None -> b = [])) as (b & Eb & Hb & Hb').
  { destruct trail; [|exists []; rewrite app_nil_r; repeat split; auto; congruence]. destruct (trim_end_split s1) as (b & E & H). exists b. repeat split; auto. discriminate. }
  exists a, (match trail with Some _ => trim_end s1 | None => s1 end), b. repeat split; auto; [congruence|].
  f_equal; [|f_equal].
  - destruct lead; [reflexivity|]. now rewrite Ha'.
  - destruct trail; [reflexivity|]. now rewrite Hb'.
Qed.
Lemma kept_comment c g t : on c B_remove_comments = false -> comment_token g = Some t -> g <> GNewline -> (forall s, g = GLast s -> cut_off s = false) ->
  same_comment c g (comment_text c t).
Proof.
  intros Hr E Hn Hc.
  assert (L : forall s, exists s', [45; 45]%N ++ match cs c S_hint_before_oneline_comment_text with
              | Some p => if forallb is_whitespace s then [] else text_with (Some p) None s | None => s end ++ [10%N] = [45; 45]%N ++ s' ++ [10%N]
      /\ (same_text (cs c S_hint_before_oneline_comment_text) None s s' \/ (forallb is_whitespace s = true /\ s' = []))).
  { intros s. eexists. split; [reflexivity|]. destruct (cs c S_hint_before_oneline_comment_text) as [p|].
    - destruct (forallb is_whitespace s); [now right|left]. apply text_with_same.
    - left. exists [], s, []. rewrite app_nil_r. repeat split; auto; congruence. }
  destruct g as [b| |s|lv s|s]; cbn in E; try congruence; injection E as <-; cbn [comment_text same_comment]; rewrite Hr.
  - apply L.
  - eexists. split; [reflexivity|]. apply text_with_same.
  - rewrite (Hc s eq_refl). apply L.
Qed.
Lemma comments_next gs t ts : comments gs = t :: ts ->
  exists pre g gs', gs = pre ++ g :: gs' /\ Forall (fun g => exists b, g = GBlank b) pre /\ comment_token g = Some t /\ comments gs' = ts.
Proof.
  induction gs as [|g gs IH]; [discriminate|]. cbn [comments flat_map]. fold (comments gs). destruct (comment_token g) as [t0|] eqn:E; cbn [app].
  - intros X. injection X as <- X. exists [], g, gs. repeat split; auto.
  - intros H. destruct (IH H) as (pre & g0 & gs' & -> & Hp & A & B). exists (g :: pre), g0, gs'. repeat split; auto. constructor; [|exact Hp].
    destruct g; try discriminate. eauto.
Qed.
Lemma blanks_keep c pre gs y : Forall (fun g => exists b, g = GBlank b) pre -> keeps c gs y -> keeps c (pre ++ gs) y.
Proof. induction 1 as [|g pre (b & ->) Hp IH]; cbn; auto. intros H. apply ks_blank. auto. Qed.
Lemma no_comments_keep c gs : comments gs = [] -> keeps c gs [].
Proof.
  induction gs as [|g gs IH]; intros E; [apply ks_nil|]. cbn in E. destruct g; try discriminate. apply ks_blank. now apply IH.
Qed.
Lemma interleaved_keeps c nl ts x : on c B_remove_comments = false -> interleaved c nl ts x -> forall gs, comments gs = ts ->
  (forall s, In (GLast s) gs -> cut_off s = false) -> keeps c gs x.
Proof.
  intros Hr. induction 1 as [|z ts u Hz H IH|t ts u H IH]; intros gs E Hc.
  - now apply no_comments_keep.
  - apply ks_filler; [eapply filler_mono; [|exact Hz]; auto|auto].
  - apply comments_next in E as (pre & g & gs' & -> & Hp & Et & E). apply blanks_keep; [exact Hp|].
    assert (K : keeps c gs' u) by (apply IH; [exact E|]; intros s Hs; apply Hc; apply in_or_app; right; now right).
    destruct g as [b| |s|lv s|s].
    + discriminate.
    + injection Et as <-. apply ks_newline. apply ks_filler; [|exact K]. cbn. unfold line_feed. destruct (on c B_remove_all_newlines); [apply fl_nil|now apply fl_newline].
    + apply ks_comment; [|exact K]. apply kept_comment; auto; discriminate.
    + apply ks_comment; [|exact K]. apply kept_comment; auto; discriminate.
    + apply ks_comment; [|exact K]. apply kept_comment; auto; [discriminate|]. intros s' [= <-]. apply Hc. apply in_or_app. right. now left.
Qed.
Lemma gap_keeps c gs x : on c B_remove_comments = false -> gap_written c (comments gs) x ->
  (forall s, In (GLast s) gs -> cut_off s = false) -> keeps c gs x.
Proof.
  intros Hr [H|(H1 & H2 & H)] Hc; [eapply interleaved_keeps; eauto|]. apply interleaved_nil_filler in H.
  apply comments_next in H2 as (pre & g & gs' & -> & Hp & Et & E). apply blanks_keep; [exact Hp|].
  destruct g as [b| |s|lv s|s]; try discriminate. apply ks_newline.
  rewrite <- (app_nil_r x). apply ks_filler; [eapply filler_mono; [|exact H]; auto|now apply no_comments_keep].
Qed.
Lemma cut_repeat r : forallb (N.eqb 61) r = true -> r = repeat 61%N (List.length r).
Proof. induction r as [|a r IH]; [reflexivity|]. cbn [forallb List.length repeat]. intros H. apply andb_prop in H as [Ha H]. apply N.eqb_eq in Ha as <-. f_equal. auto. Qed.
Lemma gap_at_cut src a b gs s : gap_at src b gs -> text_at src a b = gap_text gs -> a <= b -> In (GLast s) gs -> cut_off s = true ->
  exists x k, src = x ++ [45; 45; 91]%N ++ repeat 61%N k.
Proof.
  intros [Hg|[-> (l0 & l1 & -> & Hg & Hl)]] E Hab Hin Hc.
  - exfalso. unfold LexSpec.gap in Hg. rewrite Forall_forall in Hg. destruct (Hg _ Hin) as [_ X]. discriminate.
  - assert (Hl0 : ~ In (GLast s) l0) by (unfold LexSpec.gap in Hg; rewrite Forall_forall in Hg; intros Hi; destruct (Hg _ Hi) as [_ X]; discriminate).
    apply in_app_or in Hin as [Hin|Hin]; [contradiction|]. destruct Hl as [->|(s' & -> & _)]; [destruct Hin|]. destruct Hin as [[= ->]|[]].
    unfold gap_text in E. rewrite flat_map_app in E. cbn in E. rewrite app_nil_r in E.
    assert (Es : src = firstn a src ++ text_at src a (List.length src)).
    { rewrite <- (firstn_skipn a src) at 1. f_equal. unfold text_at. symmetry. apply firstn_all2. rewrite skipn_length. lia. }
    destruct s as [|x r]; [discriminate|]. cbn [cut_off] in Hc. apply andb_prop in Hc as [Hx Hr]. apply N.eqb_eq in Hx as ->. apply cut_repeat in Hr.
    rewrite E in Es. exists (firstn a src ++ flat_map gitem_text l0), (List.length r). rewrite <- Hr. rewrite Es at 1. now rewrite app_assoc.
Qed.

Lemma keeps_bracket c gs x : cs c S_hint_before_oneline_comment_text = None -> keeps c gs x -> In (GLast [91%N]) gs -> In 91%N x.
Proof.
  intros Hn. induction 1 as [|x gs y Hx H IH|b gs y H IH|gs y H IH|g x gs y Hg H IH]; intros Hi.
  - destruct Hi.
  - apply in_or_app. auto.
  - destruct Hi as [E|Hi]; [discriminate|auto].
  - destruct Hi as [E|Hi]; [discriminate|auto].
  - apply in_or_app. destruct Hi as [->|Hi]; [left|auto]. destruct Hg as (s' & -> & [(a & m & b & E & -> & _)|[E _]]); [|discriminate].
    rewrite Hn. rewrite <- E. right. right. now left.
Qed.
Theorem format_keeps src c o : line_range c = None -> on c B_remove_comments = false ->
  ~ (exists x k, src = x ++ [45; 45; 91]%N ++ repeat 61%N k) -> process_buffer src c = Formatted o -> output_with (keeps c) c src o.
Proof.
  intros Hl Hr Hc E. eapply output_mono; [| |exact (format_written src c o Hl E)]; cbn beta.
  - intros a b gs x Hab Hg Et H. apply gap_keeps; auto. intros s Hs. destruct (cut_off s) eqn:Ec; [|reflexivity]. elim Hc. eapply gap_at_cut; eauto.
  - intros x H. apply gap_keeps; auto. intros s [].
Qed.
Theorem format_removes src c o : line_range c = None -> on c B_remove_comments = true -> process_buffer src c = Formatted o ->
  output_with (fun _ => filler c True) c src o.
Proof.
  intros Hl Hr E.
  assert (A : forall gs x, gap_written c (comments gs) x -> filler c True x) by (intros gs x [H|(_ & _ & H)]; eapply interleaved_removed; eauto).
  eapply output_mono; [| |exact (format_written src c o Hl E)]; cbn beta; eauto.
Qed.
Theorem format_no_blanks src c o : line_range c = None -> on c B_remove_spaces_between_tokens = true -> process_buffer src c = Formatted o ->
  output_with (fun gs x => hinted c (may_break c (comments gs)) (comments gs) x
    \/ (on c B_remove_single_newlines = true /\ comments gs = [CNewLine] /\ hinted c (may_break c (comments gs)) [] x)) c src o.
Proof.
  intros Hl Hr E.
  eapply output_mono; [| |exact (format_written src c o Hl E)]; cbn beta;
    [intros a b gs x _ _ _|intros x]; (intros [H|(H1 & H2 & H)]; [left|right]; repeat split; auto; now apply interleaved_hinted).
Qed.
Lemma interleaved_none c (nl p : Prop) ts x : on c B_remove_comments = true -> on c B_remove_all_newlines = true -> (nl -> p) ->
  interleaved c nl ts x -> filler c p x.
Proof.
  intros Hr Hn Hp. induction 1 as [|z ts u Hz H IH|t ts u H IH]; [apply fl_nil|apply fl_app; [eapply filler_mono; eauto|exact IH]|].
  assert (Et : comment_text c t = []) by (destruct t; cbn [comment_text]; unfold line_feed; now rewrite ?Hr, ?Hn). rewrite Et. exact IH.
Qed.
Theorem format_no_newlines src c o : line_range c = None -> on c B_remove_comments = true -> on c B_remove_all_newlines = true ->
  process_buffer src c = Formatted o ->
  output_with (fun _ => filler c (breaks_lines c \/ exists k h, cs c k = Some h /\ In 10%N h)) c src o.
Proof.
  intros Hl Hr Hn E.
  assert (M : forall ts, may_break c ts -> breaks_lines c \/ exists k h, cs c k = Some h /\ In 10%N h).
  { intros ts [|[|(t & _ & Ht)]]; auto. assert (Et : comment_text c t = []) by (destruct t; cbn [comment_text]; unfold line_feed; now rewrite ?Hr, ?Hn).
    rewrite Et in Ht. destruct Ht. }
  assert (A : forall gs x, gap_written c (comments gs) x -> filler c (breaks_lines c \/ exists k h, cs c k = Some h /\ In 10%N h) x)
    by (intros gs x [H|(_ & _ & H)]; exact (interleaved_none c _ _ _ _ Hr Hn (M _) H)).
  eapply output_mono; [| |exact (format_written src c o Hl E)]; cbn beta; eauto.
Qed.
Lemma Forall2_weaken {A B} (P Q : A -> B -> Prop) l m : (forall x y, P x y -> Q x y) -> Forall2 P l m -> Forall2 Q l m.
Proof. intros H. induction 1; constructor; auto. Qed.
Theorem format_separators src c o fs : line_range c = None -> cs c S_field_separator = Some fs -> process_buffer src c = Formatted o ->
  exists n xs, parse_lua src = Parsed n /\ o = List.concat xs /\
    Forall2 (fun s x => match s with
      | SSep _ => cut_of fs x
      | STrail _ => x = [] \/ cut_of fs x
      | STok t => exists t', token_becomes c t t' /\ x = token_out t'
      | _ => True
      end) (layout n) xs.
Proof.
  intros Hl Hs E. destruct (format_written src c o Hl E) as (n & xs & P & F & Eo). exists n, xs. repeat split; auto.
  eapply Forall2_weaken; [|exact F]. intros s x. destruct s as [t|[a b]|z|z|]; cbn [slot_with]; auto.
  - unfold separator_out. now rewrite Hs.
  - intros (t & _ & H). unfold separator_out in H. rewrite Hs in H.
    assert (N : cut_of [] x -> x = []) by (intros (b & Eb & _); symmetry in Eb; now apply app_eq_nil in Eb).
    destruct t as [[]|]; [auto|auto|destruct z; auto].
Qed.

Lemma format_loses_comment : exists (src : str) (c : config) (o : str), line_range c = None /\
  on c B_remove_comments = false /\ process_buffer src c = Formatted o /\
  src = gap_text [GLast [91%N]] /\ ~ keeps c [GLast [91%N]] o.
Proof.
  exists (s2l "--["), (with_options []), (s2l "--" ++ [10%N]). repeat split; try (vm_compute; reflexivity).
  intros K. apply keeps_bracket in K; [|reflexivity|now left]. vm_compute in K. decompose [or] K; discriminate || contradiction.
Qed.
