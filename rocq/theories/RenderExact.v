(** Writing without any option. *)
From Verif Require Import Base Lib Config State Ast LuaLexer CommentLexer LuaParser Recon WriterBase LuaWriter Formatter LexSpec LexLoop CommentSpec
  CommentProofs LayoutSpec LayoutProofs LayoutText UtilSpec UtilProofs RefuteSpec RenderSpec FormatSpec WriterFrame GapProofs RenderProofs RenderGeneral ReconProofs
  FormatProofs.

Definition exact_item (g : gitem) : str :=
  match g with GLast s => [45; 45]%N ++ (if cut_off s then [] else s) ++ [10%N] | _ => gitem_text g end.
Definition wgap (gs : list gitem) : str := flat_map exact_item gs.

Section Exact.
  Variables (c0 : config) (src : str).
  Hypothesis U : unset c0.
  Lemma u_on c k : kin c0 c -> on c k = false.
  Proof. intros K. destruct (on c k) eqn:E; [|reflexivity]. apply (kin_on _ _ _ K) in E. unfold on in E. rewrite (proj1 U) in E. discriminate E. Qed.
  Lemma u_on' c k : kin c0 c -> on c k = true -> False. Proof. intros K E. rewrite (u_on c k K) in E. discriminate. Qed.
  Lemma u_cs c k : kin c0 c -> cs c k = None. Proof. intros (K & _). rewrite K. apply U. Qed.
  Lemma u_breaks c : kin c0 c -> ~ breaks_lines c.
  Proof.
    intros K B. apply (kin_breaks _ _ K) in B. assert (K0 := kin_refl c0). destruct B as [(k & B)|[B|[B|B]]]; try (eapply u_on'; eassumption).
    apply B. apply U.
  Qed.
  Lemma u_cnl c : kin c0 c -> cnl c = false.
  Proof.
    intros K. destruct (cnl c) eqn:E; [|reflexivity]. elim (u_breaks c0 (kin_refl c0)). now apply (cnl_breaks c0 c K).
  Qed.
  Lemma u_item c g : kin c0 c -> item_text (comment_text c) g = exact_item g.
  Proof.
    intros K. unfold item_text. destruct g as [b| |s|lv s|s]; cbn [comment_token exact_item gitem_text]; [reflexivity| | | |];
      unfold comment_text, line_feed, text_with; rewrite ?(u_on c) by exact K; rewrite ?(u_cs c) by exact K; try reflexivity.
    cbn [app]. now rewrite app_nil_r.
  Qed.
  Lemma u_block c gs h b : kin c0 c -> block_of c gs b -> formatted_block c h b = wgap gs.
  Proof.
    intros K [_ E]. rewrite E by auto using u_cnl, u_on. 
    assert (E2 : flat_map (item_text (comment_text c)) gs = wgap gs) by (apply flat_map_ext; intros g; now apply u_item). rewrite E2.
    unfold formatted_block. destruct (wgap gs) as [|a x] eqn:Ew; [now rewrite u_on by exact K|]. rewrite <- Ew. rewrite !u_cs by exact K. cbn [sopt_or].
    destruct (ceq a (chr "-")); cbn [app]; (destruct (lastc (wgap gs)) as [l|]; [destruct (ceq l (chr "]"))|]); now rewrite app_nil_r.
  Qed.

  Definition eR (r : rs) (x : str) : Prop :=
    match fst r with
    | STok t => (token_ok t \/ t = EOF) /\ x = tok_text t
    | SGap (a, b) => forall gs, last_gap gs -> text_at src a b = gap_text gs -> x = wgap gs
    | SSep z => x = z
    | STrail z => x = z
    | SVoid => x = []
    end.
  Definition eG (ss : list slot) : Prop :=
    Forall (slot_ok src) ss /\
    forall pre a b post, ss = pre ++ [STok OpenCurlyBracket; SGap (a, b); STok CloseCurlyBracket] ++ post -> lines_end (text_at src a b).
  Notation ewr := (WriterFrame.wr eR eR false (IS src)).
  Lemma eRL (s : rs) x : eR s x -> eR s x. Proof. auto. Qed.
  Lemma eclosed : false = true -> forall s x b, eR s (x ++ [b]) -> blankc b -> eR s x. Proof. discriminate. Qed.

  Lemma e_gap c l h : kin c0 c -> gG src [SGap l] -> ewr (comment_hint c src l h) [hg l h].
  Proof.
    intros K Hl w a w' I E. destruct l as [u v]. destruct (gap_bounds _ _ _ Hl) as (H1 & H2 & gs & Hg & Et).
    pose proof (comment_hint_spec c src (u, v) h gs w a w' H1 H2 Hg Et I E) as (I' & b & Hb & Ef). split; [exact I'|].
    rewrite Ef. apply adds_render, renders_one. cbn. intros gs' Hg' Et'.
    pose proof (comment_hint_spec c src (u, v) h gs' w a w' H1 H2 Hg' Et' I E) as (_ & b' & Hb' & Ef'). rewrite Ef in Ef'.
    apply app_inv_head in Ef'. rewrite Ef'. now apply u_block.
  Qed.
  Lemma e_void c h : kin c0 c -> ewr (comment_hint c src (0, 0) h) [(SVoid, h)].
  Proof.
    intros K w a w' I E.
    pose proof (comment_hint_spec c src (0, 0) h [] w a w' (le_n 0) (Nat.le_0_l _) empty_gap eq_refl I E) as (I' & b & Hb & Ef). split; [exact I'|].
    rewrite Ef. apply adds_render, renders_one. cbn. now apply (u_block c []).
  Qed.
  Lemma wgap_text gs : gap gs -> wgap gs = gap_text gs.
  Proof.
    unfold wgap, gap_text. induction 1 as [|g gs [_ Hg] H IH]; [reflexivity|]. cbn [flat_map]. rewrite IH. f_equal. now destruct g.
  Qed.
  Lemma wgap_lines u v gs : gap_at src v gs -> text_at src u v = gap_text gs -> lines_end (text_at src u v) -> lines_end (wgap gs).
  Proof.
    intros [Hg|[_ (l0 & l1 & -> & Hg & Hl)]] E H.
    - rewrite (wgap_text _ Hg), <- E. exact H.
    - destruct Hl as [->|(s & -> & _)].
      + rewrite app_nil_r in *. rewrite (wgap_text _ Hg), <- E. exact H.
      + right. unfold wgap. rewrite flat_map_app. cbn [flat_map exact_item]. rewrite app_nil_r, !app_assoc. eexists. reflexivity.
  Qed.
  Lemma e_empty c W n : kin c0 c -> n_kind n = KTableConstructorEmpty -> eG (layout n) ->
    ewr (write_empty_table c src W n) (hlayout no_mark (table_hint c0) n).
  Proof.
    intros K Hn [HG HL]. destruct n as [k s ls t lv ks is ss o]. cbn in Hn. subst k. cbn [layout hlayout fill hfill template app] in *.
    inversion HG as [|? ? T1 HG1]; subst. inversion HG1 as [|? ? T2 HG2]; subst. inversion HG2 as [|? ? T3 _]; subst.
    unfold write_empty_table. change (nloc (Nd KTableConstructorEmpty s ls t lv ks is ss o) 0) with (nth 0 ls dummy_loc).
    assert (Gl : gG src [SGap (nth 0 ls dummy_loc)]) by (constructor; [exact T2|constructor]).
    set (l := nth 0 ls dummy_loc) in *.
    assert (Ll : forall x, eR (hg l []) x -> lines_end x).
    { destruct l as [u v]. intros x Hx. destruct T2 as (_ & _ & gs & Hg & Et). rewrite (Hx gs (gap_at_last _ _ _ Hg) Et).
      apply (wgap_lines u v); auto. apply (HL [] u v []). reflexivity. }
    apply (wr_buffer eR eR false (IS src) [] _ _ [hg l (table_hint c)]).
    { now apply e_gap. }
    intros b Hb. apply adds_from_nil in Hb. apply (renders_one_loose eR eR false eRL) in Hb. cbn [run_items run_item].
    change (nloc _ 0) with l.
    refine (wr_bind _ _ _ eRL eclosed _ _ _ [ht OpenCurlyBracket] [hg l (table_hint c0); ht CloseCurlyBracket] _ _); [|intros _].
    { apply wr_emit. cbn. auto. }
    refine (wr_bind _ _ _ eRL eclosed _ _ _ [hg l (table_hint c0)] [ht CloseCurlyBracket] _ _); [|intros _].
    - assert (Eh : table_hint c = table_hint c0) by (unfold table_hint; now rewrite !u_cs by auto using kin_refl). rewrite Eh.
      destruct (has_newlines b) eqn:Enl; [|now apply e_gap].
      assert (Hb' : exists y, b = y ++ [10%N]).
      { destruct (Ll b) as [N|Y]; [now destruct l|elim N; now apply has_newlines_in|exact Y]. }
      unfold if_newline. cbn [negb].
      assert (El : forall x, eR (hg l []) x -> x = b).
      { destruct l as [u v]. intros x Hx. destruct T2 as (_ & _ & gs & Hg & Et). apply gap_at_last in Hg. now rewrite (Hx gs Hg Et), (Hb gs Hg Et). }
      apply (wr_buffer eR eR false (IS src) [] _ _ [hg l []]); [now apply e_gap|].
      intros b2 Hb2. apply adds_from_nil in Hb2. apply (renders_one_loose eR eR false eRL) in Hb2. apply El in Hb2 as ->.
      destruct Hb' as (y & ->).
      assert (Etr : trim_end_spaces_and_tabs (y ++ [10%N]) = y ++ [10%N]).
      { unfold trim_end_spaces_and_tabs. rewrite rev_app_distr. change (drop_while is_sp_tab (rev [10%N] ++ rev y)) with (10%N :: rev y). cbn [rev]. now rewrite rev_involutive. }
      rewrite Etr. assert (Ene : negb (is_empty (y ++ [10%N])) = true) by (destruct y; reflexivity). rewrite Ene.
      assert (Een : ends_nl (y ++ [10%N]) = true) by (unfold ends_nl; now rewrite lastc_snoc). rewrite Een.
      refine (wr_eq eR eR false (IS src) _ ([hg l (table_hint c0)] ++ []) _ _ eq_refl).
      refine (wr_bind _ _ _ eRL eclosed _ _ _ _ _ _ _).
      + refine (wr_then_ret _ _ _ eRL eclosed _ _ (fun _ => tt) _ _). apply wr_emit. exact Hb.
      + intros _ w a w' I E. unfold write_indent, bind, get_st, emit in E. injection E as _ <-. cbn [w_st w_f set_f]. split; [exact I|].
        assert (Ei : indent_text c (w_st w) = []) by (unfold indent_text; now rewrite u_cs). rewrite Ei, app_nil_r. apply adds_refl.
    - refine (wr_bind _ _ _ eRL eclosed _ _ _ [ht CloseCurlyBracket] [] _ _); [|intros _; apply wr_ret].
      apply wr_emit. cbn. auto.
  Qed.

  Theorem exact_wr fuel c n : kin c0 c -> eG (layout n) -> ewr (write fuel src c n) (hlayout no_mark (table_hint c0) n).
  Proof.
    intros K0 HG. assert (NR : ranged (IS src) -> False) by (intros (s & [_ H] & Hr); now apply Hr).
    apply (write_wr c0 src no_mark eR eR false (IS src) eG (fun _ => True) eRL eclosed); auto; try discriminate.
    - intros a b d [H1 H2]. split.
      + apply Forall_app in H1 as [_ H1]. now apply Forall_app in H1.
      + intros pre x y post ->. apply (H2 (a ++ pre) x y (post ++ d)). now rewrite <- !app_assoc.
    - intros t z [H _]. inversion H as [|? ? X _]; subst. split; [exact X|reflexivity].
    - split; [left; exact I|reflexivity].
    - split; [left; exact I|reflexivity].
    - intros c' l h K [H _] _. now apply e_gap.
    - intros c' l h K B. elim (u_breaks c' K B).
    - intros c' h K _. now apply e_void.
    - intros c' h K B. elim (u_breaks c' K B).
    - intros z. rewrite u_cs by apply kin_refl. reflexivity.
    - intros z t [->|[E _]]; [|elim (u_on' c0 _ (kin_refl c0) E)]. destruct U as (-> & -> & _). cbn. destruct z; reflexivity.
    - exact e_empty.
    - intros l h H. elim (NR H).
    - intros h H. elim (NR H).
    - intros s m [_ H] E. rewrite H in E. discriminate.
    - intros s m [_ H] _ _ E. rewrite H in E. discriminate.
  Qed.

  (** ** the written text *)
  Definition eS (s : slot) (x : str) : Prop := eR (s, []) x.
  Lemma spelling_ne t : token_ok t -> spelling t <> [].
  Proof.
    destruct t; try discriminate; cbn.
    - destruct s; [contradiction|discriminate].
    - intros (st & E & Hn) ->. injection E as <-. discriminate.
    - intros (r & -> & _). discriminate.
    - contradiction.
  Qed.
  Lemma lay_end p ss e w : lay p ss e w -> p = List.length src -> at_tokens src p w -> forall xs, Forall2 eS ss xs -> List.concat xs = [].
  Proof.
    assert (T : forall l t r w, l = List.length src -> at_tokens src l ((l, t, r) :: w) -> t = EOF /\ r = l /\ w = []).
    { clear p ss e w. intros l t r w -> [[D _]|(q & T & Hq)]; [discriminate|]. pose proof (tiles_head _ _ _ _ _ _ T) as (H1 & H2 & H3 & H4 & _ & H5 & H6).
      assert (r = List.length src) as -> by lia. assert (E : text_at src (List.length src) (List.length src) = []) by apply text_at_empty. rewrite E in H5.
      assert (t = EOF) as ->.
      { destruct H4 as [H4|H4]; [|exact H4]. apply spelling_ne in H4. elim H4. destruct t; cbn in H5 |- *; try congruence. destruct H5 as [H5|[H5 _]]; [destruct s; discriminate|congruence]. }
      split; [reflexivity|]. split; [reflexivity|]. cbn [tiles] in T. destruct w as [|x w]; [reflexivity|]. destruct x as [[? ?] ?]. destruct T as (_ & _ & _ & [] & _). }
    induction 1 as [p|a b ss e w Hb L IH|l t r ss e w L IH|l t z r ss e w Hz L IH|l t z r ss e w Hz L IH|p ss e w L IH|p ss e w L IH];
      intros Hp A xs F; inversion F as [|? x ? xs' Hx F' E1 E2]; subst; try reflexivity; cbn [List.concat].
    - assert (b = List.length src) as ->.
      { destruct Hb as [->|(t & r & w' & ->)]; [reflexivity|]. destruct A as [[D _]|(q & T' & Hq)]; [discriminate|].
        pose proof (tiles_head _ _ _ _ _ _ T') as (H1 & H2 & H3 & _). destruct Hq as [Hq|[(t2 & r2 & w2 & E) _]]; [lia|congruence]. }
      rewrite (Hx [] empty_gap (text_at_empty _ _)). cbn. now apply IH.
    - destruct (T _ _ _ _ eq_refl A) as (-> & -> & ->). destruct Hx as [_ ->]. cbn. apply IH; [reflexivity|now left|exact F'].
    - destruct (T _ _ _ _ eq_refl A) as (-> & _). destruct Hz as [[|] _]; discriminate.
    - destruct (T _ _ _ _ eq_refl A) as (-> & _). destruct Hz as [[|] _]; discriminate.
    - cbn in Hx. subst x. cbn. now apply IH.
    - cbn in Hx. subst x. cbn. now apply IH.
  Qed.
  Lemma open_cons s ss : open_line src ss -> open_line src (s :: ss).
  Proof. intros [(a & gs & t & H & E)|(t & a & H & E)]; [left; exists a, gs, t|right; exists t, a]; (split; [now right|exact E]). Qed.
  Lemma lay_exact p ss e w : lay p ss e w -> at_tokens src p w -> p <= List.length src -> e = List.length src ->
    ~ (exists x k, src = x ++ [45; 45; 91]%N ++ repeat 61%N k) -> Forall (slot_ok src) ss ->
    forall xs, Forall2 eS ss xs -> List.concat xs = skipn p src \/ (List.concat xs = skipn p src ++ [10%N] /\ open_line src ss).
  Proof.
    assert (Step : forall l t r w, at_tokens src l ((l, t, r) :: w) -> l <= r /\ r <= List.length src
      /\ written t (text_at src l r) (skipn r src) /\ at_tokens src r w).
    { clear. intros l t r w [[D _]|(q & T & Hq)]; [discriminate|]. apply tiles_head in T as (H1 & H2 & H3 & H4 & _ & H5 & H6).
      repeat split; auto. destruct H6 as [H6|H6]; [now left|right; eauto]. }
    induction 1 as [p|a b ss e w Hb L IH|l t r ss e w L IH|l t z r ss e w Hz L IH|l t z r ss e w Hz L IH|p ss e w L IH|p ss e w L IH];
      intros A Hp He Hc Ho xs F; inversion F as [|? x ? xs' Hx F' E1 E2]; subst; try (inversion Ho as [|? ? O1 O2]; subst); cbn [List.concat].
    - left. now rewrite skipn_all.
    - destruct O1 as (Hab & Hbl & gs & Hg & Et).
      assert (Ab : at_tokens src b w).
      { destruct Hb as [->|B]; [exact A|]. destruct A as [[-> _]|(q & T & Hq)]; [destruct B as (? & ? & ? & ?); discriminate|].
        right. exists q. split; [exact T|]. destruct Hq as [->|[B' Hq]]; [right; auto|]. right.
        destruct B as (? & ? & ? & E), B' as (? & ? & ? & E'). split; [|rewrite E in E'; injection E' as <- _ _; exact Hq]. unfold LayoutSpec.begins. eauto. }
      pose proof (Hx gs (gap_at_last _ _ _ Hg) Et) as Ex. rewrite (skipn_split src a b Hab).
      assert (Plain : gap gs -> x ++ List.concat xs' = text_at src a b ++ skipn b src \/
        (x ++ List.concat xs' = (text_at src a b ++ skipn b src) ++ [10%N] /\ open_line src (SGap (a, b) :: ss))).
      { intros G. rewrite Ex, (wgap_text _ G), <- Et. destruct (IH Ab Hbl eq_refl Hc O2 xs' F') as [->|[-> Op]]; [now left|right].
        split; [now rewrite app_assoc|now apply open_cons]. }
      destruct Hg as [Hg|[-> Hl]]; [auto|]. destruct Hl as (l0 & l1 & -> & Hg & [->|(s & -> & Hs)]).
      { apply Plain. now rewrite app_nil_r. }
      right. assert (En : List.concat xs' = []) by (eapply lay_end; eauto). rewrite En, app_nil_r, skipn_all, app_nil_r. split.
      + rewrite Ex, Et. unfold wgap, gap_text. rewrite !flat_map_app. cbn [flat_map exact_item gitem_text]. rewrite !app_nil_r.
        change (flat_map exact_item l0) with (wgap l0). rewrite (wgap_text _ Hg). unfold gap_text.
        destruct (cut_off s) eqn:Ec; [|now rewrite !app_assoc]. elim Hc.
        eapply (gap_at_cut src a (List.length src) _ s); [|exact Et|exact Hab|apply in_or_app; right; now left|exact Ec].
        right. split; [reflexivity|]. exists l0, [GLast s]. repeat split; eauto.
      + left. exists a, l0, s. split; [now left|]. split; [exact Et|]. exists l0, [GLast s]. repeat split; eauto.
    - destruct (Step _ _ _ _ A) as (H1 & H2 & H4 & H5). rewrite (skipn_split src l r H1). destruct Hx as [_ ->].
      destruct (IH H5 H2 eq_refl Hc O2 xs' F') as [Ei|[Ei Op]]; rewrite Ei.
      + destruct t; cbn [written tok_text] in *; try (rewrite H4; now left).
        destruct H4 as [->|[E Er]]; [now left|right]. rewrite Er, E, !app_nil_r. split; [reflexivity|]. right. exists s, (firstn l src). split; [now left|].
        rewrite <- (firstn_skipn l src) at 1. f_equal. now rewrite (skipn_split src l r H1), Er, E, app_nil_r.
      + destruct t; cbn [written tok_text] in *; try (rewrite H4; right; split; [now rewrite app_assoc|now apply open_cons]).
        destruct H4 as [->|[E Er]]; [right; split; [now rewrite app_assoc|now apply open_cons]|exfalso].
        assert (r = List.length src) as -> by (apply (f_equal (@List.length N)) in Er; rewrite skipn_length in Er; cbn in Er; lia).
        rewrite (lay_end _ _ _ _ L eq_refl H5 xs' F') in Ei. destruct (skipn _ src); discriminate.
    - destruct (Step _ _ _ _ A) as (H1 & H2 & H4 & H5). rewrite (skipn_split src l r H1), (written_sep _ _ _ _ Hz H4). cbn in Hx. subst x.
      destruct (IH H5 H2 eq_refl Hc O2 xs' F') as [->|[-> Op]]; [now left|right; split; [now rewrite app_assoc|now apply open_cons]].
    - destruct (Step _ _ _ _ A) as (H1 & H2 & H4 & H5). rewrite (skipn_split src l r H1), (written_sep _ _ _ _ Hz H4). cbn in Hx. subst x.
      destruct (IH H5 H2 eq_refl Hc O2 xs' F') as [->|[-> Op]]; [now left|right; split; [now rewrite app_assoc|now apply open_cons]].
    - cbn in Hx. subst x. destruct (IH A Hp eq_refl Hc O2 xs' F') as [->|[-> Op]]; [now left|right; split; [reflexivity|now apply open_cons]].
    - cbn in Hx. subst x. destruct (IH A Hp eq_refl Hc O2 xs' F') as [->|[-> Op]]; [now left|right; split; [reflexivity|now apply open_cons]].
  Qed.
End Exact.

Lemma lay_app_inv s1 s2 : forall p e w, lay p (s1 ++ s2) e w -> exists m w1 w2, w = w1 ++ w2 /\ lay m s2 e w2.
Proof.
  induction s1 as [|s s1 IH]; intros p e w H; [exists p, [], w; auto|]. cbn in H.
  inversion H as [|a b ss e' w' Hb L|l t r ss e' w' L|l t z r ss e' w' Hz L|l t z r ss e' w' Hz L|q ss e' w' L|q ss e' w' L]; subst;
    destruct (IH _ _ _ L) as (m & w1 & w2 & -> & L2).
  - exists m, w1, w2. auto.
  - exists m, ((p, t, r) :: w1), w2. auto.
  - exists m, ((p, t, r) :: w1), w2. auto.
  - exists m, ((p, t, r) :: w1), w2. auto.
  - exists m, w1, w2. auto.
  - exists m, w1, w2. auto.
Qed.
Lemma lay_braces pre a b post p e w : lay p (pre ++ [STok OpenCurlyBracket; SGap (a, b); STok CloseCurlyBracket] ++ post) e w ->
  exists w1 l r w2, w = w1 ++ (l, OpenCurlyBracket, a) :: (b, CloseCurlyBracket, r) :: w2.
Proof.
  intros H. apply lay_app_inv in H as (m & w1 & w2 & -> & H). cbn in H.
  inversion H as [| |l t r ss e' w' L| | | |]; subst. inversion L as [|a' b' ss e' w2 Hb L2| | | | |]; subst.
  inversion L2 as [| |l t r ss e' w3 L3| | | |]; subst. eauto.
Qed.
Lemma conv_off c ss : on c B_convert_charstring_to_normalstring = false -> map (conv c) ss = ss.
Proof. intros H. rewrite <- (map_id ss) at 2. apply map_ext. intros [t| | | |]; try reflexivity. destruct t; try reflexivity. cbn. now rewrite H. Qed.

Theorem format_exact src c o : unset c -> line_range c = None ->
  ~ (exists x k, src = x ++ [45; 45; 91]%N ++ repeat 61%N k) ->
  (forall ts pre l r l' r' post, lex src = LexOk ts -> ts = pre ++ (l, OpenCurlyBracket, r) :: (l', CloseCurlyBracket, r') :: post ->
     lines_end (text_at src r l')) ->
  process_buffer src c = Formatted o ->
  o = src \/ (o = src ++ [10%N] /\ exists n, parse_lua src = Parsed n /\ open_line src (layout n)).
Proof.
  intros U Hl Hc Hb. unfold process_buffer. destruct (parse_lua src) as [n| |] eqn:P; try discriminate. rewrite Hl. cbn [line_range_to_pos_range].
  destruct (write_fresh src c n) as (n' & -> & El); [now rewrite Hl|].
  destruct (write _ _ _ _ _) as [[[]| | |] w] eqn:W; try discriminate. intros [= <-].
  rewrite conv_off in El by exact (u_on c U c _ (kin_refl c)).
  destruct (parse_lua_layout src n P) as (ts & Lx & Ly & _).
  assert (HG : eG src (layout n')).
  { rewrite El. split; [exact (proj2 (tree_reads src n P))|]. intros pre a b post E. rewrite E in Ly.
    apply lay_braces in Ly as (w1 & l & r & w2 & ->). eapply Hb; eauto. }
  apply (exact_wr c src U _ c n' (kin_refl c) HG) in W; [|split; reflexivity]. destruct W as [_ W]. apply adds_from_nil in W. cbn [w_f] in W.
  apply rn_strict in W as (xs & F & ->).
  assert (F2 : Forall2 (eS src) (layout n) xs).
  { rewrite <- El, <- (hlayout_fst no_mark (table_hint c) n'). clear - F. induction F as [|[s h] x ss xs Hx F IH]; constructor; auto. }
  apply lex_tiles in Lx. destruct (lay_exact src 0 _ _ _ Ly (or_intror (ex_intro _ 0 (conj Lx (or_introl eq_refl)))) (Nat.le_0_l _) eq_refl Hc (proj2 (tree_reads src n P)) xs F2) as [E|[E Op]].
  - left. exact E.
  - right. split; [exact E|]. exists n. auto.
Qed.

Lemma unset_default : unset (with_options []).
Proof. repeat split; intros k; destruct k; reflexivity. Qed.
Lemma exact_loses_blank : exists (src : str) (c : config) (o : str), unset c /\ line_range c = None /\
  process_buffer src c = Formatted o /\ o <> src /\ o <> src ++ [10%N].
Proof.
  exists (s2l "x={" ++ [10; 32; 125]%N), (with_options []), (s2l "x={" ++ [10; 125]%N).
  split; [apply unset_default|]. repeat split; try (vm_compute; reflexivity); vm_compute; discriminate.
Qed.
Lemma exact_loses_bracket : exists (src : str) (c : config) (o : str), unset c /\ line_range c = None /\
  (forall ts pre l r l' r' post, lex src = LexOk ts -> ts = pre ++ (l, OpenCurlyBracket, r) :: (l', CloseCurlyBracket, r') :: post ->
     lines_end (text_at src r l')) /\
  process_buffer src c = Formatted o /\ o <> src /\ o <> src ++ [10%N].
Proof.
  exists (s2l "--["), (with_options []), (s2l "--" ++ [10%N]). split; [apply unset_default|]. split; [reflexivity|]. split.
  - intros ts pre l r l' r' post L E. vm_compute in L. injection L as <-. destruct pre as [|a [|b pre]]; discriminate E.
  - repeat split; try (vm_compute; reflexivity); vm_compute; discriminate.
Qed.
