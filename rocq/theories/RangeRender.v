(** Writing a tree when only some lines are formatted. *)
From Verif Require Import Base Lib Config State Ast LuaLexer CommentLexer LuaParser Recon WriterBase LuaWriter Formatter LexSpec LexLoop CommentSpec CommentProofs
  LayoutSpec LayoutProofs LayoutText UtilSpec UtilProofs RenderSpec FormatSpec RangeKeepSpec WriterFrame GapProofs RenderProofs RenderGeneral
  ReconProofs HintProofs ReconRange SpanProofs RangeProofs RangeGap FormatProofs.

(** ** configurations of self tests *)
Lemma kin_white c0 c x : kin c0 c -> white c x -> white c0 x.
Proof.
  intros K. induction 1 as [x Hx|b Hb|x y Hx IHx Hy IHy|x b Hx IH Hb].
  - apply wh_filler. eapply kin_filler; eauto.
  - now apply wh_blank.
  - now apply wh_app.
  - eapply wh_cut; eauto.
Qed.
Lemma kin_kept c0 c gs x : kin c0 c -> kept_gap c gs x -> kept_gap c0 gs x.
Proof.
  intros K. induction 1; [apply kg_nil|apply kg_white|apply kg_blank|apply kg_newline|apply kg_same|rewrite (kin_text c0 c K); apply kg_comment]; auto.
  eapply kin_white; eauto.
Qed.

(** ** what is written into a slot *)
Section Ranged.
  Variables (c0 : config) (src : str) (pr : option loc).
  Hypothesis Hascii : ascii src.
  Definition comma_or_semicolon (z : str) : Prop := z = s2l "," \/ z = s2l ";".
  Definition rL (r : rs) (x : str) : Prop :=
    match fst r with
    | STok t => (token_ok t \/ t = EOF) /\ (x = tok_text t \/ (x = snd r /\ exists t0, token_ok t0 /\ x = tok_text t0))
    | SGap (a, b) => forall gs, last_gap gs -> text_at src a b = gap_text gs -> kept_gap c0 gs x
    | SSep z => cut_of (separator_out c0 z) x \/ (x = z /\ comma_or_semicolon z)
    | STrail z => trailing_out c0 z x \/ (x = z /\ (z = [] \/ comma_or_semicolon z))
    | SVoid => white c0 x
    end.
  Lemma rRL s x : rL s x -> rL s x. Proof. auto. Qed.
  Lemma sep_end z x b : comma_or_semicolon z -> x ++ [b] = z -> ~ blankc b.
  Proof. intros [-> | ->] E; destruct x as [|? [|]]; try discriminate; injection E as ->; discriminate. Qed.
  Lemma rclosed : true = true -> forall s x b, rL s (x ++ [b]) -> blankc b -> rL s x.
  Proof.
    intros _ [s h] x b H Hb. unfold rL in *. cbn [fst] in *. destruct s as [t|[u v]|z|z|].
    - destruct H as [Ht [E|(_ & t0 & H0 & E)]]; exfalso; eapply token_end; try exact Hb; try (symmetry; exact E); auto.
    - intros gs H1 H2. eapply kept_trim; [now apply H|now apply blankc_spec].
    - destruct H as [H|[E H]]; [left; eapply cut_trim; eauto|]. exfalso. eapply sep_end; eauto.
    - destruct H as [(o & Ho & H)|[E [H|H]]].
      + left. exists o. split; [exact Ho|]. eapply cut_trim; eauto.
      + subst z. destruct x; discriminate.
      + exfalso. eapply sep_end; eauto.
    - eapply wh_cut; eauto. now apply blankc_spec.
  Qed.
  Notation rwr := (WriterFrame.wr rL rL true (ISp src pr)).
  Let th := table_hint c0.

  Lemma hint_filler' h : In h [[]; sp; th] -> on c0 B_replace_zero_spaces_with_hint = true -> filler c0 True h.
  Proof. apply hint_filler. Qed.
  Lemma block_kept c gs h b : kin c0 c -> kept_gap c gs b -> In h [[]; sp; th] -> kept_gap c0 gs (formatted_block c h b).
  Proof.
    intros K Hb Hh. apply (kin_kept c0 c _ _ K) in Hb.
    assert (Kr : on c B_replace_zero_spaces_with_hint = on c0 B_replace_zero_spaces_with_hint).
    { apply (kin_opt _ _ K). cbn. intros X. decompose [or] X; discriminate || contradiction. }
    pose proof (proj1 K) as Ks. unfold formatted_block. destruct b as [|b0 b1] eqn:Eb.
    - rewrite Kr. destruct (on c0 B_replace_zero_spaces_with_hint) eqn:Er; [|exact Hb].
      change h with ([] ++ h). apply kept_snoc; [exact Hb|]. apply wh_filler. now apply hint_filler.
    - rewrite <- Eb in *. unfold sopt_or. rewrite !Ks. apply kg_white.
      + destruct (ceq b0 (chr "-")); [|apply white_nil]. destruct (cs c0 S_hint_before_comment) eqn:E; [apply wh_filler; now apply fl_before|apply white_nil].
      + apply kept_snoc; [exact Hb|]. destruct (lastc b) as [l|]; [|apply white_nil]. destruct (ceq l (chr "]")); [|apply white_nil].
        destruct (cs c0 S_hint_after_multiline_comment) eqn:E; [apply wh_filler; now apply fl_after|apply white_nil].
  Qed.
  Lemma r_gap c l h : kin c0 c -> gG src [SGap l] -> In h [[]; sp; th] -> rwr (comment_hint c src l h) [hg l h].
  Proof.
    intros K Hl Hh w a w' I E. destruct l as [u v]. destruct (gap_bounds src _ _ Hl) as (H1 & H2 & gs & Hg & Et).
    destruct (comment_hint_ranged c src pr (u, v) h gs w a w' H1 H2 Hg Hascii Et I E) as (I' & b & Ef & _). split; [exact I'|].
    rewrite Ef. apply adds_render, renders_one. cbn. intros gs' Hg' Et'.
    destruct (comment_hint_ranged c src pr (u, v) h gs' w a w' H1 H2 Hg' Hascii Et' I E) as (_ & b' & Ef' & Hb). rewrite Ef in Ef'.
    apply app_inv_head in Ef'. subst b'. destruct Hb as [-> |(b0 & Hb & ->)]; [apply kept_verbatim|now apply block_kept].
  Qed.
  Lemma indent_white c st : kin c0 c -> white c0 (indent_text c st).
  Proof. intros K. apply wh_filler. unfold indent_text. rewrite (proj1 K). now apply (filler_indent c0 _ st). Qed.
  Lemma nl_white : white c0 [ch_nl]. Proof. apply wh_filler. now apply fl_newline. Qed.
  Lemma r_brk c l h : kin c0 c -> breakable rL true c (hg l h).
  Proof.
    intros K. destruct l as [u v]. split; [reflexivity|]. unfold rL. cbn [hg fst].
    split; [intros x H gs H1 H2|intros st x H gs H1 H2]; apply kept_snoc; auto using nl_white, indent_white.
  Qed.
  Lemma kept_nil_white c gs x : kept_gap c gs x -> gs = [] -> white c x.
  Proof. induction 1; intros E; try discriminate; [apply white_nil|]. apply wh_app; auto. Qed.
  Lemma r_void c h : kin c0 c -> In h [[]; th] -> rwr (comment_hint c src (0, 0) h) [(SVoid, h)].
  Proof.
    intros K Hh w a w' I E.
    assert (Hh' : In h [[]; sp; th]) by (cbn in *; tauto).
    destruct (comment_hint_ranged c src pr (0, 0) h [] w a w' (le_n 0) (Nat.le_0_l _) empty_gap Hascii eq_refl I E) as (I' & b & Ef & Hb). split; [exact I'|].
    rewrite Ef. apply adds_render, renders_one. cbn. apply kept_nil_white with (gs := []); [|reflexivity].
    destruct Hb as [-> |(b0 & Hb & ->)]; [apply kg_nil|now apply block_kept].
  Qed.
  Lemma r_void_brk c h : kin c0 c -> breakable rL true c (SVoid, h).
  Proof. intros K. split; [reflexivity|]. unfold rL. cbn [fst]. split; intros; apply wh_app; auto using nl_white, indent_white. Qed.
  Lemma r_sep z : rL (SSep z, []) (get_sep (cs c0 S_field_separator) z).
  Proof. left. apply cut_refl. Qed.
  Lemma r_trail z t : t = cb c0 B_write_trailing_field_separator \/ (on c0 B_force_single_line_table = true /\ t = Some false) ->
    rL (STrail z, []) (if (is_none t && negb (is_empty z)) || obool_is t true then get_sep (cs c0 S_field_separator) z else []).
  Proof. intros H. left. exact (proj1 (g_trail c0 src z t H)). Qed.
  Lemma r_tok t z : token_ok t \/ t = EOF -> rL (STok t, z) (tok_text t).
  Proof. intros H. split; auto. Qed.
  Definition mk (l : loc) : str := text_at src (fst l) (snd l).
  Lemma r_empty c W n : kin c0 c -> n_kind n = KTableConstructorEmpty -> gG src (layout n) ->
    rwr (write_empty_table c src W n) (hlayout mk th n).
  Proof.
    intros K Hn HG. destruct n as [k s ls t lv ks is ss o]. cbn in Hn. subst k. cbn [layout hlayout fill hfill template app] in *.
    inversion HG as [|? ? T1 HG1]; subst. inversion HG1 as [|? ? T2 HG2]; subst. inversion HG2 as [|? ? T3 _]; subst.
    assert (Gl : gG src [SGap (nth 0 ls dummy_loc)]) by (constructor; [exact T2|constructor]).
    assert (Eh : table_hint c = th) by (unfold table_hint, th; now rewrite (proj1 K)).
    unfold write_empty_table. rewrite Eh. change (nloc (Nd KTableConstructorEmpty s ls t lv ks is ss o) 0) with (nth 0 ls dummy_loc).
    apply (wr_buffer rL rL true (ISp src pr) [] _ _ [hg (nth 0 ls dummy_loc) th]).
    { apply r_gap; cbn; auto. }
    intros b Hb. cbn [run_items run_item]. set (l := nth 0 ls dummy_loc) in *. change (nloc _ 0) with l.
    refine (wr_bind _ _ _ rRL rclosed _ _ _ [ht OpenCurlyBracket] [hg l th; ht CloseCurlyBracket] _ _); [|intros _].
    { apply wr_emit. apply (r_tok OpenCurlyBracket). left. exact I. }
    refine (wr_bind _ _ _ rRL rclosed _ _ _ [hg l th] [ht CloseCurlyBracket] _ _); [|intros _].
    - apply (wr_if_newline _ _ _ rRL rclosed _ c _ (H c src l) th (hg l th) (hg l [])).
      + intros E. split; [now apply r_brk|]. destruct l as [u v]. auto.
      + intros _. apply r_gap; cbn; auto.
      + intros _. apply r_gap; cbn; auto.
    - refine (wr_bind _ _ _ rRL rclosed _ _ _ [ht CloseCurlyBracket] [] _ _); [|intros _; apply wr_ret].
      apply wr_emit. apply (r_tok CloseCurlyBracket). left. exact I.
  Qed.
  Lemma r_raw l h : gG src [SGap l] -> rwr (write_loc src l) [hg l h].
  Proof.
    intros Hl. destruct l as [u v]. destruct (gap_bounds src _ _ Hl) as (H1 & H2 & _). apply wr_get_st. intros s [Ec _].
    apply wr_emit_opt. intros x. destruct (substr_code src u v s Ec) as [S _]. rewrite S by lia. intros [= <-].
    apply renders_one. cbn. intros gs _ E. replace (slice src u v) with (gap_text gs) by (symmetry; exact E). apply kept_verbatim.
  Qed.

  (** ** nodes that may be copied *)
  Definition copied (n : node) : Prop :=
    fst (n_span n) <= snd (n_span n) /\ (snd (n_span n) <= List.length src \/ fst (n_span n) = snd (n_span n))
    /\ renders rL rL true (hlayout mk th n) (text_at src (fst (n_span n)) (snd (n_span n))).
  Inductive vb : node -> Prop :=
  | vb_intro : forall n, (range_kind (n_kind n) = true -> copied n) ->
      (n_kind n = KVarRoundSuffix -> test_not_completely_contained pr (n_span n) = false) ->
      (forall x, In x (children n) -> vb x) -> vb n.
  Definition okv (n : node) : Prop := vb n \/ n = dummy_node.
  Lemma okv_child n x : okv n -> In x (children n) -> okv x.
  Proof. intros [H| ->] Hx; [|destruct Hx]. left. inversion H; subst; auto. Qed.
  Theorem ranged_wr fuel c n : kin c0 c -> okv n -> gG src (layout n) -> rwr (write fuel src c n) (hlayout mk th n).
  Proof.
    intros K Hv HG.
    apply (write_wr c0 src mk rL rL true (ISp src pr) (gG src) okv rRL rclosed); auto.
    - intros m i Hm. unfold kid. destruct (nth_in_or_default i (n_kids m) dummy_node) as [Hi|Hi]; [|now right].
      eapply okv_child; eauto. unfold children. rewrite !in_app_iff. auto.
    - intros m x Hm Hx. eapply okv_child; eauto. unfold children. rewrite !in_app_iff. right; right. now apply in_map.
    - intros m x Hm Hx. eapply okv_child; eauto. unfold children. rewrite !in_app_iff. left. now apply (in_map si_node).
    - intros a b d H. apply Forall_app in H as [_ H]. now apply Forall_app in H.
    - intros t z H. inversion H as [|? ? X _]; subst. now apply r_tok.
    - apply (r_tok Comma). left. exact I.
    - apply (r_tok Period). left. exact I.
    - exact r_gap.
    - intros c' l h K' _. now apply r_brk.
    - exact r_void.
    - intros c' h K' _. now apply r_void_brk.
    - exact r_sep.
    - exact r_trail.
    - exact r_empty.
    - intros l h _. apply r_raw.
    - intros h _. apply white_nil.
    - intros s m [Ec _] _ Hm _ Hk. destruct Hm as [Hm| ->]; [|discriminate]. inversion Hm as [m' Hc _ _]. subst m'.
      destruct (Hc Hk) as (H1 & H2 & H3). destruct (n_span m) as [a b]. cbn [fst snd] in *.
      apply wr_get_st. intros s' [Ec' _]. apply wr_emit_opt. intros x Ex. destruct (substr_code src a b s' Ec') as (S1 & S2 & _).
      destruct (le_lt_dec b (List.length src)) as [Hb|Hb].
      + rewrite S1 in Ex by lia. injection Ex as <-. exact H3.
      + rewrite S2 in Ex by lia. injection Ex as <-. destruct H2 as [H2|H2]; [lia|]. subst b. now rewrite text_at_empty in H3.
    - intros s m [_ Ep] Hm Hk E. destruct Hm as [Hm| ->]; [|discriminate]. inversion Hm as [m' _ Hr _]. subst m'. rewrite Ep in E. rewrite Hr in E; [discriminate|exact Hk].
  Qed.
End Ranged.
