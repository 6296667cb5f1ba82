(** Writing with any configuration. *)
From Verif Require Import Base Lib Config State Ast LuaLexer CommentLexer WriterBase LuaWriter LexSpec CommentSpec CommentProofs LayoutSpec LayoutText
  UtilSpec UtilProofs RenderSpec FormatSpec WriterFrame GapProofs RenderProofs.

(** ** texts of gaps *)
Lemma interleaved_mono c (p q : Prop) ts x : (p -> q) -> interleaved c p ts x -> interleaved c q ts x.
Proof. intros H. induction 1; [apply il_nil|apply il_filler|apply il_comment]; eauto using filler_mono. Qed.
Lemma interleaved_snoc c p ts x y : interleaved c p ts x -> filler c p y -> interleaved c p ts (x ++ y).
Proof.
  intros H Hy. induction H as [|z ts u Hz H IH|t ts u H IH].
  - cbn. rewrite <- (app_nil_r y). apply il_filler; [exact Hy|apply il_nil].
  - rewrite <- app_assoc. now apply il_filler.
  - rewrite <- app_assoc. now apply il_comment.
Qed.
Lemma interleaved_trim c p ts x b : interleaved c p ts (x ++ [b]) -> b = 32%N \/ b = 9%N -> interleaved c p ts x.
Proof.
  intros H Hb. remember (x ++ [b]) as y eqn:E. revert x E. induction H as [|z ts u Hz H IH|t ts u H IH]; intros x E.
  - destruct x; discriminate.
  - apply app_eq_app in E as (l & [[-> E]|[-> ->]]).
    + destruct l as [|a l]; cbn in E.
      * subst u. rewrite app_nil_r in Hz. rewrite <- (app_nil_r x). apply il_filler; [exact Hz|]. now apply IH.
      * injection E as <- E. symmetry in E. apply app_eq_nil in E as [-> ->]. rewrite <- (app_nil_r x). apply il_filler.
        -- eapply fl_trim; eauto.
        -- exact H.
    + apply il_filler; [exact Hz|]. now apply IH.
  - apply app_eq_app in E as (l & [[Ec E]|[-> ->]]).
    + destruct l as [|a l]; cbn in E.
      * subst u. rewrite app_nil_r in Ec. subst x. rewrite <- (app_nil_r (comment_text c t)). apply il_comment. now apply IH.
      * injection E as <- E. symmetry in E. apply app_eq_nil in E as [-> ->]. apply comment_text_end in Ec as [-> | ->]; destruct Hb; discriminate.
    + apply il_comment. now apply IH.
Qed.
Lemma interleaved_nil_filler c p x : interleaved c p [] x -> filler c p x.
Proof.
  intros H. remember [] as ts eqn:E. induction H as [|z ts u Hz H IH|t ts u H IH]; [constructor| |discriminate]. apply fl_app; auto.
Qed.

Section Kin.
  Variables (c0 c : config).
  Hypothesis K : kin c0 c.
  Lemma kin_opt k : ~ In k [B_write_newline_at_explist_multiline_table; B_write_newline_at_multiline_table; B_write_trailing_field_separator] ->
    on c k = on c0 k.
  Proof. intros H. destruct K as (_ & Kb & _). unfold on. destruct (Kb k) as [->|(_ & _ & Hk)]; [reflexivity|contradiction]. Qed.
  Lemma kin_text t : comment_text c t = comment_text c0 t.
  Proof.
    destruct K as (Ks & _ & _). unfold comment_text, line_feed. rewrite !Ks.
    rewrite !kin_opt by (cbn; intros X; decompose [or] X; discriminate || contradiction). reflexivity.
  Qed.
  Lemma kin_filler (p q : Prop) x : (p -> q) -> filler c p x -> filler c0 q x.
  Proof.
    destruct K as (Ks & _ & _).
    assert (O : forall k, In k [B_remove_spaces_between_tokens; B_replace_zero_spaces_with_hint] -> on c k = on c0 k).
    { intros k Hk. apply kin_opt. cbn in *. decompose [or] Hk; try contradiction; subst k; intros X; decompose [or] X; discriminate || contradiction. }
    intros Hpq. induction 1 as [|x y Hx IHx Hy IHy|b Hb Hin|h Hh|h Hh|Hr|h Hr Hh|Hn|h Hn Hh|x b Hx IH Hb].
    - apply fl_nil.
    - now apply fl_app.
    - apply fl_blank; [|exact Hin]. rewrite <- O by (cbn; auto). exact Hb.
    - apply fl_before. now rewrite <- Ks.
    - apply fl_after. now rewrite <- Ks.
    - apply fl_space. rewrite <- O by (cbn; auto). exact Hr.
    - apply fl_table; [rewrite <- O by (cbn; auto); exact Hr|now rewrite <- Ks].
    - apply fl_newline. auto.
    - apply fl_indent; [auto|now rewrite <- Ks].
    - eapply fl_trim; eauto.
  Qed.
  Lemma kin_interleaved (p q : Prop) ts x : (p -> q) -> interleaved c p ts x -> interleaved c0 q ts x.
  Proof.
    intros H. induction 1; [apply il_nil|apply il_filler; eauto using kin_filler|rewrite kin_text; now apply il_comment].
  Qed.
  Lemma cnl_breaks : cnl c = true -> breaks_lines c0.
  Proof.
    unfold cnl. rewrite !orb_true_iff. intros H. apply (kin_breaks _ _ K). decompose [or] H; eapply nis_breaks; eauto.
  Qed.
End Kin.

(** ** a line feed in a gap has a reason *)
Lemma filler_nl c ts x : filler c (may_break c ts) x -> In 10%N x -> may_break c ts.
Proof.
  assert (S : forall k h, cs c k = Some h -> In 10%N h -> may_break c ts) by (intros k h H1 H2; right; left; eauto).
  induction 1 as [|x y Hx IHx Hy IHy|b Hb Hin|h Hh|h Hh|Hr|h Hr Hh|Hn|h Hn Hh|x b Hx IH Hb]; intros HI; eauto.
  - destruct HI.
  - apply in_app_or in HI as [|]; auto.
  - destruct HI as [-> |[]]. cbn in Hin. decompose [or] Hin; discriminate || contradiction.
  - destruct HI as [E|[]]; discriminate.
  - apply IH. apply in_or_app. now left.
Qed.
Lemma interleaved_nl c ts0 ts x : interleaved c (may_break c ts) ts0 x -> incl ts0 ts -> In 10%N x -> may_break c ts.
Proof.
  induction 1 as [|z ts1 u Hz H IH|t ts1 u H IH]; intros Hi HI.
  - destruct HI.
  - apply in_app_or in HI as [HI|HI]; [eapply filler_nl; eauto|auto].
  - apply in_app_or in HI as [HI|HI].
    + right; right. exists t. split; [apply Hi; now left|exact HI].
    + apply IH; auto. intros y Hy. apply Hi. now right.
Qed.
Lemma gap_written_nl c ts x : gap_written c ts x -> In 10%N x -> may_break c ts.
Proof.
  intros [H|(_ & -> & H)] HI; eapply interleaved_nl; eauto; [apply incl_refl|intros y []].
Qed.
Lemma gap_written_snoc c ts x y : gap_written c ts x -> filler c (may_break c ts) y -> gap_written c ts (x ++ y).
Proof. intros [H|(H1 & H2 & H)] Hy; [left|right]; auto using interleaved_snoc. Qed.
Lemma gap_written_trim c ts x b : gap_written c ts (x ++ [b]) -> b = 32%N \/ b = 9%N -> gap_written c ts x.
Proof. intros [H|(H1 & H2 & H)] Hb; [left|right]; eauto using interleaved_trim. Qed.

(** ** configurations with blank hints *)
Definition blank_text (s : str) : Prop := Forall (fun a => a = 32%N \/ a = 9%N) s.
Definition spaced (c : config) : Prop :=
  (exists h, cs c S_hint_before_comment = Some h /\ h <> [] /\ blank_text h)
  /\ forall k h, In k [S_hint_after_multiline_comment; S_hint_table_constructor; S_indentation_string] -> cs c k = Some h -> blank_text h.
Definition dash (x : str) : Prop := hd_error x = Some 45%N.
Definition lead (c : config) (x : str) : Prop := spaced c -> ~ dash x.
Lemma blank_dash h x : blank_text h -> ~ dash x -> ~ dash (h ++ x).
Proof. intros Hh Hx. destruct Hh as [|a h Ha Hh]; [exact Hx|]. cbn. intros [= ->]. destruct Ha; discriminate. Qed.
Lemma dash_app x y : ~ dash x -> ~ dash y -> ~ dash (x ++ y).
Proof. destruct x as [|a x]; cbn; auto. Qed.
Lemma lead_trim c x b : lead c (x ++ [b]) -> lead c x.
Proof. intros H S. specialize (H S). destruct x as [|a x]; [unfold dash; discriminate|exact H]. Qed.

(** ** what is written into a slot *)
Section General.
  Variables (c0 : config) (src : str).
  Definition gL (r : rs) (x : str) : Prop :=
    match fst r with
    | STok t => (token_ok t \/ t = EOF) /\ x = tok_text t
    | SGap (a, b) => forall gs, last_gap gs -> text_at src a b = gap_text gs -> gap_written c0 (comments gs) x /\ lead c0 x
    | SSep z => cut_of (separator_out c0 z) x
    | STrail z => trailing_out c0 z x
    | SVoid => filler c0 (may_break c0 []) x /\ lead c0 x
    end.
  Definition gR (r : rs) (x : str) : Prop :=
    gL r x /\ match fst r with
              | SGap _ | SVoid => on c0 B_replace_zero_spaces_with_hint = true -> x = [] -> snd r = []
              | SSep z => x = separator_out c0 z
              | STrail z => exists o, (o = cb c0 B_write_trailing_field_separator \/ (on c0 B_force_single_line_table = true /\ o = Some false))
                  /\ x = match o with
                         | Some true => separator_out c0 z
                         | Some false => []
                         | None => match z with [] => [] | _ => separator_out c0 z end
                         end
              | _ => True
              end.
  Lemma gRL s x : gR s x -> gL s x. Proof. now intros [H _]. Qed.

  Lemma num_run_app s w : forall st, num_run st (s ++ w) = match num_run st s with Some st' => num_run st' w | None => None end.
  Proof. induction s as [|a s IH]; intros st; cbn; [reflexivity|]. destruct (num_step st a); auto. Qed.
  Lemma token_end t x b : token_ok t \/ t = EOF -> tok_text t = x ++ [b] -> ~ blankc b.
  Proof.
    intros Ht E Hb. apply blankc_spec in Hb.
    assert (G : forall (z : str) a, z ++ [a] = x ++ [b] -> b = a) by (intros z a E1; now apply app_inj_tail in E1 as [_ ->]).
    assert (El : lastc (tok_text t) = Some b) by (rewrite E; apply lastc_snoc).
    destruct Ht as [Ht| ->]; [|destruct x; discriminate].
    destruct t; cbn [tok_text spelling] in *; try (vm_compute in El; injection El as <-; destruct Hb; discriminate).
    - destruct s as [|a s]; [destruct x; discriminate|]. destruct Ht as (Ha & Hs & _).
      assert (A : letter b || digit b = true).
      { destruct x as [|a' x]; cbn in E; injection E as -> E; [subst; now rewrite Ha|]. rewrite E in Hs. apply Forall_app in Hs as [_ Hs]. now inversion Hs. }
      destruct Hb; subst b; discriminate.
    - destruct Ht as (st & Hr & _). rewrite E, num_run_app in Hr. destruct (num_run NStart x) as [st'|]; [|discriminate]. cbn in Hr.
      destruct Hb; subst b; destruct st'; discriminate.
    - rewrite app_assoc in E. apply G in E. subst b. destruct Hb; discriminate.
    - rewrite app_assoc in E. apply G in E. subst b. destruct Hb; discriminate.
    - unfold long, closing, brackets in E. rewrite !app_assoc in E. apply G in E. subst b. destruct Hb; discriminate.
    - apply G in E. subst b. destruct Hb; discriminate.
    - destruct Ht.
  Qed.
  Lemma cut_trim y x b : cut_of y (x ++ [b]) -> blankc b -> cut_of y x.
  Proof. intros (l & -> & Hl) Hb. exists (b :: l). rewrite <- app_assoc. split; [reflexivity|]. constructor; [now apply blankc_spec|exact Hl]. Qed.
  Lemma cut_refl y : cut_of y y. Proof. exists []. rewrite app_nil_r. auto. Qed.
  Lemma gclosed : true = true -> forall s x b, gL s (x ++ [b]) -> blankc b -> gL s x.
  Proof.
    intros _ [s h] x b H Hb. unfold gL in *. cbn [fst] in *. destruct s as [t|[u v]|z|z|].
    - destruct H as [Ht E]. exfalso. eapply token_end; eauto.
    - intros gs H1 H2. destruct (H gs H1 H2) as [A B]. split; [eapply gap_written_trim; eauto; now apply blankc_spec|eapply lead_trim; eauto].
    - eapply cut_trim; eauto.
    - destruct H as (o & Ho & H). exists o. split; [exact Ho|]. eapply cut_trim; eauto.
    - destruct H as [A B]. split; [eapply fl_trim; eauto; now apply blankc_spec|eapply lead_trim; eauto].
  Qed.

  Notation gwr := (WriterFrame.wr gR gL true (IS src)).

  (** *** hints and blocks *)
  Let th := table_hint c0.
  Lemma hint_filler p h : In h [[]; sp; th] -> on c0 B_replace_zero_spaces_with_hint = true -> filler c0 p h.
  Proof.
    intros Hh Hr. cbn in Hh. destruct Hh as [<-|[<-|[<-|[]]]]; [constructor|now apply fl_space|].
    unfold th, table_hint, sopt_or. destruct (cs c0 S_hint_table_constructor) eqn:E; [now apply fl_table|constructor].
  Qed.
  Lemma hint_lead h : In h [[]; sp; th] -> lead c0 h.
  Proof.
    intros Hh (_ & S). cbn in Hh. destruct Hh as [<-|[<-|[<-|[]]]]; [discriminate|discriminate|].
    unfold th, table_hint, sopt_or. destruct (cs c0 S_hint_table_constructor) as [h|] eqn:E; [|discriminate].
    rewrite <- (app_nil_r h). apply blank_dash; [|discriminate]. eapply S; [|exact E]. cbn; auto.
  Qed.
  Lemma block_written c gs h b : kin c0 c -> block_of c gs b -> In h [[]; sp; th] ->
    gap_written c0 (comments gs) (formatted_block c h b) /\ lead c0 (formatted_block c h b)
    /\ (on c0 B_replace_zero_spaces_with_hint = true -> formatted_block c h b = [] -> h = []).
  Proof.
    intros K [(ts & Hts & Hb) _] Hh.
    assert (Kr : on c B_replace_zero_spaces_with_hint = on c0 B_replace_zero_spaces_with_hint).
    { apply (kin_opt _ _ K). cbn. intros X. decompose [or] X; discriminate || contradiction. }
    assert (Krs : on c B_remove_single_newlines = on c0 B_remove_single_newlines).
    { apply (kin_opt _ _ K). cbn. intros X. decompose [or] X; discriminate || contradiction. }
    pose proof (proj1 K) as Ks.
    assert (Hw : gap_written c0 (comments gs) b).
    { assert (B : interleaved c0 (may_break c0 (comments gs)) ts b).
      { eapply kin_interleaved; [exact K| |exact Hb]. intros E. left. now apply (cnl_breaks c0 c K). }
      destruct Hts as [->|(H1 & H2 & ->)]; [now left|right]. rewrite <- Krs. repeat split; auto. }
    assert (Pre : forall x p, filler c0 p x -> forall ts y, interleaved c0 p ts y -> interleaved c0 p ts (x ++ y)) by (intros; now apply il_filler).
    unfold formatted_block. destruct b as [|b0 b1] eqn:Eb.
    - rewrite Kr. destruct (on c0 B_replace_zero_spaces_with_hint) eqn:Er.
      + split; [|split; [now apply hint_lead|auto]]. change h with ([] ++ h). apply gap_written_snoc; [exact Hw|now apply hint_filler].
      + split; [exact Hw|]. split; [discriminate|discriminate].
    - rewrite <- Eb in *. unfold sopt_or. rewrite !Ks. split; [|split].
      + assert (A : gap_written c0 (comments gs) ((if ceq b0 (chr "-") then match cs c0 S_hint_before_comment with Some s => s | None => [] end else []) ++ b)).
        { assert (F : filler c0 (may_break c0 (comments gs)) (if ceq b0 (chr "-") then match cs c0 S_hint_before_comment with Some s => s | None => [] end else [])).
          { destruct (ceq b0 (chr "-")); [|constructor]. destruct (cs c0 S_hint_before_comment) eqn:E; [now apply fl_before|constructor]. }
          destruct Hw as [Hw|(H1 & H2 & Hw)]; [left|right]; repeat split; auto; now apply il_filler. }
        rewrite app_assoc. apply gap_written_snoc; [exact A|]. destruct (lastc b) as [l|]; [|constructor]. destruct (ceq l (chr "]")); [|constructor].
        destruct (cs c0 S_hint_after_multiline_comment) eqn:E; [now apply fl_after|constructor].
      + intros ((h0 & E & Hne & Hb0) & _). rewrite E. destruct (ceq b0 (chr "-")) eqn:Ed.
        * destruct h0 as [|a h0]; [congruence|]. inversion Hb0 as [|? ? Ha _]; subst. cbn. intros [= ->]. destruct Ha; discriminate.
        * rewrite Eb. cbn. unfold dash. cbn. intros [= ->]. discriminate.
      + intros _ E. apply app_eq_nil in E as [_ E]. rewrite Eb in E. discriminate.
  Qed.

  Definition gG (ss : list slot) : Prop := Forall (slot_ok src) ss.
  Lemma gap_bounds u v : gG [SGap (u, v)] -> u <= v /\ v <= List.length src /\ exists gs, last_gap gs /\ text_at src u v = gap_text gs.
  Proof. intros H. inversion H as [|? ? X _]; subst. destruct X as (A & B & gs & Hg & E). apply gap_at_last in Hg. eauto. Qed.
  Lemma g_gap c l h : kin c0 c -> gG [SGap l] -> In h [[]; sp; th] -> gwr (comment_hint c src l h) [hg l h].
  Proof.
    intros K Hl Hh w a w' I E. destruct l as [u v]. destruct (gap_bounds _ _ Hl) as (H1 & H2 & gs & Hg & Et).
    pose proof (comment_hint_spec c src (u, v) h gs w a w' H1 H2 Hg Et I E) as (I' & b & Hb & Ef). split; [exact I'|].
    rewrite Ef. apply adds_render, renders_one. destruct (block_written c gs h b K Hb Hh) as (A & B & D).
    split; [|exact D]. cbn. intros gs' Hg' Et'. split; [|exact B].
    pose proof (comment_hint_spec c src (u, v) h gs' w a w' H1 H2 Hg' Et' I E) as (_ & b' & Hb' & Ef'). rewrite Ef in Ef'.
    apply app_inv_head in Ef'. rewrite Ef'. now destruct (block_written c gs' h b' K Hb' Hh).
  Qed.
  Lemma may_brk c ts x : kin c0 c -> breaks_lines c -> gap_written c0 ts x ->
    gap_written c0 ts (x ++ [ch_nl]) /\ forall st, gap_written c0 ts (x ++ indent_text c st).
  Proof.
    intros K Hb Hx. assert (M : may_break c0 ts) by (left; eapply kin_breaks; eauto). split; [|intros st].
    - apply gap_written_snoc; [exact Hx|now apply fl_newline].
    - apply gap_written_snoc; [exact Hx|]. unfold indent_text. rewrite (proj1 K). now apply (filler_indent c0 _ st).
  Qed.
  Lemma lead_nl x : lead c0 x -> lead c0 (x ++ [ch_nl]).
  Proof. intros H S. apply dash_app; [auto|discriminate]. Qed.
  Lemma lead_indent c st x : kin c0 c -> lead c0 x -> lead c0 (x ++ indent_text c st).
  Proof.
    intros K H S. apply dash_app; [auto|]. unfold indent_text. rewrite (proj1 K). destruct (cs c0 S_indentation_string) as [t|] eqn:E; [|discriminate].
    destruct S as (_ & S). assert (B : blank_text t) by (eapply S; [|exact E]; cbn; auto).
    induction (Z.to_nat (indent_level st)) as [|n IH]; [discriminate|]. cbn [repeat_str]. now apply blank_dash.
  Qed.
  Lemma g_brk c l h : kin c0 c -> breaks_lines c -> breakable gL true c (hg l h).
  Proof.
    intros K Hb. destruct l as [u v]. split; [reflexivity|]. unfold gL. cbn [hg fst]. split; [intros x H gs H1 H2|intros st x H gs H1 H2];
      destruct (H gs H1 H2) as [A B]; destruct (may_brk c _ x K Hb A) as [A1 A2]; split; auto using lead_nl, lead_indent.
  Qed.
  Lemma g_void c h : kin c0 c -> In h [[]; th] -> gwr (comment_hint c src (0, 0) h) [(SVoid, h)].
  Proof.
    intros K Hh w a w' I E.
    assert (Hh' : In h [[]; sp; th]) by (cbn in *; tauto).
    assert (H0 : last_gap []) by (exists [], []; repeat split; auto; constructor).
    pose proof (comment_hint_spec c src (0, 0) h [] w a w' (le_n 0) (Nat.le_0_l _) H0 eq_refl I E) as (I' & b & Hb & Ef). split; [exact I'|].
    rewrite Ef. apply adds_render, renders_one. destruct (block_written c [] h b K Hb Hh') as (A & B & D).
    split; [|exact D]. cbn. split; [|exact B]. destruct A as [A|(_ & A & _)]; [|discriminate]. now apply interleaved_nil_filler.
  Qed.
  Lemma g_void_brk c h : kin c0 c -> breaks_lines c -> breakable gL true c (SVoid, h).
  Proof.
    intros K Hb. assert (M : may_break c0 []) by (left; eapply kin_breaks; eauto). split; [reflexivity|]. unfold gL. cbn [fst].
    split; [intros x [A B]|intros st x [A B]]; split; auto using lead_nl, lead_indent; apply fl_app; auto.
    - now apply fl_newline.
    - unfold indent_text. rewrite (proj1 K). now apply (filler_indent c0 _ st).
  Qed.
  Lemma g_sep z : gR (SSep z, []) (get_sep (cs c0 S_field_separator) z).
  Proof. assert (E : get_sep (cs c0 S_field_separator) z = separator_out c0 z) by reflexivity. rewrite E. split; [apply cut_refl|reflexivity]. Qed.
  Lemma g_trail z t : t = cb c0 B_write_trailing_field_separator \/ (on c0 B_force_single_line_table = true /\ t = Some false) ->
    gR (STrail z, []) (if (is_none t && negb (is_empty z)) || obool_is t true then get_sep (cs c0 S_field_separator) z else []).
  Proof.
    intros H.
    assert (E : (if (is_none t && negb (is_empty z)) || obool_is t true then get_sep (cs c0 S_field_separator) z else []) =
      match t with Some true => separator_out c0 z | Some false => [] | None => match z with [] => [] | _ => separator_out c0 z end end).
    { destruct t as [[]|]; [reflexivity|reflexivity|]. destruct z; reflexivity. }
    rewrite E. split; [exists t; split; [exact H|apply cut_refl]|exists t; auto].
  Qed.
  Lemma has_newlines_in s : has_newlines s = true -> In 10%N s.
  Proof. unfold has_newlines. rewrite existsb_exists. intros (x & Hx & E). apply ceq_true in E as ->. exact Hx. Qed.
  Lemma g_empty c W n : kin c0 c -> n_kind n = KTableConstructorEmpty -> gG (layout n) ->
    gwr (write_empty_table c src W n) (hlayout no_mark th n).
  Proof.
    intros K Hn HG. destruct n as [k s ls t lv ks is ss o]. cbn in Hn. subst k. cbn [layout hlayout fill hfill template app] in *.
    inversion HG as [|? ? T1 HG1]; subst. inversion HG1 as [|? ? T2 HG2]; subst. inversion HG2 as [|? ? T3 _]; subst.
    assert (Gl : gG [SGap (nth 0 ls dummy_loc)]) by (constructor; [exact T2|constructor]).
    assert (Eh : table_hint c = th) by (unfold table_hint, th; now rewrite (proj1 K)).
    unfold write_empty_table. rewrite Eh. change (nloc (Nd KTableConstructorEmpty s ls t lv ks is ss o) 0) with (nth 0 ls dummy_loc).
    apply (wr_buffer gR gL true (IS src) [] _ _ [hg (nth 0 ls dummy_loc) th]).
    { apply g_gap; cbn; auto. }
    intros b Hb. apply adds_from_nil in Hb. apply (renders_one_loose gR gL true gRL) in Hb. cbn [run_items run_item].
    set (l := nth 0 ls dummy_loc) in *. change (nloc _ 0) with l.
    refine (wr_bind _ _ _ gRL gclosed _ _ _ [ht OpenCurlyBracket] [hg l th; ht CloseCurlyBracket] _ _); [|intros _].
    { apply wr_emit. split; [|exact I]. cbn. auto. }
    refine (wr_bind _ _ _ gRL gclosed _ _ _ [hg l th] [ht CloseCurlyBracket] _ _); [|intros _].
    - apply (wr_if_newline _ _ _ gRL gclosed _ c _ (H c src l) th (hg l th) (hg l [])).
      + intros E. apply has_newlines_in in E. split.
        * split; [reflexivity|]. destruct l as [u v]. unfold gL in *. cbn [hg fst] in *.
          split; [intros x Hx gs H1 H2|intros st x Hx gs H1 H2]; destruct (Hx gs H1 H2) as [A B]; destruct (Hb gs H1 H2) as [A' _];
            pose proof (gap_written_nl _ _ _ A' E) as M; split; auto using lead_nl, lead_indent; apply gap_written_snoc; auto.
          -- now apply fl_newline.
          -- unfold indent_text. rewrite (proj1 K). now apply (filler_indent c0 _ st).
        * destruct l as [u v]. auto.
      + intros _. apply g_gap; cbn; auto.
      + intros _. apply g_gap; cbn; auto.
    - refine (wr_bind _ _ _ gRL gclosed _ _ _ [ht CloseCurlyBracket] [] _ _); [|intros _; apply wr_ret].
      apply wr_emit. split; [|exact I]. cbn. auto.
  Qed.

  Theorem general_wr fuel c n : kin c0 c -> gG (layout n) -> gwr (write fuel src c n) (hlayout no_mark th n).
  Proof.
    intros K HG. assert (NR : ranged (IS src) -> False) by (intros (s & [_ H] & Hr); now apply Hr).
    apply (write_wr c0 src no_mark gR gL true (IS src) gG (fun _ => True) gRL gclosed); auto.
    - intros a b d H. apply Forall_app in H as [_ H]. now apply Forall_app in H.
    - intros t z H. inversion H as [|? ? X _]; subst. split; [|exact I]. split; [exact X|reflexivity].
    - split; [|exact I]. split; [left; exact I|reflexivity].
    - split; [|exact I]. split; [left; exact I|reflexivity].
    - exact g_gap.
    - exact g_brk.
    - exact g_void.
    - exact g_void_brk.
    - exact g_sep.
    - exact g_trail.
    - exact g_empty.
    - intros l h H. elim (NR H).
    - intros h H. elim (NR H).
    - intros s m [_ H] E. rewrite H in E. discriminate.
    - intros s m [_ H] _ _ E. rewrite H in E. discriminate.
  Qed.
End General.
