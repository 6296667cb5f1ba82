(** The tokens that are written for a tree are parsed to the same tree again. *)
From Verif Require Import Base Shipped State LuaLexer Ast LR LRSpec LuaGrammar LuaParser ParserProofs Config LexSpec LexLoop UtilSpec LayoutSpec
  LayoutProofs Formatter FormatSpec SafeSpec TotalSpec TotalResults RenderProofs ReconProofs CanonFrame RelexProofs ReparseSpec ReparseFrame.

Lemma conv_on c s : on c B_convert_charstring_to_normalstring = true -> conv c (STok (CharStringLiteral s)) = STok (NormalStringLiteral (charstring_to_normalstring s)).
Proof. intros H. cbn. now rewrite H. Qed.
Section Derive.
  Variable c : config.
  Hypothesis Hc : tidy c.

  Lemma steps_inv x xs w v vs vs' : steps c (x :: xs) w (v :: vs) vs' ->
    exists w1 w2 v1 vs1, w = w1 ++ w2 /\ vs' = v1 :: vs1 /\ step c x w1 v v1 /\ steps c xs w2 vs vs1.
  Proof. intros H. inversion H; subst. eauto 8. Qed.

  (** the last field, with or without a separator behind it *)
  Lemma last_field n n' l w1 w2 r t : derives lua_grammar (NT n_Field_) w1 (l, VNode n', r) -> alike c n n' ->
    tokens_of w2 = t -> (t = [] \/ exists u, t = [u] /\ is_separator u) ->
    exists l2 q r2, derives lua_grammar (NT n_TSepEndList_Field_) (w1 ++ w2) (l2, VSeps [((l, l), n', q, reread t)], r2).
  Proof.
    intros D S E [-> | (u & -> & Hu)].
    - destruct w2; [|discriminate]. do 3 eexists.
      refine (d_prod lua_grammar (P n_TSepEndList_Field_ [NT n_Field_] act_sep1) _ [(l, VNode n', r)] _ _).
      + unfold lua_grammar. cbn [g_prods]. unfold lua_prods. cbn [In]. tauto.
      + constructor; [exact D|constructor].
    - destruct (tokens_one _ _ E) as (a & b & ->). do 3 eexists.
      refine (d_prod lua_grammar (P n_TSepEndList_Field_ [NT n_Field_; NT n_FieldSep_] act_sepend1) _ [(l, VNode n', r); (a, VTok u, b)] _ _).
      + unfold lua_grammar. cbn [g_prods]. unfold lua_prods. cbn [In]. tauto.
      + constructor; [exact D|]. change [(a, u, b)] with ([(a, u, b)] ++ []). constructor; [now apply sep_derives|constructor].
  Qed.

  Lemma vsim_node n v' : vsim c (VNode n) v' -> exists n', v' = VNode n' /\ alike c n n'.
  Proof. destruct v'; cbn; try contradiction. eauto. Qed.
  Lemma vsim_seps l v' : vsim c (VSeps l) v' -> exists l', v' = VSeps l' /\ ssim c l l' /\ zsim c l l'.
  Proof. destruct v'; cbn; try contradiction. eauto. Qed.

  Lemma agains_all xs vs : Forall2 (again c) xs vs -> agains c xs vs.
  Proof.
    induction 1 as [|x v xs vs Hx H IH]; intros w' W; cbn [vsslots] in W.
    - destruct w' as [|y w']; [exists []; constructor|]. inversion W.
    - apply wrote_app in W as (a & b & E & Wa & Wb). apply tokens_app in E as (wa & wb & -> & <- & <-).
      destruct (Hx _ Wa) as (v' & S). destruct (IH _ Wb) as (vs' & Ss). exists (v' :: vs'). now constructor.
  Qed.

  Ltac one_val := repeat match goal with
    | H : vals_ok (_ :: _) _ _ |- _ => inv H
    | H : vals_ok [] _ _ |- _ => inv H
    | H : Forall2 _ (_ :: _) _ |- _ => inv H
    | H : Forall2 _ [] _ |- _ => inv H
    | v : located val |- _ => destruct v as [[? ?] ?]
    | H : val_ok _ _ _ |- _ => destruct H as (_ & ? & _)
    end.
  Ltac split_wrote := repeat match goal with
    | H : wrote c (SGap _ :: _) _ |- _ => inversion H; subst; clear H
    | H : wrote c (layout ?x ++ _) _ |- _ => let Wa := fresh "Wa" in let Wb := fresh "Wb" in let E := fresh "E" in
        apply wrote_app in H as (? & ? & E & Wa & Wb); apply tokens_app in E as (? & ? & -> & <- & <-)
    | H : wrote c [STrail _] _ |- _ => inversion H; subst; clear H
    | H : wrote c (SSep _ :: _) _ |- _ => inversion H; subst; clear H
    | H : wrote c [] _ |- _ => inversion H; subst; clear H
    end.
  Lemma field_again p w args : In p lua_prods -> p_lhs p = n_TSepEndList_Field_ -> vals_ok (p_rhs p) w args ->
    Forall2 (again c) (p_rhs p) args -> again c (NT (p_lhs p)) (a_start args, p_act p args, a_end args).
  Proof.
    intros Hp Hl V IH. destruct (field_prods p Hp Hl) as [-> | [-> | ->]]; cbn [p_lhs p_rhs p_act] in *; clear Hl.
    - one_val. unfold shape in *; use_class; use_parts.
      intros w' W. unfold vslots in W; use_class; cbn in W. split_wrote.
      match goal with H : again c (NT n_Field_) _, W : wrote c (layout _) (tokens_of _) |- _ => destruct (H _ W) as (v1 & D & S) end.
      destruct v1 as [[l1 v1] r1]. unfold lsim in S. cbn [fst snd] in S. apply vsim_node in S as (n' & -> & S).
      match goal with H : separator_tokens ?x ++ [] = tokens_of ?wb |- _ => rewrite app_nil_r in H; symmetry in H;
        destruct (last_field _ _ _ _ wb _ _ D S H (seps_cases x)) as (l2 & q & r2 & D2) end.
      eexists. split; [exact D2|]. unfold lsim. cbn [fst snd vsim]. split; [constructor; [split; [exact Logic.I|split; [exact S|exact Logic.I]]|constructor]|].
      intros Hft. cbn. eapply trail_alike; eassumption.
    - one_val. unfold shape in *; use_class; use_parts.
      intros w' W. unfold vslots in W; use_class; cbn in W. split_wrote.
      match goal with H : again c (NT n_Field_) _, W : wrote c (layout _) (tokens_of _) |- _ => destruct (H _ W) as (v1 & D & S) end.
      destruct v1 as [[l1 v1] r1]. unfold lsim in S. cbn [fst snd] in S. apply vsim_node in S as (n' & -> & S).
      match goal with H : separator_tokens ?x ++ [] = tokens_of ?wb |- _ => rewrite app_nil_r in H; symmetry in H;
        destruct (last_field _ _ _ _ wb _ _ D S H (seps_cases x)) as (l2 & q & r2 & D2) end.
      eexists. split; [exact D2|]. unfold lsim. cbn [fst snd vsim]. split; [constructor; [split; [exact Logic.I|split; [exact S|exact Logic.I]]|constructor]|].
      intros Hft. cbn. eapply trail_alike; eassumption.
    - apply agains_all in IH. intros w' W.
      assert (W2 : wrote c (vsslots [NT n_Field_; NT n_FieldSep_; NT n_TSepEndList_Field_] args) (tokens_of w')).
      { rewrite wrote_solid in W |- *. clear IH Hp. one_val. unfold shape, vslots, vsslots in *; use_class; use_parts. unfold vslots; use_class. cbn in W |- *.
        rewrite !solid_app in *. cbn in W |- *. rewrite !solid_app in *. cbn in W |- *. now rewrite app_nil_r. }
      destruct (IH w' W2) as (vs' & St). apply steps_derive in St as [D S]; [|reflexivity].
      eexists. split; [exact (d_prod lua_grammar _ _ _ Hp D)|]. unfold lsim. cbn [fst snd]. exact (prod_sim c _ _ _ Hp S).
  Qed.

  Lemma char_again w args : vals_ok [T t_CharStringLiteral] w args -> Forall2 (again c) [T t_CharStringLiteral] args ->
    again c (NT n_StringLiteral_) (a_start args, mkleaf KCharStringLiteral args, a_end args).
  Proof.
    intros V IH. one_val. unfold shape in *. use_parts. use_term. intros w' W. cbn in W. inversion W; subst; clear W. split_wrote.
    match goal with H : _ = tokens_of w' |- _ => symmetry in H; apply tokens_one in H as (a & b & ->) end.
    match goal with H : token_becomes _ _ _ |- _ => rename H into B end. match goal with H : conv _ _ = _ |- _ => rename H into Bc end. unfold token_becomes in B.
    destruct (on c B_convert_charstring_to_normalstring) eqn:E.
    - destruct B as (s' & -> & _ & Hv). rewrite conv_on in Bc by exact E. injection Bc as Bs. eexists. split.
      + refine (d_prod lua_grammar _ [(a, NormalStringLiteral s', b)] [(a, VTok (NormalStringLiteral s'), b)] normal_prod _).
        change [(a, NormalStringLiteral s', b)] with ([(a, NormalStringLiteral s', b)] ++ []). constructor; [|constructor].
        exact (d_tok lua_grammar a (NormalStringLiteral s') b).
      + unfold lsim. cbn. subst s'. apply tw_string; [exact E|exact Hv].
    - subst. eexists. split.
      + refine (d_prod lua_grammar (P n_StringLiteral_ [T t_CharStringLiteral] (mkleaf KCharStringLiteral)) [(a, _, b)] [(a, VTok _, b)] _ _).
        * unfold lua_grammar. cbn [g_prods]. unfold lua_prods. cbn [In]. tauto.
        * match goal with |- derives_list _ _ [(a, ?t, b)] _ => change [(a, t, b)] with ([(a, t, b)] ++ []); constructor; [|constructor];
            exact (d_tok lua_grammar a t b) end.
      + unfold lsim. cbn [fst snd]. apply leaf_sim. constructor; [left; reflexivity|constructor].
  Qed.

  Lemma sep_again w l v r : val_ok (NT n_FieldSep_) w (l, v, r) -> again c (NT n_FieldSep_) (l, v, r).
  Proof.
    intros (_ & H & _). unfold shape in H. use_class. use_parts. intros w' W. cbn [fst snd] in W. unfold vslots in W. use_class. split_wrote.
    assert (Hz : sep_string (VTok x) <> []) by (destruct H1 as [-> | ->]; discriminate).
    destruct (sep_written c Hc _ Hz) as (t & E & Ht). match goal with H : _ = tokens_of w' |- _ => change (separator_tokens (separator_out c (sep_string (VTok x))) ++ [] = tokens_of w') in H; rewrite E in H end.
    match goal with H : _ = tokens_of w' |- _ => symmetry in H; apply tokens_one in H as (a & b & ->) end.
    eexists. split; [now apply sep_derives|]. unfold lsim. cbn [fst snd vsim]. right. split; [assumption|]. split; [assumption|]. apply sep_alike; assumption.
  Qed.

  Lemma all_again : (forall x w v, derives lua_grammar x w v -> again c x v) /\
    (forall xs w vs, derives_list lua_grammar xs w vs -> Forall2 (again c) xs vs).
  Proof.
    apply (derives_both _ _ lua_grammar (fun x w v _ => again c x v) (fun xs w vs _ => Forall2 (again c) xs vs)).
    - intros l t r w' W. cbn in W. inversion W; subst; clear W. split_wrote.
      match goal with H : _ = tokens_of w' |- _ => symmetry in H; apply tokens_one in H as (a & b & ->) end.
      eexists. exists a, t, t', b. repeat split; auto.
    - intros p w args Hp D IH. change (In p lua_prods) in Hp. pose proof (proj2 shapes _ _ _ D) as V.
      destruct (N.eq_dec (p_lhs p) n_TSepEndList_Field_) as [E|E]; [now apply (field_again p w)|].
      destruct (prod_slots p w args Hp V E) as [S|F].
      + destruct (is_char_prod p) eqn:Ec.
        * destruct (char_prods p Hp Ec) as (E1 & E2 & E3). rewrite E1, E3. rewrite E2 in *. now apply (char_again w).
        * apply agains_all in IH. intros w' W. cbn [fst snd] in W. rewrite wrote_solid, S, <- wrote_solid in W.
          destruct (IH w' W) as (vs' & St). apply steps_derive in St as [D' S'].
          2:{ unfold is_char_prod in Ec. now apply negb_false_iff in Ec. }
          eexists. split; [exact (d_prod lua_grammar _ _ _ Hp D')|]. unfold lsim. cbn [fst snd]. now apply prod_sim.
      + rewrite F. eapply (sep_again w). rewrite <- F. eapply (proj1 shapes). econstructor; [exact Hp|exact D].
    - constructor.
    - intros. now constructor.
  Qed.

  Theorem tokens_reparse n src ts' : parse_lua src = Parsed n -> wrote c (layout n) (tokens_of ts') ->
    exists n', parse_tokens ts' = POk (VNode n') /\ alike c n n'.
  Proof.
    unfold parse_lua. destruct (lex src) as [ts|e|] eqn:L; try discriminate.
    destruct (parse_tokens ts) as [v| |] eqn:P; try discriminate. destruct v as [| n' | | |] eqn:Ev; try discriminate.
    intros [= ->] W. apply parse_tokens_correct in P as (l & r & D). change (g_start lua_grammar) with n_Chunk_ in D.
    destruct (proj1 all_again _ _ _ D ts' W) as ([[l' v'] r'] & D' & S). unfold lsim in S. cbn [fst snd] in S.
    apply vsim_node in S as (n' & -> & S). exists n'. split; [|exact S]. apply parse_tokens_correct. exists l', r'. exact D'.
  Qed.
End Derive.

(** Formatting and parsing again gives the same tree. *)
Theorem format_reparse src c o ts : tidy c -> line_range c = None -> process_buffer src c = Formatted o -> lex src = LexOk ts ->
  ~ brackets_meet ts -> (open_numeral ts -> on c B_write_newline_at_eof = true) ->
  exists n n', parse_lua src = Parsed n /\ parse_lua o = Parsed n' /\ same_tree c n n'.
Proof.
  intros T Hl E L B1 B2. destruct (format_wrote src c o ts T Hl E L B1 B2) as (n & ts' & P & L' & W & _).
  destruct (tokens_reparse c T n src ts' P W) as (n' & P' & S). exists n, n'. split; [exact P|]. split; [|now apply alike_same].
  unfold parse_lua. now rewrite L', P'.
Qed.

(** ** formatting again and again *)
Scheme same_tree_mut := Induction for same_tree Sort Prop with same_trees_mut := Induction for same_trees Sort Prop.
Lemma same_tree_trans c a b d : same_tree c a b -> same_tree c b d -> same_tree c a d.
Proof.
  intros H. revert d.
  refine (same_tree_mut c (fun a b _ => forall d, same_tree c b d -> same_tree c a d)
            (fun a b _ => forall d, same_trees c b d -> same_trees c a d) _ _ _ _ a b H); clear.
  - intros k sp sp' ls ls' t lv ks ks' is is' ss ss' o H1 I1 H2 I2 H3 I3 d H. inversion H; subst.
    + constructor; auto.
    + destruct ks; [|inversion H1]. destruct is; [|inversion H2]. destruct ss; [|inversion H3].
      now apply st_string.
  - intros sp sp' ls ls' s s' o E V d H. inversion H; subst.
    repeat match goal with H : same_trees _ [] ?x |- _ => inversion H; clear H | H : same_trees _ (map _ []) ?x |- _ => inversion H; clear H end.
    destruct is'; [|discriminate]. destruct ss'; [|discriminate]. now apply st_string.
  - intros d H. exact H.
  - intros n n' l l' H1 I1 H2 I2 d H. inversion H; subst. constructor; auto.
Qed.

(** the proviso about brackets is kept *)
Definition meets (ts : list token) : Prop := exists a lv body b, ts = a ++ OpenSquareBracket :: MultiLineStringLiteral lv body :: b.
Lemma meets_of ts : brackets_meet ts <-> meets (tokens_of ts).
Proof.
  split.
  - intros (a & p & q & r & s & lv & body & b & ->). exists (tokens_of a), lv, body, (tokens_of b). unfold tokens_of. now rewrite map_app.
  - intros (a & lv & body & b & E). apply tokens_app in E as (w1 & w2 & -> & _ & E).
    destruct w2 as [|[[p t] q] [|[[r t'] s] w2]]; try discriminate. cbn in E. injection E as -> -> _. unfold brackets_meet. eauto 12.
Qed.
Lemma meets_cons t ts : meets ts -> meets (t :: ts).
Proof. intros (a & lv & body & b & ->). exists (t :: a), lv, body, b. reflexivity. Qed.
Lemma meets_inv t ts : meets (t :: ts) -> meets ts \/ (t = OpenSquareBracket /\ exists lv body b, ts = MultiLineStringLiteral lv body :: b).
Proof.
  intros ([|x a] & lv & body & b & E); cbn in E; injection E as -> E; [right; eauto 6|left]. subst. exists a, lv, body, b. reflexivity.
Qed.
Lemma program_head c a b lv body : same_program c a (MultiLineStringLiteral lv body :: b) -> exists r, a = MultiLineStringLiteral lv body :: r.
Proof.
  intros H. remember (MultiLineStringLiteral lv body :: b) as x. revert b Heqx. induction H; intros b0 E; try discriminate.
  - injection E as -> ->. unfold token_becomes in H. destruct t; try (subst; discriminate); try (injection H as <- <-; eauto).
    destruct (on c B_convert_charstring_to_normalstring); [destruct H as (? & ? & _)|]; discriminate.
  - injection E as -> _. destruct H0 as [H0 | H0]; discriminate.
  - destruct (IHsame_program _ E) as (r & F). discriminate.
  - injection E as -> _. destruct H as [H | H]; discriminate.
Qed.
Lemma meets_back c a b : same_program c a b -> meets b -> meets a.
Proof.
  induction 1; intros M.
  - exact M.
  - apply meets_inv in M as [M|(-> & lv & body & x & ->)]; [apply meets_cons; auto|].
    assert (t = OpenSquareBracket) as ->.
    { unfold token_becomes in H. destruct t; try (subst; discriminate); auto.
      destruct (on c B_convert_charstring_to_normalstring); [destruct H as (? & ? & _)|]; discriminate. }
    apply program_head in H0 as (r & ->). exists [], lv, body, r. reflexivity.
  - apply meets_inv in M as [M|(-> & lv & body & x & ->)]; [apply meets_cons; auto|]. destruct H0 as [H0 | H0]; discriminate.
  - apply meets_cons. auto.
  - apply meets_inv in M as [M|(-> & lv & body & x & ->)]; [auto|]. destruct H as [H | H]; discriminate.
Qed.

Lemma same_tree_refl c n : same_tree c n n.
Proof.
  revert n. fix F 1. intros [k sp ls t lv ks is ss o]. constructor.
  - induction ks as [|x ks IH]; constructor; [apply F|exact IH].
  - induction is as [|[p x] is IH]; constructor; [apply F|exact IH].
  - induction ss as [|[[[p x] q] z] ss IH]; constructor; [apply F|exact IH].
Qed.
Theorem runs_same_tree k : forall src c o ts n, tidy c -> line_range c = None -> on c B_write_newline_at_eof = true ->
  runs c k src o -> lex src = LexOk ts -> ~ brackets_meet ts -> parse_lua src = Parsed n ->
  exists n', parse_lua o = Parsed n' /\ same_tree c n n'.
Proof.
  induction k as [|k IH]; intros src c o ts n T Hl Hn R L B P; inversion R as [|k' s' m o' Hf R' E1 E2 E3]; subst.
  - exists n. split; [exact P|apply same_tree_refl].
  - destruct (format_reparse src c m ts T Hl Hf L B (fun _ => Hn)) as (n1 & n2 & P1 & P2 & S).
    destruct (format_same_program src c m ts T Hl Hf L B (fun _ => Hn)) as (ts' & L' & S').
    assert (B' : ~ brackets_meet ts'). { rewrite meets_of in *. intros M. apply B. eapply meets_back; eauto. }
    destruct (IH m c o ts' n2 T Hl Hn R' L' B' P2) as (m2 & Q2 & S2). exists m2. split; [exact Q2|].
    rewrite P in P1. injection P1 as <-. eapply same_tree_trans; eauto.
Qed.
Theorem runs_exist k : forall src c ts n, tidy c -> line_range c = None -> on c B_write_newline_at_eof = true -> ascii_options c -> width_known c ->
  lex src = LexOk ts -> ~ brackets_meet ts -> parse_lua src = Parsed n -> exists o, runs c k src o.
Proof.
  induction k as [|k IH]; intros src c ts n T Hl Hn A W L B P; [exists src; constructor|].
  destruct (format_total src c (all_plain c A) (known_needed c W) Hl) as [(m & E)|E].
  2:{ exfalso. unfold process_buffer in E. rewrite P, Hl in E. cbn [line_range_to_pos_range] in E.
      repeat match type of E with context [match ?x with _ => _ end] => destruct x end; discriminate. }
  destruct (format_reparse src c m ts T Hl E L B (fun _ => Hn)) as (n1 & n2 & P1 & P2 & S).
  destruct (format_same_program src c m ts T Hl E L B (fun _ => Hn)) as (ts' & L' & S').
  assert (B' : ~ brackets_meet ts'). { rewrite meets_of in *. intros M. apply B. eapply meets_back; eauto. }
  destruct (IH m c ts' n2 T Hl Hn A W L' B' P2) as (o & R). exists o. econstructor; eauto.
Qed.
Lemma shipped_plain : ascii_options shipped /\ width_known shipped.
Proof.
  split.
  - assert (G : forall k, match cs shipped k with Some t => forallb (fun a => N.ltb a 128) t | None => true end = true)
      by (intros []; vm_compute; reflexivity).
    intros k t a E Ha. specialize (G k). rewrite E in G. rewrite forallb_forall in G. now apply N.ltb_lt, G.
  - intros k _ _. eexists. vm_compute. reflexivity.
Qed.
Theorem shipped_runs k src ts n : lex src = LexOk ts -> ~ brackets_meet ts -> parse_lua src = Parsed n ->
  exists o n', runs shipped k src o /\ parse_lua o = Parsed n' /\ same_tree shipped n n'.
Proof.
  intros L B P. destruct shipped_tidy as [T Hl]. destruct shipped_plain as [A W].
  assert (Hn : on shipped B_write_newline_at_eof = true) by (vm_compute; reflexivity).
  destruct (runs_exist k src shipped ts n T Hl Hn A W L B P) as (o & R).
  destruct (runs_same_tree k src shipped o ts n T Hl Hn R L B P) as (n' & P' & S). eauto.
Qed.
