(** The tokens that are written for a tree are parsed to the same tree again: the single productions. *)
From Verif Require Import Base State LuaLexer Ast LR LRSpec LuaGrammar LuaParser ParserProofs Config LexSpec LexLoop UtilSpec LayoutSpec
  LayoutProofs FormatSpec SafeSpec RenderProofs ReconProofs CanonFrame RelexProofs ReparseSpec.

(** ** slots that are tokens *)
Definition solid (ss : list slot) : list slot := filter (fun s => match s with SGap _ | SVoid => false | _ => true end) ss.
Lemma solid_app a b : solid (a ++ b) = solid a ++ solid b.
Proof. apply filter_app. Qed.
Lemma solid_gap p a : solid (SGap p :: a) = solid a.
Proof. reflexivity. Qed.
Lemma wrote_solid c ss ts : wrote c ss ts <-> wrote c (solid ss) ts.
Proof.
  split; [induction 1; cbn; auto; constructor; auto|]. revert ts. induction ss as [|s ss IH]; intros ts H; [exact H|].
  destruct s; cbn in H; try (constructor; now apply IH); inversion H; subst; constructor; auto.
Qed.
Lemma wrote_app c a b ts : wrote c (a ++ b) ts -> exists x y, ts = x ++ y /\ wrote c a x /\ wrote c b y.
Proof.
  revert ts. induction a as [|s a IH]; intros ts H; cbn [app] in H; [exists [], ts; split; [reflexivity|split; [constructor|exact H]]|].
  inversion H; subst; clear H; match goal with K : wrote c (a ++ b) _ |- _ => destruct (IH _ K) as (x1 & y1 & -> & W1 & W2) end;
    (eexists _, y1; split; [|split; [|exact W2]]; [|constructor; eassumption]); cbn [app]; now rewrite ?app_assoc.
Qed.

(** the slots of the value of a symbol *)
Definition vslots (x : sym) (v : val) : list slot :=
  match x with
  | T _ => match v with VTok t => [STok t] | _ => [] end
  | NT n =>
      match nclass_of n, v with
      | QNode, VNode m | QChunk, VNode m => layout m
      | QItems, VItems l => listed (items_slots l)
      | QCommas t, VSeps l => commas t (seps_slots l)
      | QFields, VSeps l => fields (seps_slots l)
      | QSep, _ => [SSep (sep_string v)]
      | _, _ => []
      end
  end.
Fixpoint vsslots (xs : list sym) (vs : list (located val)) : list slot :=
  match xs, vs with x :: xs, v :: vs => vslots x (snd (fst v)) ++ vsslots xs vs | _, _ => [] end.

Lemma solid_seps_first t l p n q z r : solid (commas t (seps_slots (sset_first l ((p, n, q, z) :: r)))) = solid (commas t (seps_slots ((p, n, q, z) :: r))).
Proof. reflexivity. Qed.
Lemma listed_app a b : listed (a ++ b) = listed a ++ listed b.
Proof. apply flat_map_app. Qed.

Lemma prod_slots p w args : In p lua_prods -> vals_ok (p_rhs p) w args -> p_lhs p <> n_TSepEndList_Field_ ->
  solid (vslots (NT (p_lhs p)) (p_act p args)) = solid (vsslots (p_rhs p) args) \/ p_lhs p = n_FieldSep_.
Proof.
  intros Hp H Hn. unfold lua_prods in Hp.
  repeat (destruct Hp as [<-|Hp]; [cbn [p_rhs p_lhs p_act] in *; repeat match goal with
    | H : vals_ok (_ :: _) _ _ |- _ => inv H
    | H : vals_ok [] _ _ |- _ => inv H
    | v : located val |- _ => destruct v as [[? ?] ?]
    | H : val_ok _ _ _ |- _ => destruct H as ([? _] & ? & _)
    end; unfold vsslots, vslots; unfold shape in *; use_class; use_parts; use_term; cbn [fst snd] |]); [.. |destruct Hp].
  all: try (now elim Hn).
  all: try (right; reflexivity).
  all: left.
  all: try (cbn; rewrite ?app_nil_r, ?solid_app; cbn; rewrite ?solid_app; reflexivity).
  all: try (cbn; repeat (progress (rewrite ?app_nil_r, ?solid_app; cbn)); reflexivity).
  all: unfold act_tlist_snoc, arg_items, arg_node, arg_val; cbn [map nth fst snd];
    rewrite items_slots_app, listed_app, !solid_app; cbn; now rewrite ?solid_app, ?app_nil_r.
Qed.

(** ** the same tree *)
(** the same tree with the same separators, and the exact new string for a converted one *)
Notation alike c := (twin c (on c B_convert_charstring_to_normalstring) charstring_to_normalstring (fun _ _ => True)).
Lemma alike_same c n : forall n', alike c n n' -> same_tree c n n'.
Proof.
  induction n as [k sp ls t lv ks is ss o Hk Hi Hs] using node_rect'. intros n' H.
  inversion H as [? ? sp' ? ls' ? ? ? ks' ? is' ? ss' ? Fl Fk Fi Fs Hz Hv|? sp' ? ? Ht Hu]; subst; [|now constructor].
  clear H Hz Hv Fl. constructor.
  - clear - Hk Fk. induction Fk; constructor; inversion Hk; subst; auto.
  - clear - Hi Fi. induction Fi as [|x y l l' [_ Hx] F IH]; constructor; inversion Hi; subst; auto.
  - clear - Hs Fs. induction Fs as [|[[[? x] ?] ?] [[[? y] ?] ?] l l' (_ & Hx & _) F IH]; constructor; inversion Hs; subst; auto.
Qed.

Section Sim.
  Variable c : config.
  Definition isim : list (loc * node) -> list (loc * node) -> Prop := Forall2 (fun x y => True /\ alike c (snd x) (snd y)).
  Definition ssim : list sitem -> list sitem -> Prop := Forall2 (fun x y => True /\ alike c (si_node x) (si_node y) /\ True).
  Definition zsim (l l' : list sitem) : Prop := on c B_force_single_line_table = false -> seps_alike c (map si_sep l) (map si_sep l').
  Definition vsim (v v' : val) : Prop :=
    match v, v' with
    | VTok t, VTok t' => t = t' \/ (is_separator t /\ is_separator t' /\ separator_out c (sep_string v) = separator_out c (sep_string v'))
    | VNode n, VNode n' => alike c n n'
    | VItems l, VItems l' => isim l l'
    | VSeps l, VSeps l' => ssim l l' /\ zsim l l'
    | VBad, VBad => True
    | _, _ => False
    end.
  Definition lsim (a b : located val) : Prop := vsim (snd (fst a)) (snd (fst b)).
  Definition asim : list (located val) -> list (located val) -> Prop := Forall2 lsim.

  Lemma alike_dummy : alike c dummy_node dummy_node.
  Proof. constructor; try discriminate; repeat constructor. Qed.
  Lemma asim_val i a b : asim a b -> vsim (arg_val i a) (arg_val i b).
  Proof.
    intros H. unfold arg_val. revert i. induction H as [|x y a b Hx H IH]; intros [|i]; cbn; auto.
  Qed.
  Lemma asim_node i a b : asim a b -> alike c (arg_node i a) (arg_node i b).
  Proof.
    intros H. apply (asim_val i) in H. unfold arg_node. destruct (arg_val i a), (arg_val i b); cbn in H; try contradiction;
      first [exact H|apply alike_dummy].
  Qed.
  Lemma asim_items i a b : asim a b -> isim (arg_items i a) (arg_items i b).
  Proof.
    intros H. apply (asim_val i) in H. unfold arg_items. destruct (arg_val i a), (arg_val i b); cbn in H; try contradiction;
      first [exact H|constructor].
  Qed.
  Lemma asim_seps i a b : asim a b -> ssim (arg_seps i a) (arg_seps i b).
  Proof.
    intros H. apply (asim_val i) in H. unfold arg_seps. destruct (arg_val i a), (arg_val i b); cbn in H; try contradiction;
      first [exact (proj1 H)|constructor].
  Qed.
  Lemma asim_zseps i a b : asim a b -> zsim (arg_seps i a) (arg_seps i b).
  Proof.
    intros H. apply (asim_val i) in H. unfold arg_seps. destruct (arg_val i a), (arg_val i b); cbn in H; try contradiction;
      first [exact (proj2 H)|intros _; exact Logic.I].
  Qed.
  Lemma asim_nodes a b : asim a b -> Forall2 (alike c) (flat_map (fun x => val_nodes (snd (fst x))) a) (flat_map (fun x => val_nodes (snd (fst x))) b).
  Proof.
    induction 1 as [|x y a b Hx H IH]; cbn; [constructor|]. apply Forall2_app; [|exact IH]. unfold lsim in Hx.
    destruct (snd (fst x)), (snd (fst y)); cbn in *; try contradiction; repeat constructor; assumption.
  Qed.
  Lemma asim_gaps a b : asim a b -> Forall2 (fun _ _ : loc => True) (gaps a) (gaps b).
  Proof.
    induction 1 as [|[[l v] r] [[l' v'] r'] a b Hx H IH]; [constructor|]. destruct H as [|[[l1 v1] r1] [[l1' v1'] r1'] a b Hy H]; [constructor|]. constructor; auto.
  Qed.
  Lemma isim_first l l' v v' : isim v v' -> isim (set_first l v) (set_first l' v').
  Proof. intros [|[p x] [p' x'] v1 v1' [_ Hx] H]; constructor; auto. Qed.
  Lemma ssim_first l l' v v' : ssim v v' -> ssim (sset_first l v) (sset_first l' v').
  Proof. intros [|[[[p x] q] z] [[[p' x'] q'] z'] v1 v1' (_ & Hx & _) H]; constructor; auto. Qed.
  Lemma first_seps l v : map si_sep (sset_first l v) = map si_sep v.
  Proof. destruct v as [|[[[? ?] ?] ?] ?]; reflexivity. Qed.
  Lemma last_alike z z' : separator_out c z = separator_out c z' -> z = z' \/ (z <> [] /\ z' <> []) -> last_out c z = last_out c z'.
  Proof.
    intros E [->|[H H']]; [reflexivity|]. unfold last_out. destruct (cb c B_write_trailing_field_separator) as [[]|]; auto.
    destruct z, z'; congruence.
  Qed.
  Lemma seps_cons z z' l l' : separator_out c z = separator_out c z' -> z = z' \/ (z <> [] /\ z' <> []) -> seps_alike c l l' -> seps_alike c (z :: l) (z' :: l').
  Proof. intros E N H. cbn [seps_alike]. destruct l, l'; cbn in H; try contradiction; [now apply last_alike|now split]. Qed.
  Lemma asim_sep i a b : asim a b -> separator_out c (sep_string (arg_val i a)) = separator_out c (sep_string (arg_val i b))
    /\ (sep_string (arg_val i a) = sep_string (arg_val i b) \/ (sep_string (arg_val i a) <> [] /\ sep_string (arg_val i b) <> [])).
  Proof.
    intros H. apply (asim_val i) in H. destruct (arg_val i a) as [t| | | |], (arg_val i b) as [t'| | | |]; cbn in H; try contradiction; try (split; [|left]; reflexivity).
    destruct H as [<-|(Ht & Ht' & H)]; [split; [|left]; reflexivity|]. split; [exact H|right].
    destruct Ht as [-> | ->], Ht' as [-> | ->]; split; discriminate.
  Qed.

  Lemma leaf_sim k a b : asim a b -> vsim (mkleaf k a) (mkleaf k b).
  Proof.
    assert (L : forall s s' t lv, alike c (Nd k s [] t lv [] [] [] no_opts) (Nd k s' [] t lv [] [] [] no_opts)).
    { intros s s' t lv. apply tw_node; [apply Forall2_nil|apply Forall2_nil|apply Forall2_nil|apply Forall2_nil|intros _ _; exact Logic.I|]. intros _. destruct k; cbn; repeat split. }
    intros H. apply (asim_val 0) in H. unfold mkleaf. destruct (arg_val 0 a) as [t| | | |], (arg_val 0 b) as [t'| | | |]; cbn in H; try contradiction;
      try (cbn [vsim]; apply L).
    destruct H as [<-|([-> | ->] & [-> | ->] & _)]; [destruct t|..]; cbn [vsim]; apply L.
  Qed.
  Lemma prod_sim p a b : In p lua_prods -> asim a b -> vsim (p_act p a) (p_act p b).
  Proof.
    intros Hp H. unfold lua_prods in Hp.
    repeat (destruct Hp as [<-|Hp]; [cbn [p_act] |]); [.. |destruct Hp].
    all: try (apply leaf_sim; exact H).
    all: try (apply (asim_val 0); exact H).
    all: unfold mkn, mkbin, mkun, act_chunk_empty, act_chunk, act_shebang_chunk, act_list1, act_list_cons, act_list, act_list2, act_seps,
      act_funcnameself, act_varlist1, act_varlist_cons, act_tlist1, act_tlist_snoc, act_sep1, act_sep_cons, act_sepend1, nd, nlist, nseps;
      cbn [vsim].
    all: try match goal with |- alike _ _ _ => apply tw_node end.
    all: try (intros _; cbn [visited]; repeat split; reflexivity).
    all: try (intros E _; discriminate E).
    all: repeat first [apply asim_nodes; exact H | apply asim_items; exact H | apply asim_seps; exact H | apply asim_zseps; exact H | apply asim_node; exact H
      | apply asim_gaps; exact H | apply isim_first | apply ssim_first | apply Forall2_app | apply Forall2_cons | apply Forall2_nil | exact Logic.I | split
      | (intros _ ?; apply (asim_zseps 0 a b H); assumption)].
    all: try match goal with |- zsim _ _ => intros Hft; unfold si_sep; cbn [map snd]; try rewrite !first_seps end.
    all: try (destruct (asim_sep 1 a b H) as [E N]; apply seps_cons; [exact E|exact N|first [exact Logic.I|exact (asim_zseps 2 a b H Hft)]]).
    apply tw_node; [apply Forall2_nil|apply Forall2_nil|apply Forall2_nil|apply Forall2_nil|discriminate|cbn; auto].
  Qed.
End Sim.

(** ** the derivation of the new tokens *)
Section Derive.
  Variable c : config.
  Hypothesis Hc : tidy c.

  (** what the tokens [w'] that are written for a value are *)
  Definition step (x : sym) (w' : list ptok) (v v' : located val) : Prop :=
    match x with
    | T k => exists l t t' r, snd (fst v) = VTok t /\ term_of t = k /\ w' = [(l, t', r)] /\ v' = (l, VTok t', r) /\ token_becomes c t t' /\ conv c (STok t) = STok t'
    | NT _ => derives lua_grammar x w' v' /\ lsim c v v'
    end.
  Inductive steps : list sym -> list ptok -> list (located val) -> list (located val) -> Prop :=
  | sp_nil' : steps [] [] [] []
  | sp_cons' : forall x xs w1 w2 v v' vs vs', step x w1 v v' -> steps xs w2 vs vs' -> steps (x :: xs) (w1 ++ w2) (v :: vs) (v' :: vs').

  Definition no_char (x : sym) : bool := match x with T k => negb (N.eqb k t_CharStringLiteral) | NT _ => true end.
  Lemma steps_derive xs w' vs vs' : steps xs w' vs vs' -> forallb no_char xs = true ->
    derives_list lua_grammar xs w' vs' /\ asim c vs vs'.
  Proof.
    induction 1 as [|x xs w1 w2 v v' vs vs' Hs H IH]; intros E; [split; constructor|].
    cbn [forallb] in E. apply andb_true_iff in E as [E1 E2]. destruct (IH E2) as [D S]. destruct x as [k|n]; cbn [step] in Hs.
    - destruct Hs as (l & t & t' & r & Hv & Ht & -> & -> & B & _).
      assert (t' = t) as ->. { unfold token_becomes in B. destruct t; try exact B. subst k. discriminate E1. }
      split; [|constructor; [unfold lsim; rewrite Hv; cbn; auto|exact S]]. subst k. constructor; [|exact D].
      exact (d_tok lua_grammar l t r).
    - destruct Hs as [D1 S1]. split; constructor; auto.
  Qed.

  Lemma tokens_app w : forall a b, tokens_of w = a ++ b -> exists w1 w2, w = w1 ++ w2 /\ tokens_of w1 = a /\ tokens_of w2 = b.
  Proof.
    induction w as [|x w IH]; intros a b E.
    - destruct a; [|discriminate]. destruct b; [|discriminate]. exists [], []. auto.
    - destruct a as [|y a]; [exists [], (x :: w); auto|]. cbn in E. injection E as E1 E2. destruct (IH _ _ E2) as (w1 & w2 & -> & <- & <-).
      exists (x :: w1), w2. split; [reflexivity|]. split; [cbn; now rewrite E1|reflexivity].
  Qed.
  Lemma tokens_one w t : tokens_of w = [t] -> exists l r, w = [(l, t, r)].
  Proof. destruct w as [|[[l t'] r] [|]]; cbn; try discriminate. intros [= ->]. eauto. Qed.

  (** separators *)
  Lemma sep_written z : z <> [] -> exists t, separator_tokens (separator_out c z) = [t] /\ is_separator t.
  Proof.
    intros Hz. destruct Hc as (_ & _ & _ & _ & Hf). unfold separator_out. destruct (cs c S_field_separator) as [h|] eqn:E.
    - destruct (Hf h eq_refl) as (b & [-> | ->] & _); cbn; eexists; (split; [reflexivity|]); unfold is_separator; auto.
    - destruct z as [|a z]; [congruence|]. cbn. eexists. split; [reflexivity|]. destruct (N.eqb a 59); unfold is_separator; auto.
  Qed.
  Lemma sep_alike z t : z = s2l "," \/ z = s2l ";" -> separator_tokens (separator_out c z) = [t] -> is_separator t ->
    separator_out c z = separator_out c (sep_string (VTok t)).
  Proof.
    intros Hz. unfold separator_out. destruct (cs c S_field_separator) as [h|]; [reflexivity|].
    destruct Hz as [-> | ->]; cbn; intros [= <-] _; reflexivity.
  Qed.
  (** the separator that is read again behind the last field *)
  Definition reread (ts : list token) : str := match ts with [] => [] | u :: _ => sep_string (VTok u) end.
  Lemma trail_alike z x : z = [] \/ z = s2l "," \/ z = s2l ";" -> trailing_out c z x -> on c B_force_single_line_table = false ->
    last_out c z = last_out c (reread (separator_tokens x)).
  Proof.
    intros Hz (o & Ho & Hx) Hf. destruct Ho as [-> |[Ho _]]; [|congruence].
    assert (N : forall x, cut_of [] x -> x = []) by (intros y (b & E & _); now destruct y).
    assert (S : forall z, z = s2l "," \/ z = s2l ";" -> cut_of (separator_out c z) x ->
      reread (separator_tokens x) <> [] /\ separator_out c z = separator_out c (reread (separator_tokens x))).
    { intros z0 Hz0 Hc0. pose proof (cut_sep _ _ (separator_sep c Hc z0 Hz0) Hc0) as (a & b & -> & Ha & _). destruct Hc0 as (l & E & _).
      split; [destruct Ha as [-> | ->]; discriminate|]. revert E. unfold separator_out. destruct (cs c S_field_separator); [reflexivity|].
      destruct Hz0 as [-> | ->]; cbn; intros [= <- _]; reflexivity. }
    unfold last_out. destruct (cb c B_write_trailing_field_separator) as [[]|]; [|reflexivity|].
    - destruct Hz as [-> |Hz]; [|exact (proj2 (S z Hz Hx))]. destruct (cs c S_field_separator) as [h|] eqn:E.
      + unfold separator_out. now rewrite E.
      + unfold separator_out in Hx. rewrite E in Hx. now rewrite (N _ Hx).
    - destruct Hz as [-> |Hz]; [now rewrite (N _ Hx)|].
      assert (Hz1 : match z with [] => [] | _ :: _ => separator_out c z end = separator_out c z) by (destruct Hz as [-> | ->]; reflexivity).
      rewrite Hz1 in *. destruct (S z Hz Hx) as [S1 ->]. destruct (reread (separator_tokens x)); [congruence|reflexivity].
  Qed.
  Lemma seps_cases x : separator_tokens x = [] \/ exists t, separator_tokens x = [t] /\ is_separator t.
  Proof. destruct x as [|a x]; [now left|right]. eexists. split; [reflexivity|]. destruct (N.eqb a 59); unfold is_separator; auto. Qed.
  Lemma sep_derives l t r : is_separator t -> derives lua_grammar (NT n_FieldSep_) [(l, t, r)] (l, VTok t, r).
  Proof.
    intros [-> | ->].
    - refine (d_prod lua_grammar (P n_FieldSep_ [T t_Comma] pass) [(l, Comma, r)] [(l, VTok Comma, r)] _ _).
      + unfold lua_grammar. cbn [g_prods]. unfold lua_prods. cbn [In]. tauto.
      + change [(l, Comma, r)] with ([(l, Comma, r)] ++ []). constructor; [exact (d_tok lua_grammar l Comma r)|constructor].
    - refine (d_prod lua_grammar (P n_FieldSep_ [T t_Semicolon] pass) [(l, LuaLexer.Semicolon, r)] [(l, VTok LuaLexer.Semicolon, r)] _ _).
      + unfold lua_grammar. cbn [g_prods]. unfold lua_prods. cbn [In]. tauto.
      + change [(l, LuaLexer.Semicolon, r)] with ([(l, LuaLexer.Semicolon, r)] ++ []). constructor; [exact (d_tok lua_grammar l LuaLexer.Semicolon r)|constructor].
  Qed.

  Definition again (x : sym) (v : located val) : Prop :=
    forall w', wrote c (vslots x (snd (fst v))) (tokens_of w') -> exists v', step x w' v v'.
  Definition agains (xs : list sym) (vs : list (located val)) : Prop :=
    forall w', wrote c (vsslots xs vs) (tokens_of w') -> exists vs', steps xs w' vs vs'.

  Definition is_char_prod (p : prod val) : bool := negb (forallb no_char (p_rhs p)).
  Lemma char_prods p : In p lua_prods -> is_char_prod p = true -> p_lhs p = n_StringLiteral_ /\ p_rhs p = [T t_CharStringLiteral] /\
    p_act p = mkleaf KCharStringLiteral.
  Proof.
    intros Hp H. unfold lua_prods in Hp.
    repeat (destruct Hp as [<-|Hp]; [first [discriminate H|repeat split; reflexivity]|]). destruct Hp.
  Qed.
  Lemma normal_prod : In (P n_StringLiteral_ [T t_NormalStringLiteral] (mkleaf KNormalStringLiteral)) lua_prods.
  Proof. unfold lua_prods. cbn [In]. tauto. Qed.
  Lemma field_prods p : In p lua_prods -> p_lhs p = n_TSepEndList_Field_ ->
    p = P n_TSepEndList_Field_ [NT n_Field_] act_sep1 \/ p = P n_TSepEndList_Field_ [NT n_Field_; NT n_FieldSep_] act_sepend1 \/
    p = P n_TSepEndList_Field_ [NT n_Field_; NT n_FieldSep_; NT n_TSepEndList_Field_] act_sep_cons.
  Proof.
    intros Hp H. unfold lua_prods in Hp.
    repeat (destruct Hp as [<-|Hp]; [first [discriminate H|auto]|]). destruct Hp.
  Qed.
End Derive.
