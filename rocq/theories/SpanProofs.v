(** Where the nodes of a tree lie in the text. *)
From Verif Require Import Base Lib LuaLexer Ast LR LRSpec LuaGrammar LuaParser ParserProofs LexSpec LexLoop LayoutSpec LayoutProofs.

(** the kinds a statement can have *)
Definition stat_kind (k : kind) : bool :=
  match k with
  | KNil | KFalse | KTrue | KVarArg | KNumeral | KNormalStringLiteral | KCharStringLiteral | KMultiLineStringLiteral
  | KName | KSheBang | KChunk | KSheBangChunk | KRetStatNone | KFields => false
  | _ => true
  end.
Definition ret_kind (k : kind) : bool :=
  match k with KRetStatNone | KRetStatExpr | KRetStatNoneComma | KRetStatExprComma => true | _ => false end.
Definition list_kind (k : kind) : bool := match k with KStatementList => true | _ => false end.
Definition block_kind (k : kind) : bool :=
  ret_kind k || list_kind k || match k with KStatsRetStat => true | _ => false end.
Definition shebang_kind (k : kind) : bool := match k with KSheBang => true | _ => false end.
Definition kinds (n : N) : kind -> bool :=
  if N.eqb n n_Block_ then block_kind
  else if N.eqb n n_SheBangLine_ then shebang_kind
  else if N.eqb n n_Stats_ then list_kind
  else if N.eqb n n_RetStat_ then ret_kind
  else if existsb (N.eqb n) [n_Stat_; n_StatStartsMayEndsPar_; n_StatMayEndsPar_; n_StatNoPar_; n_Label_;
      n_FunctionCallNoStartsMayEndsPar_; n_FunctionCallStartsMayEndsPar_; n_TList_Stat_] then stat_kind
  else fun _ => true.

(** the items follow each other from [a] to [r] *)
Fixpoint links (a : nat) (its : list (loc * node)) (r : nat) : Prop :=
  match its with
  | [] => a = r
  | (p, x) :: rest => p = (a, fst (n_span x)) /\ links (snd (n_span x)) rest r
  end.
Definition local (n : node) : Prop :=
  match n_kind n with
  | KStatementList => links (fst (n_span n)) (n_items n) (snd (n_span n))
                      /\ forallb (fun x => stat_kind (n_kind (snd x))) (n_items n) = true
  | KStatsRetStat => exists a b, n_kids n = [a; b] /\ n_locs n = [(snd (n_span a), fst (n_span b))]
      /\ n_span n = (fst (n_span a), snd (n_span b)) /\ list_kind (n_kind a) = true /\ ret_kind (n_kind b) = true
      /\ n_items n = [] /\ n_seps n = []
  | _ => True
  end.
Definition inner (t : token) : bool := match t with EOF | SheBang _ => false | _ => true end.
Definition clean (w : list ptok) : Prop := Forall (fun x => inner (snd (fst x)) = true) w.
Inductive placed (ts : list ptok) : node -> Prop :=
| placed_intro : forall n,
    (exists w1 w w2, ts = w1 ++ w ++ w2 /\ wspan (fst (n_span n)) w (snd (n_span n)) /\ (clean w \/ shebang_kind (n_kind n) = true)
       /\ lay (fst (n_span n)) (layout n) (snd (n_span n)) w) ->
    local n -> (forall x, In x (children n) -> placed ts x) -> placed ts n.
(** [q] is the position of the end of the text *)
Definition chunk_local (ts : list ptok) (n : node) : Prop :=
  (n_items n = [] /\ n_seps n = []) /\
  ((n_kind n = KChunk /\ exists e, n_kids n = [nlist KStatementList (e, e) []])
  \/ (n_kind n = KChunk /\ exists b q r, n_kids n = [b] /\ n_locs n = [(0, fst (n_span b)); (snd (n_span b), q)]
      /\ In (q, EOF, r) ts /\ (block_kind (n_kind b) || shebang_kind (n_kind b) = true) /\ placed ts b)
  \/ (n_kind n = KSheBangChunk /\ exists a b q r, n_kids n = [a; b]
      /\ n_locs n = [(0, fst (n_span a)); (snd (n_span a), fst (n_span b)); (snd (n_span b), q)]
      /\ In (q, EOF, r) ts /\ shebang_kind (n_kind a) = true /\ block_kind (n_kind b) = true /\ placed ts a /\ placed ts b)).

Lemma placed_more w1 ts w2 n : placed ts n -> placed (w1 ++ ts ++ w2) n.
Proof.
  induction 1 as [n (v1 & w & v2 & -> & H1 & H0 & H2) L C IH]. constructor; auto. exists (w1 ++ v1), w, (v2 ++ w2).
  split; [|auto].
  now rewrite <- !app_assoc.
Qed.
Lemma placed_l ts w2 n : placed ts n -> placed (ts ++ w2) n.
Proof. apply (placed_more []). Qed.
Lemma placed_r w1 ts n : placed ts n -> placed (w1 ++ ts) n.
Proof. intros H. rewrite <- (app_nil_r ts). now apply placed_more. Qed.

Definition val_placed (x : sym) (w : list ptok) (lv : located val) : Prop :=
  let '(l, v, r) := lv in
  match x with
  | T _ => True
  | NT n => if N.eqb n n_Chunk_ then forall m, v = VNode m -> chunk_local w m
            else Forall (placed w) (vnodes v)
              /\ match v with
                 | VNode m => kinds n (n_kind m) = true
                 | VItems its => links l its r /\ forallb (fun x => kinds n (n_kind (snd x))) its = true
                 | _ => True
                 end
  end.
Inductive vals_placed : list sym -> list ptok -> list (located val) -> Prop :=
| vp_nil : vals_placed [] [] []
| vp_cons : forall x xs w1 w2 v vs, val_ok x w1 v -> val_placed x w1 v -> vals_placed xs w2 vs ->
    vals_placed (x :: xs) (w1 ++ w2) (v :: vs).
Lemma vals_placed_ok xs w vs : vals_placed xs w vs -> vals_ok xs w vs.
Proof. induction 1; constructor; auto. Qed.
Lemma vals_placed_nodes xs w vs : vals_placed xs w vs -> has_chunk xs = false ->
  Forall (placed w) (flat_map (fun x => vnodes (snd (fst x))) vs).
Proof.
  induction 1 as [|x xs w1 w2 [[l v] r] vs Hv Hp H IH]; [constructor|]. cbn [has_chunk existsb flat_map fst snd]. intros Hc.
  apply Bool.orb_false_iff in Hc as [Hc1 Hc2]. apply Forall_app. split.
  - destruct x as [k|n].
    + destruct Hv as (_ & (t & _ & -> & _) & _). constructor.
    + cbn in Hp. rewrite Hc1 in Hp. destruct Hp as [Hp _]. eapply Forall_impl; [|exact Hp]. intros a. apply placed_l.
  - eapply Forall_impl; [|exact (IH Hc2)]. intros a. apply placed_r.
Qed.

Lemma placed_node w l r n ns : n_span n = (l, r) -> children n = ns -> wspan l w r -> clean w \/ shebang_kind (n_kind n) = true -> lay l (layout n) r w -> local n ->
  Forall (placed w) ns -> Forall (placed w) [n].
Proof.
  intros Hs Hc Hw He Hl Hn Hk. constructor; [|constructor]. constructor; auto.
  - exists [], w, []. rewrite app_nil_r, Hs. auto.
  - rewrite Hc. now apply Forall_forall.
Qed.
Lemma links_app a its m x : links a its m -> links a (its ++ [((m, fst (n_span x)), x)]) (snd (n_span x)).
Proof.
  revert a. induction its as [|[p y] its IH]; intros a; cbn [links app].
  - intros ->. auto.
  - intros [H1 H2]. split; auto.
Qed.
Lemma links_first a its r e q : links a its r -> fst (n_span (snd (hd (q, dummy_node) its))) = a -> its <> [] ->
  links e (set_first (e, a) its) r.
Proof.
  destruct its as [|[p y] its]; [congruence|]. cbn [hd snd links set_first]. intros [H1 H2] <- _. auto.
Qed.
Definition boxed (P : Prop) : Prop := P.
Lemma prod_placed p w args : In p lua_prods -> vals_placed (p_rhs p) w args ->
  (N.eqb (p_lhs p) n_Chunk_ || N.eqb (p_lhs p) n_SheBangLine_ = false -> clean w) ->
  val_placed (NT (p_lhs p)) w (a_start args, p_act p args, a_end args).
Proof.
  intros Hp H He.
  assert (Hn : args <> []).
  { pose proof (rhs_nonempty p Hp). destruct (p_rhs p); [congruence|]. intros ->. inversion H. }
  assert (Hc : has_chunk (p_rhs p) = false).
  { assert (G : forallb (fun p => negb (has_chunk (p_rhs p))) lua_prods = true) by (vm_compute; reflexivity).
    rewrite forallb_forall in G. apply G in Hp. now apply Bool.negb_true_iff. }
  pose proof (vals_placed_nodes _ _ _ H Hc) as V. pose proof (vals_span _ _ _ (vals_placed_ok _ _ _ H) Hn) as Hw.
  pose proof (prod_shape p w args Hp (vals_placed_ok _ _ _ H)) as Hsh. clear Hn Hc. change (boxed (shape (NT (p_lhs p)) w (a_start args) (p_act p args) (a_end args))) in Hsh.
  unfold lua_prods in Hp.
  repeat (destruct Hp as [<-|Hp]; [cbn [p_rhs p_lhs p_act] in *; repeat match goal with
    | H : vals_placed (_ :: _) _ _ |- _ => inv H
    | H : vals_placed [] _ _ |- _ => inv H
    | v : located val |- _ => destruct v as [[? ?] ?]
    | H : val_ok _ _ _ |- _ => destruct H as (_ & ? & _)
    | H : val_placed (T _) _ _ |- _ => clear H
    end; unfold shape in *; use_class; use_parts; use_term |]); [.. |destruct Hp].
  all: cbn [val_placed] in *.
  all: repeat match goal with
    | H : context [N.eqb ?a ?b] |- _ => let k := eval vm_compute in (N.eqb a b) in change (N.eqb a b) with k in H
    | |- context [N.eqb ?a ?b] => let k := eval vm_compute in (N.eqb a b) in change (N.eqb a b) with k
    end; cbv iota beta in *; use_parts.
  all: repeat match goal with H : VNode _ = _ |- _ => injection H as H; subst end.
  all: unfold boxed in Hsh; use_class; rewrite ?app_nil_r in Hsh, Hw, He, V; rewrite ?app_nil_r.
  all: unfold mkn, mkbin, mkun, mkleaf, pass, act_list1, act_list_cons, act_list, act_list2, act_seps, act_funcnameself, act_varlist1,
    act_varlist_cons, act_tlist1, act_tlist_snoc, act_sep1, act_sep_cons, act_sepend1, act_chunk_empty, act_chunk, act_shebang_chunk,
    arg_node, arg_items, arg_seps in *; unfold arg_val in *.
  all: cbn [nth map snd fst vnodes] in *; cbv iota beta in *.
  all: lazymatch type of Hsh with
    | exists m, _ /\ _ /\ _ => let m := fresh "m" in let E := fresh "E" in let Es := fresh "Es" in let L := fresh "L" in
        destruct Hsh as (m & E & Es & L);
        try (injection E as E; rewrite <- E in Es, L; refine (conj (placed_node _ _ _ _ _ Es eq_refl Hw _ L _ V) eq_refl); [first [left; exact (He eq_refl)|right; reflexivity]|exact Logic.I])
    | _ => idtac
    end.
  all: try (split; [exact V|exact Logic.I]).
  all: cbn [flat_map vnodes fst snd] in V; rewrite ?app_nil_r in V.
  all: try (split; [exact V|exact Logic.I]).
  all: try (split; assumption).
  all: change (kinds n_Block_) with block_kind in *.
  all: change (kinds n_SheBangLine_) with shebang_kind in *.
  all: change (kinds n_Stats_) with list_kind in *.
  all: change (kinds n_RetStat_) with ret_kind in *.
  all: change (kinds n_Stat_) with stat_kind in *.
  all: change (kinds n_StatStartsMayEndsPar_) with stat_kind in *.
  all: change (kinds n_StatNoPar_) with stat_kind in *.
  all: change (kinds n_TList_Stat_) with stat_kind in *.
  all: cbn [app] in V.
  - intros m [= <-]. split; [split; reflexivity|]. left. split; [reflexivity|]. exists n. reflexivity.
  - intros m [= <-]. split; [split; reflexivity|]. right; left. split; [reflexivity|]. inversion V; subst. exists x0, n, n0. split; [reflexivity|].
    split; [|split; [apply in_or_app; right; now left|split; [|assumption]]].
    + match goal with H : n_span x0 = _ |- _ => rewrite H end. reflexivity.
    + match goal with H : shebang_kind _ = true |- _ => rewrite H end. apply orb_true_r.
  - intros m [= <-]. split; [split; reflexivity|]. right; left. split; [reflexivity|]. inversion V; subst. exists x0, n, n0. split; [reflexivity|].
    split; [|split; [apply in_or_app; right; now left|split; [|assumption]]].
    + match goal with H : n_span x0 = _ |- _ => rewrite H end. reflexivity.
    + match goal with H : block_kind _ = true |- _ => rewrite H end. reflexivity.
  - intros m [= <-]. split; [split; reflexivity|]. right; right. split; [reflexivity|]. inversion V as [|? ? V1 V2]; subst. inversion V2; subst. exists x1, x0, n, n0.
    split; [reflexivity|]. split; [|split; [apply in_or_app; right; apply in_or_app; right; now left|auto]]. repeat match goal with H : n_span _ = _ |- _ => rewrite H; clear H end. reflexivity.
  - split; [exact V|]. unfold block_kind. match goal with H : list_kind _ = true |- _ => rewrite H end. now rewrite orb_true_r.
  - split; [exact V|]. unfold block_kind. match goal with H : ret_kind _ = true |- _ => rewrite H end. reflexivity.
  - injection E as E. rewrite <- E in Es, L. refine (conj (placed_node _ _ _ _ _ Es eq_refl Hw _ L _ V) eq_refl); [left; exact (He eq_refl)|].
    exists x0, x. cbn. clear Es. repeat match goal with H : n_span _ = _ |- _ => rewrite H; clear H end. auto 10.
  - injection E as E. rewrite <- E in Es, L. refine (conj (placed_node _ _ _ _ _ Es eq_refl Hw _ L _ V) eq_refl); [left; exact (He eq_refl)|].
    cbn. clear Es. repeat match goal with H : n_span _ = _ |- _ => rewrite H; clear H end. split; [auto|]. now rewrite andb_true_r.
  - injection E as E. rewrite <- E in Es, L. cbn [links forallb snd] in *. use_parts. refine (conj (placed_node _ _ _ _ _ Es eq_refl Hw _ L _ V) eq_refl); [left; exact (He eq_refl)|].
    clear Es L. cbn. repeat match goal with H : (_, _) = (_, _) |- _ => injection H as H; rewrite <- ?H end.
    repeat match goal with H : n_span _ = _ |- _ => rewrite H; clear H end. cbn. 
    rewrite H6, H4. auto.
  - injection E as E. rewrite <- E in Es, L. refine (conj (placed_node _ _ _ _ _ Es eq_refl Hw _ L _ V) eq_refl); [left; exact (He eq_refl)|]. split; assumption.
  - injection E as E. rewrite <- E in Es, L. refine (conj (placed_node _ _ _ _ _ Es eq_refl Hw _ L _ V) eq_refl); [left; exact (He eq_refl)|].
    cbn. clear Es L. repeat match goal with H : stat_kind _ = true |- _ => rewrite H; clear H end.
    repeat match goal with H : n_span _ = _ |- _ => rewrite H; clear H end. cbn. auto.
  - injection E as E. rewrite <- E in Es, L. refine (conj (placed_node _ _ _ _ _ Es eq_refl Hw _ L _ V) eq_refl); [left; exact (He eq_refl)|]. exact Logic.I.
  - injection E as E. rewrite <- E in Es, L. refine (conj (placed_node _ _ _ _ _ Es eq_refl Hw _ L _ V) eq_refl); [left; exact (He eq_refl)|]. exact Logic.I.
  - split; [exact V|]. cbn. match goal with H : stat_kind _ = true |- _ => rewrite H end.
    repeat match goal with H : n_span _ = _ |- _ => rewrite H; clear H end. cbn. auto.
  - split; [rewrite map_app; exact V|]. cbn [a_start a_end]. match goal with H : n_span x = _ |- _ => rename H into Sx end. split.
    + pose proof (links_app n1 (((n1, n1), x0) :: x1) n2 x) as K. rewrite Sx in K. apply K. cbn [links] in *. tauto.
    + rewrite forallb_app. apply andb_true_iff. split; [assumption|]. cbn. now rewrite andb_true_r.
  - split; [exact V|]. cbn. repeat match goal with H : n_span _ = _ |- _ => rewrite H; clear H end. cbn. auto.
  - split; [rewrite map_app; exact V|]. cbn [a_start a_end]. match goal with H : n_span x = _ |- _ => rename H into Sx end. split.
    + pose proof (links_app n1 (((n1, n1), x0) :: x1) n2 x) as K. rewrite Sx in K. apply K. cbn [links] in *. tauto.
    + apply forallb_forall. intros y _. reflexivity.
  - split; [exact V|]. cbn. repeat match goal with H : n_span _ = _ |- _ => rewrite H; clear H end. cbn. auto.
  - split; [rewrite map_app; exact V|]. cbn [a_start a_end]. match goal with H : n_span x = _ |- _ => rename H into Sx end. split.
    + pose proof (links_app n1 (((n1, n1), x0) :: x1) n2 x) as K. rewrite Sx in K. apply K. cbn [links] in *. tauto.
    + apply forallb_forall. intros y _. reflexivity.
Qed.

Definition inner_sym (x : sym) : bool :=
  match x with
  | T k => negb (N.eqb k (term_of EOF) || N.eqb k (term_of (SheBang [])))
  | NT n => negb (N.eqb n n_Chunk_ || N.eqb n n_SheBangLine_)
  end.
Lemma clean_words : (forall x w v, derives lua_grammar x w v -> inner_sym x = true -> clean w) /\
  (forall xs w vs, derives_list lua_grammar xs w vs -> forallb inner_sym xs = true -> clean w).
Proof.
  apply (derives_both _ _ lua_grammar (fun x w v _ => inner_sym x = true -> clean w) (fun xs w vs _ => forallb inner_sym xs = true -> clean w)).
  - intros l t r E. constructor; [|constructor]. cbn [fst snd]. destruct t; try reflexivity; discriminate E.
  - intros p w args Hp D IH E. apply IH. change (In p lua_prods) in Hp.
    assert (G : forallb (fun p => negb (inner_sym (NT (p_lhs p))) || forallb inner_sym (p_rhs p)) lua_prods = true) by (vm_compute; reflexivity).
    rewrite forallb_forall in G. apply G in Hp. rewrite E in Hp. exact Hp.
  - intros _. constructor.
  - intros x xs w1 w2 v vs D IH D2 IH2 E. cbn [forallb] in E. apply andb_true_iff in E as [E1 E2]. apply Forall_app. split; [exact (IH E1)|exact (IH2 E2)].
Qed.
Lemma all_placed : (forall x w v, derives lua_grammar x w v -> val_placed x w v) /\
  (forall xs w vs, derives_list lua_grammar xs w vs -> vals_placed xs w vs).
Proof.
  apply (derives_both _ _ lua_grammar (fun x w v _ => val_placed x w v) (fun xs w vs _ => vals_placed xs w vs)).
  - intros l t r. exact Logic.I.
  - intros p w args Hp D IH. change (In p lua_prods) in Hp. apply prod_placed; [assumption|assumption|].
    intros E. eapply (proj1 clean_words); [econstructor; [exact Hp|exact D]|]. cbn [inner_sym]. now rewrite E.
  - constructor.
  - intros x xs w1 w2 v vs D IH D2 IH2. constructor; auto. exact (proj1 shapes _ _ _ D).
Qed.

Theorem tree_placed src n : parse_lua src = Parsed n -> exists ts, lex src = LexOk ts /\ chunk_local ts n.
Proof.
  unfold parse_lua. destruct (lex src) as [ts|e|] eqn:L; try discriminate.
  destruct (parse_tokens ts) as [v| |] eqn:P; try discriminate. destruct v as [| n' | | |] eqn:Ev; try discriminate.
  intros [= <-]. exists ts. split; [reflexivity|]. apply parse_tokens_correct in P as (l & r & D).
  apply (proj1 all_placed) in D. change (g_start lua_grammar) with n_Chunk_ in D. cbn in D. now apply D.
Qed.
