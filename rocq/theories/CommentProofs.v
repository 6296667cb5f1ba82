(** The comment lexer and parser on the text between two tokens. *)
From Verif Require Import Base Lib LexUtil LuaLexer LexSpec LexProofs LexLoop CommentLexer LR LRSpec CommentGrammar
  CommentParser ParserProofs CommentSpec.

Definition ctok_step (i : nat) (g : gitem) (rest : str) : lstep ctoken :=
  let c := (i + List.length (gitem_text g), rest) in
  match comment_token g with
  | Some t => LTok i t (i + List.length (gitem_text g)) c
  | None => LSkip c
  end.
Lemma cvalue_token g : is_comment g = true ->
  comment_token g = Some (match fst (cvalue g) with Some l => CMultiLine l (snd (cvalue g)) | None => COneLine (snd (cvalue g)) end).
Proof. destruct g; try discriminate; reflexivity. Qed.
Lemma citem_back i g rest ch r : gitem_ok g -> (is_last g = true -> rest = []) -> gitem_text g ++ rest = ch :: r ->
  clex_step i ch r = ctok_step i g rest.
Proof.
  intros Hok Hl E. unfold ctok_step. destruct (is_comment g) eqn:Ec.
  - rewrite (cvalue_token g Ec). rewrite cbody_text in * by exact Ec. cbn [app] in E. injection E as <- <-.
    unfold clex_step. cbv zeta. change (ceq 45%N ch_sp || ceq 45%N ch_cr || ceq 45%N ch_tab) with false.
    change (ceq 45%N ch_nl) with false. change (ceq 45%N (chr "-")) with true. cbv iota.
    change (advance (S i, 45%N :: cbody g ++ rest)) with (S (S i), cbody g ++ rest).
    replace (S (S i)) with (i + 2) by lia.
    destruct (comment_bwd (i + 2) g rest Ec Hok Hl) as (ts & te & ->).
    replace (i + List.length ([45; 45]%N ++ cbody g)) with (i + 2 + List.length (cbody g)) by (cbn; lia). reflexivity.
  - destruct g as [c| | | |]; try discriminate; cbn in *; injection E as <- <-.
    + replace (i + 1) with (S i) by lia. destruct Hok as [<-|[<-|[<-|[]]]]; reflexivity.
    + replace (i + 1) with (S i) by lia. unfold clex_step. change (ceq 10%N ch_sp || ceq 10%N ch_cr || ceq 10%N ch_tab) with false.
      change (ceq 10%N ch_nl) with true. cbv iota zeta. now replace (i + 1) with (S i) by lia.
Qed.

Lemma clex_gap : forall l p fuel n, Forall gitem_ok l ->
  (forall l0 g, l = l0 ++ [g] -> forall h, In h l0 -> is_last h = false) ->
  List.length (gap_text l) < fuel -> n = p + List.length (gap_text l) ->
  clex_loop n fuel (p, gap_text l) = LexOk (comment_tokens p l ++ [(n, CEOF, n)]).
Proof.
  induction l as [|g l IH]; intros p fuel n Hok Hl Hf ->.
  - destruct fuel as [|fuel]; [cbn in Hf; lia|]. reflexivity.
  - destruct fuel as [|fuel]; [lia|]. inversion Hok as [|? ? Hg Hok']; subst.
    assert (Hne : 1 <= List.length (gitem_text g)) by (destruct g; cbn; lia).
    rewrite gap_len in Hf.
    destruct (gap_text (g :: l)) as [|ch r] eqn:E.
    { apply (f_equal (@List.length N)) in E. rewrite gap_len in E. cbn in E. lia. }
    assert (Hlast : is_last g = true -> gap_text l = []).
    { intros Hg'. destruct l as [|h l]; [reflexivity|]. destruct (exists_last (l := h :: l)) as (l0 & x & El); [discriminate|].
      rewrite (Hl (g :: l0) x) in Hg'; [discriminate|now rewrite El|now left]. }
    cbn [clex_loop snd fst]. rewrite (citem_back p g (gap_text l) ch r Hg Hlast E).
    assert (L : clex_loop (p + List.length (ch :: r)) fuel (p + List.length (gitem_text g), gap_text l) =
                LexOk (comment_tokens (p + List.length (gitem_text g)) l ++ [(p + List.length (ch :: r), CEOF, p + List.length (ch :: r))])).
    { apply IH; auto; [|lia|rewrite <- E, gap_len; lia]. intros l0 x -> h Hh. apply (Hl (g :: l0) x); [reflexivity|now right]. }
    unfold ctok_step. cbn [comment_tokens]. cbv zeta. destruct (comment_token g); rewrite L; reflexivity.
Qed.

Lemma last_gap_ok l : last_gap l -> Forall gitem_ok l /\ (forall l0 g, l = l0 ++ [g] -> forall h, In h l0 -> is_last h = false).
Proof.
  intros (l0 & l1 & -> & H0 & H1). split.
  - apply Forall_app. split; [eapply Forall_impl; [|exact H0]; intros g Hg; apply Hg|].
    destruct H1 as [->|(s & -> & Hs)]; constructor; auto.
  - unfold gap in H0. rewrite Forall_forall in H0. intros l2 g E h Hh. destruct H1 as [->|(s & -> & Hs)].
    + rewrite app_nil_r in E. subst l0. apply H0. apply in_or_app. now left.
    + apply app_inj_tail in E. destruct E as [-> _]. now apply H0.
Qed.
Lemma clex_gap_text l : last_gap l ->
  clex (gap_text l) = LexOk (comment_tokens 0 l ++ [(List.length (gap_text l), CEOF, List.length (gap_text l))]).
Proof. intros H. apply last_gap_ok in H. destruct H. unfold clex. apply clex_gap; auto. Qed.

(** ** every list of comment tokens is accepted *)
Notation cderives := (derives comment_grammar).
Notation ctok := (nat * ctoken * nat)%type.
Definition cder (n : N) (w : list ctok) : Prop := exists v, cderives (NT n) w v.

Ltac inp := repeat (first [left; reflexivity | right]).
Lemma cder_prod p w args : In p comment_prods -> derives_list comment_grammar (p_rhs p) w args -> cder (p_lhs p) w.
Proof. intros Hp D. exists (a_start args, p_act p args, a_end args). now apply d_prod. Qed.
Lemma cder1 k lhs act w : In (mk_prod (val := cval) lhs [NT k] act) comment_prods -> cder k w -> cder lhs w.
Proof.
  intros Hp [v D]. rewrite <- (app_nil_r w). apply (cder_prod _ _ [v] Hp).
  apply dl_cons; [exact D|constructor].
Qed.
Lemma cder2 k1 k2 lhs act w1 w2 : In (mk_prod (val := cval) lhs [NT k1; NT k2] act) comment_prods ->
  cder k1 w1 -> cder k2 w2 -> cder lhs (w1 ++ w2).
Proof.
  intros Hp [v1 D1] [v2 D2]. rewrite <- (app_nil_r w2). apply (cder_prod _ _ [v1; v2] Hp).
  apply dl_cons; [exact D1|]. apply dl_cons; [exact D2|constructor].
Qed.
Lemma cder3 k1 k2 k3 lhs act w1 w2 w3 : In (mk_prod (val := cval) lhs [NT k1; NT k2; NT k3] act) comment_prods ->
  cder k1 w1 -> cder k2 w2 -> cder k3 w3 -> cder lhs (w1 ++ w2 ++ w3).
Proof.
  intros Hp [v1 D1] [v2 D2] [v3 D3]. rewrite <- (app_nil_r w3). apply (cder_prod _ _ [v1; v2; v3] Hp).
  apply dl_cons; [exact D1|]. apply dl_cons; [exact D2|]. apply dl_cons; [exact D3|constructor].
Qed.
Lemma cder_tok t lhs act l r : In (mk_prod (val := cval) lhs [T (cterm_of t)] act) comment_prods -> cder lhs [(l, t, r)].
Proof.
  intros Hp. apply (cder_prod _ [(l, t, r)] [(l, CVTok t, r)] Hp).
  apply (dl_cons comment_grammar _ _ [(l, t, r)] []); [apply (d_tok comment_grammar)|constructor].
Qed.

(** what may stand before a last run of comments, or of newlines *)
Definition pre_c (w : list ctok) : Prop :=
  w = [] \/ cder cn_HelperCN w \/ cder cn_NewLineList w
  \/ exists a b, w = a ++ b /\ cder cn_HelperNC a /\ cder cn_NewLineList b.
Definition pre_n (w : list ctok) : Prop :=
  w = [] \/ cder cn_HelperNC w \/ cder cn_CommentList w
  \/ exists a b, w = a ++ b /\ cder cn_HelperCN a /\ cder cn_CommentList b.
Lemma tlist_c w : cder cn_TListC w -> cder cn_CommentList w.
Proof. apply (cder1 _ _ cact_comments). cbn. inp. Qed.
Lemma tlist_n w : cder cn_TListN w -> cder cn_NewLineList w.
Proof. apply (cder1 _ _ cact_newlines). cbn. inp. Qed.
Lemma pre_c_n w1 w2 : pre_c w1 -> cder cn_CommentList w2 -> pre_n (w1 ++ w2).
Proof.
  intros [->|[H|[H|(a & b & -> & Ha & Hb)]]] H2.
  - right. right. now left.
  - right. right. right. eauto.
  - right. left. apply (cder2 _ _ _ cact_helper2) with (2 := H) (3 := H2). cbn. inp.
  - right. left. rewrite <- app_assoc. apply (cder3 _ _ _ _ cact_helper_snoc2) with (2 := Ha) (3 := Hb) (4 := H2). cbn. inp.
Qed.
Lemma pre_n_c w1 w2 : pre_n w1 -> cder cn_NewLineList w2 -> pre_c (w1 ++ w2).
Proof.
  intros [->|[H|[H|(a & b & -> & Ha & Hb)]]] H2.
  - right. right. now left.
  - right. right. right. eauto.
  - right. left. apply (cder2 _ _ _ cact_helper2) with (2 := H) (3 := H2). cbn. inp.
  - right. left. rewrite <- app_assoc. apply (cder3 _ _ _ _ cact_helper_snoc2) with (2 := Ha) (3 := Hb) (4 := H2). cbn. inp.
Qed.
Lemma alt_cn w : cder cn_AltCN w -> cder cn_VariantList w.
Proof. apply (cder1 _ _ cact_variants). cbn. inp. Qed.
Lemma alt_nc w : cder cn_AltNC w -> cder cn_VariantList w.
Proof. apply (cder1 _ _ cact_variants). cbn. inp. Qed.
Lemma pre_c_done w1 w2 : pre_c w1 -> cder cn_CommentList w2 -> cder cn_VariantList (w1 ++ w2).
Proof.
  intros [->|[H|[H|(a & b & -> & Ha & Hb)]]] H2.
  - apply alt_cn. revert H2. apply (cder1 _ _ cact_alt1). cbn. inp.
  - apply alt_cn. apply (cder2 _ _ _ cact_alt_snoc) with (2 := H) (3 := H2). cbn. inp.
  - apply alt_nc. apply (cder1 cn_HelperNC _ cpass); [cbn; inp|]. apply (cder2 _ _ _ cact_helper2) with (2 := H) (3 := H2). cbn. inp.
  - apply alt_nc. apply (cder1 cn_HelperNC _ cpass); [cbn; inp|]. rewrite <- app_assoc.
    apply (cder3 _ _ _ _ cact_helper_snoc2) with (2 := Ha) (3 := Hb) (4 := H2). cbn. inp.
Qed.
Lemma pre_n_done w1 w2 : pre_n w1 -> cder cn_NewLineList w2 -> cder cn_VariantList (w1 ++ w2).
Proof.
  intros [->|[H|[H|(a & b & -> & Ha & Hb)]]] H2.
  - apply alt_nc. revert H2. apply (cder1 _ _ cact_alt1). cbn. inp.
  - apply alt_nc. apply (cder2 _ _ _ cact_alt_snoc) with (2 := H) (3 := H2). cbn. inp.
  - apply alt_cn. apply (cder1 cn_HelperCN _ cpass); [cbn; inp|]. apply (cder2 _ _ _ cact_helper2) with (2 := H) (3 := H2). cbn. inp.
  - apply alt_cn. apply (cder1 cn_HelperCN _ cpass); [cbn; inp|]. rewrite <- app_assoc.
    apply (cder3 _ _ _ _ cact_helper_snoc2) with (2 := Ha) (3 := Hb) (4 := H2). cbn. inp.
Qed.

Definition runs (w : list ctok) : Prop :=
  exists w1 w2, w = w1 ++ w2 /\ ((pre_c w1 /\ cder cn_TListC w2) \/ (pre_n w1 /\ cder cn_TListN w2)).
Lemma one_comment l t r : t = CNewLine \/ t = CEOF \/ cder cn_Comment [(l, t, r)].
Proof.
  destruct t; auto; right; right; eapply (cder_tok _ _ cact_atom); cbn; inp.
Qed.
Lemma one_newline l r : cder cn_NewLine [(l, CNewLine, r)].
Proof. apply (cder_tok _ _ cact_atom). cbn. inp. Qed.
Lemma tlc1 x : cder cn_Comment [x] -> cder cn_TListC [x].
Proof. apply (cder1 _ _ cact_tlist1). cbn. inp. Qed.
Lemma tln1 x : cder cn_NewLine [x] -> cder cn_TListN [x].
Proof. apply (cder1 _ _ cact_tlist1). cbn. inp. Qed.
Lemma all_runs : forall w, Forall (fun x => snd (fst x) <> CEOF) w -> w = [] \/ runs w.
Proof.
  induction w as [|[[l t] r] w IH] using rev_ind; intros H; [now left|right].
  apply Forall_app in H. destruct H as [Hw Ht]. inversion Ht as [|? ? Ht' _]; subst. cbn in Ht'.
  destruct (one_comment l t r) as [->|[->|Hc]]; [|congruence|].
  - pose proof (one_newline l r) as Hn. destruct (IH Hw) as [->|(w1 & w2 & -> & [[Hp H2]|[Hp H2]])].
    + exists [], [(l, CNewLine, r)]. split; [reflexivity|]. right. split; [now left|now apply tln1].
    + exists (w1 ++ w2), [(l, CNewLine, r)]. split; [reflexivity|]. right. split; [|now apply tln1].
      apply pre_c_n; auto. now apply tlist_c.
    + exists w1, (w2 ++ [(l, CNewLine, r)]). split; [now rewrite app_assoc|]. right. split; [exact Hp|].
      apply (cder2 _ _ _ cact_tlist_snoc) with (2 := H2) (3 := Hn). cbn. inp.
  - destruct (IH Hw) as [->|(w1 & w2 & -> & [[Hp H2]|[Hp H2]])].
    + exists [], [(l, t, r)]. split; [reflexivity|]. left. split; [now left|now apply tlc1].
    + exists w1, (w2 ++ [(l, t, r)]). split; [now rewrite app_assoc|]. left. split; [exact Hp|].
      apply (cder2 _ _ _ cact_tlist_snoc) with (2 := H2) (3 := Hc). cbn. inp.
    + exists (w1 ++ w2), [(l, t, r)]. split; [reflexivity|]. left. split; [|now apply tlc1].
      apply pre_n_c; auto. now apply tlist_n.
Qed.
Lemma csentence w n : Forall (fun x => snd (fst x) <> CEOF) w -> exists v, sentence comment_grammar (w ++ [(n, CEOF, n)]) v.
Proof.
  intros H. destruct (all_runs w H) as [->|(w1 & w2 & -> & R)].
  - destruct (cder_tok CEOF cn_Chunk cact_empty n n) as [[[l v] r] D]; [cbn; inp|]. exists v, l, r. exact D.
  - assert (D : cder cn_VariantList (w1 ++ w2)).
    { destruct R as [[Hp H2]|[Hp H2]]; [apply pre_c_done|apply pre_n_done]; auto; [now apply tlist_c|now apply tlist_n]. }
    destruct D as [v D]. do 3 eexists.
    apply (d_prod comment_grammar (mk_prod cn_Chunk [NT cn_VariantList; T ct_EOF] cact_chunk)); [cbn; inp|].
    econstructor; [exact D|]. apply (dl_cons comment_grammar _ _ [(n, CEOF, n)] []); [apply (d_tok comment_grammar n CEOF n)|constructor].
Qed.

(** ** the shape of the trees *)
Lemma clay_app p s1 q w1 : clay p s1 q w1 -> (forall l r, ~ In (l, CEOF, r) w1) -> forall s2 e w2, clay q s2 e w2 -> clay p (s1 ++ s2) e (w1 ++ w2).
Proof.
  induction 1 as [p|p r|a b ss e w Hb H IH|l t r a ss e w Ha H IH]; intros He s2 e2 w2 H2; cbn [app].
  - exact H2.
  - exfalso. eapply He. now left.
  - apply cl_sp; [|auto]. destruct Hb as [->|(t & r & w' & ->)]; [now left|right]. cbn. eauto.
  - apply cl_at; [exact Ha|]. apply IH; auto. intros l' r' Hin. apply (He l' r'). now right.
Qed.
Definition begins (w : list ctok) (l : nat) : Prop := exists t r w', w = (l, t, r) :: w'.
Definition noeof (w : list ctok) : Prop := forall l r, ~ In (l, CEOF, r) w.

Inductive cclass := KAtom | KAtoms | KGroup | KGroups | KVariants | KChunkC.
Definition cclass_of (n : N) : cclass :=
  nth (N.to_nat n) [KChunkC; KVariants; KGroups; KGroups; KGroups; KGroups; KGroup; KGroup; KAtom; KAtom; KAtoms; KAtoms] KChunkC.

Definition cval_ok (x : sym) (w : list ctok) (lv : located cval) : Prop :=
  let '(l, v, r) := lv in
  begins w l /\
  match x with
  | T k => exists t, w = [(l, t, r)] /\ v = CVTok t /\ cterm_of t = k
  | NT n =>
      match cclass_of n with
      | KAtom => noeof w /\ exists t a, w = [(l, t, r)] /\ v = CVAtom a /\ atom_of (l, t, r) = Some a
      | KAtoms => noeof w /\ exists its, v = CVAtoms its /\ clay l (atoms_slots its) r w
      | KGroup => noeof w /\ exists g, v = CVGroup g /\ clay l (group_slots g) r w
      | KGroups => noeof w /\ exists gs, v = CVGroups gs /\ clay l (groups_slots gs) r w
      | KVariants => noeof w /\ exists sp gs, v = CVVariants sp gs /\ clay l (groups_slots gs) r w
      | KChunkC => exists t, v = CVChunk t /\ clay 0 (chunk_slots t) r w
      end
  end.
Inductive cvals_ok : list sym -> list ctok -> list (located cval) -> Prop :=
| cvs_nil : cvals_ok [] [] []
| cvs_cons : forall x xs w1 w2 v vs, cval_ok x w1 v -> cvals_ok xs w2 vs -> cvals_ok (x :: xs) (w1 ++ w2) (v :: vs).

Ltac inv H := inversion H; subst; clear H.
Lemma begins_app w1 w2 l : begins w1 l -> begins (w1 ++ w2) l.
Proof. intros (t & r & w' & ->). cbn. unfold begins. eauto. Qed.
Lemma noeof_app w1 w2 : noeof w1 -> noeof w2 -> noeof (w1 ++ w2).
Proof. intros H1 H2 l r H. apply in_app_or in H. destruct H; [eapply H1|eapply H2]; eauto. Qed.

Lemma atoms_slots_app a b : atoms_slots (a ++ b) = atoms_slots a ++ atoms_slots b.
Proof. apply flat_map_app. Qed.
Lemma groups_slots_app a b : groups_slots (a ++ b) = groups_slots a ++ groups_slots b.
Proof. apply flat_map_app. Qed.
Lemma groups_slots_one p g : groups_slots [(p, g)] = CSp p :: group_slots g.
Proof. cbn. now rewrite app_nil_r. Qed.
Lemma groups_slots_two p g q h : groups_slots [(p, g); (q, h)] = CSp p :: group_slots g ++ CSp q :: group_slots h.
Proof. cbn. now rewrite app_nil_r. Qed.
Lemma clay_sp_next a b ss e w : clay b ss e w -> begins w b -> clay a (CSp (a, b) :: ss) e w.
Proof. intros H (t & r & w' & ->). apply cl_sp; [right; eauto|exact H]. Qed.
Lemma clay_sp_empty a ss e w : clay a ss e w -> clay a (CSp (a, a) :: ss) e w.
Proof. intros H. apply cl_sp; [now left|exact H]. Qed.

Lemma cprod_ok p w args : In p comment_prods -> cvals_ok (p_rhs p) w args ->
  cval_ok (NT (p_lhs p)) w (a_start args, p_act p args, a_end args).
Proof.
  intros Hp H. unfold comment_prods in Hp.
  repeat (destruct Hp as [<-|Hp]; [cbn [p_rhs p_lhs p_act] in *; repeat match goal with
    | H : cvals_ok (_ :: _) _ _ |- _ => inv H
    | H : cvals_ok [] _ _ |- _ => inv H
    | v : located cval |- _ => destruct v as [[? ?] ?]
    end; rewrite ?app_nil_r; unfold cval_ok in *; cbn [a_start a_end] in * |]); [.. |destruct Hp].
  all: repeat match goal with
    | H : context [cclass_of ?n] |- _ => let k := eval vm_compute in (cclass_of n) in change (cclass_of n) with k in H
    | |- context [cclass_of ?n] => let k := eval vm_compute in (cclass_of n) in change (cclass_of n) with k
    end; cbv iota beta in *.
  all: repeat match goal with
    | H : _ /\ _ |- _ => destruct H
    | H : exists _, _ |- _ => destruct H
    end; subst.
  all: repeat match goal with |- _ /\ _ => split end; try (now repeat apply begins_app); try (now repeat apply noeof_app).
  all: repeat match goal with
    | H : cterm_of ?t = _ |- _ => first [destruct t; try discriminate H; clear H | fail]
    end.
  all: try match goal with |- noeof [_] => intros ? ? [HH|[]]; discriminate HH end.
  { (* empty chunk *)
    eexists. split; [reflexivity|]. cbn. apply clay_sp_next; [|unfold begins; eauto]. apply clay_sp_empty. repeat match goal with H : (_, _, _) = (_, _, _) |- _ => inv H end. apply cl_end. }
  { eexists. split; [reflexivity|]. unfold chunk_slots. cbn [cc_locl cc_groups cc_locr cact_chunk carg map nth fst snd cvariants_of cgap a_start].
    apply clay_sp_next; [|now apply begins_app]. eapply clay_app; eauto. apply clay_sp_next; [|unfold begins; eauto].
    repeat match goal with H : _ = [_] |- _ => inv H end. apply cl_end. }
  all: try (now (do 2 eexists; split; [reflexivity|]; eassumption)).
  all: try (now (do 1 eexists; split; [reflexivity|]; eassumption)).
  all: try (now (do 2 eexists; repeat split)).
  all: eexists; (split; [reflexivity|]).
  all: repeat match goal with
    | |- context [cgap ?i ?a] => let k := eval cbn in (cgap i a) in change (cgap i a) with k
    | |- context [clstart ?a] => let k := eval cbn in (clstart a) in change (clstart a) with k
    | |- context [carg ?i ?a] => let k := eval cbn in (carg i a) in change (carg i a) with k
    end; cbn [cgroups_of cgroup_of catoms_of catom_of];
    rewrite ?groups_slots_app, ?atoms_slots_app; rewrite ?groups_slots_one.
  all: try (apply clay_sp_empty; assumption).
  all: try (cbn; apply clay_sp_empty; eapply cl_at; [eassumption|]; apply cl_nil).
  all: try (eapply clay_app; [eassumption|assumption|]; apply clay_sp_next; [assumption|]; assumption).

  all: try rewrite groups_slots_two.
  all: repeat match goal with |- context [carg ?i ?a] => let k := eval cbn in (carg i a) in change (carg i a) with k end;
    cbn [cgroup_of].
  all: try (apply clay_sp_empty; eapply clay_app; [eassumption|assumption|]; apply clay_sp_next; [assumption|]; assumption).
  all: try (eapply clay_app; [eassumption|assumption|]; apply clay_sp_next; [|now apply begins_app];
            eapply clay_app; [eassumption|assumption|]; apply clay_sp_next; assumption).
  all: eapply clay_app; [eassumption|assumption|]; cbn; apply clay_sp_next; [|assumption]; eapply cl_at; [eassumption|]; apply cl_nil.
Qed.

Lemma cshape : (forall x w v, cderives x w v -> cval_ok x w v) /\
  (forall xs w vs, derives_list comment_grammar xs w vs -> cvals_ok xs w vs).
Proof.
  apply (derives_both _ _ comment_grammar (fun x w v _ => cval_ok x w v) (fun xs w vs _ => cvals_ok xs w vs)).
  - intros l t r. cbn. split; [unfold begins; eauto|]. eauto.
  - intros p w args Hp D IH. now apply cprod_ok.
  - constructor.
  - intros. now constructor.
Qed.

Lemma comment_tokens_noeof gs : forall p, Forall (fun x => snd (fst x) <> CEOF) (comment_tokens p gs).
Proof.
  induction gs as [|g gs IH]; intros p; cbn; [constructor|].
  destruct (comment_token g) eqn:E; [|apply IH]. constructor; [|apply IH]. cbn. destruct g; cbn in E; congruence.
Qed.

(** The comment parser accepts the text between two tokens, and the tree is that text's. *)
Lemma parse_gap gs : last_gap gs -> exists t, parse_comment (gap_text gs) = Some t /\
  clay 0 (chunk_slots t) (List.length (gap_text gs))
    (comment_tokens 0 gs ++ [(List.length (gap_text gs), CEOF, List.length (gap_text gs))]).
Proof.
  intros Hg. unfold parse_comment. rewrite (clex_gap_text gs Hg).
  set (n := List.length (gap_text gs)). set (w := comment_tokens 0 gs ++ [(n, CEOF, n)]).
  destruct (csentence (comment_tokens 0 gs) n (comment_tokens_noeof gs 0)) as [v S]. fold w in S.
  pose proof S as (l & r & D). apply (proj1 cshape) in D. cbn in D.
  destruct D as [_ (t & -> & C)]. exists t. apply parse_ctokens_correct in S. rewrite S. split; [reflexivity|].
  enough (E : r = n) by now rewrite <- E. subst w. clear - C.
  assert (G : forall p ss e w, clay p ss e w -> forall w0 l t r', w = w0 ++ [(l, t, r')] -> t = CEOF -> noeof w0 -> e = r' \/ False).
  { intros p ss e w H. induction H as [p|p r0|a b ss e w Hb H IH|l0 t0 r0 a ss e w Ha H IH]; intros w0 l' t' r' E Et Hw.
    - destruct w0; discriminate.
    - destruct w0 as [|? [|]]; [|discriminate|discriminate]. cbn in E. injection E as <- _ <-. now left.
    - eapply IH; eauto.
    - destruct w0 as [|x w0].
      + cbn in E. injection E as -> -> -> ->. subst t'. discriminate.
      + cbn in E. injection E as <- E. eapply IH; eauto. intros ? ? Hin. eapply Hw. right. exact Hin. }
  destruct (G _ _ _ _ C _ _ _ _ eq_refl eq_refl) as [H|[]]; auto.
  intros l' r' Hin. pose proof (comment_tokens_noeof gs 0) as F. rewrite Forall_forall in F. apply F in Hin. now apply Hin.
Qed.

(** ** what the slots hold *)
Definition blank (c : char) : bool := N.eqb c 32 || N.eqb c 13 || N.eqb c 9.
Definition blanks (s : str) : Prop := Forall (fun c => blank c = true) s.
Lemma gitem_blank c : gitem_ok (GBlank c) -> blank c = true.
Proof. intros [<-|[<-|[<-|[]]]]; reflexivity. Qed.

(** from index [p] on, the text is blank up to the next token *)
Fixpoint spaced (buf : str) (p : nat) (w : list ctok) : Prop :=
  match w with
  | [] => True
  | (l, _, r) :: w' => p <= l /\ l <= r /\ r <= List.length buf /\ blanks (text_at buf p l) /\ spaced buf r w'
  end.
Lemma text_at_empty (s : str) a : text_at s a a = [].
Proof. unfold text_at. now rewrite Nat.sub_diag. Qed.
Lemma firstn_plus {A} a b (s : list A) : firstn (a + b) s = firstn a s ++ firstn b (skipn a s).
Proof.
  revert s; induction a as [|a IH]; intros [|c s]; cbn; try reflexivity; [now rewrite firstn_nil|]. now rewrite IH.
Qed.
Lemma text_at_split (s : str) a b c : a <= b -> b <= c -> text_at s a c = text_at s a b ++ text_at s b c.
Proof.
  intros H1 H2. unfold text_at. replace (c - a) with ((b - a) + (c - b)) by lia.
  rewrite firstn_plus. f_equal. rewrite skipn_skipn. do 2 f_equal. lia.
Qed.
Lemma spaced_gap gs : Forall gitem_ok gs -> forall pre buf p n, buf = pre ++ gap_text gs -> p = List.length pre -> n = List.length buf ->
  forall q, q <= p -> blanks (text_at buf q p) ->
  spaced buf q (comment_tokens p gs ++ [(n, CEOF, n)]).
Proof.
  intros Hok. induction Hok as [|g gs Hg Hok IH]; intros pre buf p n Eb Ep En q Hq Hb.
  - cbn. rewrite app_nil_r in Eb. subst. repeat split; auto.
  - assert (Eb' : buf = (pre ++ gitem_text g) ++ gap_text gs) by (now rewrite Eb, <- app_assoc).
    assert (Ep' : p + List.length (gitem_text g) = List.length (pre ++ gitem_text g)) by (rewrite app_length; lia).
    assert (Hl : p + List.length (gitem_text g) <= n) by (rewrite En, Eb', !app_length; lia).
    cbn [comment_tokens]. cbv zeta. destruct (comment_token g) as [t|] eqn:Et.
    + cbn [app spaced]. repeat split; auto; try lia.
      apply (IH _ _ _ _ Eb' Ep' En); [lia|]. rewrite text_at_empty. constructor.
    + apply (IH _ _ _ _ Eb' Ep' En); [lia|]. rewrite (text_at_split _ q p) by lia. apply Forall_app. split; [exact Hb|].
      destruct g; try discriminate. rewrite Eb. change (gap_text (GBlank c :: gs)) with ([c] ++ gap_text gs).
      rewrite (text_at_mid pre [c]) by (cbn; lia).
      constructor; [now apply gitem_blank|constructor].
Qed.

Definition cslot_ok (buf : str) (s : cslot) : Prop :=
  match s with CSp l => fst l <= snd l /\ snd l <= List.length buf /\ blanks (text_at buf (fst l) (snd l)) | CAt _ => True end.
Lemma clay_slots buf p ss e w : clay p ss e w -> forall q, q <= p -> p <= List.length buf -> spaced buf q w -> (q = p \/ begins w p) ->
  Forall (cslot_ok buf) ss.
Proof.
  induction 1 as [p|p r|a b ss e w Hb H IH|l t r a ss e w Ha H IH]; intros q Hq Hp Hs Hqp; try constructor.
  - cbn [cslot_ok fst snd]. destruct Hb as [->|(t & r & w' & ->)].
    + rewrite text_at_empty. repeat split; auto. constructor.
    + cbn in Hs. destruct Hs as (S1 & S2 & S3 & S4 & S5). assert (a <= b).
      { destruct Hqp as [->|(? & ? & ? & E)]; [exact S1|]. injection E as -> _ _ _. lia. }
      repeat split; try lia. rewrite (text_at_split _ q a b) in S4 by lia. apply Forall_app in S4. apply S4.
  - destruct Hb as [->|(t & r & w' & ->)]; [eapply IH; eauto|].
    cbn in Hs. apply (IH q); [lia|lia|exact Hs|right; unfold begins; eauto].
  - exact I.
  - cbn in Hs. destruct Hs as (S1 & S2 & S3 & S4 & S5). apply (IH r); auto.
Qed.

Fixpoint catoms (ss : list cslot) : list catom :=
  match ss with [] => [] | CSp _ :: r => catoms r | CAt a :: r => a :: catoms r end.
Definition atom_token (a : catom) : ctoken :=
  match a with AOneLine _ s => COneLine s | AMultiLine _ lv s => CMultiLine lv s | ANewLine _ => CNewLine end.
Lemma clay_atoms p ss e w : clay p ss e w -> forall w0 x, w = w0 ++ [x] -> snd (fst x) = CEOF ->
  map atom_token (catoms ss) = map (fun x => snd (fst x)) w0.
Proof.
  induction 1 as [p|p r|a b ss e w Hb H IH|l t r a ss e w Ha H IH]; intros w0 x E Hx.
  - destruct w0; discriminate.
  - destruct w0 as [|? [|]]; [reflexivity|discriminate|discriminate].
  - cbn. eauto.
  - destruct w0 as [|y w0].
    + cbn in E. injection E as <- ->. cbn in Hx. subst t. discriminate.
    + cbn in E. injection E as <- E. cbn. f_equal; [|eauto]. destruct t; cbn in Ha; [| | |discriminate]; injection Ha as <-; reflexivity.
Qed.
Definition gap_tokens (gs : list gitem) : list ctoken :=
  flat_map (fun g => match comment_token g with Some t => [t] | None => [] end) gs.
Lemma gap_tokens_eq gs : forall p, map (fun x => snd (fst x)) (comment_tokens p gs) = gap_tokens gs.
Proof. induction gs as [|g gs IH]; intros p; cbn; [reflexivity|]. destruct (comment_token g); cbn; now rewrite IH. Qed.

(** the slots side by side, with [f] for the atoms *)
Definition slot_text (buf : str) (f : ctoken -> str) (s : cslot) : str :=
  match s with CSp l => text_at buf (fst l) (snd l) | CAt a => f (atom_token a) end.
Fixpoint wtext (buf : str) (f : ctoken -> str) (p : nat) (w : list ctok) : str :=
  match w with
  | [] => []
  | (l, t, r) :: w' => text_at buf p l ++ match t with CEOF => [] | _ => f t ++ wtext buf f r w' end
  end.
Lemma clay_text buf f p ss e w : clay p ss e w -> forall q, q <= p -> spaced buf q w -> (q = p \/ begins w p) ->
  (exists w0 x, w = w0 ++ [x] /\ snd (fst x) = CEOF /\ noeof w0) ->
  flat_map (slot_text buf f) ss = wtext buf f p w.
Proof.
  induction 1 as [p|p r|a b ss e w Hb H IH|l t r a ss e w Ha H IH]; intros q Hq Hs Hqp Hw.
  - destruct Hw as (w0 & x & E & _). destruct w0; discriminate.
  - cbn [flat_map wtext]. now rewrite text_at_empty.
  - cbn [flat_map slot_text fst snd]. destruct Hb as [->|(t & r & w' & ->)].
    + rewrite text_at_empty. cbn. eapply IH; eauto.
    + cbn in Hs. destruct Hs as (S1 & S2 & S3 & S4 & S5). assert (a <= b).
      { destruct Hqp as [->|(? & ? & ? & E)]; [exact S1|]. injection E as -> _ _ _. lia. }
      rewrite (IH q).
      * cbn [wtext]. now rewrite text_at_empty.
      * lia.
      * cbn. auto 8.
      * right; unfold begins; eauto.
      * exact Hw.
  - cbn [flat_map slot_text wtext]. rewrite text_at_empty. cbn [app]. cbn in Hs. destruct Hs as (S1 & S2 & S3 & S4 & S5).
    assert (Et : atom_token a = t) by (destruct t; cbn in Ha; [| | |discriminate]; injection Ha as <-; reflexivity). rewrite Et.
    rewrite (IH r); auto.
    + destruct t; try reflexivity. discriminate.
    + destruct Hw as (w0 & x & E & Hx & Hn). destruct w0 as [|y w0].
      * cbn in E. injection E as <- ->. cbn in Hx. subst t. discriminate.
      * cbn in E. injection E as <- E. exists w0, x. repeat split; auto. intros ? ? Hin. eapply Hn. right. exact Hin.
Qed.
Definition item_text (f : ctoken -> str) (g : gitem) : str :=
  match comment_token g with Some t => f t | None => gitem_text g end.
Lemma wtext_gap f gs : forall pre buf p n, buf = pre ++ gap_text gs -> p = List.length pre -> n = List.length buf ->
  forall q, q <= p ->
  wtext buf f q (comment_tokens p gs ++ [(n, CEOF, n)]) = text_at buf q p ++ flat_map (item_text f) gs.
Proof.
  induction gs as [|g gs IH]; intros pre buf p n Eb Ep En q Hq.
  - cbn. rewrite app_nil_r in Eb. subst. now rewrite app_nil_r.
  - assert (Eb' : buf = (pre ++ gitem_text g) ++ gap_text gs) by (now rewrite Eb, <- app_assoc).
    assert (Ep' : p + List.length (gitem_text g) = List.length (pre ++ gitem_text g)) by (rewrite app_length; lia).
    cbn [comment_tokens flat_map]. cbv zeta. unfold item_text at 1. destruct (comment_token g) as [t|] eqn:Et.
    + cbn [app wtext]. f_equal. rewrite (IH _ _ _ _ Eb' Ep' En) by lia. rewrite text_at_empty.
      destruct t; try reflexivity. destruct g; discriminate.
    + rewrite (IH _ _ _ _ Eb' Ep' En) by lia. rewrite (text_at_split _ q p) by lia. rewrite <- app_assoc. do 2 f_equal.
      rewrite Eb. cbn [gap_text flat_map]. apply text_at_mid; [exact Ep|lia].
Qed.

Theorem comment_tree gs : last_gap gs -> exists t, parse_comment (gap_text gs) = Some t /\
  Forall (cslot_ok (gap_text gs)) (chunk_slots t) /\
  map atom_token (catoms (chunk_slots t)) = gap_tokens gs /\
  (forall f, flat_map (slot_text (gap_text gs) f) (chunk_slots t) = flat_map (item_text f) gs).
Proof.
  intros Hg. destruct (parse_gap gs Hg) as (t & Et & C). exists t. split; [exact Et|].
  pose proof (last_gap_ok gs Hg) as [Hok _]. set (buf := gap_text gs) in *. set (n := List.length buf) in *.
  assert (S : spaced buf 0 (comment_tokens 0 gs ++ [(n, CEOF, n)])).
  { apply (spaced_gap gs Hok []); auto. rewrite text_at_empty. constructor. }
  repeat split.
  - eapply clay_slots; eauto. lia.
  - erewrite clay_atoms; [|exact C|reflexivity|reflexivity]. apply gap_tokens_eq.
  - intros f. rewrite (clay_text _ f _ _ _ _ C 0); auto.
    + rewrite (wtext_gap f gs [] buf); auto.
    + do 2 eexists. split; [reflexivity|]. split; [reflexivity|]. intros l' r' Hin.
      pose proof (comment_tokens_noeof gs 0) as F. rewrite Forall_forall in F. apply F in Hin. now apply Hin.
Qed.
