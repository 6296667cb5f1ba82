(** Every derivation is a walk. *)
From Coq Require Import Lia.
From Verif Require Import Base Config State LuaLexer Ast LR LRSpec LuaGrammar LuaParser ParserProofs LexSpec LayoutSpec LayoutProofs SafeSpec PrettySpec SettleSpec SettleWalk.

Ltac minus_facts := repeat match goal with
    | H : context [minus_first ?n] |- _ => let k := eval vm_compute in (minus_first n) in change (minus_first n) with k in H
    | |- context [minus_first ?n] => let k := eval vm_compute in (minus_first n) in change (minus_first n) with k
    | H : context [soft ?n] |- _ => let k := eval vm_compute in (soft n) in change (soft n) with k in H
    | |- context [soft ?n] => let k := eval vm_compute in (soft n) in change (soft n) with k
    | H : context [N.eqb ?n n_FieldList_] |- _ => let k := eval vm_compute in (N.eqb n n_FieldList_) in change (N.eqb n n_FieldList_) with k in H
    | |- context [N.eqb ?n n_FieldList_] => let k := eval vm_compute in (N.eqb n n_FieldList_) in change (N.eqb n n_FieldList_) with k
    | H : context [N.eqb ?n n_SheBangLine_] |- _ => let k := eval vm_compute in (N.eqb n n_SheBangLine_) in change (N.eqb n n_SheBangLine_) with k in H
    | |- context [N.eqb ?n n_SheBangLine_] => let k := eval vm_compute in (N.eqb n n_SheBangLine_) in change (N.eqb n n_SheBangLine_) with k
    end.
Ltac refl_facts := repeat match goal with
    | H : forall x, VNode ?n = VNode x -> _ |- _ => specialize (H n eq_refl)
    | H : forall p x its, VItems ((?a, ?b) :: ?d) = VItems ((p, x) :: its) -> _ |- _ => specialize (H _ _ _ eq_refl)
    | H : forall p x q0 z ss, VSeps ((?a, ?b, ?q, ?zz) :: ?d) = VSeps ((p, x, q0, z) :: ss) -> _ |- _ => specialize (H _ _ _ _ _ eq_refl)
    end.
Ltac t_ready := first [reflexivity | apply inside_ready; assumption | assumption].
Ltac t_enter := first [assumption | reflexivity | discriminate | (intros; reflexivity) | (intros; discriminate) | (intros; assumption) | (intros _; auto; fail)
   | (intros _; do 3 eexists; reflexivity)].
Ltac w_step := match goal with
    | |- walk _ _ [] _ => apply wk_nil
    | |- walk _ _ (PTok _ :: _) _ => eapply wk_tok; [t_ready|left; reflexivity|discriminate|t_enter|cbn [is_shebang is_minus]]
    | |- walk _ _ (gap_or_line _ _ _ _ :: _) _ =>
        first [apply glue | apply glue_at; [assumption|..]]; [first [apply space_ok|apply nil_ok|apply table_hint_ok; assumption|apply item_hint_ok]|t_enter|intros ? ? ?]
    | |- walk _ _ (pieces _ _ _ _) _ => match goal with H : forall u d op q m e, _ |- _ => apply H; t_enter end
    | |- walk _ _ (pieces _ _ _ _ ++ _) _ => eapply walk_app; [match goal with H : forall u d op q m e, _ |- _ => apply H; t_enter end|]
    end.
Ltac w_steps := repeat w_step.
Section Prods.
  Variable c : config.
  Hypothesis C : calm c.
  (** *** lists *)
  Definition minus_walk (b : bool) (w : list ptok) (r : nat) (x : node) : Prop :=
    forall u d op q m e, inside q = true -> (b = true -> m = false) -> walk c (q, m, e, w ++ u) (pieces c x d op) (QA false, false, r, u).
  Lemma node_minus n w r x : node_walk c n w r x -> soft n = false -> N.eqb n n_FieldList_ = false -> N.eqb n n_SheBangLine_ = false -> minus_walk (minus_first n) w r x.
  Proof.
    intros H S F B u d op q m e Hq Hm. specialize (H u d op q m e Hq). rewrite S in H. unfold guard in H. rewrite F in H. rewrite B in H. apply H; [discriminate|exact Hm|discriminate].
  Qed.
  Lemma begins_null w x e u : begins w x -> null_at x e (w ++ u).
  Proof. intros B. right. right. now apply begins_app. Qed.
  Lemma first_gap b q m e w u x d ps z : begins w x -> inside q = true -> (b = true -> q = QG) -> (forall q m', inside q = true -> (m' = true -> m = true) -> walk c (q, m', e, w ++ u) ps z) ->
    walk c (q, m, e, w ++ u) (gap_or_line b (x, x) d [] :: ps) z.
  Proof.
    intros B Hq Hb W. destruct b; cbn [gap_or_line].
    - rewrite (Hb eq_refl). apply wk_break; [now apply begins_null|apply W; [reflexivity|discriminate]].
    - apply wk_skip; [exact Hq|now apply begins_null|auto].
  Qed.
  Lemma items_list k w l r x its u d op q m e : begins w l -> items_walk c w r x its -> inside q = true -> (starts_line c k true x = true -> q = QG) ->
    walk c (q, m, e, w ++ u) (items_from c k true d op (map (fun x => (x, pieces c (snd x))) (((l, l), x) :: its))) (QA false, false, r, u).
  Proof. intros B H Hq Hs. cbn [map items_from snd]. apply first_gap; [exact B|exact Hq|exact Hs|]. intros q' m' Hq' _. now apply H. Qed.
  Lemma items_one w r x : minus_walk false w r x -> items_walk c w r x [].
  Proof. intros H k u d op q m e Hq. cbn [map items_from]. rewrite app_nil_r. now apply H. Qed.
  Lemma items_cons w1 r1 x1 l w r x its : minus_walk false w1 r1 x1 -> begins w l -> items_walk c w r x its -> items_walk c (w1 ++ w) r x1 (((r1, l), x) :: its).
  Proof.
    intros H1 B H k u d op q m e Hq. rewrite <- app_assoc. eapply walk_app; [now apply H1|]. cbn [map items_from snd].
    apply glue_at; [exact B|apply item_hint_ok|(intros E; discriminate E)|]. intros q' Hq' _. now apply H.
  Qed.
  Lemma items_tail w1 r1 x its l w r y : items_walk c w1 r1 x its -> begins w l -> minus_walk false w r y -> items_walk c (w1 ++ w) r x (its ++ [((r1, l), y)]).
  Proof.
    intros H1 B H k u d op q m e Hq. rewrite items_snoc, <- (app_assoc w1 w u), (app_assoc (pieces c x d op)). eapply walk_app; [now apply H1|]. cbn [fst snd].
    apply glue_at; [exact B|apply item_hint_ok|(intros E; discriminate E)|]. intros q' Hq' _. now apply H.
  Qed.
  Lemma commas_list n t k h w l r x q0 z ss u d op q m e : begins w l -> commas_walk c n t w r x q0 ss -> inside q = true -> (minus_first n = true -> m = false) ->
    (starts_line c k true x = true -> q = QG) -> blanks h /\ List.length h <= 1 ->
    walk c (q, m, e, w ++ u) (seps_from c k true d op h (fun _ => spelling t) (fun _ => []) (map (fun x => (x, pieces c (snd (fst (fst x))))) (((l, l), x, q0, z) :: ss))) (QA false, false, r, u).
  Proof.
    intros B H Hq Hm Hs [Hb Hh]. cbn [map seps_from fst snd]. apply first_gap; [exact B|exact Hq|exact Hs|]. intros q' m' Hq' Hm'. apply H; auto.
    intros E. destruct m'; [|reflexivity]. rewrite (Hm' eq_refl) in Hm. now apply Hm.
  Qed.
  Lemma commas_one n t w r x : minus_walk (minus_first n) w r x -> commas_walk c n t w r x (r, r) [].
  Proof.
    intros H k h u d op q m e Hq Hm Hb Hh. eapply walk_app; [now apply H|]. cbn [printed map seps_from]. apply wk_null; [right; now left|]. apply wk_none, wk_nil.
  Qed.
  Lemma commas_cons n t w1 r1 x1 lt rt w l r x q0 z ss : is_minus t = false -> is_shebang t = false -> t <> EOF -> shown c t = spelling t -> minus_walk (minus_first n) w1 r1 x1 -> begins w l -> commas_walk c n t w r x q0 ss ->
    commas_walk c n t (w1 ++ (lt, t, rt) :: w) r x1 (r1, lt) (((rt, l), x, q0, z) :: ss).
  Proof.
    intros Em Eh Ne Es H1 B H k h u d op q m e Hq Hm Hb Hh. rewrite <- app_assoc. eapply walk_app; [now apply H1|]. cbn [printed map app].
    change (PGap (r1, lt) d []) with (gap_or_line false (r1, lt) d []). apply glue; [apply nil_ok|(intros E; discriminate E)|]. intros q' Hq' _.
    eapply wk_tok; [now apply inside_ready|left; now rewrite Es|exact Ne|discriminate|]. rewrite Em, Eh.
    cbn [seps_from fst snd]. apply glue_at; [exact B|auto|(intros E; discriminate E)|]. intros q2 Hq2 _. apply H; auto.
  Qed.
  Lemma fields_list w l r x q0 z ss u d op q m e : begins w l -> fields_walk c w r x q0 z ss -> inside q = true -> m = false -> q = QG -> (exists l r u', u = (l, CloseCurlyBracket, r) :: u') ->
    walk c (q, m, e, w ++ u) (seps_from c KFields true d op space (field_separator c) (last_separator c) (map (fun x => (x, pieces c (snd (fst (fst x))))) (((l, l), x, q0, z) :: ss))) (QA false, false, r, u).
  Proof.
    intros B H Hq Hm Hs G. cbn [map seps_from fst snd]. apply first_gap; [exact B|exact Hq|auto|]. intros q' m' Hq' Hm'. apply H; auto.
    destruct m'; [|reflexivity]. rewrite Hm in Hm'. now symmetry; apply Hm'.
  Qed.
  Lemma fields_one w r x : minus_walk true w r x -> fields_walk c w r x (r, r) [] [].
  Proof.
    intros H u d op q m e Hq Hm (l & r1 & u' & ->). eapply walk_app; [apply H; auto|]. cbn [printed map seps_from]. apply wk_null; [right; now left|].
    destruct (last_ok c C []) as [E|[_ E]]; rewrite E; [|apply wk_none, wk_nil].
    destruct (separator_ok c C []) as [E1|[E1|[E1 _]]]; [auto| | |]; rewrite E1; [apply wk_add; [auto|apply wk_nil]|apply wk_add; [auto|apply wk_nil]|apply wk_none, wk_nil].
  Qed.
  Lemma sep_shows t : t = Comma \/ t = LuaLexer.Semicolon -> shows c t (field_separator c (sep_string (VTok t))) /\ last_separator c (sep_string (VTok t)) = field_separator c (sep_string (VTok t)).
  Proof.
    intros Ht. split; [right; split; [exact Ht|]; now destruct Ht as [-> | ->]|]. destruct (last_ok c C (sep_string (VTok t))) as [E|[E _]]; [exact E|]. destruct Ht as [-> | ->]; discriminate.
  Qed.
  Lemma fields_end w1 r1 x1 lt t rt : t = Comma \/ t = LuaLexer.Semicolon -> minus_walk true w1 r1 x1 -> fields_walk c (w1 ++ [(lt, t, rt)]) rt x1 (r1, lt) (sep_string (VTok t)) [].
  Proof.
    intros Ht H1 u d op q m e Hq Hm G. rewrite <- app_assoc. eapply walk_app; [apply H1; auto|]. cbn [printed map app].
    change (PGap (r1, lt) d []) with (gap_or_line false (r1, lt) d []). apply glue; [apply nil_ok|(intros E; discriminate E)|]. intros q' Hq' _. destruct (sep_shows t Ht) as [Hs ->].
    eapply wk_tok; [now apply inside_ready|exact Hs|destruct Ht as [-> | ->]; discriminate|discriminate|]. cbn [seps_from]. destruct Ht as [-> | ->]; apply wk_nil.
  Qed.
  Lemma fields_cons w1 r1 x1 lt t rt w l r x q0 z ss : t = Comma \/ t = LuaLexer.Semicolon -> minus_walk true w1 r1 x1 -> begins w l -> fields_walk c w r x q0 z ss ->
    fields_walk c (w1 ++ (lt, t, rt) :: w) r x1 (r1, lt) (sep_string (VTok t)) (((rt, l), x, q0, z) :: ss).
  Proof.
    intros Ht H1 B H u d op q m e Hq Hm G. rewrite <- app_assoc. eapply walk_app; [apply H1; auto|]. cbn [printed map app].
    change (PGap (r1, lt) d []) with (gap_or_line false (r1, lt) d []). apply glue; [apply nil_ok|(intros E; discriminate E)|]. intros q' Hq' _. destruct (sep_shows t Ht) as [Hs _].
    eapply wk_tok; [now apply inside_ready|exact Hs|destruct Ht as [-> | ->]; discriminate|discriminate|].
    replace (is_shebang t) with false by (now destruct Ht as [-> | ->]). replace (is_minus t) with false by (now destruct Ht as [-> | ->]).
    cbn [seps_from fst snd]. apply glue_at; [exact B|apply space_ok|(intros E; discriminate E)|]. intros q2 Hq2 _. apply H; auto.
  Qed.
  Lemma items_list_one k w l r x u d op q m e : begins w l -> minus_walk false w r x -> inside q = true -> (starts_line c k true x = true -> q = QG) ->
    walk c (q, m, e, w ++ u) (items_from c k true d op [(((l, l), x), pieces c x)]) (QA false, false, r, u).
  Proof. intros B H Hq Hs. apply (items_list k w l r x []); auto. now apply items_one. Qed.
  Lemma items_list_cons k w1 l1 r1 x1 w l r x its u d op q m e : begins w1 l1 -> minus_walk false w1 r1 x1 -> begins w l -> items_walk c w r x its -> inside q = true -> (starts_line c k true x1 = true -> q = QG) ->
    walk c (q, m, e, w1 ++ w ++ u) (items_from c k true d op ((((l1, l1), x1), pieces c x1) :: (((r1, l), x), pieces c x) :: map (fun x => (x, pieces c (snd x))) its)) (QA false, false, r, u).
  Proof. intros B1 H1 B H Hq Hs. rewrite app_assoc. apply (items_list k (w1 ++ w) l1 r x1 (((r1, l), x) :: its)); auto; [now apply begins_app|now apply items_cons]. Qed.
  Lemma commas_list_one n t k h w l r x z u d op q m e : begins w l -> minus_walk (minus_first n) w r x -> inside q = true -> (minus_first n = true -> m = false) ->
    (starts_line c k true x = true -> q = QG) -> blanks h /\ List.length h <= 1 ->
    walk c (q, m, e, w ++ u) (seps_from c k true d op h (fun _ => spelling t) (fun _ => []) [(((l, l), x, (r, r), z), pieces c x)]) (QA false, false, r, u).
  Proof. intros B H Hq Hm Hs Hh. apply (commas_list n t k h w l r x (r, r) z []); auto. now apply commas_one. Qed.
  Lemma commas_list_cons n t k h w1 l1 r1 x1 lt rt w l r x q0 z1 z ss u d op q m e : is_minus t = false -> is_shebang t = false -> t <> EOF -> shown c t = spelling t ->
    begins w1 l1 -> minus_walk (minus_first n) w1 r1 x1 -> begins w l -> commas_walk c n t w r x q0 ss -> inside q = true -> (minus_first n = true -> m = false) ->
    (starts_line c k true x1 = true -> q = QG) -> blanks h /\ List.length h <= 1 ->
    walk c (q, m, e, w1 ++ (lt, t, rt) :: w ++ u) (seps_from c k true d op h (fun _ => spelling t) (fun _ => [])
       ((((l1, l1), x1, (r1, lt), z1), pieces c x1) :: (((rt, l), x, q0, z), pieces c x) :: map (fun x => (x, pieces c (snd (fst (fst x))))) ss)) (QA false, false, r, u).
  Proof.
    intros E1 E2 E3 E4 B1 H1 B H Hq Hm Hs Hh. change ((lt, t, rt) :: w ++ u) with (((lt, t, rt) :: w) ++ u). rewrite app_assoc.
    apply (commas_list n t k h (w1 ++ (lt, t, rt) :: w) l1 r x1 (r1, lt) z1 (((rt, l), x, q0, z) :: ss)); auto; [now apply begins_app|now apply commas_cons].
  Qed.
Ltac t_mw := match goal with
    | H : forall u d op q m e, inside q = true -> _ |- minus_walk _ ?w _ _ =>
        let u := fresh in let d := fresh in let o := fresh in let q := fresh in let m := fresh in let e := fresh in let Hq := fresh in let Hm := fresh in
        intros u d o q m e Hq Hm; apply H; t_enter
    end.
  Ltac t_mv := match goal with H : forall u d op q m e, inside q = true -> _ |- walk _ _ (pieces _ _ _ _) _ => apply H; t_enter end.
  Ltac t_nm := match goal with H : node_walk _ ?n _ _ _ |- _ => refine (node_minus n _ _ _ H _ _ _) end; reflexivity.
  Ltac t_items := first [apply items_list; [assumption|assumption|assumption|t_enter] | apply items_list_one; [assumption|t_mw|assumption|t_enter]
    | apply items_list_cons; [assumption|t_mw|assumption|assumption|assumption|t_enter]
    | match goal with |- walk _ (_, _, _, ?w1 ++ ?w2 ++ ?u) (items_from _ _ _ _ _ [((?l1, _, ?x1), _); ((?r1, ?l, ?x), _)]) (_, _, ?r, _) =>
         apply (items_list_cons _ w1 l1 r1 x1 w2 l r x []); [assumption|t_mw|assumption|apply items_one; t_mw|assumption|t_enter] end].
  Ltac t_commas := match goal with
    | H : commas_walk _ ?n ?t _ _ _ _ _ |- _ => first
        [eapply (commas_list n t); [assumption|exact H|assumption|t_enter|t_enter|first [apply space_ok|apply nil_ok]]
        |eapply (commas_list_cons n t); [reflexivity|reflexivity|discriminate|reflexivity|assumption|t_mw|assumption|exact H|assumption|t_enter|t_enter|first [apply space_ok|apply nil_ok]]]
    | _ => eapply (commas_list_one n_TSepList_VarMayExp_ Comma); [assumption|t_mw|assumption|t_enter|t_enter|first [apply space_ok|apply nil_ok]]
    end.
  Lemma chunk_end n w l r x s a z : begins w l -> N.eqb n n_FieldList_ = false -> node_walk c n w r x -> exists q m e l', ready q = true
    /\ walk c (QA true, false, 0, w ++ [(a, EOF, z)]) (PGap (0, l) 0 [] :: pieces c x 0 None ++ [gap_or_line s (r, a) 0 []]) (q, m, e, [(l', EOF, z)]).
  Proof.
    intros (t & r1 & w' & ->) F H. exists (if s then QL else QG), false, r, a. split; [now destruct s|]. apply wk_gap; [auto|constructor|apply Nat.le_0_l|]. cbn [andb].
    eapply walk_app; [apply H; [reflexivity|auto|auto|unfold guard; rewrite F; discriminate]|].
    destruct s; cbn [gap_or_line]; [apply wk_line|apply wk_gap; [auto|constructor|apply Nat.le_0_l|]]; apply wk_nil.
  Qed.
  Lemma prod_walk p w args : In p lua_prods -> vals_both c (p_rhs p) w args -> walks c (NT (p_lhs p)) w (a_start args, p_act p args, a_end args).
  Proof.
  intros Hp H. unfold lua_prods in Hp.
  repeat (destruct Hp as [<-|Hp]; [cbn [p_rhs p_lhs p_act] in *; repeat match goal with
    | H : vals_both _ (_ :: _) _ _ |- _ => inv H
    | H : vals_both _ [] _ _ |- _ => inv H
    | v : located val |- _ => destruct v as [[? ?] ?]
    | H : val_both _ _ _ _ |- _ => destruct H as [([? _] & ? & _) ?]
    end; rewrite ?app_nil_r; unfold shape, walks in *; use_class; use_parts; use_term; refl_facts |]); [.. |destruct Hp].
  all: minus_facts.
  all: try (intros; assumption).
  all: try exact Logic.I.
  all: try (intros ? [= <-]; unfold node_walk, guard in *; minus_facts; intros u d op q m e Hq Hs Hm Hg; rewrite <- ?app_assoc; cbn [app];
    cbn [pieces nd leaf nlist nseps weave template glues map nth app fst snd hd tl span a_start a_end mkun mkbin arg_node arg_val gaps flat_map val_nodes LuaGrammar.gap tight blank line open param hang]).
  all: try (match goal with H : forall u d op q m e, _ |- walk _ _ (pieces _ _ _ _) _ => apply H; t_enter end).
  all: try (now w_steps).
  all: unfold arg_items, arg_seps, arg_val, arg_node, lstart, lend in *; cbn [nth map fst snd set_first sset_first a_start a_end hd last] in *.
  all: try solve [t_items].
  all: try solve [t_commas].
  all: try solve [match goal with H : begins ?w _ |- walk _ (_, _, _, _ :: ?w ++ _) (PTok _ :: PGap _ _ _ :: pieces _ _ _ _) _ => destruct H as (? & ? & ? & ->); cbn [app] in *;
    eapply wk_tok; [t_ready|left; reflexivity|discriminate|intros; try reflexivity; rewrite Hm in *; auto; discriminate|]; apply wk_gap; [discriminate|constructor|apply Nat.le_0_l|]; cbn [andb is_minus is_empty is_shebang]; t_mv end].
  all: try solve [match goal with H : fields_walk _ _ _ _ _ _ _ |- _ => apply fields_list; auto end].
  all: try solve [eapply wk_tok; [t_ready|left; reflexivity|discriminate|t_enter|]; apply wk_empty; [apply table_hint_ok; assumption|]; eapply wk_tok; [reflexivity|left; reflexivity|discriminate|t_enter|]; apply wk_nil].
  all: try (match goal with |- forall p x, _ => idtac end; unfold act_tlist1, act_tlist_snoc, act_sep1, act_sep_cons, act_sepend1, arg_items, arg_seps, arg_node, arg_val, lstart, lend, LuaGrammar.gap, sset_first;
    cbn [nth map fst snd app a_start a_end hd last]).
  all: try solve [intros ? ? ? [= <- <- <-]; (apply items_one || (apply items_tail; [assumption|assumption|])); t_nm].
  all: try solve [intros ? ? ? ? ? [= <- <- <- <- <-]; (apply commas_one || (apply commas_cons; [reflexivity|reflexivity|discriminate|reflexivity| |assumption|eassumption])); minus_facts; t_nm].
  all: try solve [intros ? ? ? ? ? [= <- <- <- <- <-]; apply fields_one; t_nm].
  5 : { eapply walk_app; [eapply (commas_list n_TSepList_Name_dot_ Period); [assumption|eassumption|assumption|t_enter|t_enter|apply nil_ok]|].
    apply wk_gap; [discriminate|constructor|apply Nat.le_0_l|]. eapply wk_tok; [reflexivity|left; reflexivity|discriminate|discriminate|].
    match goal with H : begins w2 _ |- _ => destruct H as (? & ? & ? & ->) end. cbn [app] in *. apply wk_gap; [discriminate|constructor|apply Nat.le_0_l|]. cbn [andb is_minus is_empty is_shebang]. t_mv. }
  5 : { assert (N0 : on c B_write_newline_at_multiline_table = false) by apply C. rewrite N0. cbn [gap_or_line]. destruct (table_hint_ok c C) as [Hb Hh].
    apply wk_hint; [exact Hq|now left|exact Hb|]. eapply wk_tok; [reflexivity|left; reflexivity|discriminate|t_enter|]. cbn [is_minus is_shebang].
    match goal with H : begins w0 _ |- _ => destruct H as (? & ? & ? & ->) end. cbn [app] in *. apply wk_gap; [discriminate|exact Hb|exact Hh|]. cbn [andb].
    eapply walk_app; [match goal with H : forall u d op q m e, inside q = true -> _ |- _ => apply H; t_enter end|].
    destruct (nis c N_newline_format_table_constructor 1); [apply wk_line|apply wk_full; [exact Hb|]]; (eapply wk_tok; [reflexivity|left; reflexivity|discriminate|t_enter|apply wk_nil]). }
  all: try (match goal with |- forall x : node, _ => idtac end; cbv beta delta [act_chunk_empty act_chunk act_shebang_chunk]; cbv zeta; cbn [a_start a_end hd last fst snd arg_node arg_val nth map LuaGrammar.gap]; intros ? [= <-]; cbn [pieces nd nlist map items_from nth app LuaGrammar.gap fst snd]).
  - exists (if on c B_write_newline_at_eof then QC else QG), false, 0, n. split; [now destruct (on c B_write_newline_at_eof)|].
    apply wk_gap; [auto|constructor|apply Nat.le_0_l|]. cbn [andb]. assert (B : null_at n 0 [(n, EOF, n0)]) by (right; right; do 3 eexists; reflexivity).
    destruct (on c B_write_newline_at_eof); cbn [gap_or_line]; [apply wk_break|apply wk_skip; [reflexivity| |]]; auto; apply wk_nil.
  - eapply chunk_end; [eassumption| |eassumption]; reflexivity.
  - eapply chunk_end; [eassumption| |eassumption]; reflexivity.
  - match goal with H : begins w1 _, H1 : begins w0 _ |- _ => destruct H as (? & ? & ? & ->); destruct H1 as (? & ? & ? & ->) end. cbn [app] in *.
    match goal with |- exists q m e l, _ /\ walk _ _ (_ :: _ ++ _ :: _ ++ [gap_or_line ?b _ _ _]) _ => exists (if b then QL else QG), false, n2, n end.
    split; [now destruct (on c B_write_newline_at_eof)|]. apply wk_gap; [auto|constructor|apply Nat.le_0_l|]. cbn [andb].
    match goal with H : node_walk _ n_SheBangLine_ _ _ _ |- _ => eapply walk_app; [apply H; [reflexivity|discriminate|discriminate|discriminate]|] end.
    apply wk_gap; [auto|constructor|apply Nat.le_0_l|]. cbn [andb].
    match goal with H : node_walk _ n_Block_ _ _ _ |- _ => eapply walk_app; [apply H; [reflexivity|discriminate|discriminate|discriminate]|] end.
    destruct (on c B_write_newline_at_eof); cbn [gap_or_line]; [apply wk_line|apply wk_gap; [discriminate|constructor|apply Nat.le_0_l|]]; apply wk_nil.
  - intros ? ? ? ? ? [= <- <- <- <- <-]. apply fields_end; [assumption|]. t_nm.
  - intros ? ? ? ? ? [= <- <- <- <- <-]. apply fields_cons; [assumption| |assumption|assumption]. t_nm.
  Qed.
End Prods.

Section All.
  Variable c : config.
  Hypothesis C : calm c.
  Lemma vals_both_ok xs w vs : vals_both c xs w vs -> vals_ok xs w vs.
  Proof. induction 1 as [|x xs w1 w2 v vs [H _]]; constructor; auto. Qed.
  Lemma walks_all x w v : derives lua_grammar x w v -> walks c x w v.
  Proof.
    revert x w v. assert (A : (forall x w v, derives lua_grammar x w v -> val_both c x w v) /\ (forall xs w vs, derives_list lua_grammar xs w vs -> vals_both c xs w vs)).
    { apply (derives_both _ _ lua_grammar (fun x w v _ => val_both c x w v) (fun xs w vs _ => vals_both c xs w vs)).
      - intros l t r. split; [apply shapes; constructor|exact Logic.I].
      - intros p w args Hp D IH. split; [apply shapes; econstructor; eauto|]. apply (prod_walk c C p w args Hp IH).
      - constructor.
      - intros. now constructor. }
    intros x w v D. now apply A in D as [_ D].
  Qed.
  Lemma parsed_walk src ts n : lex src = LexOk ts -> parse_lua src = Parsed n ->
    exists q m e l r, ready q = true /\ walk c (QA true, false, 0, ts) (pieces c n 0 None) (q, m, e, [(l, EOF, r)]).
  Proof.
    unfold parse_lua. intros ->. destruct (parse_tokens ts) as [v| |] eqn:P; try discriminate. destruct v as [|n'| | |]; try discriminate. intros [= ->].
    apply parse_tokens_correct in P as (l & r & D). change (g_start lua_grammar) with n_Chunk_ in D. apply walks_all in D.
    destruct (D n eq_refl) as (q & m & e & l' & Hq & W). now exists q, m, e, l', r.
  Qed.
End All.
