(** Writing the tree when all lines are formatted, with and without a range. *)
From Verif Require Import Base Lib Config State Ast LuaLexer WriterBase LuaWriter LexSpec LayoutSpec RangeKeepSpec WriterFrame RenderProofs TotalProofs BlindFrame BlindGap.

(** the kinds whose gaps are written without a hint *)
Definition bare_kind (k : kind) : bool := match k with KChunk | KSheBangChunk | KFuncNameSelf => true | _ => false end.
(** a tree whose gaps, except those at the ends, lie between tokens of a text of length [L] *)
Inductive seated (L : nat) : node -> Prop :=
| se_node : forall n,
    (bare_kind (n_kind n) = false -> forall i, i < n_gaps (n_kind n) -> inside L (nloc n i)) ->
    (is_list (n_kind n) = true -> Forall (inside L) (tl (map fst (n_items n)))) ->
    (is_seps (n_kind n) = true -> Forall (inside L) (tl (map si_loc (n_seps n)))) ->
    (range_kind (n_kind n) = true ->
       (fst (n_span n) < snd (n_span n) /\ snd (n_span n) <= L)
       \/ (n_kind n = KStatementList /\ n_items n = [] /\ fst (n_span n) = snd (n_span n) /\ snd (n_span n) <= L)) ->
    (forall x, In x (children n) -> seated L x) ->
    seated L n.
Lemma seated_dummy L : seated L dummy_node.
Proof. apply se_node; cbn; try constructor; try discriminate; try lia; try contradiction. Qed.
Lemma seated_kid L n i : seated L n -> seated L (kid n i).
Proof.
  intros H. unfold kid. destruct (nth_in_or_default i (n_kids n) dummy_node) as [Hi| ->]; [|apply seated_dummy].
  inversion H as [? _ _ _ _ Hc]; subst. apply Hc. unfold children. rewrite !in_app_iff. auto.
Qed.

Section Lua.
  Variables (c0 : config) (src : str).
  Hypothesis void_gap : slot_ok src (SGap (0, 0)).
  (** no hint in front of the brace of a table is ever written *)
  Definition table_free : Prop := table_hint c0 = [] \/ on c0 B_replace_zero_spaces_with_hint = false.
  Definition slotq (s : slot) : Prop := slot_ok src s /\ (s = SVoid -> table_free).
  Let L := List.length src.
  Let Ssrc := lua_S src.
  Notation sees := (BlindFrame.sees Ssrc).
  Definition okn (n : node) : Prop := seated L n /\ good slotq (fun _ => True) n.
  Lemma ok_dummy : okn dummy_node.
  Proof. split; [apply seated_dummy|]. split; [|intros x _ _; exact Logic.I]. cbn. repeat constructor; discriminate. Qed.
  Lemma ok_kid n i : okn n -> i < n_subs (n_kind n) -> okn (kid n i).
  Proof. intros [H1 H2] Hi. split; [now apply seated_kid|now apply good_kid]. Qed.
  Lemma ok_gap n i : okn n -> i < n_gaps (n_kind n) -> slot_ok src (SGap (nloc n i)).
  Proof. intros [_ H] Hi. now apply (good_gap slotq (fun _ => True)). Qed.
  Lemma ok_inside n i : okn n -> bare_kind (n_kind n) = false -> i < n_gaps (n_kind n) -> inside L (nloc n i).
  Proof. intros [H _] Hk Hi. inversion H; subst. auto. Qed.

  Section Body.
    Variables (c : config) (W1 W2 : config -> node -> M unit) (n : node).
    Hypothesis Hc : reach c0 c.
    Hypothesis W_sees : forall c' x, reach c0 c' -> okn x -> sees (W1 c' x) (W2 c' x).

    Lemma W_now x : okn x -> sees (W1 c x) (W2 c x).
    Proof. intros H. now apply W_sees. Qed.
    Lemma H_in l h : slot_ok src (SGap l) -> inside L l -> sees (H c src l h) (H c src l h).
    Proof. intros H1 H2. apply sees_hint; auto. Qed.
    Lemma H_nil l : slot_ok src (SGap l) -> sees (H c src l []) (H c src l []).
    Proof. intros H1. apply sees_hint; auto. Qed.
    Lemma H_table l : table_free -> slot_ok src (SGap l) -> sees (H c src l (table_hint c)) (H c src l (table_hint c)).
    Proof.
      intros TF H1. apply sees_hint; auto. right. destruct Hc as [K _]. destruct TF as [E|E].
      - left. unfold table_hint in *. destruct K as [K _]. now rewrite K.
      - right. destruct (on c B_replace_zero_spaces_with_hint) eqn:E2; [|reflexivity]. apply (kin_on _ _ _ K) in E2. congruence.
    Qed.
    Lemma nl_sees b l h : (b = false -> sees (H c src l h) (H c src l h)) -> slot_ok src (SGap l) -> sees (if_newline c b (H c src l) h) (if_newline c b (H c src l) h).
    Proof. intros H1 H2. apply (sees_if_newline Ssrc (lS_level src)); auto. intros _. now apply H_nil. Qed.

    (** *** items *)
    Fixpoint item_at (k : kind) (x : item) : Prop :=
      match x with
      | IRaw i => False
      | IHint i h => i < n_gaps k /\ (bare_kind k = true -> h = [])
      | INl _ i h => i < n_gaps k /\ (bare_kind k = true -> h = [])
      | IKid i => i < n_subs k
      | IIf _ y => item_at k y
      | _ => True
      end.
    Lemma gap_sees i h : okn n -> i < n_gaps (n_kind n) -> (bare_kind (n_kind n) = true -> h = []) -> sees (H c src (nloc n i) h) (H c src (nloc n i) h).
    Proof.
      intros Hn Hi Hh. pose proof (ok_gap n i Hn Hi) as G. destruct (bare_kind (n_kind n)) eqn:E; [rewrite Hh by auto; now apply H_nil|].
      apply H_in; [exact G|]. now apply ok_inside.
    Qed.
    Lemma item_sees x : okn n -> item_at (n_kind n) x -> sees (run_item c src W1 n x) (run_item c src W2 n x).
    Proof.
      intros Hn. induction x as [s|i|i h|b i h|i|o| | | |b y IH]; intros Hx; cbn [run_item item_at] in *.
      - apply sees_emit.
      - contradiction.
      - destruct Hx. now apply gap_sees.
      - destruct Hx. apply nl_sees; [intros _; now apply gap_sees|now apply ok_gap].
      - apply W_now. now apply ok_kid.
      - apply (sees_inc Ssrc (lS_level src) (lS_stack src) (lS_indent src)).
      - apply (sees_dec Ssrc (lS_level src) (lS_stack src) (lS_indent src)).
      - apply (sees_incf Ssrc (lS_depth src) (lS_func src)).
      - apply (sees_decf Ssrc (lS_depth src) (lS_func src)).
      - destruct b; [now apply IH|apply sees_ret].
    Qed.
    Lemma items_sees l : okn n -> Forall (item_at (n_kind n)) l -> sees (run_items c src W1 n l) (run_items c src W2 n l).
    Proof.
      intros Hn. induction 1 as [|x l Hx Hl IH]; cbn [run_items]; [apply sees_ret|]. apply sees_bind; [now apply item_sees|]. intros _. exact IH.
    Qed.

    (** *** tests *)
    Lemma one_sees x : okn x -> Forall2 sees [W1 c x] [W2 c x].
    Proof. intros H. constructor; [now apply W_now|constructor]. Qed.
    Lemma suffix_sees x : okn x -> sees (suffix_newline c src W1 x) (suffix_newline c src W2 x).
    Proof.
      intros Hx. unfold suffix_newline. pose proof (sees_isnone _ _ _ (sees_test Ssrc c _ _ (one_sees x Hx))) as A1.
      assert (Hk : n_subs (n_kind x) <> 0 -> sees (W1 c (kid x 0)) (W2 c (kid x 0))) by (intros Hn; apply W_now, ok_kid; [exact Hx|lia]).
      assert (Hl : n_gaps (n_kind x) <> 0 -> sees (H c src (nloc x 0) []) (H c src (nloc x 0) [])) by (intros Hn; apply H_nil, ok_gap; [exact Hx|lia]).
      destruct (n_kind x) eqn:Ek; try apply sees_ret.
      - destruct (negb _); [apply sees_ret|]. destruct (on c B_force_single_line_var_suffix); [exact A1|apply sees_ret].
      - destruct (negb _); [apply sees_ret|]. destruct (on c B_force_single_line_var_suffix); [|apply sees_ret].
        assert (A2 : sees (isnone (test_oneline c [emit (s2l ":"); H c src (nloc x 0) []; W1 c (kid x 0)]))
                          (isnone (test_oneline c [emit (s2l ":"); H c src (nloc x 0) []; W2 c (kid x 0)]))).
        { apply sees_isnone, sees_test. constructor; [apply sees_emit|]. constructor; [apply Hl; cbn; lia|]. constructor; [apply Hk; cbn; lia|constructor]. }
        destruct (n_kind (kid x 1)); auto. destruct (nsome c N_newline_format_exp_list_first); auto.
    Qed.
    Lemma field_sees x : okn x -> sees (test_oneline_table_field c W1 x) (test_oneline_table_field c W2 x).
    Proof.
      intros Hx. unfold test_oneline_table_field. pose proof (sees_test_no_nl Ssrc c _ _ (one_sees x Hx)) as A.
      destruct (n_kind x); try apply sees_ret; (destruct (_ && _); [exact A|apply sees_ret]).
    Qed.
    Lemma need_newline_sees m x y : okn y -> sees (need_newline c src W1 m x y) (need_newline c src W2 m x y).
    Proof.
      intros Hy. unfold need_newline. pose proof (sees_test_no_nl Ssrc c _ _ (one_sees y Hy)) as A. pose proof (sees_test Ssrc c _ _ (one_sees y Hy)) as B.
      destruct (n_kind m); try apply sees_ret; [| |now apply suffix_sees].
      - destruct (negb _); [apply sees_ret|]. destruct (_ && _).
        + destruct (_ && _); [|apply sees_ret]. destruct (is_kind _ _); [|now apply sees_isnone]. apply sees_bind; [apply sees_get_oneline|].
          intros []; [apply sees_ret|now apply sees_issome].
        + destruct (_ && _); [apply sees_isnone; now apply field_sees|apply sees_ret].
      - destruct (_ && _); [apply sees_ret|]. destruct (nis _ _ _); [|apply sees_ret]. destruct (on c _); [now apply sees_isnone|apply sees_ret].
    Qed.
    Lemma first_newline_sees m y : okn y -> sees (need_first_newline c src W1 m y) (need_first_newline c src W2 m y).
    Proof.
      intros Hy. unfold need_first_newline. pose proof (sees_test Ssrc c _ _ (one_sees y Hy)) as B.
      destruct (n_kind m); try apply sees_ret; [| |now apply suffix_sees].
      - destruct (negb _); [apply sees_ret|]. destruct (_ && _); [apply sees_bind; [apply sees_get_indent|]; intros; apply sees_ret|].
        destruct (_ || _); [apply sees_isnone; now apply field_sees|apply sees_ret].
      - destruct (nis _ _ _); [|apply sees_ret]. destruct (on c _); [now apply sees_isnone|apply sees_ret].
    Qed.
    Lemma trailing_sees m : sees (trailing_separator c m) (trailing_separator c m).
    Proof. unfold trailing_separator. destruct (n_kind m); try apply sees_ret. apply sees_bind; [apply sees_get_indent|]. intros. apply sees_ret. Qed.

    (** *** lists *)
    Lemma open_in p : slot_ok src (SGap p) -> inside L p -> open_at Ssrc (H c src) p.
    Proof.
      intros H1 H2. split; [intros h; now apply H_in|]. intros s t (_ & _ & -> & -> & _). split; [now apply inside_range|reflexivity].
    Qed.
    Lemma child_item m x : okn m -> In x (n_items m) -> Forall slotq (layout (snd x)) -> okn (snd x).
    Proof.
      intros [H1 H2] Hx Hl. assert (Hin : In (snd x) (children m)) by (unfold children; rewrite !in_app_iff; right; right; now apply in_map).
      split; [|split; [exact Hl|eapply fair_child; [exact (proj2 H2)|exact Hin]]]. inversion H1 as [? _ _ _ _ K]; subst. now apply K.
    Qed.
    Lemma child_sep m x : okn m -> In x (n_seps m) -> Forall slotq (layout (si_node x)) -> okn (si_node x).
    Proof.
      intros [H1 H2] Hx Hl. assert (Hin : In (si_node x) (children m)) by (unfold children; rewrite !in_app_iff; left; now apply in_map).
      split; [|split; [exact Hl|eapply fair_child; [exact (proj2 H2)|exact Hin]]]. inversion H1 as [? _ _ _ _ K]; subst. now apply K.
    Qed.
    Lemma lua_list_sees m : okn m -> is_list (n_kind m) = true -> sees (lua_list c src W1 m) (lua_list c src W2 m).
    Proof.
      intros Hm Hk. unfold lua_list. apply (sees_list Ssrc (lS_level src)) with (okn := okn).
      - intros x Hx. now apply W_now.
      - intros x Hx. now apply first_newline_sees.
      - intros x y _ Hy. now apply need_newline_sees.
      - assert (F : Forall (fun x : loc * node => slot_ok src (SGap (fst x)) /\ okn (snd x)) (n_items m)).
        { assert (F : Forall (fun x : loc * node => slotq (SGap (fst x)) /\ Forall slotq (layout (snd x))) (n_items m)).
          { apply listed_parts. destruct Hm as [_ [Hg _]]. destruct m as [k s ls t lv ks is ss o]. cbn [n_kind n_items] in *. destruct k; try discriminate; exact Hg. }
          apply Forall_forall. intros x Hx. rewrite Forall_forall in F. destruct (F x Hx) as [[F1 _] F2]. split; [exact F1|]. eapply child_item; eauto. }
        destruct Hm as [Hs _]. inversion Hs as [? _ G0 _ _ _]; subst. pose proof (G0 Hk) as G. clear G0. destruct (n_items m) as [|[p x] l]; [exact Logic.I|]. cbn [list_open]. cbn [map tl] in G.
        inversion F as [|? ? [F1 F2] F3]; subst. split; [now apply H_nil|]. split; [exact F2|].
        apply Forall_forall. intros y Hy. rewrite Forall_forall in F3, G. destruct (F3 y Hy). split; [|assumption]. apply open_in; [assumption|].
        apply G. now apply in_map.
    Qed.
    Lemma lua_seps_sees m : okn m -> is_seps (n_kind m) = true -> sees (lua_seps c src W1 m) (lua_seps c src W2 m).
    Proof.
      intros Hm Hk. unfold lua_seps. apply (sees_seps Ssrc (lS_level src)) with (okn := okn).
      - intros x Hx. now apply W_now.
      - intros x Hx. now apply first_newline_sees.
      - intros x y _ Hy. now apply need_newline_sees.
      - apply trailing_sees.
      - assert (F : Forall (fun x : sitem => slot_ok src (SGap (si_loc x)) /\ okn (si_node x) /\ slot_ok src (SGap (snd (fst x)))) (n_seps m)).
        { assert (F : Forall (parts4 slotq) (n_seps m)).
          { destruct Hm as [_ [Hg _]]. destruct m as [k s ls t lv ks is ss o]. cbn [n_kind n_seps] in *.
            destruct k; try discriminate; cbn [layout] in Hg; try (apply (commas_parts slotq Comma); exact Hg); try (apply (commas_parts slotq Period); exact Hg).
            - apply fields_parts in Hg. eapply Forall_impl; [|exact Hg]. intros y [Hy _]. exact Hy.
            - apply Forall_app in Hg as [Hg _]. apply (commas_parts slotq Period); exact Hg. }
          apply Forall_forall. intros x Hx. rewrite Forall_forall in F. destruct (F x Hx) as ([F1 _] & F2 & [F3 _]). split; [exact F1|]. split; [|exact F3]. eapply child_sep; eauto. }
        destruct Hm as [Hs _]. inversion Hs as [? _ _ G0 _ _]; subst. pose proof (G0 Hk) as G. clear G0. destruct (n_seps m) as [|[[[p x] q] z] l]; [exact Logic.I|]. cbn [seps_open]. cbn [map tl] in G.
        inversion F as [|? ? (F1 & F2 & F3) F4]; subst. split; [now apply H_nil|]. split; [exact F2|]. split; [now apply H_nil|].
        apply Forall_forall. intros y Hy. rewrite Forall_forall in F4, G. destruct (F4 y Hy) as (A1 & A2 & A3). split; [|split; [exact A2|now apply H_nil]].
        apply open_in; [exact A1|]. apply G. change (fst (fst (fst y))) with (si_loc y). now apply in_map.
    Qed.
    Lemma test_indent_sees m l h : okn m -> sees (H c src l h) (H c src l h) -> sees (test_indent c src W1 m l h) (test_indent c src W2 m l h).
    Proof.
      intros Hm A. unfold test_indent. destruct (n_kind m) eqn:Ek; try apply sees_ret.
      - destruct (n_seps m); [apply sees_ret|]. apply sees_copy. apply sees_bind; [exact A|]. intros _. apply lua_seps_sees; auto. now rewrite Ek.
      - assert (B : sees (on_copy (H c src l h ;;; (if on c B_indent_exp_list then if on c B_indent_one_line_exp_list then ret true else lua_seps c src W1 m else ret false)))
                         (on_copy (H c src l h ;;; (if on c B_indent_exp_list then if on c B_indent_one_line_exp_list then ret true else lua_seps c src W2 m else ret false)))).
        { apply sees_copy. apply sees_bind; [exact A|]. intros _. destruct (on c B_indent_exp_list); [|apply sees_ret].
          destruct (on c B_indent_one_line_exp_list); [apply sees_ret|]. apply lua_seps_sees; auto. now rewrite Ek. }
        destruct (n_seps m) as [|? [|]]; [apply sees_ret| |exact B]. destruct (negb _); [apply sees_ret|exact B].
      - destruct (n_items m); [apply sees_ret|]. apply sees_copy. apply sees_bind; [exact A|]. intros _.
        destruct (on c B_indent_var_suffix); [|apply sees_ret]. destruct (on c B_indent_one_line_var_suffix); [apply sees_ret|].
        apply lua_list_sees; auto. now rewrite Ek.
    Qed.

    (** *** arms *)
    Ltac side := solve [exact Logic.I | split; [cbn; lia|intros; first [reflexivity|discriminate]] | cbn; lia].
    Ltac sides := repeat (apply Forall_cons; [cbn [item_at]; side|]); apply Forall_nil.
    Lemma clause_at : irregular (n_kind n) = false ->
      Forall (item_at (n_kind n)) (cl_pre (clause_of c n))
      /\ match cl_test (clause_of c n) with
         | Some (k, p, h) => k < n_subs (n_kind n) /\ p < n_gaps (n_kind n) /\ bare_kind (n_kind n) = false
         | None => True
         end
      /\ (forall b, Forall (item_at (n_kind n)) (cl_post (clause_of c n) b)).
    Proof.
      destruct (n_kind n) eqn:Ek; try discriminate; intros _; unfold clause_of; rewrite Ek; cbn [plain tested cl_pre cl_post cl_test];
        (split; [sides|]; split; [first [exact Logic.I|repeat split; cbn; lia]|intros []; sides]).
    Qed.
    Lemma clause_sees : okn n -> irregular (n_kind n) = false -> sees (run_clause c src W1 n (clause_of c n)) (run_clause c src W2 n (clause_of c n)).
    Proof.
      intros Hn Hk. destruct (clause_at Hk) as (A1 & A2 & A3). unfold run_clause.
      apply sees_bind; [now apply items_sees|]. intros _. apply sees_bind; [|intros b; now apply items_sees].
      destruct (cl_test (clause_of c n)) as [[[i p] h]|]; [|apply sees_ret]. destruct A2 as (A4 & A5 & A6).
      apply test_indent_sees; [now apply ok_kid|]. apply gap_sees; auto. congruence.
    Qed.
    Lemma range_sees m k : okn n -> range_kind (n_kind n) = true -> sees m k -> (n_kind n = KStatementList -> n_items n = [] -> sees (emit []) k) ->
      sees (range_or c src W1 n m) (range_or c src W2 n k).
    Proof.
      intros [Hs _] Hk Hm He. unfold range_or. apply sees_get_st. intros s t Hst. pose proof Hst as (E1 & _ & -> & -> & _). change (test_out_of_range None (n_span n)) with false. cbv iota.
      assert (Ek : (match raw_items n with Some l => if test_not_completely_contained None (n_span n) then run_items c src W2 n l else k | None => k end) = k).
      { destruct (raw_items n); reflexivity. }
      rewrite Ek. inversion Hs as [? _ _ _ Hr _]; subst. destruct (Hr Hk) as [[H1 H2]|(H1 & H2 & H3 & H4)].
      - rewrite inside_range by (split; lia). destruct (raw_items n); [|exact Hm].
        assert (Ec : test_not_completely_contained (Some (0, List.length src)) (n_span n) = false).
        { unfold test_not_completely_contained. apply orb_false_iff. split; apply andb_false_iff; [left|right]; apply Nat.ltb_ge; unfold L in *; lia. }
        rewrite Ec. exact Hm.
      - destruct (test_out_of_range _ _) eqn:Eo.
        + specialize (He H1 H2). intros w v R. unfold write_loc, bind, get_st. pose proof R as (_ & (I1 & _) & _). destruct (n_span n) as [a b]. cbn [fst snd] in *. subst b.
          destruct (UtilProofs.substr_code src a a (w_st w) I1) as [X _]. rewrite X by (unfold L in *; lia). replace (slice src a a) with (@nil char); [now apply He|].
          unfold slice. now rewrite Nat.sub_diag.
        + unfold raw_items. rewrite H1. exact Hm.
    Qed.
    Lemma oneline_sees tc done m k : okn n -> (forall c', tc = Some c' -> reach c0 c') -> sees done done -> sees m k ->
      sees (oneline_or W1 tc n done m) (oneline_or W2 tc n done k).
    Proof.
      intros Hn Ht Hd Hm. unfold oneline_or. destruct tc as [c'|]; [|exact Hm]. apply sees_bind.
      - apply sees_test_no_nl. constructor; [|constructor]. apply W_sees; auto.
      - intros [line|]; [|exact Hm]. apply sees_bind; [exact Hd|]. intros _. apply sees_emit.
    Qed.
    Lemma binary_sees : okn n -> n_kind n = KBinaryOp -> sees (write_binary c src W1 n) (write_binary c src W2 n).
    Proof.
      intros Hn Ek. unfold write_binary. apply sees_bind; [apply items_sees; [exact Hn|rewrite Ek; sides]|]. intros _.
      apply sees_bind; [|intros b; apply items_sees; [exact Hn|rewrite Ek; sides]]. destruct (_ && _); [|apply sees_ret]. apply sees_issome, sees_test.
      assert (G : forall i, i < 2 -> sees (H c src (nloc n i) sp) (H c src (nloc n i) sp)) by (intros i Hi; apply gap_sees; [exact Hn|now rewrite Ek|now rewrite Ek]).
      constructor; [apply G; lia|]. constructor; [apply sees_emit|]. constructor; [apply G; lia|]. constructor; [|constructor].
      apply W_now, ok_kid; [exact Hn|]. rewrite Ek. cbn. lia.
    Qed.
    Lemma table_sees : okn n -> n_kind n = KTableConstructor -> sees (write_table c src W1 n) (write_table c src W2 n).
    Proof.
      intros Hn Ek. unfold write_table.
      assert (TF : table_free).
      { destruct Hn as [_ [F _]]. destruct n as [k s ls t lv ks is ss o]. cbn [n_kind] in Ek. subst k. cbn [layout] in F. inversion F as [|? ? F1 _]; subst. now apply F1. }
      apply oneline_sees; auto; [intros c' E; eapply reach_table; eauto|apply sees_set_oneline|].
      apply sees_bind; [apply sees_get_oneline|]. intros one. apply sees_bind; [apply nl_sees; [intros _; now apply H_table|exact void_gap]|]. intros _.
      apply sees_bind; [apply items_sees; [exact Hn|rewrite Ek; sides]|]. intros _. apply sees_bind.
      { destruct (_ && _); [|apply sees_ret]. apply test_indent_sees; [apply ok_kid; [exact Hn|rewrite Ek; cbn; lia]|].
        apply H_table; [exact TF|]. apply ok_gap; [exact Hn|]. rewrite Ek. cbn. lia. }
      intros ind. apply sees_bind; [destruct (is_kind _ _); [apply sees_set_indent|apply sees_ret]|]. intros _.
      apply sees_bind; [apply items_sees; [exact Hn|rewrite Ek; sides]|]. intros _. apply sees_get_f. intros f. apply items_sees; [exact Hn|rewrite Ek; sides].
    Qed.
    Lemma empty_sees : okn n -> n_kind n = KTableConstructorEmpty -> sees (write_empty_table c src W1 n) (write_empty_table c src W2 n).
    Proof.
      intros Hn Ek. unfold write_empty_table. apply sees_bind; [apply sees_buffer, gap_sees; [exact Hn|rewrite Ek; cbn; lia|rewrite Ek; discriminate]|].
      intros t. apply items_sees; [exact Hn|rewrite Ek; sides].
    Qed.
    Lemma body_sees : okn n -> sees (write_body c src W1 n) (write_body c src W2 n).
    Proof.
      intros Hn. unfold write_body.
      assert (A : irregular (n_kind n) = false -> sees (run_clause c src W1 n (clause_of c n)) (run_clause c src W2 n (clause_of c n))) by (intros; now apply clause_sees).
      assert (B : irregular (n_kind n) = false -> range_kind (n_kind n) = true -> sees
         (range_or c src W1 n (s <- get_st ;; oneline_or W1 (match oneline_if_cfg c n with Some c' => Some c' | None => oneline_function_cfg c s n end) n (ret tt)
             (run_clause c src W1 n (clause_of c n))))
         (range_or c src W2 n (s <- get_st ;; oneline_or W2 (match oneline_if_cfg c n with Some c' => Some c' | None => oneline_function_cfg c s n end) n (ret tt)
             (run_clause c src W2 n (clause_of c n))))).
      { intros Hi Hr. apply range_sees; [exact Hn|exact Hr| |intros E; rewrite E in Hi; discriminate]. apply sees_get_st. intros s t Hst.
        assert (Ef : oneline_function_cfg c s n = oneline_function_cfg c t n) by (unfold oneline_function_cfg; now rewrite (lS_depth _ _ _ Hst)).
        rewrite Ef. apply oneline_sees; auto; [|apply sees_ret].
        intros c' E. destruct (oneline_if_cfg c n) eqn:E1; [injection E as <-; eapply reach_if; eauto|eapply reach_function; eauto]. }
      assert (Sp : is_seps (n_kind n) = true -> sees (range_or c src W1 n (lua_seps c src W1 n ;;; ret tt)) (range_or c src W2 n (lua_seps c src W2 n ;;; ret tt))).
      { intros Hl. apply range_sees; [exact Hn|destruct (n_kind n); auto; discriminate| |intros E; rewrite E in Hl; discriminate].
        apply sees_bind; [now apply lua_seps_sees|]. intros _. apply sees_ret. }
      assert (Li : is_list (n_kind n) = true -> sees (range_or c src W1 n (lua_list c src W1 n ;;; ret tt)) (range_or c src W2 n (lua_list c src W2 n ;;; ret tt))).
      { intros Hl. apply range_sees; [exact Hn|destruct (n_kind n); auto; discriminate| |].
        - apply sees_bind; [now apply lua_list_sees|]. intros _. apply sees_ret.
        - intros _ E. unfold lua_list. rewrite E. cbn [write_list]. intros w v (R1 & R2 & R3 & R4). split; [reflexivity|]. cbn. rewrite app_nil_r.
          exact (conj R1 (conj R2 (conj R3 R4))). }
      destruct (n_kind n) eqn:Ek; try (apply A; reflexivity); try (apply B; reflexivity); try (apply Li; reflexivity); try (apply Sp; reflexivity).
      - apply range_sees; [exact Hn|now rewrite Ek| |intros E; congruence]. now apply binary_sees.
      - apply sees_emit.
      - apply range_sees; [exact Hn|now rewrite Ek| |intros E; congruence]. now apply table_sees.
      - apply range_sees; [exact Hn|now rewrite Ek| |intros E; congruence]. now apply empty_sees.
      - apply range_sees; [exact Hn|now rewrite Ek| |intros E; congruence]. apply sees_bind; [apply lua_seps_sees; auto; now rewrite Ek|]. intros _.
        apply items_sees; [exact Hn|rewrite Ek; sides].
      - apply sees_emit.
    Qed.
  End Body.
End Lua.
