(** The layout of lists under every configuration. *)
From Coq Require Import Lia.
From Verif Require Import Base Lib Config State Ast WriterBase LuaWriter TotalSpec TotalResults PrettySpec PrettyGap OneLineResults TotalFrame OutcomeProofs OperatorSpec OperatorResults TableSpec TableResults ListSpec.

Lemma nis_is c k : nis c k 1 = true <-> cn c k = Some 1%N.
Proof. unfold nis. destruct (cn c k); [rewrite N.eqb_eq; split; congruence|split; discriminate]. Qed.
Lemma nsome_is c k : nsome c k = true <-> cn c k <> None.
Proof. unfold nsome. destruct (cn c k); cbn; split; congruence. Qed.
Lemma same_refl w : same_place w w.
Proof. split; reflexivity. Qed.
Lemma test_width c ms w r w1 : isnone (test_oneline c ms) w = (ROk r, w1) -> same_place w1 w /\ (r = true <-> ~ fits_width c ms w).
Proof.
  intros E. unfold isnone, bind in E. destruct (test_oneline c ms w) as [[o| | |] w2] eqn:Et; try discriminate. injection E as <- <-.
  destruct (cn c N_max_width) as [mw|] eqn:Hm.
  - destruct (test_fits _ _ _ _ _ _ Hm Et) as [P D]. split; [exact P|]. unfold fits_width. destruct o; cbn [is_none is_some] in *.
    + split; [discriminate|]. intros X. exfalso. apply X. exists mw. split; [exact Hm|]. now apply D.
    + split; [|reflexivity]. intros _ (mw' & Hm' & F). assert (mw' = mw) by congruence. subst. apply D in F. discriminate.
  - assert (o = None /\ same_place w2 w) as [-> P].
    { unfold test_oneline, bind in Et. destruct (run_all ms false (set_f [] w)) as [[[]| | |] wt]; try discriminate.
      - injection Et as <- <-. split; [reflexivity|split; reflexivity].
      - rewrite Hm in Et. discriminate. }
    split; [exact P|]. split; [|reflexivity]. intros _ (mw & X & _). congruence.
Qed.
Lemma expr_decides c (W : config -> node -> M unit) o x w r w1 : (if nis c o 1 then if on c B_force_single_line_exp_list then isnone (test_oneline c [W c x]) else ret true else ret false) w = (ROk r, w1) ->
  same_place w1 w /\ (r = true <-> expression_begins c o (W c x) w).
Proof.
  intros E. unfold expression_begins. destruct (nis c o 1) eqn:N1.
  - apply nis_is in N1. destruct (on c B_force_single_line_exp_list) eqn:Of.
    + apply on_is in Of. apply test_width in E. destruct E as [P E]. split; [exact P|]. rewrite E. tauto.
    + rewrite <- not_true_iff_false, on_is in Of. injection E as <- <-. split; [apply same_refl|]. tauto.
  - rewrite <- not_true_iff_false, nis_is in N1. injection E as <- <-. split; [apply same_refl|]. intuition congruence.
Qed.
Lemma suffix_part_some c gap x m : exists part, suffix_part c gap x m part /\ forall part', suffix_part c gap x m part' -> part' = part.
Proof.
  assert (D : name_only c m \/ ~ name_only c m).
  { unfold name_only. destruct (n_kind m); try (right; intros [X _]; discriminate). destruct (n_kind (kid m 1)) eqn:K; try (right; intros [_ [X|[X _]]]; cbn in X; intuition discriminate);
      try (left; split; [reflexivity|left; cbn; tauto]). destruct (cn c N_newline_format_exp_list_first); [left|right].
    - split; [reflexivity|]. right. split; [reflexivity|discriminate].
    - intros [_ [X|[_ X]]]; [cbn in X; intuition discriminate|congruence]. }
  unfold suffix_part. destruct D as [D|D]; eexists; (split; [(left; split; [exact D|reflexivity]) || (right; split; [exact D|reflexivity])|]); intros part' [[A B]|[A B]]; tauto || exact B.
Qed.
Lemma suffix_begins_iff c src W m w r w1 : suffix_newline c src W m w = (ROk r, w1) -> same_place w1 w /\ (r = true <-> suffix_begins c (comment_hint c src) (W c) m w).
Proof.
  intros E. destruct (on c B_force_single_line_var_suffix) eqn:Of.
  - destruct (suffix_part_some c (comment_hint c src) (W c) m) as (part & Pp & Pu).
    assert (D : suffix_breaks c m /\ suffix_newline c src W m = isnone (test_oneline c part) \/ ~ suffix_breaks c m /\ suffix_newline c src W m = ret false).
    { unfold suffix_breaks. destruct (nsome c N_newline_format_var_suffix) eqn:Ns.
      - assert (Nn : cn c N_newline_format_var_suffix <> None) by now apply nsome_is.
        unfold suffix_newline. rewrite Ns, Of. cbn [negb]. unfold suffix_part, name_only in Pp.
        destruct (n_kind m) eqn:Km; try (right; split; [intros [[X|X] _]; discriminate|reflexivity]); left; (split; [split; [auto|exact Nn]|]).
        + destruct Pp as [[[X _] _]|[_ ->]]; [discriminate|reflexivity].
        + destruct Pp as [[[_ X] ->]|[X ->]].
          * destruct X as [X|[X Y]]; [cbn in X; destruct X as [<-|[<-|[<-|[]]]]; reflexivity|]. rewrite X. apply nsome_is in Y. now rewrite Y.
          * destruct (n_kind (kid m 1)) eqn:K1; try reflexivity; try (exfalso; apply X; split; [reflexivity|left; cbn; tauto]).
            destruct (nsome c N_newline_format_exp_list_first) eqn:Z; [|reflexivity]. apply nsome_is in Z. exfalso. apply X. split; [reflexivity|right; split; [reflexivity|exact Z]].
      - right. rewrite <- not_true_iff_false, nsome_is in Ns. split; [tauto|]. unfold suffix_newline. destruct (n_kind m); try reflexivity; destruct (nsome c N_newline_format_var_suffix) eqn:Z; try reflexivity; apply nsome_is in Z; tauto. }
    unfold suffix_begins. apply on_is in Of. destruct D as [[B D]|[B D]]; rewrite D in E.
    + apply test_width in E. destruct E as [P E]. split; [exact P|]. rewrite E. split.
      * intros F. split; [exact B|]. intros _ part' X. now rewrite (Pu _ X).
      * intros [_ F]. now apply F.
    + injection E as <- <-. split; [apply same_refl|]. split; [discriminate|tauto].
  - assert (Of' : cb c B_force_single_line_var_suffix <> Some true) by (rewrite <- on_is; congruence).
    unfold suffix_begins, suffix_breaks. unfold suffix_newline in E. rewrite Of in E. destruct (nsome c N_newline_format_var_suffix) eqn:Ns.
    + apply nsome_is in Ns. cbn [negb] in E. destruct (n_kind m); injection E as <- <-; (split; [apply same_refl|]); intuition congruence.
    + rewrite <- not_true_iff_false, nsome_is in Ns. cbn [negb] in E. destruct (n_kind m); injection E as <- <-; (split; [apply same_refl|]); intuition congruence.
Qed.
Lemma field_test c W m w r w1 : nsome c N_newline_format_table_field = true -> isnone (test_oneline_table_field c W m) w = (ROk r, w1) ->
  same_place w1 w /\ (r = true <-> ~ short_field c m (W c m) w).
Proof.
  intros Hn E. unfold short_field. destruct (cn c N_max_width) as [mw|] eqn:Hm.
  - apply (field_decides c W m mw _ _ _ Hm Hn) in E. destruct E as (P & A1 & A2). split; [exact P|]. split.
    + intros X (mw' & Y & F). assert (mw' = mw) by congruence. subst. now apply (A1 eq_refl).
    + intros F. destruct r; [reflexivity|]. exfalso. apply F. exists mw. auto.
  - unfold test_oneline_table_field, isnone, bind in E. assert (X : nsome c N_max_width = false) by (unfold nsome; now rewrite Hm). rewrite X in E.
    assert (r = true /\ w1 = w) as [-> ->] by (destruct (n_kind m); cbn in E; injection E as <- <-; auto).
    split; [apply same_refl|]. split; [|reflexivity]. intros _ (mw & Y & _). discriminate.
Qed.
Lemma line_test c x w o w1 : test_oneline_no_nl c [x] w = (ROk o, w1) -> same_place w1 w /\ (is_some o = true <-> fits_line c x w).
Proof.
  intros E. unfold fits_line. destruct (cn c N_max_width) as [mw|] eqn:Hm.
  - destruct (no_nl_fits _ _ _ _ _ _ Hm E) as [P D]. split; [exact P|]. rewrite D. split; [eauto|]. intros (mw' & X & F). now injection X as <-.
  - unfold test_oneline_no_nl, test_oneline, bind in E. destruct (run_all [x] false (set_f [] w)) as [[[]| | |] wt]; try discriminate.
    + injection E as <- <-. split; [split; reflexivity|]. split; [discriminate|]. intros (mw & X & _). discriminate.
    + rewrite Hm in E. discriminate.
Qed.

Lemma first_decides c src W n m w r w1 : In (n_kind n) separated_lists -> lazy_and (sep_need_newlines c n) (need_first_newline c src W n m) w = (ROk r, w1) ->
  same_place w1 w /\ (r = true <-> begins c (comment_hint c src) (W c) n None m w).
Proof.
  intros Kn E. unfold sep_need_newlines, need_first_newline in E. unfold begins. cbn in Kn. destruct (n_kind n) eqn:K; try (exfalso; intuition discriminate); cbn [lazy_and] in E;
    try (injection E as <- <-; split; [apply same_refl|]; intuition discriminate).
  - (* fields *)
    destruct (nsome c N_newline_format_table_field) eqn:Hn; cbn [lazy_and negb] in E.
    2:{ injection E as <- <-. split; [apply same_refl|]. rewrite <- not_true_iff_false, nsome_is in Hn. intuition discriminate. }
    assert (Nn : cn c N_newline_format_table_field <> None) by now apply nsome_is. unfold first_field_begins, packed, fitted.
    destruct (obool_is (o_iv (n_opts n)) true && on c B_force_single_line_iv_table_field) eqn:Pk.
    + apply andb_true_iff in Pk. destruct Pk as [Oi O2]. rewrite Oi, O2 in E. apply is_true_is in Oi. apply on_is in O2.
      assert (Fi : ~ (o_iv (n_opts n) = Some false /\ cb c B_force_single_line_kv_table_field = Some true)) by intuition congruence.
      destruct (on c B_force_single_line_table) eqn:O1; cbn [andb orb] in E.
      * apply on_is in O1. unfold bind, get_indent, ret in E. injection E as <- <-. split; [apply same_refl|]. rewrite orb_true_iff, negb_true_iff, <- not_true_iff_false, is_true_is, noted_is. intuition congruence.
      * rewrite <- not_true_iff_false, on_is in O1. apply field_test in E; [|exact Hn]. destruct E as [P E]. split; [exact P|]. rewrite E. intuition congruence.
    + assert (Pk' : ~ (o_iv (n_opts n) = Some true /\ cb c B_force_single_line_iv_table_field = Some true)).
      { intros [X1 X2]. apply is_true_is in X1. apply on_is in X2. rewrite X1, X2 in Pk. discriminate. }
      assert (Pk2 : on c B_force_single_line_table && obool_is (o_iv (n_opts n)) true && on c B_force_single_line_iv_table_field = false) by (rewrite <- andb_assoc, Pk; apply andb_false_r).
      rewrite Pk2, (andb_comm (on c B_force_single_line_iv_table_field)), Pk in E. cbn [orb] in E.
      destruct (on c B_force_single_line_kv_table_field && obool_is (o_iv (n_opts n)) false) eqn:Fk.
      * apply andb_true_iff in Fk. destruct Fk as [X1 X2]. apply on_is in X1. assert (o_iv (n_opts n) = Some false) by (destruct (o_iv (n_opts n)) as [[]|]; try discriminate; reflexivity).
        apply field_test in E; [|exact Hn]. destruct E as [P E]. split; [exact P|]. rewrite E. intuition congruence.
      * assert (~ (o_iv (n_opts n) = Some false /\ cb c B_force_single_line_kv_table_field = Some true)).
        { intros [X1 X2]. apply on_is in X2. rewrite X1, X2 in Fk. discriminate. }
        injection E as <- <-. split; [apply same_refl|]. intuition congruence.
  - (* expressions *)
    destruct (nsome c N_newline_format_exp_list || nsome c N_newline_format_exp_list_first) eqn:Hn; cbn [lazy_and] in E.
    + now apply expr_decides in E.
    + injection E as <- <-. split; [apply same_refl|]. apply orb_false_iff in Hn. destruct Hn as [_ Hn]. rewrite <- not_true_iff_false, nsome_is in Hn.
      split; [discriminate|]. intros [X _]. rewrite X in Hn. exfalso. apply Hn. discriminate.
Qed.
Lemma later_decides c src W n prev m w r w1 : In (n_kind n) separated_lists -> lazy_and (sep_need_newlines c n) (need_newline c src W n prev m) w = (ROk r, w1) ->
  same_place w1 w /\ (r = true <-> begins c (comment_hint c src) (W c) n (Some prev) m w).
Proof.
  intros Kn E. unfold sep_need_newlines, need_newline in E. unfold begins. cbn in Kn. destruct (n_kind n) eqn:K; try (exfalso; intuition discriminate); cbn [lazy_and] in E;
    try (injection E as <- <-; split; [apply same_refl|]; intuition discriminate).
  - (* fields *)
    destruct (nsome c N_newline_format_table_field) eqn:Hn; cbn [lazy_and negb] in E.
    2:{ injection E as <- <-. split; [apply same_refl|]. rewrite <- not_true_iff_false, nsome_is in Hn. intuition discriminate. }
    assert (Nn : cn c N_newline_format_table_field <> None) by now apply nsome_is. unfold later_field_begins, packed, fitted.
    destruct (obool_is (o_iv (n_opts n)) true && on c B_force_single_line_iv_table_field) eqn:Pk.
    + apply andb_true_iff in Pk. destruct Pk as [Oi O2]. apply is_true_is in Oi. apply on_is in O2.
      assert (Fi : ~ (o_iv (n_opts n) = Some false /\ cb c B_force_single_line_kv_table_field = Some true)) by intuition congruence.
      destruct (on c B_force_single_line_table) eqn:O1; [apply on_is in O1|rewrite <- not_true_iff_false, on_is in O1; injection E as <- <-; split; [apply same_refl|]; intuition congruence].
      destruct (is_kind KFieldSequential prev) eqn:Kp; cbn [andb] in E.
      2:{ injection E as <- <-. split; [apply same_refl|]. assert (n_kind prev <> KFieldSequential) by (intros X; unfold is_kind in Kp; rewrite X in Kp; discriminate). intuition congruence. }
      assert (Kp' : n_kind prev = KFieldSequential) by (unfold is_kind in Kp; destruct (n_kind prev); try discriminate Kp; reflexivity).
      destruct (is_kind KTableConstructor (kid prev 0)) eqn:Kt.
      * assert (Kt' : n_kind (kid prev 0) = KTableConstructor) by (unfold is_kind in Kt; destruct (n_kind (kid prev 0)); try discriminate Kt; reflexivity).
        unfold bind at 1 in E. destruct (get_oneline (kid prev 0) w) as [[one| | |] wz] eqn:Eo; try discriminate. destruct (get_marked _ _ _ _ Eo) as [-> Mk]. destruct one.
        -- injection E as <- <-. split; [apply same_refl|]. intuition congruence.
        -- unfold issome, bind in E. destruct (test_oneline_no_nl c [W c m] w) as [[o| | |] wy] eqn:Et; try discriminate. injection E as <- <-.
           destruct (line_test _ _ _ _ _ Et) as [Py F]. split; [exact Py|]. rewrite F. assert (~ marked (kid prev 0) w) by (rewrite <- Mk; discriminate). intuition congruence.
      * assert (Kt' : n_kind (kid prev 0) <> KTableConstructor) by (intros X; unfold is_kind in Kt; rewrite X in Kt; discriminate).
        unfold isnone, bind in E. destruct (test_oneline_no_nl c [W c m] w) as [[o| | |] wy] eqn:Et; try discriminate. injection E as <- <-.
        destruct (line_test _ _ _ _ _ Et) as [Py F]. split; [exact Py|]. rewrite <- F. destruct o; cbn; intuition congruence.
    + assert (Pk' : ~ (o_iv (n_opts n) = Some true /\ cb c B_force_single_line_iv_table_field = Some true)).
      { intros [X1 X2]. apply is_true_is in X1. apply on_is in X2. rewrite X1, X2 in Pk. discriminate. }
      destruct (on c B_force_single_line_kv_table_field && obool_is (o_iv (n_opts n)) false) eqn:Fk.
      * apply andb_true_iff in Fk. destruct Fk as [X1 X2]. apply on_is in X1. assert (o_iv (n_opts n) = Some false) by (destruct (o_iv (n_opts n)) as [[]|]; try discriminate; reflexivity).
        apply field_test in E; [|exact Hn]. destruct E as [P E]. split; [exact P|]. rewrite E. intuition congruence.
      * assert (~ (o_iv (n_opts n) = Some false /\ cb c B_force_single_line_kv_table_field = Some true)).
        { intros [X1 X2]. apply on_is in X2. rewrite X1, X2 in Fk. discriminate. }
        injection E as <- <-. split; [apply same_refl|]. intuition congruence.
  - (* expressions *)
    unfold table_begins. destruct (nsome c N_newline_format_exp_list || nsome c N_newline_format_exp_list_first) eqn:Hn; cbn [lazy_and] in E.
    + apply orb_true_iff in Hn. rewrite !nsome_is in Hn. destruct (is_kind KTableConstructor m && on c B_write_newline_at_explist_multiline_table && obool_is (cb c B_write_newline_at_multiline_table) false) eqn:T.
      * injection E as <- <-. split; [apply same_refl|]. apply andb_true_iff in T. destruct T as [T T3]. apply andb_true_iff in T. destruct T as [T1 T2]. apply on_is in T2.
        assert (n_kind m = KTableConstructor) by (unfold is_kind in T1; destruct (n_kind m); try discriminate T1; reflexivity).
        assert (cb c B_write_newline_at_multiline_table = Some false) by (destruct (cb c B_write_newline_at_multiline_table) as [[]|]; try discriminate; reflexivity). tauto.
      * apply expr_decides in E. destruct E as [P E]. split; [exact P|]. rewrite E. split; [tauto|]. intros [(X1 & X2 & X3 & _)|X]; [|exact X]. exfalso. unfold is_kind in T. apply on_is in X2. rewrite X1, X2, X3 in T. discriminate.
    + injection E as <- <-. split; [apply same_refl|]. apply orb_false_iff in Hn. rewrite <- !not_true_iff_false, !nsome_is in Hn.
      split; [discriminate|]. intros [X|[X _]]; [tauto|]. rewrite X in Hn. exfalso. apply (proj1 Hn). discriminate.
Qed.
Lemma item_decides c src W n (prev : option node) m w r w1 : In (n_kind n) plain_lists ->
  lazy_and (list_need_newlines c n) (match prev with None => need_first_newline c src W n m | Some q => need_newline c src W n q m end) w = (ROk r, w1) ->
  same_place w1 w /\ (r = true <-> begins c (comment_hint c src) (W c) n prev m w).
Proof.
  intros Kn E. unfold list_need_newlines, need_newline, need_first_newline in E. unfold begins. cbn in Kn. destruct (n_kind n) eqn:K; try (exfalso; intuition discriminate).
  - (* suffixes *)
    destruct (nsome c N_newline_format_var_suffix) eqn:Hn; cbn [lazy_and] in E.
    + destruct prev; now apply suffix_begins_iff in E.
    + injection E as <- <-. split; [apply same_refl|]. rewrite <- not_true_iff_false, nsome_is in Hn. unfold suffix_begins, suffix_breaks. split; [discriminate|tauto].
  - (* statements *)
    destruct (nsome c N_newline_format_statement) eqn:Hn; cbn [lazy_and] in E.
    + destruct prev; injection E as <- <-; (split; [apply same_refl|]); [split; [intros _; now apply nsome_is|reflexivity]|intuition discriminate].
    + injection E as <- <-. split; [apply same_refl|]. rewrite <- not_true_iff_false, nsome_is in Hn. destruct prev; intuition congruence.
  - (* else if *)
    destruct (nsome c N_newline_format_if) eqn:Hn; cbn [lazy_and] in E.
    + destruct prev; injection E as <- <-; (split; [apply same_refl|]); [apply nis_is|intuition discriminate].
    + injection E as <- <-. split; [apply same_refl|]. rewrite <- not_true_iff_false, nsome_is in Hn. destruct prev; intuition congruence.
Qed.

Lemma sep_is c n z : In (n_kind n) separated_lists -> get_sep (separator c n) z = item_separator c n z.
Proof. intros K. unfold separator, get_sep, item_separator, used_separator. destruct (n_kind n); try (exfalso; cbn in K; intuition discriminate); reflexivity. Qed.
Lemma gap_is n : In (n_kind n) separated_lists -> elem_prefix_hint n = separator_gap n.
Proof. intros K. unfold elem_prefix_hint, separator_gap. destruct (n_kind n); try (exfalso; cbn in K; intuition discriminate); reflexivity. Qed.
Lemma set_down_flag c (b : bool) (G : hinted) h (x : M unit) w w1 w2 w' : same_place w1 w -> if_newline c b G h w1 = (ROk tt, w2) -> x w2 = (ROk tt, w') -> set_down c (b = true) (G h) x w w'.
Proof. intros S E1 E2. eapply set_down_by; eauto. reflexivity. Qed.
Lemma in_flags b0 b bs : (b0 || b = true \/ In true bs) <-> (b0 = true \/ In true (b :: bs)).
Proof. cbn. rewrite orb_true_iff. intuition congruence. Qed.

Lemma rest_run c src fuel n : In (n_kind n) separated_lists -> forall l b0 prev z w res w', pos_range (w_st w) = None ->
  write_seps_rest c src (H c src) (write fuel src c) (sep_need_newlines c n) (need_newline c src (write fuel src) n) (separator c n) (elem_prefix_hint n) b0 prev z l w = (ROk res, w') ->
  exists bs, rest_laid c (comment_hint c src) (write fuel src c) n prev z l bs (snd res) w w' /\ (fst res = true <-> b0 = true \/ In true bs).
Proof.
  intros K. induction l as [|[[[p m] q] z1] l IH]; intros b0 prev z w res w' R E; cbn [write_seps_rest] in E.
  { injection E as <- <-. exists []. split; [constructor|]. cbn. intuition. }
  apply seq_in in E; [|now exists res]. destruct E as (we & Ee & E). assert (Re : pos_range (w_st we) = None) by (unfold emit in Ee; injection Ee as <-; exact R).
  unfold bind at 1, get_st at 1 in E. rewrite Re in E. cbn [test_out_of_range] in E.
  unfold bind at 1 in E. unfold bind at 1 in E. destruct (lazy_and _ _ we) as [[b| | |] wa] eqn:Ea; try discriminate. destruct (later_decides _ _ _ _ _ _ _ _ _ K Ea) as [Pa A].
  unfold bind at 1 in E. destruct (if_newline c b (H c src p) (elem_prefix_hint n) wa) as [[[]| | |] wb] eqn:Eb; try discriminate. cbn in E.
  apply seq_in in E; [|now exists res]. destruct E as (wc & Ec & E). apply seq_in in E; [|now exists res]. destruct E as (wf & Ef & E).
  destruct (IH (b0 || b) m z1 wf res w') as (bs & L & F).
  { eapply (rest_range c src fuel p m q b (elem_prefix_hint n)); eauto. rewrite (proj2 Pa). exact Re. }
  { exact E. }
  exists (b :: bs). split.
  - eapply rl_more with (w1 := we) (w2 := wc) (w3 := wf); [|exact A| | |exact L].
    + econstructor; [rewrite <- sep_is by exact K; exact Ee|constructor].
    + rewrite <- gap_is by exact K. eapply (set_down_flag c b (H c src p)); eauto.
    + econstructor; [exact Ef|constructor].
  - rewrite F. apply in_flags.
Qed.
Lemma trailing_bool c z : (is_none (cb c B_write_trailing_field_separator) && negb (is_empty z)) || obool_is (cb c B_write_trailing_field_separator) true = true <-> trailing c z.
Proof. unfold trailing. destruct (cb c B_write_trailing_field_separator) as [[]|]; destruct z; cbn; intuition congruence. Qed.
Lemma ends_dec c n z w : In (n_kind n) separated_lists ->
  exists t, trailing_separator c n w = (ROk t, w) /\ ((is_none t && negb (is_empty z)) || obool_is t true = true <-> ends_separated c n z w).
Proof.
  intros K. unfold trailing_separator, ends_separated. destruct (n_kind n); try (exfalso; cbn in K; intuition discriminate);
    try (eexists; split; [reflexivity|]; cbn; intuition discriminate).
  unfold bind, get_indent, ret. eexists. split; [reflexivity|]. rewrite <- noted_is, <- on_is.
  set (h := lookup_indent _ _). destruct (on c B_force_single_line_table) eqn:O1; cbn [andb].
  - destruct (negb (nsome c N_newline_format_table_field) && negb (nsome c N_newline_format_table_constructor) || obool_is (o_iv (n_opts n)) true && negb h) eqn:X.
    + split; [discriminate|]. intros (_ & _ & Y). exfalso. apply Y. split; [reflexivity|]. apply orb_true_iff in X. rewrite !andb_true_iff, !negb_true_iff, is_true_is in X. destruct X as [[X1 X2]|[X1 X2]].
      * left. unfold nsome in X1, X2. destruct (cn c N_newline_format_table_field), (cn c N_newline_format_table_constructor); try discriminate. auto.
      * right. split; [exact X1|congruence].
    + pose proof (trailing_bool c z) as Z.
      rewrite Z. split; [|tauto]. intros T. split; [reflexivity|]. split; [exact T|]. intros [_ [[X1 X2]|[X1 X2]]]; apply orb_false_iff in X; destruct X as [Xa Xb].
      * unfold nsome in Xa. rewrite X1, X2 in Xa. discriminate.
      * rewrite X1 in Xb. cbn in Xb. apply negb_false_iff in Xb. congruence.
  - pose proof (trailing_bool c z) as Z.
    rewrite Z. intuition discriminate.
Qed.
Lemma seps_run c src fuel n w b w' : In (n_kind n) separated_lists -> pos_range (w_st w) = None -> lua_seps c src (write fuel src) n w = (ROk b, w') ->
  exists bs, list_laid c (comment_hint c src) (write fuel src c) n (n_seps n) bs w w' /\ (b = true <-> In true bs).
Proof.
  intros K R E. unfold lua_seps, write_seps in E. destruct (n_seps n) as [|[[[p m] q] z] l] eqn:Es.
  { injection E as <- <-. exists []. split; [constructor|]. cbn. intuition discriminate. }
  unfold bind at 1 in E. destruct (lazy_and _ _ w) as [[r| | |] wa] eqn:Ea; try discriminate. destruct (first_decides _ _ _ _ _ _ _ _ K Ea) as [Pa A].
  apply seq_in in E; [|now exists b]. destruct E as (wb & Eb & E). apply seq_in in E; [|now exists b]. destruct E as (wc & Ec & E). apply seq_in in E; [|now exists b]. destruct E as (wd & Ed & E).
  unfold bind at 1 in E. match type of E with match ?t with _ => _ end = _ => destruct t as [[res| | |] w3] eqn:Ew end; try discriminate.
  destruct (rest_run c src fuel n K l r m z wd res w3) as (bs & L & F); [|exact Ew|].
  { eapply rest_range; eauto. rewrite (proj2 Pa). exact R. }
  destruct (ends_dec c n (snd res) w3 K) as (t & Et & D). unfold bind at 1 in E. rewrite Et in E.
  apply seq_in in E; [|now exists b]. destruct E as (w5 & E5 & E). injection E as <- <-.
  exists (r :: bs). split; [|rewrite F; cbn; intuition congruence].
  eapply ll_more with (w1 := wc) (w2 := wd) (w3 := w3); [exact A|eapply (set_down_flag c r (H c src p)); eauto|econstructor; [exact Ed|constructor]|exact L|].
  destruct (_ || _).
  - right. split; [now apply D|]. econstructor; [|constructor]. rewrite <- sep_is by exact K. exact E5.
  - left. split; [rewrite <- D; discriminate|]. now injection E5 as <-.
Qed.
Lemma items_run c src fuel n : In (n_kind n) plain_lists -> forall l b0 prev w b w', pos_range (w_st w) = None ->
  write_list_rest c src (H c src) (write fuel src c) (list_need_newlines c n) (need_newline c src (write fuel src) n) list_prefix_hint b0 prev l w = (ROk b, w') ->
  exists bs, items_laid c (comment_hint c src) (write fuel src c) n (Some prev) l bs w w' /\ (b = true <-> b0 = true \/ In true bs).
Proof.
  intros K. induction l as [|[p m] l IH]; intros b0 prev w b w' R E; cbn [write_list_rest] in E.
  { injection E as <- <-. exists []. split; [constructor|]. cbn. intuition. }
  unfold bind at 1, get_st at 1 in E. rewrite R in E. cbn [test_out_of_range] in E.
  unfold bind at 1 in E. unfold bind at 1 in E. destruct (lazy_and _ _ w) as [[r| | |] wa] eqn:Ea; try discriminate. destruct (item_decides _ _ _ _ (Some prev) _ _ _ _ K Ea) as [Pa A].
  unfold bind at 1 in E. destruct (if_newline c r (H c src p) (list_prefix_hint m) wa) as [[[]| | |] wb] eqn:Eb; try discriminate. cbn in E.
  apply seq_in in E; [|now exists b]. destruct E as (wc & Ec & E).
  destruct (IH (b0 || r) m wc b w') as (bs & L & F).
  { eapply (item_range c src fuel p m r (list_prefix_hint m)); eauto. rewrite (proj2 Pa). exact R. }
  { exact E. }
  exists (r :: bs). split.
  - eapply il_more with (w1 := wc); [exact A| |exact L]. rewrite <- suffix_hint. eapply (set_down_flag c r (H c src p)); eauto.
  - rewrite F. apply in_flags.
Qed.
Lemma list_run c src fuel n w b w' : In (n_kind n) plain_lists -> pos_range (w_st w) = None -> lua_list c src (write fuel src) n w = (ROk b, w') ->
  exists bs, items_laid c (comment_hint c src) (write fuel src c) n None (n_items n) bs w w' /\ (b = true <-> In true bs).
Proof.
  intros K R E. unfold lua_list, write_list in E. destruct (n_items n) as [|[p m] l] eqn:Es.
  { injection E as <- <-. exists []. split; [constructor|]. cbn. intuition discriminate. }
  unfold bind at 1 in E. destruct (lazy_and _ _ w) as [[r| | |] wa] eqn:Ea; try discriminate. destruct (item_decides _ _ _ _ None _ _ _ _ K Ea) as [Pa A].
  apply seq_in in E; [|now exists b]. destruct E as (wb & Eb & E). apply seq_in in E; [|now exists b]. destruct E as (wc & Ec & E).
  destruct (items_run c src fuel n K l r m wc b w') as (bs & L & F); [|exact E|].
  { eapply item_range; eauto. rewrite (proj2 Pa). exact R. }
  exists (r :: bs). split; [|rewrite F; cbn; intuition congruence].
  eapply il_more with (w1 := wc); [exact A|eapply (set_down_flag c r (H c src p)); eauto|exact L].
Qed.

Theorem lists_laid fuel src c n w w' : In (n_kind n) (plain_lists ++ separated_lists) -> pos_range (w_st w) = None -> write (S fuel) src c n w = (ROk tt, w') ->
  exists bs, laid c (comment_hint c src) (write fuel src c) n bs w w'.
Proof.
  intros K R E. change (write (S fuel) src c n) with (write_body c src (write fuel src) n) in E. unfold laid. apply in_app_or in K. destruct K as [K|K].
  - assert (X : exists b, lua_list c src (write fuel src) n w = (ROk b, w')).
    { unfold write_body, range_or in E. cbn in K. destruct (n_kind n); try (exfalso; intuition discriminate); unfold bind at 1, get_st at 1 in E; rewrite R in E; cbn [test_out_of_range test_not_completely_contained] in E;
        destruct (raw_items n); unfold bind in E; destruct (lua_list c src (write fuel src) n w) as [[b| | |] w2]; try discriminate; injection E as <-; eauto. }
    destruct X as [b X]. destruct (list_run _ _ _ _ _ _ _ K R X) as (bs & L & _). exists bs. auto.
  - assert (X : exists b, lua_seps c src (write fuel src) n w = (ROk b, w')).
    { unfold write_body, range_or in E. cbn in K. destruct (n_kind n); try (exfalso; intuition discriminate); unfold bind at 1, get_st at 1 in E; rewrite R in E; cbn [test_out_of_range test_not_completely_contained] in E;
        destruct (raw_items n); unfold bind in E; destruct (lua_seps c src (write fuel src) n w) as [[b| | |] w2]; try discriminate; injection E as <-; eauto. }
    destruct X as [b X]. destruct (seps_run _ _ _ _ _ _ _ K R X) as (bs & L & _). exists bs. auto.
Qed.

Lemma seq_fails {A} (m : M unit) (k : M A) w w' : (m ;;; k) w = (RErr, w') -> fails m w \/ exists w1, in_turn [m] w w1 /\ fst (k w1) = RErr.
Proof.
  unfold bind, fails. destruct (m w) as [[[]| | |] w1] eqn:E; intros X; try discriminate.
  - right. exists w1. split; [econstructor; [exact E|constructor]|]. now rewrite X.
  - left. reflexivity.
Qed.
Lemma copy_cases (m : M bool) w b w' : on_copy m w = (ROk b, w') -> same_place w' w /\ ((exists wt, m w = (ROk b, wt)) \/ b = false /\ exists wt, m w = (RErr, wt)).
Proof.
  unfold on_copy. destruct (m w) as [[x| | |] wt] eqn:E; intros X; try discriminate; injection X as <- <-; (split; [split; reflexivity|]); eauto.
Qed.
Lemma write_fails_seps c src fuel n w : In (n_kind n) separated_lists -> pos_range (w_st w) = None -> fst (lua_seps c src (write fuel src) n w) = RErr -> fails (write (S fuel) src c n) w.
Proof.
  intros K R E. unfold fails. change (write (S fuel) src c n) with (write_body c src (write fuel src) n).
  unfold write_body, range_or. cbn in K. destruct (n_kind n); try (exfalso; intuition discriminate); unfold bind at 1, get_st at 1; rewrite R; cbn [test_out_of_range test_not_completely_contained];
    destruct (raw_items n); unfold bind; destruct (lua_seps c src (write fuel src) n w) as [[b| | |] w2]; try discriminate E; reflexivity.
Qed.
Lemma write_fails_list c src fuel n w : In (n_kind n) plain_lists -> pos_range (w_st w) = None -> fst (lua_list c src (write fuel src) n w) = RErr -> fails (write (S fuel) src c n) w.
Proof.
  intros K R E. unfold fails. change (write (S fuel) src c n) with (write_body c src (write fuel src) n).
  unfold write_body, range_or. cbn in K. destruct (n_kind n); try (exfalso; intuition discriminate); unfold bind at 1, get_st at 1; rewrite R; cbn [test_out_of_range test_not_completely_contained];
    destruct (raw_items n); unfold bind; destruct (lua_list c src (write fuel src) n w) as [[b| | |] w2]; try discriminate E; reflexivity.
Qed.
Lemma trial_run c src fuel n l h w b w' : In (n_kind n) (plain_lists ++ separated_lists) -> pos_range (w_st w) = None ->
  on_copy (H c src l h ;;; (if existsb (kind_beq (n_kind n)) plain_lists then lua_list c src (write fuel src) n else lua_seps c src (write fuel src) n)) w = (ROk b, w') ->
  same_place w' w /\ trial c (comment_hint c src) (write fuel src c) (write (S fuel) src c) n (comment_hint c src l h) w b.
Proof.
  intros K R E. apply copy_cases in E. destruct E as [P E]. split; [exact P|]. unfold trial.
  assert (Rg : forall wg, H c src l h w = (ROk tt, wg) -> pos_range (w_st wg) = None).
  { intros wg X. rewrite (ok_range _ _ _ _ (hint_ok c src l h) X). exact R. }
  destruct E as [[wt E]|[-> [wt E]]].
  - left. apply seq_in in E; [|now exists b]. destruct E as (wg & Eg & E). specialize (Rg _ Eg).
    apply in_app_or in K. unfold laid. destruct K as [K|K].
    + assert (X : existsb (kind_beq (n_kind n)) plain_lists = true) by (cbn in K; destruct (n_kind n); try (exfalso; intuition discriminate); reflexivity). rewrite X in E.
      destruct (list_run _ _ _ _ _ _ _ K Rg E) as (bs & L & F). exists wg, wt, bs. split; [econstructor; [exact Eg|constructor]|]. split; [auto|exact F].
    + assert (X : existsb (kind_beq (n_kind n)) plain_lists = false) by (cbn in K; destruct (n_kind n); try (exfalso; intuition discriminate); reflexivity). rewrite X in E.
      destruct (seps_run _ _ _ _ _ _ _ K Rg E) as (bs & L & F). exists wg, wt, bs. split; [econstructor; [exact Eg|constructor]|]. split; [auto|exact F].
  - right. split; [|reflexivity]. apply seq_fails in E. destruct E as [E|(wg & Eg & E)]; [left; exact E|]. right. exists wg. split; [exact Eg|].
    inversion Eg as [|? ? ? w1 ? Eg' Eg'']. subst. inversion Eg''. subst. specialize (Rg _ Eg').
    apply in_app_or in K. destruct K as [K|K].
    + assert (X : existsb (kind_beq (n_kind n)) plain_lists = true) by (cbn in K; destruct (n_kind n); try (exfalso; intuition discriminate); reflexivity). rewrite X in E. now apply write_fails_list.
    + assert (X : existsb (kind_beq (n_kind n)) plain_lists = false) by (cbn in K; destruct (n_kind n); try (exfalso; intuition discriminate); reflexivity). rewrite X in E. now apply write_fails_seps.
Qed.
Lemma allowed_run c src fuel n indent always l h w b w' (alone : Prop) : In (n_kind n) (plain_lists ++ separated_lists) -> pos_range (w_st w) = None -> ~ alone ->
  on_copy (H c src l h ;;; (if on c indent then if on c always then ret true
     else (if existsb (kind_beq (n_kind n)) plain_lists then lua_list c src (write fuel src) n else lua_seps c src (write fuel src) n) else ret false)) w = (ROk b, w') ->
  same_place w' w /\ allowed c (comment_hint c src) (write fuel src c) (write (S fuel) src c) indent always alone n (comment_hint c src l h) w b.
Proof.
  intros K R A E. unfold allowed. destruct (on c indent) eqn:O1.
  - apply on_is in O1. destruct (on c always) eqn:O2.
    + apply on_is in O2. apply copy_cases in E. destruct E as [P E]. split; [exact P|]. destruct E as [[wt E]|[-> [wt E]]].
      * apply seq_in in E; [|now exists b]. destruct E as (wg & Eg & E). injection E as <- _. right. left. split; [exact O1|]. split; [exact O2|]. split; [|reflexivity]. right. exists wg. econstructor; [exact Eg|constructor].
      * apply seq_fails in E. destruct E as [E|(wg & _ & E)]; [|discriminate E]. right. right. left. auto.
    + rewrite <- not_true_iff_false, on_is in O2. apply trial_run in E; [|exact K|exact R]. destruct E as [P E]. split; [exact P|]. right. right. right. right. auto.
  - rewrite <- not_true_iff_false, on_is in O1. apply copy_cases in E. destruct E as [P E]. split; [exact P|]. left. split; [exact O1|]. destruct E as [[wt E]|[-> _]]; [|reflexivity].
    apply seq_in in E; [|now exists b]. destruct E as (wg & Eg & E). now injection E as <- _.
Qed.
Lemma indent_run c src fuel n l h w b w' : pos_range (w_st w) = None -> test_indent c src (write fuel src) n l h w = (ROk b, w') ->
  same_place w' w /\ list_indented c (comment_hint c src) (write fuel src c) (write (S fuel) src c) n (comment_hint c src l h) w b.
Proof.
  intros R E. unfold test_indent in E. unfold list_indented. destruct (n_kind n) eqn:K; try (injection E as <- <-; split; [apply same_refl|reflexivity]).
  - (* fields *)
    destruct (n_seps n) as [|i r] eqn:Es.
    + injection E as <- <-. split; [apply same_refl|]. left. auto.
    + assert (X : existsb (kind_beq (n_kind n)) plain_lists = false) by now rewrite K.
      pose proof (trial_run c src fuel n l h w b w') as T. rewrite X in T. destruct T as [P T]; [rewrite K; cbn; tauto|exact R|exact E|]. split; [exact P|]. right. split; [discriminate|exact T].
  - (* expressions *)
    pose proof (fun alone => allowed_run c src fuel n B_indent_exp_list B_indent_one_line_exp_list l h w b w' alone) as T.
    assert (X : existsb (kind_beq (n_kind n)) plain_lists = false) by now rewrite K. rewrite X in T.
    assert (K' : In (n_kind n) (plain_lists ++ separated_lists)) by (rewrite K; cbn; tauto).
    destruct (n_seps n) as [|i r] eqn:Es; [injection E as <- <-; split; [apply same_refl|]; left; auto|].
    assert (Y : forall P : Prop, same_place w' w /\ P -> same_place w' w /\ (i :: r = [] /\ b = false \/ i :: r <> [] /\ P)) by (intros P [A B]; split; [exact A|right; split; [discriminate|exact B]]).
    apply Y. clear Y. destruct r as [|i' r].
    + destruct (nsome c N_newline_format_exp_list_first) eqn:Nf; cbn [negb] in E.
      * apply T; auto. apply nsome_is in Nf. tauto.
      * rewrite <- not_true_iff_false, nsome_is in Nf. injection E as <- <-. split; [apply same_refl|]. unfold allowed.
        assert (Al : List.length [i] = 1 /\ cn c N_newline_format_exp_list_first = None) by (split; [reflexivity|destruct (cn c N_newline_format_exp_list_first); [exfalso; apply Nf; discriminate|reflexivity]]).
        destruct (on c B_indent_exp_list) eqn:O1; [|rewrite <- not_true_iff_false, on_is in O1; left; auto]. apply on_is in O1.
        destruct (on c B_indent_one_line_exp_list) eqn:O2; [apply on_is in O2; right; left; auto|]. rewrite <- not_true_iff_false, on_is in O2. right. right. right. left. auto.
    + apply T; auto. cbn. intros [Z _]. discriminate.
  - (* suffixes *)
    destruct (n_items n) as [|i r] eqn:Es.
    + injection E as <- <-. split; [apply same_refl|]. left. auto.
    + pose proof (allowed_run c src fuel n B_indent_var_suffix B_indent_one_line_var_suffix l h w b w' False) as T.
      assert (X : existsb (kind_beq (n_kind n)) plain_lists = true) by now rewrite K. rewrite X in T. destruct T as [P T]; [rewrite K; cbn; tauto|exact R|auto|exact E|].
      split; [exact P|]. right. split; [discriminate|exact T].
Qed.

Lemma clause_indents c src fuel n pre (ms : list (M unit)) k p p' h h' rest w w' : pos_range (w_st w) = None ->
  (forall w0 w1, run_items c src (write fuel src) n pre w0 = (ROk tt, w1) -> in_turn ms w0 w1 /\ pos_range (w_st w1) = pos_range (w_st w0) /\ indent_level (w_st w1) = indent_level (w_st w0)) ->
  run_clause c src (write fuel src) n (tested pre k p h (fun ind => IIf ind (IInc None) :: IHint p' h' :: IKid k :: rest ind)) w = (ROk tt, w') ->
  exists w1 w2 w3 b, in_turn ms w w1 /\ indent_level (w_st w1) = indent_level (w_st w) /\
    list_indented c (comment_hint c src) (write fuel src c) (write (S fuel) src c) (kid n k) (comment_hint c src (nloc n p) h) w1 b /\
    w_f w2 = w_f w1 /\ indent_level (w_st w2) = (indent_level (w_st w) + if b then 1 else 0)%Z /\ in_turn [comment_hint c src (nloc n p') h'; write fuel src c (kid n k)] w2 w3.
Proof.
  intros R Hp E. unfold run_clause in E. cbn [cl_pre cl_test cl_post tested] in E. apply seq_in in E; [|now exists tt]. destruct E as (w1 & E1 & E).
  destruct (Hp _ _ E1) as (I1 & R1 & L1). unfold bind at 1 in E. destruct (test_indent _ _ _ _ _ _ w1) as [[b| | |] wt] eqn:Et; try discriminate.
  apply indent_run in Et; [|congruence]. destruct Et as [[Pf Ps] T]. cbn [run_items run_item] in E.
  apply seq_in in E; [|now exists tt]. destruct E as (w2 & E2 & E). apply seq_in in E; [|now exists tt]. destruct E as (w2' & E2' & E). apply seq_in in E; [|now exists tt]. destruct E as (w3 & E3 & _).
  exists w1, w2, w3, b. split; [exact I1|]. split; [exact L1|]. split; [exact T|].
  assert (X : w_f w2 = w_f wt /\ indent_level (w_st w2) = (indent_level (w_st wt) + if b then 1 else 0)%Z).
  { destruct b; [unfold inc_indent, bind, get_st, put_st in E2|unfold ret in E2]; injection E2 as <-; cbn; split; try reflexivity; lia. }
  destruct X as [X1 X2]. split; [congruence|]. split; [rewrite X2, Ps; congruence|]. econstructor; [exact E2'|]. econstructor; [exact E3|constructor].
Qed.
Definition quiet_item (x : item) : bool := match x with ITok _ | IHint _ _ | IKid _ => true | _ => false end.
Lemma pre_steps c src fuel n l : forallb quiet_item l = true -> forall w0 w1, run_items c src (write fuel src) n l w0 = (ROk tt, w1) ->
  in_turn (map (run_item c src (write fuel src) n) l) w0 w1 /\ pos_range (w_st w1) = pos_range (w_st w0) /\ indent_level (w_st w1) = indent_level (w_st w0).
Proof.
  induction l as [|x l IH]; intros Q w0 w1 E; cbn [run_items] in E.
  - injection E as <-. split; [constructor|auto].
  - cbn [forallb] in Q. apply andb_true_iff in Q. destruct Q as [Q1 Q2]. apply seq_in in E; [|now exists tt]. destruct E as (w2 & E1 & E2). destruct (IH Q2 _ _ E2) as (I1 & R1 & L1).
    split; [econstructor; [exact E1|exact I1]|]. rewrite R1, L1. destruct x; try discriminate Q1; cbn [run_item] in E1.
    + unfold emit in E1. injection E1 as <-. auto.
    + split; [exact (ok_range _ _ _ _ (hint_ok _ _ _ _) E1)|exact (proj1 (ok_base _ _ _ _ (hint_ok _ _ _ _) E1))].
    + destruct (write_keeps_indent _ _ _ _ _ _ _ E1) as (X1 & _ & _ & X2). auto.
Qed.

Theorem lists_indented fuel src c n ms m l l' h w w' : hanging (comment_hint c src) (write fuel src c) n = Some (ms, m, l, l', h) -> pos_range (w_st w) = None ->
  write (S fuel) src c n w = (ROk tt, w') ->
  let gap := comment_hint c src in
  let x := write fuel src c in
  exists w1 w2 w3 b, in_turn ms w w1 /\ indent_level (w_st w1) = indent_level (w_st w) /\ list_indented c gap x (write (S fuel) src c) m (gap l h) w1 b /\
    w_f w2 = w_f w1 /\ indent_level (w_st w2) = (indent_level (w_st w) + if b then 1 else 0)%Z /\ in_turn [gap l' h; x m] w2 w3.
Proof.
  intros Hh R E. cbv zeta. change (write (S fuel) src c n) with (write_body c src (write fuel src) n) in E.
  assert (E1 : run_clause c src (write fuel src) n (clause_of c n) w = (ROk tt, w')).
  { unfold hanging in Hh. unfold write_body, range_or in E. destruct (n_kind n) eqn:K; try discriminate Hh; unfold bind at 1, get_st at 1 in E; rewrite R in E; cbn [test_out_of_range test_not_completely_contained] in E;
      unfold oneline_if_cfg, oneline_function_cfg, is_if, is_func_body in E; rewrite K in E; cbn [andb oneline_or] in E; destruct (raw_items n); unfold bind at 1, get_st at 1 in E; exact E. }
  clear E. unfold hanging in Hh. unfold clause_of in E1. destruct (n_kind n) eqn:K; try discriminate Hh; injection Hh as <- <- <- <- <-;
    (eapply clause_indents; [exact R| |exact E1]; apply pre_steps; reflexivity).
Qed.

Theorem compact_braces fuel src c n w w' :
  n_kind n = KTableConstructor -> compact c n -> pos_range (w_st w) = None -> write (S fuel) src c n w = (ROk tt, w') ->
  let gap l := comment_hint c src l (brace_hint c) in
  (exists mw line, may_be_one_line c n mw /\ ~ In 10%N line /\ w_f w' = w_f w ++ line) \/
  exists wa wb wc wi wd we wf b, same_place wa w /\ line_or_gap c (brace_breaks c n wa) (gap (0, 0)) wa wb /\
    w_f wc = w_f wb ++ s2l "{" /\ indent_level (w_st wc) = indent_level (w_st w) /\
    list_indented c (comment_hint c src) (write fuel src c) (write (S fuel) src c) (kid n 0) (gap (nloc n 0)) wc b /\
    w_f wi = w_f wc /\ indent_level (w_st wi) = (indent_level (w_st w) + if b then 1 else 0)%Z /\
    (n_kind (kid n 0) = KFields -> (b = true <-> noted_indented (kid n 0) wi)) /\
    in_turn [gap (nloc n 0); write fuel src c (kid n 0)] wi wd /\
    w_f we = w_f wd /\ indent_level (w_st we) = indent_level (w_st w) /\
    line_or_gap c (b = true /\ closing_breaks c wd) (gap (nloc n 1)) we wf /\ w_f w' = w_f wf ++ s2l "}".
Proof.
  intros Kn Hc Hr E. cbv zeta. set (W := write fuel src) in *.
  change (write (S fuel) src c n) with (write_body c src W n) in E. unfold write_body in E. rewrite Kn in E. unfold range_or in E. unfold bind at 1, get_st at 1 in E. rewrite Hr in E. cbn [test_out_of_range test_not_completely_contained] in E.
  assert (E1 : write_table c src W n w = (ROk tt, w')) by (destruct (raw_items n); exact E). clear E. unfold write_table in E1.
  assert (D : (exists mw line, may_be_one_line c n mw /\ ~ In 10%N line /\ w_f w' = w_f w ++ line) \/ exists wa, same_place wa w /\ 
    (one <- get_oneline n ;;
       let bnl := on c B_write_newline_at_multiline_table && negb one in
       if_newline c bnl (H c src (0, 0)) (table_hint c) ;;;
       run_items c src W n [ITok (s2l "{"); IIncF] ;;;
       ind <- (if on c B_force_single_line_table && obool_is (o_iv (n_opts n)) true
                  && obool_is (o_single (n_opts n)) true
               then test_indent c src W (kid n 0) (nloc n 0) (table_hint c)
               else ret true) ;;
       (if is_kind KFields (kid n 0) then set_indent_cell (kid n 0) ind else ret tt) ;;;
       run_items c src W n [IIf ind (IInc None); IHint 0 (table_hint c); IKid 0] ;;;
       f <- get_f ;;
       let wide := match cn c N_max_width with
                   | Some mw => N.leb mw (N.of_nat (get_len_after_newline f))
                   | None => false
                   end in
       let nl := (nis c N_newline_format_table_constructor 1 || wide) && ind in
       run_items c src W n [IIf ind IDec; IDecF; INl nl 1 (table_hint c); ITok (s2l "}")]) wa = (ROk tt, w')).
  { unfold oneline_or in E1. destruct (oneline_table_cfg c n) as [c'|] eqn:Ec; [|right; exists w; split; [split; reflexivity|exact E1]].
    unfold bind at 1 in E1. destruct (test_oneline_no_nl c' [W c' n] w) as [[[line|]| | |] wa] eqn:Et; try discriminate.
    - left. unfold oneline_table_cfg in Ec. destruct (is_kind KTableConstructor n); [|discriminate]. cbn [andb] in Ec.
      destruct (nsome c N_max_width) eqn:X1; [|discriminate]. destruct (nsome c N_newline_format_table_constructor) eqn:X2; [|discriminate].
      destruct (on c B_force_single_line_table) eqn:X3; [|discriminate]. destruct (fits_twice c n) eqn:X4; [|discriminate].
      unfold nsome in X1, X2. destruct (cn c N_max_width) as [mw|] eqn:X5; [|discriminate]. exists mw, line. split.
      + split; [exact Kn|]. split; [exact X5|]. split; [destruct (cn c N_newline_format_table_constructor); [discriminate|discriminate X2]|].
        split; [now apply on_is|]. unfold fits_twice in X4. rewrite X5 in X4. now apply N.ltb_lt in X4.
      + unfold test_oneline_no_nl, test_oneline, bind in Et. destruct (run_all [W c' n] false (set_f [] w)) as [[[]| | |] wt]; try discriminate.
        destruct (cn c' N_max_width); [|discriminate]. destruct (N.ltb _ _); [|discriminate]. destruct (has_newlines (w_f wt)) eqn:Nl; [discriminate|].
        injection Et as <- <-. unfold bind, set_oneline, emit in E1. injection E1 as <-. split; [now apply no_nl_in|reflexivity].
    - right. exists wa. split; [|exact E1]. unfold test_oneline_no_nl, test_oneline, bind in Et. destruct (run_all [W c' n] false (set_f [] w)) as [[[]| | |] wt]; try discriminate.
      + injection Et as <-. split; reflexivity.
      + destruct (cn c' N_max_width); [|discriminate]. injection Et as _ <-. split; reflexivity. }
  clear E1. destruct D as [D|(wa & Pa & E)]; [left; exact D|]. right.
  unfold bind at 1 in E. destruct (get_oneline n wa) as [[one| | |] wa'] eqn:Eo; try discriminate. destruct (get_marked _ _ _ _ Eo) as [-> Mk]. cbv zeta in E.
  apply seq_in in E; [|now exists tt]. destruct E as (wb & Eb & E). apply seq_in in E; [|now exists tt]. destruct E as (wc & Ec & E).
  assert (T : on c B_force_single_line_table && obool_is (o_iv (n_opts n)) true && obool_is (o_single (n_opts n)) true = true).
  { destruct Hc as (X1 & X2 & X3). rewrite !andb_true_iff, on_is, !is_true_is. auto. }
  rewrite T in E. unfold bind at 1 in E. destruct (test_indent _ _ _ _ _ _ wc) as [[b| | |] wt] eqn:Et; try discriminate.
  apply seq_in in E; [|now exists tt]. destruct E as (wc1 & Ec1 & E). cbn [run_items run_item] in E.
  apply seq_in in E; [|now exists tt]. destruct E as (wd & Ed & E). unfold bind at 1, get_f at 1 in E.
  apply seq_in in Ed; [|now exists tt]. destruct Ed as (wc2 & Ec2 & Ed). apply seq_in in Ed; [|now exists tt]. destruct Ed as (wc3 & Ec3 & Ed).
  apply seq_in in Ed; [|now exists tt]. destruct Ed as (wd' & Ed & [= ->]).
  apply seq_in in E; [|now exists tt]. destruct E as (we1 & Ee1 & E). apply seq_in in E; [|now exists tt]. destruct E as (we & Ee & E).
  apply seq_in in E; [|now exists tt]. destruct E as (wf & Ef & E). apply seq_in in E; [|now exists tt]. destruct E as (wg & Eg & [= ->]).
  assert (C0 : w_f wc = w_f wb ++ s2l "{" /\ indent_level (w_st wc) = indent_level (w_st wb) /\ pos_range (w_st wc) = pos_range (w_st wb)).
  { cbn [run_items run_item] in Ec. unfold bind, emit, inc_func_level, get_st, put_st, ret in Ec. injection Ec as <-. repeat split; reflexivity. }
  destruct C0 as (C0 & C0' & C0'').
  assert (B0 : indent_level (w_st wb) = indent_level (w_st w) /\ pos_range (w_st wb) = pos_range (w_st w)).
  { rewrite <- (proj2 Pa). split; [refine (proj1 (ok_base _ _ _ _ _ Eb))|refine (ok_range _ _ _ _ _ Eb)]; (apply ok_if_newline; auto; intros; apply hint_ok). }
  destruct B0 as [B0 B0'].
  apply indent_run in Et; [|congruence]. destruct Et as [[Pt1 Pt2] Et].
  assert (C1 : w_f wc1 = w_f wc /\ w_st wc1 = w_st wc /\ (n_kind (kid n 0) = KFields -> (b = true <-> noted_indented (kid n 0) wc1))).
  { destruct (is_kind KFields (kid n 0)) eqn:Kf.
    - unfold set_indent_cell in Ec1. injection Ec1 as <-. split; [exact Pt1|]. split; [exact Pt2|]. intros _. rewrite <- noted_is. unfold lookup_indent. cbn [w_indent find fst]. now rewrite Nat.eqb_refl.
    - unfold ret in Ec1. injection Ec1 as <-. split; [exact Pt1|]. split; [exact Pt2|]. intros X. unfold is_kind in Kf. rewrite X in Kf. discriminate Kf. }
  destruct C1 as (C1 & C1' & C1'').
  assert (C2 : w_f wc2 = w_f wc1 /\ indent_level (w_st wc2) = (indent_level (w_st wc1) + if b then 1 else 0)%Z /\ w_indent wc2 = w_indent wc1 /\ (b = true -> exists r, stack_indent (w_st wc2) = None :: r)).
  { destruct b; [unfold inc_indent, bind, get_st, put_st in Ec2|unfold ret in Ec2]; injection Ec2 as <-; cbn; (split; [reflexivity|]); (split; [lia|]); (split; [reflexivity|]); [eauto|discriminate]. }
  destruct C2 as (C2 & C2' & C2i & C2'').
  exists wa, wb, wc, wc2, wd, we, wf, b. split; [exact Pa|].
  split; [eapply line_or_gap_by; [|exact Eb]|].
  { unfold brace_breaks. rewrite andb_true_iff, on_is, negb_true_iff, <- not_true_iff_false, Mk. reflexivity. }
  split; [exact C0|]. split; [now rewrite C0', B0|]. split; [exact Et|]. split; [congruence|]. split; [now rewrite C2', C1', C0', B0|].
  split; [unfold noted_indented in *; now rewrite C2i|].
  split; [econstructor; [exact Ec3|]; econstructor; [exact Ed|constructor]|].
  assert (D0 : indent_level (w_st wd) = indent_level (w_st wc2) /\ stack_indent (w_st wd) = stack_indent (w_st wc2)).
  { destruct (write_keeps_indent _ _ _ _ _ _ _ Ed) as (X1 & X2 & _). destruct (ok_base _ _ _ _ (hint_ok _ _ _ _) Ec3) as (X3 & X4). split; congruence. }
  destruct D0 as (D0 & D0').
  assert (F1 : w_f we1 = w_f wd /\ indent_level (w_st we1) = indent_level (w_st w)).
  { destruct b.
    - destruct (C2'' eq_refl) as [rs C2s]. unfold dec_indent, bind, get_st, put_st in Ee1. injection Ee1 as <-. cbn [w_f w_st]. split; [reflexivity|]. unfold dec_indent_st. rewrite D0', C2s. cbn [is_none orb set_indent indent_level].
      rewrite D0, C2', C1', C0', B0. cbn. lia.
    - unfold ret in Ee1. injection Ee1 as <-. split; [reflexivity|]. rewrite D0, C2', C1', C0', B0. lia. }
  destruct F1 as (F1 & F1').
  assert (F2 : w_f we = w_f we1 /\ indent_level (w_st we) = indent_level (w_st we1)).
  { unfold dec_func_level, bind, get_st, put_st in Ee. injection Ee as <-. split; reflexivity. }
  destruct F2 as (F2 & F2').
  split; [now rewrite F2|]. split; [now rewrite F2'|].
  split; [eapply line_or_gap_by; [|exact Ef]|unfold emit in Eg; now injection Eg as <-].
  unfold closing_breaks. rewrite andb_true_iff, and_comm, orb_true_iff. apply and_iff_compat_l. unfold nis. split.
  - intros [X|X].
    + left. destruct (cn c N_newline_format_table_constructor); [apply N.eqb_eq in X; now subst|discriminate].
    + right. destruct (cn c N_max_width) as [mw|]; [|discriminate]. apply N.leb_le in X. exists mw. eexists. split; [reflexivity|]. split; [apply last_line_len|exact X].
  - intros [->|(mw & k & -> & Hk & X)]; [left; reflexivity|right]. apply N.leb_le. apply last_line_unique in Hk. now rewrite <- Hk.
Qed.
