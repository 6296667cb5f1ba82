(** A text that cannot be formatted without a width whenever the writer measures lines. *)
From Verif Require Import Base Lib Config State Ast LuaLexer LuaParser Recon WriterBase LuaWriter Formatter LexSpec UtilProofs LayoutSpec WriterFrame GapProofs RenderProofs
  TotalFrame TotalProofs OutcomeProofs TotalSpec TotalResults.

Definition code : str := s2l "return a+b,c.d,{1,2}".
Definition parsed_code : node := Eval vm_compute in match parse_lua code with Parsed n => n | _ => dummy_node end.
Definition code_tree : node := Eval vm_compute in fst (reconstruct default_config parsed_code None).
Lemma code_parses : parse_lua code = Parsed parsed_code. Proof. vm_compute. reflexivity. Qed.
Lemma code_recon c : reconstruct c parsed_code None = (code_tree, None). Proof. reflexivity. Qed.

Section Measure.
  Variable c : config.
  Hypothesis no_width : cn c N_max_width = None.
  Notation src := code.
  (** ends well or panics *)
  Definition live {A} (m : M A) : Prop := forall w, IS src (w_st w) ->
    match m w with (ROk _, w') => IS src (w_st w') | (RErr, _) => False | (RPanic, _) => True | (RFuel, _) => False end.
  (** panics *)
  Definition dead {A} (m : M A) : Prop := forall w, IS src (w_st w) -> fst (m w) = RPanic.

  Lemma dead_live {A} (m : M A) : dead m -> live m.
  Proof. intros H w Hw. specialize (H w Hw). destruct (m w) as [r w']. cbn in H. now subst. Qed.
  Lemma dead_l {A B} (m : M A) (f : A -> M B) : dead m -> dead (bind m f).
  Proof. intros H w Hw. specialize (H w Hw). unfold bind. destruct (m w) as [r w']. cbn in H. now subst. Qed.
  Lemma dead_r {A B} (m : M A) (f : A -> M B) : live m -> (forall a, dead (f a)) -> dead (bind m f).
  Proof. intros Hm Hf w Hw. specialize (Hm w Hw). unfold bind. destruct (m w) as [[] w']; try contradiction; [now apply Hf|reflexivity]. Qed.
  Lemma live_bind {A B} (m : M A) (f : A -> M B) : live m -> (forall a, live (f a)) -> live (bind m f).
  Proof. intros Hm Hf w Hw. specialize (Hm w Hw). unfold bind. destruct (m w) as [[] w']; try contradiction; [now apply Hf|exact Logic.I]. Qed.
  Lemma live_ret {A} (a : A) : live (ret a). Proof. intros w Hw. exact Hw. Qed.
  Lemma live_emit t : live (emit t). Proof. intros w Hw. exact Hw. Qed.
  Lemma live_ok {A} (m : M A) : TotalFrame.ok False True False (fun _ => True) (IS src) m -> live m.
  Proof.
    intros H w Hw. specialize (H 0 0 _ w Logic.I Hw (proj2 (at_depth_zero _ _) eq_refl)). destruct (m w) as [[] w']; cbn in H; try exact H. apply H.
  Qed.
  Lemma live_st {B} (f : state -> M B) : (forall s, IS src s -> live (f s)) -> live (s <- get_st ;; f s).
  Proof. intros H w Hw. now apply H. Qed.
  Lemma dead_st {B} (f : state -> M B) : (forall s, IS src s -> dead (f s)) -> dead (s <- get_st ;; f s).
  Proof. intros H w Hw. now apply H. Qed.
  Lemma live_inc o : live (inc_indent o).
  Proof. intros w Hw. exact Hw. Qed.
  Lemma live_incf : live inc_func_level.
  Proof. intros w Hw. exact Hw. Qed.
  Lemma live_get_oneline n : live (get_oneline n). Proof. intros w Hw. exact Hw. Qed.
  Lemma live_get_indent n : live (get_indent n). Proof. intros w Hw. exact Hw. Qed.
  Lemma live_set_indent n b : live (set_indent_cell n b). Proof. intros w Hw. exact Hw. Qed.
  Lemma live_hint l h : slot_ok src (SGap l) -> live (comment_hint c src l h).
  Proof.
    intros Hl. apply live_ok. apply any_hint; [auto|]. right. intros s cbuf [Hs _]. now apply gap_parses.
  Qed.
  Lemma live_lazy b m : live m -> live (lazy_and b m).
  Proof. intros H. destruct b; [exact H|apply live_ret]. Qed.
  Lemma ok_hint l h : slot_ok src (SGap l) -> TotalFrame.ok False True False (fun _ => True) (IS src) (comment_hint c src l h).
  Proof. intros Hl. apply any_hint; [auto|]. right. intros s cbuf [Hs _]. now apply gap_parses. Qed.
  Lemma live_newline b l h : slot_ok src (SGap l) -> live (if_newline c b (H c src l) h).
  Proof. intros Hl. apply live_ok. apply ok_if_newline; auto; intros _; now apply ok_hint. Qed.
  Lemma live_write k n : good (slot_ok src) (fun _ => True) n -> height n + 3 < k -> live (write k src c n).
  Proof.
    intros Hg Hk. apply live_ok.
    apply (write_ok False True False (fun _ => True) (IS src) (slot_ok src) (fun _ => True) c src); auto.
    - contradiction.
    - intros c' l h _ Hl _. apply any_hint; [auto|]. right. intros s cbuf [Hs _]. now apply gap_parses.
    - split; [lia|]. split; [lia|]. exists []. split; [left; constructor|reflexivity].
    - intros. now apply any_loc.
    - apply reach_refl.
    - right. pose proof (selfs_max c). lia.
  Qed.
  Lemma run_all_live ms : (forall m, In m ms -> live m) -> forall w, IS src (w_st w) ->
    match run_all ms false w with (ROk b, w') => b = false | (RErr, _) => False | (RPanic, _) => True | (RFuel, _) => False end.
  Proof.
    intros H. induction ms as [|m ms IH]; intros w Hw; cbn [run_all]; [reflexivity|].
    pose proof (H m (or_introl eq_refl) w Hw) as Hm. destruct (m w) as [[] w1]; try contradiction; [|exact Logic.I].
    apply IH; [|exact Hm]. intros x Hx. apply H. now right.
  Qed.
  Lemma dead_test ms : (forall m, In m ms -> live m) -> dead (test_oneline c ms).
  Proof.
    intros H w Hw. unfold test_oneline. pose proof (run_all_live ms H (set_f [] w) Hw) as R.
    destruct (run_all ms false (set_f [] w)) as [[b| | |] w1]; try contradiction; [|reflexivity]. subst b. now rewrite no_width.
  Qed.
  Lemma dead_range n W m : dead m -> dead (range_or c src W n m).
  Proof.
    intros H. apply dead_st. intros s [_ Hp]. rewrite Hp. change (test_out_of_range None (n_span n)) with false. cbv iota.
    destruct (raw_items n); [|exact H]. change (test_not_completely_contained None (n_span n)) with false. exact H.
  Qed.
  Lemma live_copy m : live m -> live (on_copy m).
  Proof. intros H w Hw. specialize (H w Hw). unfold on_copy. destruct (m w) as [[] w']; try contradiction; [exact Hw|exact Logic.I]. Qed.
  Lemma dead_here W n x r : dead (run_item c src W n x) -> dead (run_items c src W n (x :: r)).
  Proof. intros H. apply dead_l. exact H. Qed.
  Lemma dead_next W n x r : live (run_item c src W n x) -> dead (run_items c src W n r) -> dead (run_items c src W n (x :: r)).
  Proof. intros H Hr. apply dead_r; auto. Qed.

  (** *** the gaps and parts of the text *)
  Lemma gap_none i : i <= 20 -> slot_ok src (SGap (i, i)).
  Proof. intros Hi. split; [lia|]. split; [exact Hi|]. exists []. split; [left; constructor|]. unfold text_at. now rewrite Nat.sub_diag. Qed.
  Lemma gap_blank : slot_ok src (SGap (6, 7)).
  Proof. split; [lia|]. split; [cbn; lia|]. exists [GBlank 32%N]. split; [left; repeat constructor|reflexivity]. Qed.

  Notation tr := code_tree.
  Notation ret_node := (kid tr 0).
  Notation exps := (kid ret_node 0).
  Definition sub (n : node) (i : nat) : node := snd (fst (fst (nth i (n_seps n) (dummy_loc, dummy_node, dummy_loc, [])))).
  Lemma tr_good : good (slot_ok src) (fun _ => True) tr.
  Proof. change tr with (fst (reconstruct c parsed_code None)). exact (written_tree src c parsed_code None (0%Z, None) code_parses). Qed.
  Lemma ret_good : good (slot_ok src) (fun _ => True) ret_node.
  Proof. apply good_kid; [exact tr_good|cbn; lia]. Qed.
  Lemma exps_good : good (slot_ok src) (fun _ => True) exps.
  Proof. apply good_kid; [exact ret_good|cbn; lia]. Qed.
  Lemma good_of n : Forall (slot_ok src) (layout n) -> good (slot_ok src) (fun _ => True) n.
  Proof. intros H. split; [exact H|]. intros ? ? ?. exact Logic.I. Qed.
  Lemma exps_parts : Forall (parts4 (slot_ok src)) (n_seps exps).
  Proof. apply (commas_parts _ Comma). exact (proj1 exps_good). Qed.
  Lemma exp_good i : i < 3 -> good (slot_ok src) (fun _ => True) (sub exps i).
  Proof.
    intros Hi. apply good_of. pose proof exps_parts as P. rewrite Forall_forall in P.
    apply (P (nth i (n_seps exps) (dummy_loc, dummy_node, dummy_loc, []))). apply nth_In. exact Hi.
  Qed.

  (** *** the ways to panic *)
  Ltac gap := first [exact gap_blank|apply gap_none; lia].
  Ltac hint := apply live_hint; gap.
  Ltac nohint := apply live_newline; gap.
  Lemma live_small k n : good (slot_ok src) (fun _ => True) n -> height n + 3 < k -> live (write k src c n).
  Proof. exact (live_write k n). Qed.
  Lemma body k n : write (S k) src c n = write_body c src (write k src) n. Proof. reflexivity. Qed.

  Lemma dead_operator k : on c B_force_single_line_binary_op = true ->
    nis c N_newline_format_binary_op 1 = true \/ nis c N_newline_format_binary_op 2 = true -> 5 < k -> dead (write k src c (sub exps 0)).
  Proof.
    intros E1 E2 Hk. destruct k as [|k]; [lia|]. rewrite body.
    pose proof (exp_good 0 ltac:(lia)) as G.
    change (sub exps 0) with (Nd KBinaryOp (7, 10) [(8, 8); (9, 9)] [43%N] 0 (n_kids (sub exps 0)) [] [] (n_opts (sub exps 0))) in *.
    set (n := Nd _ _ _ _ _ _ _ _ _) in *. change (write_body c src (write k src) n) with (range_or c src (write k src) n (write_binary c src (write k src) n)).
    apply dead_range. unfold write_binary.
    assert (L : forall i, i < 2 -> live (write k src c (kid n i))).
    { intros i Hi. apply live_write; [now apply good_kid|]. destruct i as [|[|]]; [cbn; lia|cbn; lia|lia]. }
    apply dead_r.
    { apply live_bind; [apply live_inc|]. intros _. apply live_bind; [apply L; lia|]. intros _. apply live_ret. }
    intros _. apply dead_l. rewrite E1. replace (_ || _) with true by (destruct E2 as [-> | ->]; [reflexivity|now rewrite Bool.orb_true_r]). cbn [andb].
    apply dead_l. apply dead_test. intros m [<-|[<-|[<-|[<-|[]]]]]; [hint|apply live_emit|hint|apply L; lia].
  Qed.
  Lemma dead_suffix k : on c B_force_single_line_var_suffix = true -> nsome c N_newline_format_var_suffix = true -> 7 < k ->
    dead (write k src c (sub exps 1)).
  Proof.
    intros E1 E2 Hk. destruct k as [|k]; [lia|]. destruct k as [|k]; [lia|]. rewrite body.
    pose proof (exp_good 1 ltac:(lia)) as G.
    set (n := sub exps 1) in *. assert (G1 : good (slot_ok src) (fun _ => True) (kid n 1)) by (apply good_kid; [exact G|cbn; lia]).
    assert (G2 : good (slot_ok src) (fun _ => True) (snd (nth 0 (n_items (kid n 1)) (dummy_loc, dummy_node)))).
    { apply good_of. pose proof (listed_parts _ _ (proj1 G1)) as P. rewrite Forall_forall in P. apply P. now left. }
    assert (S : forall k, 5 < k -> dead (lua_list c src (write k src) (kid n 1))).
    { intros j Hj. unfold lua_list. set (x := snd (nth 0 (n_items (kid n 1)) (dummy_loc, dummy_node))) in *.
      change (n_items (kid n 1)) with [((12, 12), x)].
      change (list_need_newlines c (kid n 1)) with (nsome c N_newline_format_var_suffix). rewrite E2.
      unfold write_list. apply dead_l. cbn [lazy_and].
      change (need_first_newline c src (write j src) (kid n 1) x) with (suffix_newline c src (write j src) x).
      unfold suffix_newline. change (n_kind x) with KTableMember. cbv iota. rewrite E2. cbn [negb]. rewrite E1. apply dead_l. apply dead_test. intros m [<-|[]].
      apply live_write; [exact G2|]. cbn. lia. }
    change (write_body c src (write (Datatypes.S k) src) n) with (range_or c src (write (Datatypes.S k) src) n
      (s <- get_st ;; oneline_or (write (Datatypes.S k) src) (match oneline_if_cfg c n with Some c' => Some c' | None => oneline_function_cfg c s n end) n (ret tt)
             (run_clause c src (write (Datatypes.S k) src) n (clause_of c n)))).
    apply dead_range. apply dead_st. intros s Hs. change (oneline_if_cfg c n) with (@None config). change (oneline_function_cfg c s n) with (@None config).
    cbv iota. cbn [oneline_or]. unfold run_clause. apply dead_r.
    { apply live_bind; [|intros; apply live_ret]. apply live_write; [apply good_kid; [exact G|cbn; lia]|cbn; lia]. }
    intros _. apply dead_r.
    { change (live (test_indent c src (write (Datatypes.S k) src) (kid n 1) (nloc n 0) [])).
      change (live (on_copy (H c src (nloc n 0) [] ;;; (if on c B_indent_var_suffix then if on c B_indent_one_line_var_suffix then ret true
        else lua_list c src (write (Datatypes.S k) src) (kid n 1) else ret false)))).
      apply live_copy. apply live_bind; [hint|]. intros _. destruct (on c B_indent_var_suffix); [|apply live_ret].
      destruct (on c B_indent_one_line_var_suffix); [apply live_ret|]. apply dead_live, S. lia. }
    intros ind. change (cl_post (clause_of c n) ind) with [IIf ind (IInc None); IHint 0 []; IKid 1; IIf ind IDec].
    apply dead_next; [destruct ind; [apply live_inc|apply live_ret]|]. apply dead_next; [hint|]. apply dead_here. cbn [run_item]. rewrite body.
    change (write_body c src (write k src) (kid n 1)) with (range_or c src (write k src) (kid n 1) (lua_list c src (write k src) (kid n 1) ;;; ret tt)).
    apply dead_range. apply dead_l. apply S. lia.
  Qed.

  Lemma dead_fields k : on c B_force_single_line_iv_table_field = true -> on c B_force_single_line_table = true ->
    nsome c N_newline_format_table_field = true -> 7 < k -> dead (write k src c (sub exps 2)).
  Proof.
    intros E1 E2 E3 Hk. destruct k as [|k]; [lia|]. destruct k as [|k]; [lia|]. rewrite body.
    pose proof (exp_good 2 ltac:(lia)) as G.
    set (n := sub exps 2) in *. assert (G1 : good (slot_ok src) (fun _ => True) (kid n 0)) by (apply good_kid; [exact G|cbn; lia]).
    set (l := kid n 0) in *.
    assert (G2 : forall i, i < 2 -> good (slot_ok src) (fun _ => True) (sub l i)).
    { intros i Hi. apply good_of. pose proof (fields_parts _ _ (proj1 G1)) as P. rewrite Forall_forall in P.
      apply (P (nth i (n_seps l) (dummy_loc, dummy_node, dummy_loc, []))). apply nth_In. exact Hi. }
    assert (S : forall k, 5 < k -> dead (lua_seps c src (write k src) l)).
    { intros j Hj. assert (L : forall i, i < 2 -> live (write j src c (sub l i))).
      { intros i Hi. apply live_write; [now apply G2|]. destruct i as [|[|]]; [cbn; lia|cbn; lia|lia]. }
      unfold lua_seps. change (n_seps l) with [(16, 16, sub l 0, (17, 17), s2l ","); ((18, 18), sub l 1, (19, 19), [])].
      change (sep_need_newlines c l) with (nsome c N_newline_format_table_field). rewrite E3. set (x := sub l 0) in *. set (y := sub l 1) in *.
      cbn [write_seps]. apply dead_r.
      { cbn [lazy_and]. change (need_first_newline c src (write j src) l x) with
          (if negb (nsome c N_newline_format_table_field) then ret false
           else if on c B_force_single_line_table && true && on c B_force_single_line_iv_table_field then
             h <- get_indent l ;; ret (h || negb true)
           else if (on c B_force_single_line_iv_table_field && true) || (on c B_force_single_line_kv_table_field && false) then
             isnone (test_oneline_table_field c (write j src) x) else ret true).
        rewrite E1, E2, E3. cbn [andb negb]. apply live_bind; [apply live_get_indent|]. intros; apply live_ret. }
      intros b. apply dead_r; [nohint|]. intros _. apply dead_r; [apply (L 0); lia|]. intros _. apply dead_r; [hint|]. intros _.
      apply dead_l. cbn [write_seps_rest]. apply dead_r; [apply live_emit|]. intros _. apply dead_st. intros s [_ Hp]. rewrite Hp. apply dead_l.
      change (test_out_of_range None (18, 18)) with false. cbv iota. apply dead_l. cbn [lazy_and].
      change (need_newline c src (write j src) l x y) with
          (if negb (nsome c N_newline_format_table_field) then ret false
        else if true && on c B_force_single_line_iv_table_field then
          if on c B_force_single_line_table && true then
            isnone (test_oneline_no_nl c [write j src c y])
          else ret false
        else if on c B_force_single_line_kv_table_field && false then
          isnone (test_oneline_table_field c (write j src) y)
        else ret true).
      rewrite E1, E2, E3. cbn [andb negb]. apply dead_l. apply dead_l. apply dead_test. intros m [<-|[]]. apply (L 1). lia. }
    change (write_body c src (write (Datatypes.S k) src) n) with (range_or c src (write (Datatypes.S k) src) n (write_table c src (write (Datatypes.S k) src) n)).
    apply dead_range. unfold write_table. replace (oneline_table_cfg c n) with (@None config)
      by (unfold oneline_table_cfg, nsome; rewrite no_width; now rewrite Bool.andb_false_r).
    cbn [oneline_or]. apply dead_r; [apply live_get_oneline|]. intros one. apply dead_r; [apply live_newline; gap|]. intros _.
    apply dead_r; [apply live_bind; [apply live_emit|]; intros _; apply live_bind; [apply live_incf|]; intros; apply live_ret|]. intros _.
    apply dead_r.
    { destruct (_ && _); [|apply live_ret].
      change (live (on_copy (H c src (nloc n 0) (table_hint c) ;;; lua_seps c src (write (Datatypes.S k) src) l))).
      apply live_copy. apply live_bind; [hint|]. intros _. apply dead_live, S. lia. }
    intros ind. apply dead_r; [change (is_kind KFields (kid n 0)) with true; apply live_set_indent|]. intros _. apply dead_l.
    apply dead_next; [destruct ind; [apply live_inc|apply live_ret]|]. apply dead_next; [hint|]. apply dead_here. cbn [run_item]. fold l. rewrite body.
    change (write_body c src (write k src) l) with (range_or c src (write k src) l (lua_seps c src (write k src) l ;;; ret tt)).
    apply dead_range. apply dead_l. apply S. lia.
  Qed.

  Lemma test_live ms : (forall m, In m ms -> live m) -> live (isnone (test_oneline c ms)).
  Proof. intros Hm. apply dead_live. apply dead_l. now apply dead_test. Qed.
  Lemma dead_exps k : tries c -> 7 < k -> dead (lua_seps c src (write k src) exps).
  Proof.
    intros Ht Hk.
    assert (L : forall i, i < 3 -> live (write k src c (sub exps i))).
    { intros i Hi. apply live_write; [now apply exp_good|]. destruct i as [|[|[|]]]; [cbn; lia|cbn; lia|cbn; lia|lia]. }
    unfold lua_seps. change (n_seps exps) with [(7, 7, sub exps 0, (10, 10), s2l ","); ((11, 11), sub exps 1, (14, 14), s2l ","); ((15, 15), sub exps 2, (20, 20), [])].
    set (l := exps) in *. set (x := sub l 0) in *. set (y := sub l 1) in *. set (z := sub l 2) in *.
    assert (N1 : need_first_newline c src (write k src) l x = (if nis c N_newline_format_exp_list_first 1 then
          if on c B_force_single_line_exp_list then isnone (test_oneline c [write k src c x]) else ret true
        else ret false)) by reflexivity.
    assert (N2 : need_newline c src (write k src) l x y = (if nis c N_newline_format_exp_list 1 then
          if on c B_force_single_line_exp_list then isnone (test_oneline c [write k src c y]) else ret true
        else ret false)) by reflexivity.
    assert (T1 : dead (isnone (test_oneline c [write k src c x]))) by (apply dead_l, dead_test; intros m [<-|[]]; apply (L 0); lia).
    assert (T2 : dead (isnone (test_oneline c [write k src c y]))) by (apply dead_l, dead_test; intros m [<-|[]]; apply (L 1); lia).
    assert (T3 : dead (isnone (test_oneline c [write k src c z]))) by (apply dead_l, dead_test; intros m [<-|[]]; apply (L 2); lia).
    assert (Q1 : live (lazy_and (sep_need_newlines c l) (need_first_newline c src (write k src) l x))).
    { apply live_lazy. rewrite N1. destruct (nis c N_newline_format_exp_list_first 1); [|apply live_ret]. destruct (on c B_force_single_line_exp_list); [now apply dead_live|apply live_ret]. }
    assert (Q2 : live (lazy_and (sep_need_newlines c l) (need_newline c src (write k src) l x y))).
    { apply live_lazy. rewrite N2. destruct (nis c N_newline_format_exp_list 1); [|apply live_ret]. destruct (on c B_force_single_line_exp_list); [now apply dead_live|apply live_ret]. }
    assert (Q3 : live (lazy_and (sep_need_newlines c l) (need_newline c src (write k src) l y z))).
    { apply live_lazy. change (need_newline c src (write k src) l y z) with
        (if true && on c B_write_newline_at_explist_multiline_table && obool_is (cb c B_write_newline_at_multiline_table) false then ret true
         else if nis c N_newline_format_exp_list 1 then
          if on c B_force_single_line_exp_list then isnone (test_oneline c [write k src c z]) else ret true
         else ret false).
      destruct (_ && _); [apply live_ret|]. destruct (nis c N_newline_format_exp_list 1); [|apply live_ret]. destruct (on c B_force_single_line_exp_list); [now apply dead_live|apply live_ret]. }
    assert (N0 : sep_need_newlines c l = nsome c N_newline_format_exp_list || nsome c N_newline_format_exp_list_first) by reflexivity.
    assert (Ns : forall o v, nis c o v = true -> nsome c o = true) by (intros o v; unfold nis, nsome; destruct (cn c o); [reflexivity|discriminate]).
    cbn [write_seps write_seps_rest].
    assert (D : (on c B_force_single_line_exp_list = true /\ nis c N_newline_format_exp_list_first 1 = true)
      \/ dead (write k src c x) \/ (on c B_force_single_line_exp_list = true /\ nis c N_newline_format_exp_list 1 = true) \/ dead (write k src c y)
      \/ dead (write k src c z)).
    { destruct Ht as [(X & [Y|Y])|[(X & Y)|[(X & Y)|(X & Y & Z)]]]; [auto|auto| | |].
      - do 3 right. left. apply dead_suffix; auto; lia.
      - right. left. apply dead_operator; auto; lia.
      - do 4 right. apply dead_fields; auto; lia. }
    destruct D as [[D1 D2]|D].
    { apply dead_l. rewrite N0, (Ns _ _ D2), Bool.orb_true_r. cbn [lazy_and]. now rewrite N1, D1, D2. }
    apply dead_r; [exact Q1|]. intros b1. apply dead_r; [nohint|]. intros _. destruct D as [D|D]; [now apply dead_l|].
    apply dead_r; [apply (L 0); lia|]. intros _. apply dead_r; [hint|]. intros _. apply dead_l. apply dead_r; [apply live_emit|]. intros _.
    apply dead_st. intros s [_ Hp]. rewrite Hp. change (test_out_of_range None (11, 11)) with false. cbv iota.
    destruct D as [[D1 D2]|D].
    { apply dead_l, dead_l. rewrite N0, (Ns _ _ D2). cbn [lazy_and orb]. now rewrite N2, D1, D2. }
    apply dead_r; [apply live_bind; [exact Q2|]; intros; apply live_bind; [nohint|]; intros; apply live_ret|]. intros b2.
    destruct D as [D|D]; [now apply dead_l|].
    apply dead_r; [apply (L 1); lia|]. intros _. apply dead_r; [hint|]. intros _. apply dead_r; [apply live_emit|]. intros _.
    apply dead_st. intros s' [_ Hp']. rewrite Hp'. change (test_out_of_range None (15, 15)) with false. cbv iota.
    apply dead_r; [apply live_bind; [exact Q3|]; intros; apply live_bind; [nohint|]; intros; apply live_ret|]. intros b3. now apply dead_l.
  Qed.
  Lemma dead_code k : tries c -> 10 < k -> dead (write k src c tr).
  Proof.
    intros Ht Hk. do 3 (destruct k as [|k]; [lia|]). rewrite body.
    change (write_body c src (write (S (S k)) src) tr) with (run_clause c src (write (S (S k)) src) tr (clause_of c tr)). unfold run_clause. apply dead_l.
    change (cl_pre (clause_of c tr)) with [IHint 0 []; IKid 0; INl (on c B_write_newline_at_eof) 1 []].
    apply dead_next; [hint|]. apply dead_here. cbn [run_item]. rewrite body. set (n := ret_node).
    change (write_body c src (write (S k) src) n) with (range_or c src (write (S k) src) n
      (s <- get_st ;; oneline_or (write (S k) src) (match oneline_if_cfg c n with Some c' => Some c' | None => oneline_function_cfg c s n end) n (ret tt)
             (run_clause c src (write (S k) src) n (clause_of c n)))).
    apply dead_range. apply dead_st. intros s Hs. change (oneline_if_cfg c n) with (@None config). change (oneline_function_cfg c s n) with (@None config).
    cbv iota. cbn [oneline_or]. unfold run_clause. apply dead_r; [apply live_bind; [apply live_emit|]; intros; apply live_ret|]. intros _.
    apply dead_r.
    { change (live (on_copy (H c src (nloc n 0) sp ;;; (if on c B_indent_exp_list then if on c B_indent_one_line_exp_list then ret true
        else lua_seps c src (write (S k) src) exps else ret false)))).
      apply live_copy. apply live_bind; [hint|]. intros _. destruct (on c B_indent_exp_list); [|apply live_ret].
      destruct (on c B_indent_one_line_exp_list); [apply live_ret|]. apply dead_live, dead_exps; [exact Ht|lia]. }
    intros ind. change (cl_post (clause_of c n) ind) with [IIf ind (IInc None); IHint 0 sp; IKid 0; IIf ind IDec].
    apply dead_next; [destruct ind; [apply live_inc|apply live_ret]|]. apply dead_next; [hint|]. apply dead_here. cbn [run_item]. rewrite body.
    change (kid n 0) with exps.
    change (write_body c src (write k src) exps) with (range_or c src (write k src) exps (lua_seps c src (write k src) exps ;;; ret tt)).
    apply dead_range. apply dead_l. apply dead_exps; [exact Ht|lia].
  Qed.
End Measure.

Lemma measures_tries c : measures c -> tries c.
Proof.
  assert (O : forall k, cb c k = Some true -> on c k = true) by (intros k E; unfold on; now rewrite E).
  assert (V : forall k v, cn c k = Some v -> nis c k v = true) by (intros k v E; unfold nis; rewrite E; apply N.eqb_refl).
  assert (S : forall k, cn c k <> None -> nsome c k = true) by (intros k E; unfold nsome; destruct (cn c k); [reflexivity|congruence]).
  intros [X [Y|Y]|X Y|X [Y|Y]|X Y Z]; [left|left|right; left|do 2 right; left|do 2 right; left|do 3 right]; auto.
Qed.
Theorem measuring_panics c : line_range c = None -> cn c N_max_width = None -> measures c -> process_buffer code c = Panicked.
Proof.
  intros Hl Hw Hm. unfold process_buffer. rewrite code_parses, Hl. cbn [line_range_to_pos_range]. rewrite code_recon.
  pose proof (dead_code c Hw (write_fuel code_tree) (measures_tries c Hm)) as D.
  assert (Hf : 10 < write_fuel code_tree) by (cbn; lia).
  specialize (D Hf (mk_world [] (start_state code None) [] []) (conj eq_refl eq_refl)).
  destruct (write _ _ _ _ _) as [r w]. cbn in D. now subst.
Qed.
Theorem hint_panics : exists (src : str) (c : config), line_range c = None /\ ~ measures c /\ process_buffer src c = Panicked.
Proof.
  exists (s2l "return f--[[a]]()"), (set_s S_hint_after_multiline_comment (Some [233%N]) default_config).
  split; [reflexivity|]. split; [intros [X ?|X ?|X ?|X ? ?]; discriminate X|]. vm_compute. reflexivity.
Qed.
