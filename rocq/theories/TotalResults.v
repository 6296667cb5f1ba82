(** Outcomes of the formatter as a whole. *)
From Verif Require Import Base Lib Config State Ast LuaLexer LR LRSpec LuaGrammar LuaParser Recon WriterBase LuaWriter Formatter LexSpec LayoutSpec
  LayoutProofs ParserProofs RefuteSpec FormatSpec WriterFrame RenderProofs FormatProofs RenderExact TotalFrame TotalProofs OutcomeProofs TotalSpec.

(** ** no formatting error *)
Theorem format_no_error src c : process_buffer src c <> FormattingError /\ process_buffer src c <> Internal.
Proof.
  unfold process_buffer. destruct (parse_lua src) as [n| |] eqn:P; [|split; discriminate|now elim (parse_lua_total src)].
  unfold reconstruct. pose proof (written_tree src c n None (0%Z, line_range_to_pos_range src (line_range c)) P) as G.
  destruct (recon c None n _) as [n' [lv pr]]. cbn [fst] in G.
  assert (Hf : height n' + selfs c < write_fuel n') by (pose proof (selfs_max c); unfold write_fuel; lia).
  pose proof (write_no_error src c n' G (write_fuel n') Hf (mk_world [] (start_state src pr) [] []) eq_refl) as R.
  destruct (write _ _ _ _ _) as [[]]; try contradiction; split; discriminate.
Qed.

(** ** no panic *)
Lemma plain_opts c : plain_ends c -> forall k t, cs c k = Some t -> ends_ascii t.
Proof.
  intros H k t E. destruct (snoc_cases t) as [->|(x & a & ->)]; [exact I|]. apply ea_snoc. apply N.ltb_lt. eauto.
Qed.
Lemma on_some c k : on c k = true -> cb c k = Some true.
Proof. unfold on. destruct (cb c k) as [[]|]; cbn; congruence. Qed.
Lemma nis_some c k v : nis c k v = true -> cn c k = Some v.
Proof. unfold nis. destruct (cn c k) as [x|]; [|discriminate]. intros E. apply N.eqb_eq in E. now subst. Qed.
Lemma nsome_some c k : nsome c k = true -> cn c k <> None.
Proof. unfold nsome. destruct (cn c k); discriminate. Qed.
Lemma tries_spec c : tries c -> measures c.
Proof.
  intros [(X & Y)|[(X & Y)|[(X & Y)|(X & Y & Z)]]]; [apply ms_exp_list|apply ms_suffix|apply ms_operator|apply ms_fields]; auto using on_some, nsome_some;
    destruct Y as [Y|Y]; auto using nis_some.
Qed.
Lemma known_needed c : width_known c -> measures c -> cn c N_max_width <> None.
Proof.
  intros Hw M. assert (A : exists k, In k line_options /\ cb c k = Some true) by (destruct M as [X ?|X ?|X ?|X ? ?]; refine (ex_intro _ _ (conj _ X)); cbn; tauto).
  destruct A as (k & Hk & E). destruct (Hw k Hk E) as (w & ->). discriminate.
Qed.
Lemma all_plain c : ascii_options c -> plain_ends c.
Proof. intros H k x a E. apply (H k (x ++ [a]) a E). apply in_or_app. right. now left. Qed.
Theorem format_total src c : plain_ends c -> (measures c -> cn c N_max_width <> None) -> line_range c = None ->
  (exists o, process_buffer src c = Formatted o) \/ process_buffer src c = ParsingError.
Proof.
  intros Ha Hw Hl. unfold process_buffer. destruct (parse_lua src) as [n| |] eqn:P; [|now right|now elim (parse_lua_total src)]. left.
  rewrite Hl. cbn [line_range_to_pos_range]. pose proof (written_tree src c n None (0%Z, None) P) as G.
  destruct (write_fresh src c n) as (n' & E & _); [now rewrite Hl|]. rewrite E. unfold reconstruct in E.
  destruct (recon c None n (0%Z, None)) as [n1 [lv pr]]. cbn [fst] in G. cbn in E. injection E as -> ->.
  assert (Hf : height n' + selfs c < write_fuel n') by (pose proof (selfs_max c); unfold write_fuel; lia).
  destruct (write_no_panic c src (plain_opts c Ha)) with (n := n') (fuel := write_fuel n') (w := mk_world [] (start_state src None) [] [])
    as (a & w' & ->); auto.
  - auto using tries_spec.
  - exact I.
  - split; reflexivity.
  - eauto.
Qed.

(** ** the line feed at the end *)
Lemma root_kind src n : parse_lua src = Parsed n -> n_kind n = KChunk \/ n_kind n = KSheBangChunk.
Proof.
  unfold parse_lua. destruct (lex src) as [ts|e|] eqn:L; try discriminate.
  destruct (parse_tokens ts) as [v| |] eqn:P; try discriminate. destruct v as [| n' | | |] eqn:Ev; try discriminate. intros [= <-].
  apply parse_tokens_correct in P as (l & r & D). change (g_start lua_grammar) with n_Chunk_ in D.
  remember (NT n_Chunk_) as x eqn:Ex. remember (l, VNode n', r) as y eqn:Ey.
  destruct D as [|p w args Hp D]; [discriminate|]. injection Ex as Ex. injection Ey as _ Ey _.
  change (In p lua_prods) in Hp. unfold lua_prods in Hp.
  repeat (destruct Hp as [<-|Hp]; [first [discriminate Ex|cbn in Ey; injection Ey as <-; auto]|]). destruct Hp.
Qed.
Lemma recon_kind c sc n s : n_kind n = KChunk \/ n_kind n = KSheBangChunk -> n_kind (fst (recon c sc n s)) = n_kind n.
Proof.
  destruct n as [k sp ls t lv ks is ss o]. cbn [n_kind]. intros [-> | ->]; cbn [recon];
    repeat match goal with |- context [let '(_, _) := ?e in _] => destruct e end; reflexivity.
Qed.
Lemma ends_nl_snoc f : ends_nl f = true -> exists x, f = x ++ [10%N].
Proof.
  unfold ends_nl. destruct (snoc_cases f) as [->|(x & a & ->)]; [discriminate|]. rewrite lastc_snoc. intros E. apply ceq_true in E as ->. eauto.
Qed.
Lemma newline_ends c H h w a w' : if_newline c true H h w = (ROk a, w') ->
  exists f, w_f w' = (f ++ [10%N]) ++ indent_text c (w_st w').
Proof.
  unfold if_newline, negb. unfold bind at 1. destruct (in_buffer [] (H []) w) as [[b| | |] w1]; try discriminate.
  unfold write_indent. destruct (is_empty (trim_end_spaces_and_tabs b)) eqn:E; cbv beta iota zeta.
  - unfold bind, get_st, emit. cbv beta iota zeta. intros [= <- <-]. cbn [set_f w_f w_st].
    destruct (ends_nl (pop_blank (w_f w1))) eqn:En; [|eauto]. apply ends_nl_snoc in En as (x & ->). eauto.
  - unfold bind, get_st, emit, ret. destruct (ends_nl (trim_end_spaces_and_tabs b)) eqn:En; cbv beta iota zeta; intros [= <- <-]; cbn [set_f w_f w_st].
    + apply ends_nl_snoc in En as (x & ->). exists (w_f w1 ++ x). now rewrite !app_assoc.
    + eauto.
Qed.
Lemma run_items_last buf W c n l x w a w' : run_items c buf W n (l ++ [x]) w = (ROk a, w') ->
  exists w1 a', run_item c buf W n x w1 = (ROk a', w').
Proof.
  revert w. induction l as [|y l IH]; intros w; cbn [app run_items]; unfold bind.
  - destruct (run_item c buf W n x w) as [[u| | |] w1] eqn:E; try discriminate. intros [= <- <-]. eauto.
  - destruct (run_item c buf W n y w) as [[u| | |] w1] eqn:E; try discriminate. apply IH.
Qed.
Lemma clause_run buf W c n l w a w' : run_clause c buf W n (plain l) w = (ROk a, w') -> exists a', run_items c buf W n l w = (ROk a', w').
Proof.
  unfold run_clause, plain. cbn [cl_pre cl_test cl_post]. unfold bind, ret. cbn [run_items].
  destruct (run_items c buf W n l w) as [[u| | |] w1]; try discriminate. intros [= <- <-]. eauto.
Qed.
Theorem format_ends src c o : on c B_write_newline_at_eof = true -> process_buffer src c = Formatted o -> exists x, o = x ++ [10%N].
Proof.
  intros Hc. unfold process_buffer. destruct (parse_lua src) as [n| |] eqn:P; try discriminate. apply root_kind in P.
  unfold reconstruct. pose proof (recon_kind c None n (0%Z, line_range_to_pos_range src (line_range c)) P) as K.
  destruct (recon c None n _) as [n' [lv pr]]. cbn [fst] in K. rewrite <- K in P. clear K.
  destruct (write _ _ _ _ _) as [[a| | |] w] eqn:E; try discriminate. intros [= <-].
  pose proof (write_balanced _ _ _ _ _ _ _ E) as B. cbn [w_st] in B.
  assert (S0 : indent_text c (w_st w) = indent_text c (base (w_st w))) by reflexivity.
  rewrite B in S0. cbn in S0.
  assert (G : exists w1 a' i h, if_newline c true (LuaWriter.H c src (nloc n' i)) h w1 = (ROk a', w)).
  { destruct (write_fuel n') as [|fuel]; [discriminate|]. change (write (S fuel) src c n') with (write_body c src (write fuel src) n') in E.
    unfold write_body, clause_of in E.
    destruct P as [P|P]; rewrite P, Hc in E; apply clause_run in E as (a' & E).
    - apply (run_items_last _ _ _ _ [_; _]) in E as (w1 & a1 & E). exists w1, a1, 1, []. exact E.
    - apply (run_items_last _ _ _ _ [_; _; _; _]) in E as (w1 & a1 & E). exists w1, a1, 2, []. exact E. }
  destruct G as (w1 & a' & i & h & G). apply newline_ends in G as (f & ->). rewrite S0. exists f.
  transitivity ((f ++ [10%N]) ++ []); [|apply app_nil_r]. f_equal. unfold indent_text. now destruct (cs c _).
Qed.

(** ** nothing is set *)
Lemma unset_total src c n : unset c -> line_range c = None -> parse_lua src = Parsed n -> exists o, process_buffer src c = Formatted o.
Proof.
  intros (U1 & U3 & U2) Hl P. destruct (format_total src c) as [E|E]; auto.
  - intros k t a E. rewrite U3 in E. discriminate.
  - apply known_needed. intros k _ E. rewrite U1 in E. discriminate.
  - unfold process_buffer in E. rewrite P in E. destruct (reconstruct _ _ _) as [n' pr]. destruct (write _ _ _ _ _) as [[]]; discriminate.
Qed.

Theorem format_lossless src c n : unset c -> line_range c = None ->
  ~ (exists x k, src = x ++ [45; 45; 91]%N ++ repeat 61%N k) ->
  (forall ts pre l r l' r' post, lex src = LexOk ts -> ts = pre ++ (l, OpenCurlyBracket, r) :: (l', CloseCurlyBracket, r') :: post ->
     lines_end (text_at src r l')) ->
  parse_lua src = Parsed n ->
  process_buffer src c = Formatted src \/ (process_buffer src c = Formatted (src ++ [10%N]) /\ open_line src (layout n)).
Proof.
  intros U Hl H1 H2 P. destruct (unset_total src c n U Hl P) as (o & E). rewrite E.
  destruct (format_exact src c o U Hl H1 H2 E) as [->|(-> & n' & P' & Ho)]; [now left|right]. split; [reflexivity|].
  rewrite P in P'. injection P' as ->. exact Ho.
Qed.

(** ** indentation *)
Theorem write_keeps_indent fuel src c n w a w' : write fuel src c n w = (ROk a, w') ->
  indent_level (w_st w') = indent_level (w_st w) /\ stack_indent (w_st w') = stack_indent (w_st w)
  /\ function_nested_level (w_st w') = function_nested_level (w_st w) /\ pos_range (w_st w') = pos_range (w_st w).
Proof.
  intros E. apply write_balanced in E. unfold base, set_comment in E. destruct (w_st w), (w_st w'). cbn in *. injection E. auto.
Qed.

(** ** tables on one line *)
Lemma no_nl_count s : has_newlines s = false -> count_while not_nl s = List.length s.
Proof.
  induction s as [|a s IH]; [reflexivity|]. unfold has_newlines in *. cbn [existsb count_while List.length]. rewrite orb_false_iff.
  intros [H1 H2]. unfold not_nl at 1. rewrite H1. cbn [negb]. now rewrite IH.
Qed.
Lemma no_nl_in s : has_newlines s = false <-> ~ In 10%N s.
Proof.
  unfold has_newlines. rewrite <- Bool.not_true_iff_false, existsb_exists. split; intros H G; apply H.
  - exists 10%N. auto.
  - destruct G as (x & Hx & E). apply ceq_true in E as ->. exact Hx.
Qed.
Lemma count_split s : exists a b, s = a ++ b /\ ~ In 10%N a /\ count_while not_nl s = List.length a /\ (b = [] \/ exists b', b = 10%N :: b').
Proof.
  induction s as [|x s (a & b & E & Ha & Hc & Hb)]; [exists [], []; cbn; auto|]. cbn [count_while]. unfold not_nl at 1. destruct (ceq x ch_nl) eqn:Ex.
  - apply ceq_true in Ex as ->. exists [], (10%N :: s). cbn. repeat split; auto. right. eauto.
  - exists (x :: a), b. subst s. cbn. rewrite Hc. repeat split; auto. intros [->|H]; [discriminate|auto].
Qed.
Lemma last_line_len f : last_line f (get_len_after_newline f).
Proof.
  unfold get_len_after_newline. destruct (count_split (rev f)) as (a & b & E & Ha & -> & Hb). exists (rev b), (rev a).
  assert (Ef : f = rev b ++ rev a) by (rewrite <- rev_app_distr, <- E; symmetry; apply rev_involutive). split; [exact Ef|].
  split; [now rewrite <- in_rev|]. split; [|now rewrite rev_length]. destruct Hb as [->|(b' & ->)]; [now left|right]. cbn. eauto.
Qed.
Lemma last_line_unique f k : last_line f k -> k = get_len_after_newline f.
Proof.
  intros (a & b & -> & Hb & Ha & ->). unfold get_len_after_newline. rewrite rev_app_distr, <- rev_length.
  assert (Hr : ~ In 10%N (rev b)) by now rewrite <- in_rev. clear Hb. revert Hr. generalize (rev b) as r. induction r as [|x r IH]; cbn [app count_while List.length].
  - intros _. destruct Ha as [->|(a' & ->)]; [reflexivity|]. rewrite rev_app_distr. reflexivity.
  - intros Hr. unfold not_nl at 1. destruct (ceq x ch_nl) eqn:Ex; [apply ceq_true in Ex as ->; elim Hr; now left|].
    cbn [negb]. rewrite <- IH; auto. intros H. apply Hr. now right.
Qed.
Lemma last_line_app f line k : ~ In 10%N line -> last_line f k -> last_line (f ++ line) (k + List.length line).
Proof.
  intros Hl (a & b & -> & Hb & Ha & ->). exists a, (b ++ line). rewrite app_assoc, app_length. repeat split; auto.
  rewrite in_app_iff. tauto.
Qed.

Theorem table_one_line fuel src c n mw w w' : may_be_one_line c n mw -> covered (pos_range (w_st w)) (n_span n) ->
  write (S fuel) src c n w = (ROk tt, w') ->
  exists c', one_line_config c c' /\
  let fits line := ~ In 10%N line /\ exists k, last_line (w_f w ++ line) k /\ (N.of_nat k < mw)%N in
  let alone line := exists w1, write fuel src c' n (mk_world [] (w_st w) (w_oneline w) (w_indent w)) = (ROk tt, w1) /\ w_f w1 = line in
  (exists line, alone line /\ fits line /\ w_f w' = w_f w ++ line) \/ ~ (exists line, alone line /\ fits line).
Proof.
  intros (H1 & H2 & H3 & H4 & H5) Hr. change (write (S fuel) src c n) with (write_body c src (write fuel src) n). unfold write_body. rewrite H1.
  unfold range_or. unfold bind at 1, get_st at 1.
  assert (R1 : test_out_of_range (pos_range (w_st w)) (n_span n) = false).
  { destruct (pos_range (w_st w)) as [[a b]|]; [|reflexivity]. destruct (Hr a b eq_refl) as (A & B & C & D). cbn.
    apply orb_false_iff. split; apply Nat.leb_gt; assumption. }
  assert (R2 : test_not_completely_contained (pos_range (w_st w)) (n_span n) = false).
  { destruct (pos_range (w_st w)) as [[a b]|]; [|reflexivity]. destruct (Hr a b eq_refl) as (A & B & C & D). cbn.
    apply orb_false_iff. split; apply andb_false_iff; [left|right]; now apply Nat.ltb_ge. }
  rewrite R1. unfold raw_items. rewrite H1, R2. unfold write_table, oneline_or.
  assert (O : exists c', oneline_table_cfg c n = Some c' /\ one_line_config c c').
  { unfold oneline_table_cfg, is_kind, nsome, on, fits_twice. rewrite H1, H2, H4. destruct (cn c N_newline_format_table_constructor); [|congruence].
    change (2 ^ 64)%N with 18446744073709551616%N in H5. apply N.ltb_lt in H5. rewrite H5. cbn [kind_beq is_some andb obool_is]. eexists. split; [reflexivity|].
    repeat split; intros []; reflexivity. }
  destruct O as (c' & -> & Hc). unfold bind at 1. intros E. exists c'. split; [exact Hc|]. cbv zeta.
  assert (Hw : cn c' N_max_width = Some mw) by (destruct Hc as (_ & _ & -> & _); exact H2). clear Hc.
  unfold test_oneline_no_nl, test_oneline in E. unfold bind at 1 in E. cbn [run_all] in E. change (set_f [] w) with (mk_world [] (w_st w) (w_oneline w) (w_indent w)) in E.
  destruct (write fuel src c' n (mk_world [] (w_st w) (w_oneline w) (w_indent w))) as [[[]| | |] w1] eqn:Ew; cbn [run_all] in E; try discriminate.
  - rewrite Hw in E. destruct (N.ltb _ mw) eqn:Lt.
    + unfold ret at 1 in E. destruct (has_newlines (w_f w1)) eqn:Nl.
      * right. intros (line & (w2 & [= <-] & <-) & (Hn & _)). apply no_nl_in in Hn. congruence.
      * left. exists (w_f w1). split; [eauto|]. unfold bind, set_oneline, emit in E. cbn in E. injection E as <-. cbn. split; [|reflexivity].
        pose proof (proj1 (no_nl_in _) Nl) as Hn. split; [exact Hn|]. apply N.ltb_lt in Lt. unfold get_len_till_newline in Lt. rewrite no_nl_count in Lt by exact Nl.
        exists (get_len_after_newline (w_f w) + List.length (w_f w1)). split; [|exact Lt]. apply last_line_app; [exact Hn|apply last_line_len].
    + right. intros (line & (w2 & [= <-] & <-) & (Hn & k & Hk & Hlt)). apply N.ltb_ge in Lt.
      pose proof (last_line_app _ _ _ Hn (last_line_len (w_f w))) as Hk'. apply last_line_unique in Hk, Hk'. apply no_nl_in in Hn.
      unfold get_len_till_newline in Lt. rewrite no_nl_count in Lt by exact Hn. lia.
  - right. intros (line & (w2 & E2 & _) & _). discriminate.
Qed.

(** ** a line range *)
Definition range_case : str * config :=
  (s2l "x='" ++ repeat 128512%N 20 ++ s2l "'" ++ [10%N] ++ s2l "--[[a]] --[[b]]" ++ [10%N] ++ s2l "y=1", with_options ["--line_range=2:3"]%string).
Theorem format_total_range : exists src c, ascii_options c /\ width_known c /\ process_buffer src c = Panicked.
Proof.
  exists (fst range_case), (snd range_case). split; [|split].
  - intros k t a E. destruct k; vm_compute in E; discriminate.
  - intros k _ E. destruct k; vm_compute in E; discriminate.
  - vm_compute. reflexivity.
Qed.
