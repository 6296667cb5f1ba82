(** Operators at line breaks. *)
From Coq Require Import Lia.
From Verif Require Import Base Lib Config State Ast WriterBase LuaWriter TotalSpec TotalResults PrettySpec PrettyGap OneLineResults TotalFrame OutcomeProofs OperatorSpec.

Lemma in_turn_run ms : forall w w', in_turn ms w w' <-> run_all ms false w = (ROk false, w').
Proof.
  induction ms as [|m ms IH]; intros w w'; cbn [run_all]; split; intros E.
  - now inversion E.
  - injection E as <-. constructor.
  - inversion E as [|? ? ? w1 ? E1 E2]; subst. rewrite E1. now apply IH.
  - destruct (m w) as [[[]| | |] w1] eqn:Em; try discriminate.
    + econstructor; [exact Em|]. now apply IH.
    + exfalso. clear -E. revert w1 E. induction ms as [|x ms IH]; cbn [run_all]; intros w1 E; [discriminate|].
      destruct (x w1) as [[[]| | |] w2]; try discriminate; eauto.
Qed.
Lemma count_first s l : first_line s l -> get_len_till_newline s = List.length l.
Proof.
  intros [N H]. unfold get_len_till_newline. revert s H. induction l as [|a l IH]; intros s H.
  - destruct H as [->|[r ->]]; reflexivity.
  - assert (Ha : not_nl a = true) by (unfold not_nl, ceq, ch_nl; apply negb_true_iff, N.eqb_neq; intros ->; apply N; now left).
    destruct H as [->|[r ->]]; cbn [app count_while List.length]; rewrite Ha; f_equal; apply IH; try (intros I; apply N; now right); eauto.
Qed.
Lemma first_line_of s : exists l, first_line s l.
Proof.
  induction s as [|a s [l [N H]]]; [exists []; split; [auto|now left]|]. destruct (N.eq_dec a 10) as [->|Ha].
  - exists []. split; [auto|right; now exists s].
  - exists (a :: l). split; [intros [I|I]; [congruence|auto]|]. destruct H as [->|[r ->]]; [now left|right; now exists r].
Qed.
Lemma first_line_unique s l l' : first_line s l -> first_line s l' -> l = l'.
Proof.
  intros [N H] [N' H']. revert s l' H N' H'. induction l as [|a l IH]; intros s l' H N' H'.
  - destruct l' as [|b l']; [reflexivity|]. destruct H as [->|[r ->]]; destruct H' as [H'|[r' H']]; try discriminate; injection H' as <- _; elim N'; now left.
  - destruct l' as [|b l'].
    + destruct H as [->|[r ->]]; destruct H' as [H'|[r' H']]; try discriminate; injection H' as -> _; elim N; now left.
    + assert (b = a /\ exists s', (s' = l \/ exists r, s' = l ++ 10%N :: r) /\ (s' = l' \/ exists r, s' = l' ++ 10%N :: r)) as [-> (s' & A & B)].
      { destruct H as [->|[r ->]]; destruct H' as [H'|[r' H']]; cbn [app] in H'; injection H' as Ha Hl; (split; [congruence|]); eexists; (split; [|first [left; exact Hl|right; eexists; exact Hl]]); first [left; reflexivity|right; eexists; reflexivity]. }
      f_equal. eapply IH; eauto; intros I; [apply N|apply N']; now right.
Qed.
Lemma pop_blanks f : exists bl, f = pop_blank f ++ bl /\ Forall (fun a => a = 32 \/ a = 9)%N bl.
Proof.
  unfold pop_blank. destruct (1 <? blen f); [|exists []; now rewrite app_nil_r]. destruct (rev f) as [|a r] eqn:E; [exists []; now rewrite app_nil_r|].
  destruct (is_sp_tab a) eqn:Ea; [|exists []; now rewrite app_nil_r]. exists [a]. apply (f_equal (@rev N)) in E. rewrite rev_involutive in E. cbn in E. split; [exact E|].
  constructor; [|constructor]. unfold is_sp_tab, ceq, ch_sp, ch_tab in Ea. apply orb_true_iff in Ea. destruct Ea as [Ea|Ea]; apply N.eqb_eq in Ea; auto.
Qed.
Lemma newline_new c (G : hinted) h w w' : if_newline c true G h w = (ROk tt, w') -> new_line c w w'.
Proof.
  unfold if_newline. cbn [negb]. unfold bind at 1. unfold in_buffer. destruct (G [] (set_f [] w)) as [[[]| | |] wg]; try discriminate. cbv zeta.
  set (t := trim_end_spaces_and_tabs (w_f wg)). set (w1 := set_f (w_f w) wg). intros E.
  assert (Q : exists w2 y bl z x, w_f w = y ++ bl /\ Forall (fun a => a = 32 \/ a = 9)%N bl /\ w_f w2 = y ++ z /\ y ++ z = x ++ [10%N] /\ write_indent c w2 = (ROk tt, w')).
  { destruct (negb (is_empty t)).
    - destruct (ends_nl t) eqn:En.
      + apply ends_nl_snoc in En. destruct En as [x Ex]. exists (set_f (w_f w1 ++ t) w1), (w_f w), [], t, (w_f w ++ x). rewrite app_nil_r.
        repeat split; auto. now rewrite Ex, app_assoc.
      + exists (set_f ((w_f w1 ++ t) ++ [10%N]) w1), (w_f w), [], (t ++ [10%N]), (w_f w ++ t). rewrite app_nil_r. repeat split; auto; cbn; now rewrite app_assoc.
    - destruct (pop_blanks (w_f w)) as (bl & Hb & Fb). change (w_f w1) with (w_f w) in *. unfold bind in E.
      destruct (ends_nl (pop_blank (w_f w))) eqn:En.
      + destruct (ends_nl_snoc _ En) as [x Ex]. exists (set_f (pop_blank (w_f w)) w1), (pop_blank (w_f w)), bl, [], x. rewrite app_nil_r.
        split; [exact Hb|]. split; [exact Fb|]. split; [reflexivity|]. split; [exact Ex|]. change (w_f w1) with (w_f w) in E. rewrite En in E. exact E.
      + exists (set_f (pop_blank (w_f w) ++ [10%N]) w1), (pop_blank (w_f w)), bl, [10%N], (pop_blank (w_f w)). repeat split; auto.
        change (w_f w1) with (w_f w) in E. rewrite En in E. exact E. }
  destruct Q as (w2 & y & bl & z & x & Hb & Fb & E2 & Ex & E'). exists y, bl, z, x. split; [exact Hb|]. split; [exact Fb|]. split; [exact Ex|].
  unfold write_indent, bind, get_st, emit in E'. injection E' as <-. cbn. rewrite E2, <- app_assoc. now rewrite (indent_eq c (w_st w2) _ eq_refl).
Qed.

Lemma seq_in {B} (m : M unit) (k : M B) w r : (m ;;; k) w = r -> (exists b, fst r = ROk b) -> exists w1, m w = (ROk tt, w1) /\ k w1 = r.
Proof. unfold bind. intros E [b Hb]. destruct (m w) as [[[]| | |] w1]; subst; try discriminate. eauto. Qed.

Lemma test_fits c mw ms w r w1 : cn c N_max_width = Some mw -> test_oneline c ms w = (ROk r, w1) -> same_place w1 w /\ (is_some r = true <-> fits mw ms w).
Proof.
  intros Hm E. unfold test_oneline in E. destruct (run_all ms false (set_f [] w)) as [[fl| | |] wt] eqn:Er; try discriminate. destruct fl.
  - injection E as <- <-. split; [split; reflexivity|]. split; [discriminate|]. intros (wt' & l & k & I & _). apply in_turn_run in I. congruence.
  - rewrite Hm in E. destruct (first_line_of (w_f wt)) as [l Hl]. pose proof (count_first _ _ Hl) as Cl. rewrite Cl in E.
    assert (Hk : last_line (w_f w ++ l) (get_len_after_newline (w_f w) + List.length l)) by (apply last_line_app; [apply Hl|apply last_line_len]).
    destruct (N.ltb _ mw) eqn:Lt; injection E as <- <-; (split; [split; reflexivity|]).
    + split; [intros _|reflexivity]. apply N.ltb_lt in Lt. exists wt, l. eexists. split; [now apply in_turn_run|]. split; [exact Hl|]. split; [exact Hk|exact Lt].
    + split; [discriminate|]. intros (wt' & l' & k & I & Hl' & Hk' & Lk). apply in_turn_run in I.
      rewrite Er in I. injection I as <-. rewrite (first_line_unique _ _ _ Hl' Hl) in Hk'. apply last_line_unique in Hk, Hk'. apply N.ltb_ge in Lt. lia.
Qed.

Theorem operator_break fuel src c n p mw w w' :
  n_kind n = KBinaryOp -> cb c B_force_single_line_binary_op = Some true -> cn c N_max_width = Some mw ->
  cn c N_newline_format_binary_op = Some p -> p = 1%N \/ p = 2%N -> covered (pos_range (w_st w)) (n_span n) -> write (S fuel) src c n w = (ROk tt, w') ->
  let gap i := comment_hint c src (nloc n i) [32%N] in
  let operator := emit (n_text n) in
  let right := write fuel src c (kid n 1) in
  exists w0 wl w1 w2, w_f w0 = w_f w /\ in_turn [write fuel src c (kid n 0)] w0 wl /\ same_place w1 wl /\ w_f w2 = w_f w' /\
  let short := fits mw [gap 0; operator; gap 1; right] wl in
  (short /\ in_turn [gap 0; operator; gap 1; right] w1 w2
   \/ ~ short /\ p = 1%N /\ (exists wb, new_line c w1 wb /\ in_turn [operator; gap 1; right] wb w2)
   \/ ~ short /\ p = 2%N /\ (exists wa wb, in_turn [gap 0; operator] w1 wa /\ new_line c wa wb /\ in_turn [right] wb w2)).
Proof.
  intros Kn Hf Hm Hp Hv Hr E. cbv zeta. destruct (covered_in _ _ Hr) as [R1 R2]. set (W := write fuel src) in *.
  change (write (S fuel) src c n) with (write_body c src W n) in E. unfold write_body in E. rewrite Kn in E. unfold range_or in E. unfold bind at 1, get_st at 1 in E. rewrite R1, R2 in E.
  assert (E1 : write_binary c src W n w = (ROk tt, w')) by (destruct (raw_items n); exact E). clear E. unfold write_binary in E1. cbv zeta in E1.
  apply seq_in in E1; [|now exists tt]. destruct E1 as (wl & El & E). cbn [run_items run_item] in El.
  apply seq_in in El; [|now exists tt]. destruct El as (w0 & E0 & El). apply seq_in in El; [|now exists tt]. destruct El as (wl' & El & [= ->]).
  assert (F0 : w_f w0 = w_f w) by (unfold inc_indent, bind, get_st, put_st in E0; now injection E0 as <-).
  assert (T : (nis c N_newline_format_binary_op 1 || nis c N_newline_format_binary_op 2) && on c B_force_single_line_binary_op = true).
  { unfold nis, on. rewrite Hf, Hp. destruct Hv as [-> | ->]; reflexivity. }
  rewrite T in E. unfold issome in E. unfold bind at 1 in E. change sp with [32%N] in E.
  set (ms := [H c src (nloc n 0) [32%N]; emit (n_text n); H c src (nloc n 1) [32%N]; W c (kid n 1)]) in E.
  assert (D : exists w1 (b : bool), same_place w1 wl /\ (b = true <-> fits mw ms wl) /\
    run_items c src W n [INl (nis c N_newline_format_binary_op 1 && negb b) 0 [32%N]; ITok (n_text n); INl (nis c N_newline_format_binary_op 2 && negb b) 1 [32%N]; IKid 1; IDec] w1 = (ROk tt, w')).
  { unfold bind at 1 in E. destruct (test_oneline c ms wl) as [[r| | |] w1] eqn:Et; try discriminate. destruct (test_fits _ _ _ _ _ _ Hm Et) as [P D].
    exists w1, (is_some r). auto. }
  clear E. destruct D as (w1 & b & P1 & Db & E). cbn [run_items run_item] in E.
  apply seq_in in E; [|now exists tt]. destruct E as (wa & Ea & E). apply seq_in in E; [|now exists tt]. destruct E as (wb & Eb & E).
  apply seq_in in E; [|now exists tt]. destruct E as (wc & Ec & E). apply seq_in in E; [|now exists tt]. destruct E as (w2 & Ed & E).
  assert (F2 : w_f w2 = w_f w') by (unfold dec_indent, bind, get_st, put_st, ret in E; now injection E as <-).
  exists w0, wl, w1, w2. split; [exact F0|]. split; [econstructor; [exact El|constructor]|]. split; [exact P1|]. split; [exact F2|]. cbv zeta.
  destruct b.
  - left. split; [now apply Db|]. rewrite !andb_false_r in *. unfold if_newline in Ea, Ec. cbn [negb] in Ea, Ec. repeat (econstructor; [eassumption|]). constructor.
  - right. assert (No : ~ fits mw ms wl) by (intros X; apply Db in X; discriminate).
    unfold nis in Ea, Ec. rewrite Hp in Ea, Ec. destruct Hv as [-> | ->]; [left|right]; (split; [exact No|]; split; [reflexivity|]).
    + exists wa. split; [eapply newline_new; exact Ea|]. cbn in Ec. repeat (econstructor; [eassumption|]). constructor.
    + exists wb, wc. split; [cbn in Ea; repeat (econstructor; [eassumption|]); constructor|]. split; [eapply newline_new; exact Ec|]. repeat (econstructor; [eassumption|]). constructor.
Qed.

Lemma placed_by c mw (wanted : Prop) part (G : hinted) h (x : M unit) (r : bool) w w1 w2 w' :
  same_place w1 w -> (r = true -> wanted /\ ~ fits mw part w) -> (r = false -> wanted -> fits mw part w) ->
  if_newline c r G h w1 = (ROk tt, w2) -> x w2 = (ROk tt, w') -> placed c mw wanted part (G h) x w w'.
Proof.
  intros P Ht Hf E2 E. destruct r.
  - destruct (Ht eq_refl). apply (pl_new _ _ _ _ _ _ _ _ w1 w2); auto; [now apply (newline_new c G h)|]. econstructor; [exact E|constructor].
  - apply (pl_same _ _ _ _ _ _ _ _ w1); auto. econstructor; [exact E2|]. econstructor; [exact E|constructor].
Qed.
Lemma decides c mw (need first : bool) (x : M unit) w r w1 : cn c N_max_width = Some mw -> on c B_force_single_line_exp_list = true -> (first = true -> need = true) ->
  lazy_and need (if first then if on c B_force_single_line_exp_list then isnone (test_oneline c [x]) else ret true else ret false) w = (ROk r, w1) ->
  same_place w1 w /\ (r = true -> first = true /\ ~ fits mw [x] w) /\ (r = false -> first = true -> fits mw [x] w).
Proof.
  intros Hm Hf Hn E. destruct first.
  - rewrite Hn in E by reflexivity. cbn [lazy_and] in E. rewrite Hf in E. unfold isnone, bind in E. destruct (test_oneline c [x] w) as [[o| | |] w2] eqn:Et; try discriminate.
    injection E as <- <-. destruct (test_fits _ _ _ _ _ _ Hm Et) as [P D]. split; [exact P|]. destruct o; cbn [is_none is_some] in *.
    + split; [discriminate|]. intros _ _. now apply D.
    + split; [|discriminate]. intros _. split; [reflexivity|]. intros F. apply D in F. discriminate.
  - unfold lazy_and in E. destruct need; injection E as <- <-; (split; [split; reflexivity|]); split; discriminate.
Qed.

Lemma hint_ok c src l h : TotalFrame.ok True True True (fun _ => True) (fun _ => True) (comment_hint c src l h).
Proof. apply any_hint; auto. Qed.
Lemma ok_range {A} (m : M A) w a w' : TotalFrame.ok True True True (fun _ => True) (fun _ => True) m -> m w = (ROk a, w') -> pos_range (w_st w') = pos_range (w_st w).
Proof.
  intros O E. pose proof (O 0 0 (base (w_st w)) w Logic.I Logic.I (proj2 (at_depth_zero _ _) eq_refl)) as R. rewrite E in R. destruct R as (_ & _ & _ & R).
  apply at_depth_zero in R. now apply (f_equal pos_range) in R.
Qed.
Lemma rest_range c src fuel p m q (b : bool) h w w1 w2 w3 : if_newline c b (comment_hint c src p) h w = (ROk tt, w1) -> write fuel src c m w1 = (ROk tt, w2) ->
  comment_hint c src q [] w2 = (ROk tt, w3) -> pos_range (w_st w) = None -> pos_range (w_st w3) = None.
Proof.
  intros E1 E2 E3 R. rewrite (ok_range _ _ _ _ (hint_ok c src q []) E3). rewrite (proj2 (proj2 (proj2 (write_keeps_indent _ _ _ _ _ _ _ E2)))).
  rewrite <- R. refine (ok_range _ _ _ _ _ E1). apply ok_if_newline; auto; intros; apply hint_ok.
Qed.

Theorem expressions_break fuel src c n p m q z l mw w w' :
  n_kind n = KExpList -> n_seps n = (p, m, q, z) :: l -> cb c B_force_single_line_exp_list = Some true -> cn c N_max_width = Some mw ->
  cb c B_write_newline_at_explist_multiline_table <> Some true -> pos_range (w_st w) = None -> write (S fuel) src c n w = (ROk tt, w') ->
  let gap := comment_hint c src in
  let x := write fuel src c in
  exists w1 w2, placed c mw (cn c N_newline_format_exp_list_first = Some 1%N) [x m] (gap p []) (x m) w w1 /\ in_turn [gap q []] w1 w2 /\
    expressions c mw gap x l w2 w'.
Proof.
  intros Kn Hs Hf Hm Ht Hr E. cbv zeta. set (W := write fuel src) in *.
  change (write (S fuel) src c n) with (write_body c src W n) in E. unfold write_body in E. rewrite Kn in E. unfold range_or in E. unfold bind at 1, get_st at 1 in E. rewrite Hr in E.
  cbn [test_out_of_range test_not_completely_contained] in E.
  assert (E1 : exists b, lua_seps c src W n w = (ROk b, w')).
  { destruct (raw_items n); unfold bind in E; destruct (lua_seps c src W n w) as [[b| | |] w2]; try discriminate; injection E as <-; eauto. }
  clear E. destruct E1 as [b0 E].
  assert (Ho : on c B_force_single_line_exp_list = true) by (unfold on; now rewrite Hf).
  assert (Ht' : on c B_write_newline_at_explist_multiline_table = false) by (unfold on, obool_is; destruct (cb c B_write_newline_at_explist_multiline_table) as [[]|] eqn:X; [congruence|reflexivity|reflexivity]).
  unfold lua_seps, write_seps in E. rewrite Hs in E.
  assert (N1 : need_first_newline c src W n m = if nis c N_newline_format_exp_list_first 1 then if on c B_force_single_line_exp_list then isnone (test_oneline c [W c m]) else ret true else ret false)
    by (unfold need_first_newline; now rewrite Kn).
  assert (Sn : sep_need_newlines c n = nsome c N_newline_format_exp_list || nsome c N_newline_format_exp_list_first) by (unfold sep_need_newlines; now rewrite Kn).
  assert (Nis : forall k, nis c k 1 = true <-> cn c k = Some 1%N).
  { intros k. unfold nis. destruct (cn c k); [rewrite N.eqb_eq; split; congruence|split; discriminate]. }
  rewrite N1 in E. unfold bind at 1 in E. destruct (lazy_and _ _ w) as [[r| | |] wa] eqn:Ea; try discriminate.
  apply (decides c mw _ _ _ _ _ _ Hm Ho) in Ea; [|intros F; apply Nis in F; rewrite Sn; unfold nsome; rewrite F; apply orb_true_r]. destruct Ea as (Pa & A1 & A2).
  apply seq_in in E; [|now exists b0]. destruct E as (wb & Eb & E). apply seq_in in E; [|now exists b0]. destruct E as (wc & Ec & E). apply seq_in in E; [|now exists b0]. destruct E as (wd & Ed & E).
  exists wc, wd. split; [|split; [econstructor; [exact Ed|constructor]|]].
  { eapply placed_by; eauto; rewrite <- Nis; auto. }
  assert (E2 : exists res, write_seps_rest c src (H c src) (W c) (sep_need_newlines c n) (need_newline c src W n) (separator c n) (elem_prefix_hint n) r m z l wd = (ROk res, w')).
  { unfold bind at 1 in E. match type of E with match ?t with _ => _ end = _ => destruct t as [[res| | |] we] end; try discriminate. exists res. f_equal.
    unfold trailing_separator in E. rewrite Kn in E. unfold ret in E. cbn in E. now injection E. }
  clear E. destruct E2 as [res E].
  assert (R0 : pos_range (w_st wd) = None) by (eapply rest_range; eauto; rewrite (proj2 Pa); exact Hr).
  clear - E R0 Kn Hm Ho Ht' Sn Nis. revert r m z wd E R0. induction l as [|[[[p x] q] z'] l IH]; intros r m z wd E R0; cbn [write_seps_rest] in E.
  { injection E as _ <-. constructor. }
  apply seq_in in E; [|now exists res]. destruct E as (we & Ee & E). assert (Re : pos_range (w_st we) = None) by (unfold emit in Ee; injection Ee as <-; exact R0).
  unfold bind at 1, get_st at 1 in E. rewrite Re in E. cbn [test_out_of_range] in E.
  assert (N2 : need_newline c src W n m x = if nis c N_newline_format_exp_list 1 then if on c B_force_single_line_exp_list then isnone (test_oneline c [W c x]) else ret true else ret false).
  { unfold need_newline. rewrite Kn, Ht'. now rewrite andb_false_r. }
  rewrite N2 in E. unfold bind at 1 in E. unfold bind at 1 in E. destruct (lazy_and _ _ we) as [[b| | |] wa] eqn:Ea; try discriminate.
  apply (decides c mw _ _ _ _ _ _ Hm Ho) in Ea; [|intros F; apply Nis in F; rewrite Sn; unfold nsome; rewrite F; reflexivity]. destruct Ea as (Pa & A1 & A2).
  unfold bind at 1 in E. destruct (if_newline c b (H c src p) (elem_prefix_hint n) wa) as [[[]| | |] wb] eqn:Eb; try discriminate. cbn in E.
  apply seq_in in E; [|now exists res]. destruct E as (wc & Ec & E). apply seq_in in E; [|now exists res]. destruct E as (wf & Ef & E).
  assert (Hh : elem_prefix_hint n = [32%N]) by (unfold elem_prefix_hint; now rewrite Kn).
  assert (Hs : get_sep (separator c n) z = s2l ",") by (unfold separator; now rewrite Kn).
  rewrite Hs in Ee. rewrite Hh in Eb.
  eapply ex_more with (w1 := we) (w2 := wc) (w3 := wf).
  - econstructor; [exact Ee|constructor].
  - eapply (placed_by c mw _ [W c x] (H c src p)); eauto; rewrite <- Nis; auto.
  - econstructor; [exact Ef|constructor].
  - eapply IH; [exact E|]. eapply (rest_range c src fuel p x q b [32%N]); eauto. rewrite (proj2 Pa). exact Re.
Qed.

Lemma suffix_decides c src W m mw need w r w1 : cn c N_max_width = Some mw -> on c B_force_single_line_var_suffix = true -> need = nsome c N_newline_format_var_suffix ->
  lazy_and need (suffix_newline c src W m) w = (ROk r, w1) ->
  exists part, suffix_part c (comment_hint c src) (W c) m part /\
  same_place w1 w /\ (r = true -> suffix_breaks c m /\ ~ fits mw part w) /\ (r = false -> suffix_breaks c m -> fits mw part w).
Proof.
  intros Hm Ho -> E. set (part := match n_kind m, n_kind (kid m 1) with
    | KFnMethodCall, (KTableConstructorEmpty | KTableConstructor | KArgsRoundBracketsEmpty) => [emit (s2l ":"); comment_hint c src (nloc m 0) []; W c (kid m 0)]
    | KFnMethodCall, KArgsRoundBrackets => if nsome c N_newline_format_exp_list_first then [emit (s2l ":"); comment_hint c src (nloc m 0) []; W c (kid m 0)] else [W c m]
    | _, _ => [W c m] end).
  exists part. split.
  { unfold part, suffix_part, name_only, nsome. destruct (n_kind m) eqn:Km; try (right; split; [intros [X _]; discriminate|reflexivity]).
    destruct (n_kind (kid m 1)) eqn:K1; try (right; split; [intros [_ [X|[X _]]]; cbn in X; intuition discriminate|reflexivity]);
      try (left; split; [split; [reflexivity|left; cbn; tauto]|reflexivity]).
    destruct (cn c N_newline_format_exp_list_first) eqn:Kf; [left|right]; (split; [|reflexivity]).
    - split; [reflexivity|]. right. split; [reflexivity|discriminate].
    - intros [_ [X|[_ X]]]; [cbn in X; intuition discriminate|congruence]. }
  destruct (nsome c N_newline_format_var_suffix) eqn:Ns.
  2:{ cbn [lazy_and] in E. injection E as <- <-. split; [split; reflexivity|]. split; [discriminate|]. intros _ [_ X]. unfold nsome in Ns. destruct (cn c N_newline_format_var_suffix); [discriminate|congruence]. }
  assert (Nn : cn c N_newline_format_var_suffix <> None) by (unfold nsome in Ns; destruct (cn c N_newline_format_var_suffix); [discriminate|discriminate Ns]).
  cbn [lazy_and] in E.
  assert (D : suffix_breaks c m /\ suffix_newline c src W m = isnone (test_oneline c part) \/ ~ suffix_breaks c m /\ suffix_newline c src W m = ret false).
  { unfold suffix_breaks, suffix_newline, part. rewrite Ns, Ho. cbn [negb].
    destruct (n_kind m) eqn:Km; try (right; split; [intros [[X|X] _]; discriminate|reflexivity]); left; (split; [split; [auto|exact Nn]|]).
    all: try reflexivity. destruct (n_kind (kid m 1)) eqn:K1; try reflexivity. destruct (nsome c N_newline_format_exp_list_first); reflexivity. }
  destruct D as [[B D]|[B D]]; rewrite D in E.
  - unfold isnone, bind in E. destruct (test_oneline c part w) as [[o| | |] w2] eqn:Et; try discriminate.
    injection E as <- <-. destruct (test_fits _ _ _ _ _ _ Hm Et) as [P D']. split; [exact P|]. destruct o; cbn [is_none is_some] in *.
    + split; [discriminate|]. intros _ _. now apply D'.
    + split; [|discriminate]. intros _. split; [exact B|]. intros F. apply D' in F. discriminate.
  - injection E as <- <-. split; [split; reflexivity|]. split; [discriminate|]. intros _ X. now elim B.
Qed.

Lemma suffix_hint m : list_prefix_hint m = suffix_gap m.
Proof. unfold list_prefix_hint, suffix_gap. destruct (n_kind m); reflexivity. Qed.
Lemma item_range c src fuel p m (b : bool) h w w1 w2 : if_newline c b (comment_hint c src p) h w = (ROk tt, w1) -> write fuel src c m w1 = (ROk tt, w2) ->
  pos_range (w_st w) = None -> pos_range (w_st w2) = None.
Proof.
  intros E1 E2 R. rewrite (proj2 (proj2 (proj2 (write_keeps_indent _ _ _ _ _ _ _ E2)))).
  rewrite <- R. refine (ok_range _ _ _ _ _ E1). apply ok_if_newline; auto; intros; apply hint_ok.
Qed.

Theorem suffixes_break fuel src c n p m l mw w w' :
  n_kind n = KVarSuffixList -> n_items n = (p, m) :: l -> cb c B_force_single_line_var_suffix = Some true -> cn c N_max_width = Some mw ->
  pos_range (w_st w) = None -> write (S fuel) src c n w = (ROk tt, w') ->
  let gap := comment_hint c src in
  let x := write fuel src c in
  exists part w1, suffix_part c gap x m part /\ placed c mw (suffix_breaks c m) part (gap p []) (x m) w w1 /\ suffixes c mw gap x l w1 w'.
Proof.
  intros Kn Hs Hf Hm Hr E. cbv zeta. set (W := write fuel src) in *.
  change (write (S fuel) src c n) with (write_body c src W n) in E. unfold write_body in E. rewrite Kn in E. unfold range_or in E. unfold bind at 1, get_st at 1 in E. rewrite Hr in E.
  cbn [test_out_of_range test_not_completely_contained] in E.
  assert (E1 : exists b, lua_list c src W n w = (ROk b, w')).
  { destruct (raw_items n); unfold bind in E; destruct (lua_list c src W n w) as [[b| | |] w2]; try discriminate; injection E as <-; eauto. }
  clear E. destruct E1 as [b0 E].
  assert (Ho : on c B_force_single_line_var_suffix = true) by (unfold on; now rewrite Hf).
  assert (Sn : list_need_newlines c n = nsome c N_newline_format_var_suffix) by (unfold list_need_newlines; now rewrite Kn).
  unfold lua_list, write_list in E. rewrite Hs in E.
  assert (N1 : need_first_newline c src W n m = suffix_newline c src W m) by (unfold need_first_newline; now rewrite Kn).
  rewrite N1 in E. unfold bind at 1 in E. destruct (lazy_and _ _ w) as [[r| | |] wa] eqn:Ea; try discriminate.
  apply (suffix_decides c src W m mw _ _ _ _ Hm Ho Sn) in Ea. destruct Ea as (part & Pp & Pa & A1 & A2).
  apply seq_in in E; [|now exists b0]. destruct E as (wb & Eb & E). apply seq_in in E; [|now exists b0]. destruct E as (wc & Ec & E).
  exists part, wc. split; [exact Pp|]. split; [eapply (placed_by c mw _ part (H c src p)); eauto|].
  assert (R0 : pos_range (w_st wc) = None) by (eapply item_range; eauto; rewrite (proj2 Pa); exact Hr).
  clear - E R0 Kn Hm Ho Sn. revert r m wc E R0. induction l as [|[p x] l IH]; intros r m wc E R0; cbn [write_list_rest] in E.
  { injection E as _ <-. constructor. }
  unfold bind at 1, get_st at 1 in E. rewrite R0 in E. cbn [test_out_of_range] in E.
  assert (N2 : need_newline c src W n m x = suffix_newline c src W x) by (unfold need_newline; now rewrite Kn).
  rewrite N2 in E. unfold bind at 1 in E. unfold bind at 1 in E. destruct (lazy_and _ _ wc) as [[b| | |] wa] eqn:Ea; try discriminate.
  apply (suffix_decides c src W x mw _ _ _ _ Hm Ho Sn) in Ea. destruct Ea as (part & Pp & Pa & A1 & A2).
  unfold bind at 1 in E. destruct (if_newline c b (H c src p) (list_prefix_hint x) wa) as [[[]| | |] wb] eqn:Eb; try discriminate. cbn in E.
  apply seq_in in E; [|now exists b0]. destruct E as (wd & Ed & E). rewrite suffix_hint in Eb.
  eapply su_more with (w1 := wd); [exact Pp| |].
  - eapply (placed_by c mw _ part (H c src p)); eauto.
  - eapply IH; [exact E|]. eapply (item_range c src fuel p x b (suffix_gap x)); eauto. rewrite (proj2 Pa). exact R0.
Qed.

Lemma field_decides c W m mw w r w1 : cn c N_max_width = Some mw -> nsome c N_newline_format_table_field = true ->
  isnone (test_oneline_table_field c W m) w = (ROk r, w1) ->
  same_place w1 w /\ (r = true -> ~ field_short mw m (W c m) w) /\ (r = false -> field_short mw m (W c m) w).
Proof.
  intros Hm Hn E. unfold isnone, bind in E.
  destruct (test_oneline_table_field c W m w) as [[o| | |] w2] eqn:Et; try discriminate. injection E as <- <-.
  assert (D : o = None /\ w2 = w /\ ~ field_short mw m (W c m) w \/ In (n_kind m) [KFieldNamedBracket; KFieldNamed; KFieldSequential] /\ fits_twice c m = true /\ test_oneline_no_nl c [W c m] w = (ROk o, w2)).
  { unfold test_oneline_table_field in Et. assert (Hw : nsome c N_max_width = true) by (unfold nsome; now rewrite Hm). rewrite Hw, Hn in Et. cbn [andb] in Et. unfold field_short.
    assert (F : fits_twice c m = false -> ~ (N.of_nat (snd (n_span m) - fst (n_span m)) < (2 * mw) mod 2 ^ 64)%N).
    { unfold fits_twice. rewrite Hm. intros F L. change (2 ^ 64)%N with 18446744073709551616%N in L. apply N.ltb_lt in L. congruence. }
    destruct (fits_twice c m); destruct (n_kind m) eqn:Km; try (injection Et as <- <-; left; split; [reflexivity|]; split; [reflexivity|]; intros (K & X & _); cbn in K; intuition discriminate);
      try (injection Et as <- <-; left; split; [reflexivity|]; split; [reflexivity|]; intros (_ & X & _); now apply F in X); (right; split; [cbn; tauto|]; split; [reflexivity|exact Et]). }
  destruct D as [(-> & -> & D)|(K & F & E)].
  { split; [split; reflexivity|]. split; [auto|discriminate]. }
  unfold test_oneline_no_nl, test_oneline, bind in E. destruct (run_all [W c m] false (set_f [] w)) as [[fl| | |] wt] eqn:Er; try discriminate. destruct fl.
  - injection E as <- <-. split; [split; reflexivity|]. split; [|discriminate]. intros _ (_ & _ & wt' & k & I & _). apply in_turn_run in I. congruence.
  - rewrite Hm in E.
    assert (U : forall wt' k, in_turn [W c m] (set_f [] w) wt' -> last_line (w_f w ++ w_f wt') k -> ~ In 10%N (w_f wt') -> wt' = wt /\ k = get_len_after_newline (w_f w) + get_len_till_newline (w_f wt)).
    { intros wt' k I Hk Hn'. apply in_turn_run in I. rewrite Er in I. injection I as <-. split; [reflexivity|].
      pose proof (last_line_app _ _ _ Hn' (last_line_len (w_f w))) as Hk'. apply last_line_unique in Hk, Hk'. apply no_nl_in in Hn'. unfold get_len_till_newline. rewrite no_nl_count by exact Hn'. congruence. }
    destruct (N.ltb _ mw) eqn:Lt; [destruct (has_newlines (w_f wt)) eqn:Nl|]; injection E as <- <-; (split; [split; reflexivity|]).
    + split; [|discriminate]. intros _ (_ & _ & wt' & k & I & Hn' & Hk & _). destruct (U _ _ I Hk Hn') as [-> _]. apply no_nl_in in Hn'. congruence.
    + split; [discriminate|]. intros _. split; [exact K|]. split; [unfold fits_twice in F; rewrite Hm in F; now apply N.ltb_lt in F|].
      pose proof (proj1 (no_nl_in _) Nl) as Hn'. apply N.ltb_lt in Lt. unfold get_len_till_newline in Lt. rewrite no_nl_count in Lt by exact Nl.
      exists wt. eexists. split; [now apply in_turn_run|]. split; [exact Hn'|]. split; [|exact Lt]. apply last_line_app; [exact Hn'|apply last_line_len].
    + split; [|discriminate]. intros _ (_ & _ & wt' & k & I & Hn' & Hk & L). destruct (U _ _ I Hk Hn') as [-> ->]. apply N.ltb_ge in Lt. lia.
Qed.

Lemma field_placed_by c mw m (G : hinted) h (x : M unit) (r : bool) w w1 w2 w' :
  same_place w1 w -> (r = true -> ~ field_short mw m x w) -> (r = false -> field_short mw m x w) ->
  if_newline c r G h w1 = (ROk tt, w2) -> x w2 = (ROk tt, w') -> field_placed c mw m (G h) x w w'.
Proof.
  intros P Ht Hf E2 E. destruct r.
  - apply (fp_new _ _ _ _ _ _ _ w1 w2); auto; [now apply (newline_new c G h)|]. econstructor; [exact E|constructor].
  - apply (fp_same _ _ _ _ _ _ _ w1); auto. econstructor; [exact E2|]. econstructor; [exact E|constructor].
Qed.

Lemma trailing_dec c z : {trailing c z} + {~ trailing c z}.
Proof.
  unfold trailing. destruct (cb c B_write_trailing_field_separator) as [[]|]; [left|right|destruct z; [right|left]]; intuition congruence.
Qed.
Lemma trailing_is c z t {A} (x y : A) : t = cb c B_write_trailing_field_separator ->
  (if (is_none t && negb (is_empty z)) || obool_is t true then x else y) = if trailing_dec c z then x else y.
Proof.
  intros ->. destruct (trailing_dec c z) as [[T|[T Z]]|T].
  - now rewrite T.
  - rewrite T. now destruct z.
  - unfold trailing in T. destruct (cb c B_write_trailing_field_separator) as [[]|]; [tauto|reflexivity|]. destruct z; [reflexivity|]. exfalso. apply T. right. split; [reflexivity|discriminate].
Qed.

Theorem fields_break fuel src c n p m q z l mw w w' :
  n_kind n = KFields -> n_seps n = (p, m, q, z) :: l -> o_iv (n_opts n) = Some false -> cb c B_force_single_line_kv_table_field = Some true ->
  cn c N_max_width = Some mw -> cn c N_newline_format_table_field <> None -> pos_range (w_st w) = None -> write (S fuel) src c n w = (ROk tt, w') ->
  let gap := comment_hint c src in
  let x := write fuel src c in
  exists w1 w2 w3 z', field_placed c mw m (gap p []) (x m) w w1 /\ in_turn [gap q []] w1 w2 /\ fields c mw gap x z l z' w2 w3 /\
    (~ trailing c z' /\ w_f w' = w_f w3 \/ trailing c z' /\ w_f w' = w_f w3 ++ used_separator c z').
Proof.
  intros Kn Hs Hi Hf Hm Hn Hr E. cbv zeta. set (W := write fuel src) in *.
  change (write (S fuel) src c n) with (write_body c src W n) in E. unfold write_body in E. rewrite Kn in E. unfold range_or in E. unfold bind at 1, get_st at 1 in E. rewrite Hr in E.
  cbn [test_out_of_range test_not_completely_contained] in E.
  assert (E1 : exists b, lua_seps c src W n w = (ROk b, w')).
  { destruct (raw_items n); unfold bind in E; destruct (lua_seps c src W n w) as [[b| | |] w2]; try discriminate; injection E as <-; eauto. }
  clear E. destruct E1 as [b0 E].
  assert (Ho : on c B_force_single_line_kv_table_field = true) by (unfold on; now rewrite Hf).
  assert (Hn' : nsome c N_newline_format_table_field = true) by (unfold nsome; destruct (cn c N_newline_format_table_field); [reflexivity|congruence]).
  assert (Sn : sep_need_newlines c n = true) by (unfold sep_need_newlines; now rewrite Kn).
  unfold lua_seps, write_seps in E. rewrite Hs, Sn in E. cbn [lazy_and] in E.
  assert (N1 : need_first_newline c src W n m = isnone (test_oneline_table_field c W m)).
  { unfold need_first_newline. rewrite Kn, Hn', Hi, Ho. cbn [negb obool_is Bool.eqb andb]. now rewrite !andb_false_r. }
  rewrite N1 in E. unfold bind at 1 in E. destruct (isnone _ w) as [[r| | |] wa] eqn:Ea; try discriminate.
  apply (field_decides c W m mw _ _ _ Hm Hn') in Ea. destruct Ea as (Pa & A1 & A2).
  apply seq_in in E; [|now exists b0]. destruct E as (wb & Eb & E). apply seq_in in E; [|now exists b0]. destruct E as (wc & Ec & E). apply seq_in in E; [|now exists b0]. destruct E as (wd & Ed & E).
  unfold bind at 1 in E. match type of E with match ?t with _ => _ end = _ => destruct t as [[res| | |] w3] eqn:Ew end; try discriminate.
  exists wc, wd, w3, (snd res). split; [eapply field_placed_by; eauto|]. split; [econstructor; [exact Ed|constructor]|].
  assert (Sp : forall y, get_sep (separator c n) y = used_separator c y) by (intros y; unfold separator, get_sep, used_separator; now rewrite Kn).
  split.
  - assert (R0 : pos_range (w_st wd) = None) by (eapply rest_range; eauto; rewrite (proj2 Pa); exact Hr).
    clear - Ew R0 Kn Hm Ho Hi Hn' Sp. revert r m z wd Ew R0. induction l as [|[[[p x] q] z'] l IH]; intros r m z wd E R0; cbn [write_seps_rest] in E.
    { injection E as <- <-. constructor. }
    apply seq_in in E; [|now exists res]. destruct E as (we & Ee & E). assert (Re : pos_range (w_st we) = None) by (unfold emit in Ee; injection Ee as <-; exact R0).
    unfold bind at 1, get_st at 1 in E. rewrite Re in E. cbn [test_out_of_range lazy_and] in E.
    assert (N2 : need_newline c src W n m x = isnone (test_oneline_table_field c W x)).
    { unfold need_newline. rewrite Kn, Hn', Hi, Ho. reflexivity. }
    rewrite N2 in E. unfold bind at 1 in E. unfold bind at 1 in E. destruct (isnone _ we) as [[b| | |] wa] eqn:Ea; try discriminate.
    apply (field_decides c W x mw _ _ _ Hm Hn') in Ea. destruct Ea as (Pa & A1 & A2).
    unfold bind at 1 in E. destruct (if_newline c b (H c src p) (elem_prefix_hint n) wa) as [[[]| | |] wb] eqn:Eb; try discriminate. cbn in E.
    apply seq_in in E; [|now exists res]. destruct E as (wc & Ec & E). apply seq_in in E; [|now exists res]. destruct E as (wf & Ef & E).
    assert (Hh : elem_prefix_hint n = [32%N]) by (unfold elem_prefix_hint; now rewrite Kn).
    rewrite Sp in Ee. rewrite Hh in Eb.
    eapply fi_more with (w1 := we) (w2 := wc) (w3 := wf).
    + econstructor; [exact Ee|constructor].
    + eapply (field_placed_by c mw x (H c src p)); eauto.
    + econstructor; [exact Ef|constructor].
    + eapply IH; [exact E|]. eapply (rest_range c src fuel p x q b [32%N]); eauto. rewrite (proj2 Pa). exact Re.
  - unfold bind at 1 in E. destruct (trailing_separator c n w3) as [[t| | |] w4] eqn:Et; try discriminate.
    assert (F4 : w4 = w3 /\ t = cb c B_write_trailing_field_separator).
    { unfold trailing_separator in Et. rewrite Kn, Hn', Hi in Et. cbn [negb andb obool_is Bool.eqb orb] in Et. rewrite andb_false_r in Et. unfold bind, get_indent, ret in Et. now injection Et as <- <-. }
    destruct F4 as [-> ->]. apply seq_in in E; [|now exists b0]. destruct E as (w5 & E5 & E). injection E as _ <-. rewrite Sp in E5.
    rewrite (trailing_is c (snd res)) in E5 by reflexivity.
    destruct (trailing_dec c (snd res)) as [T|T]; [right|left]; (split; [exact T|]); [unfold emit in E5|unfold ret in E5]; now injection E5 as <-.
Qed.
