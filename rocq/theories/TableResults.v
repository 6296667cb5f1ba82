(** Tables over several lines. *)
From Coq Require Import Lia.
From Verif Require Import Base Lib Config State Ast WriterBase LuaWriter TotalSpec TotalResults PrettySpec PrettyGap OneLineResults TotalFrame OutcomeProofs OperatorSpec OperatorResults TableSpec.

Lemma on_is c k : on c k = true <-> cb c k = Some true.
Proof. unfold on, obool_is. destruct (cb c k) as [[]|]; cbn; split; congruence. Qed.
Lemma is_true_is o : obool_is o true = true <-> o = Some true.
Proof. destruct o as [[]|]; cbn; split; congruence. Qed.
Lemma line_or_gap_by c (b : bool) (P : Prop) (G : hinted) h w w' : (b = true <-> P) -> if_newline c b G h w = (ROk tt, w') -> line_or_gap c P (G h) w w'.
Proof.
  intros D E. destruct b.
  - left. split; [now apply D|]. now apply (newline_new c G h).
  - right. split; [intros X; apply D in X; discriminate|]. econstructor; [exact E|constructor].
Qed.
Lemma set_down_by c (b : bool) (P : Prop) (G : hinted) h (x : M unit) w w1 w2 w' : same_place w1 w -> (b = true <-> P) -> if_newline c b G h w1 = (ROk tt, w2) ->
  x w2 = (ROk tt, w') -> set_down c P (G h) x w w'.
Proof. intros S D E1 E2. exists w1, w2. split; [exact S|]. split; [eapply line_or_gap_by; eauto|]. econstructor; [exact E2|constructor]. Qed.
Lemma no_nl_fits c mw x w o w2 : cn c N_max_width = Some mw -> test_oneline_no_nl c [x] w = (ROk o, w2) -> same_place w2 w /\ (is_some o = true <-> line_fits mw x w).
Proof.
  intros Hm E. unfold test_oneline_no_nl, test_oneline, bind in E. destruct (run_all [x] false (set_f [] w)) as [[fl| | |] wt] eqn:Er; try discriminate. destruct fl.
  - injection E as <- <-. split; [split; reflexivity|]. split; [discriminate|]. intros (wt' & k & I & _). apply in_turn_run in I. congruence.
  - rewrite Hm in E.
    assert (U : forall wt' k, in_turn [x] (set_f [] w) wt' -> last_line (w_f w ++ w_f wt') k -> ~ In 10%N (w_f wt') -> wt' = wt /\ k = get_len_after_newline (w_f w) + get_len_till_newline (w_f wt)).
    { intros wt' k I Hk Hn'. apply in_turn_run in I. rewrite Er in I. injection I as <-. split; [reflexivity|].
      pose proof (last_line_app _ _ _ Hn' (last_line_len (w_f w))) as Hk'. apply last_line_unique in Hk, Hk'. apply no_nl_in in Hn'. unfold get_len_till_newline. rewrite no_nl_count by exact Hn'. congruence. }
    destruct (N.ltb _ mw) eqn:Lt; [destruct (has_newlines (w_f wt)) eqn:Nl|]; injection E as <- <-; (split; [split; reflexivity|]).
    + split; [discriminate|]. intros (wt' & k & I & Hn' & Hk & _). destruct (U _ _ I Hk Hn') as [-> _]. apply no_nl_in in Hn'. congruence.
    + split; [|reflexivity]. intros _. pose proof (proj1 (no_nl_in _) Nl) as Hn'. apply N.ltb_lt in Lt. unfold get_len_till_newline in Lt. rewrite no_nl_count in Lt by exact Nl.
      exists wt. eexists. split; [now apply in_turn_run|]. split; [exact Hn'|]. split; [|exact Lt]. apply last_line_app; [exact Hn'|apply last_line_len].
    + split; [discriminate|]. intros (wt' & k & I & Hn' & Hk & L). destruct (U _ _ I Hk Hn') as [-> ->]. apply N.ltb_ge in Lt. lia.
Qed.
Lemma get_marked n w b w' : get_oneline n w = (ROk b, w') -> w' = w /\ (b = true <-> marked n w).
Proof.
  unfold get_oneline. intros [= <- <-]. split; [reflexivity|]. unfold marked. rewrite existsb_exists. split.
  - intros (y & I & D). apply Nat.eqb_eq in D. now subst.
  - intros I. exists (fst (n_span n)). split; [exact I|apply Nat.eqb_refl].
Qed.

Lemma ok_base {A} (m : M A) w a w' : TotalFrame.ok True True True (fun _ => True) (fun _ => True) m -> m w = (ROk a, w') ->
  indent_level (w_st w') = indent_level (w_st w) /\ stack_indent (w_st w') = stack_indent (w_st w).
Proof.
  intros O E. pose proof (O 0 0 (base (w_st w)) w Logic.I Logic.I (proj2 (at_depth_zero _ _) eq_refl)) as R. rewrite E in R. destruct R as (_ & _ & _ & R).
  apply at_depth_zero in R. split; [now apply (f_equal indent_level) in R|now apply (f_equal stack_indent) in R].
Qed.

Theorem table_braces fuel src c n w w' :
  n_kind n = KTableConstructor -> ~ compact c n -> covered (pos_range (w_st w)) (n_span n) -> write (S fuel) src c n w = (ROk tt, w') ->
  let gap l := comment_hint c src l (brace_hint c) in
  (exists mw line, may_be_one_line c n mw /\ ~ In 10%N line /\ w_f w' = w_f w ++ line) \/
  exists wa wb wc wd we wf, same_place wa w /\ line_or_gap c (brace_breaks c n wa) (gap (0, 0)) wa wb /\
    w_f wc = w_f wb ++ s2l "{" /\ indent_level (w_st wc) = (indent_level (w_st w) + 1)%Z /\
    in_turn [gap (nloc n 0); write fuel src c (kid n 0)] wc wd /\
    w_f we = w_f wd /\ indent_level (w_st we) = indent_level (w_st w) /\
    line_or_gap c (closing_breaks c wd) (gap (nloc n 1)) we wf /\ w_f w' = w_f wf ++ s2l "}".
Proof.
  intros Kn Hc Hr E. cbv zeta. destruct (covered_in _ _ Hr) as [R1 R2]. set (W := write fuel src) in *.
  change (write (S fuel) src c n) with (write_body c src W n) in E. unfold write_body in E. rewrite Kn in E. unfold range_or in E. unfold bind at 1, get_st at 1 in E. rewrite R1, R2 in E.
  assert (E1 : write_table c src W n w = (ROk tt, w')) by (destruct (raw_items n); exact E). clear E. unfold write_table in E1.
  assert (D : (exists mw line, may_be_one_line c n mw /\ ~ In 10%N line /\ w_f w' = w_f w ++ line) \/ exists wa, same_place wa w /\ 
    (one <- get_oneline n ;;
       let bnl := on c B_write_newline_at_multiline_table && negb one in
       if_newline c bnl (H c src (0, 0)) (table_hint c) ;;;
       run_items c src W n [ITok (s2l "{"); IIncF] ;;;
       ind <- (if on c B_force_single_line_table && obool_is (o_iv (n_opts n)) true
                  && obool_is (o_single (n_opts n)) true
               then test_indent c src W (kid n 0) (nloc n 0) (table_hint c)
               else ret true) ;;
       (if is_kind KFields (kid n 0) then set_indent_cell (kid n 0) ind else ret tt) ;;;
       run_items c src W n [IIf ind (IInc None); IHint 0 (table_hint c); IKid 0] ;;;
       f <- get_f ;;
       let wide := match cn c N_max_width with
                   | Some mw => N.leb mw (N.of_nat (get_len_after_newline f))
                   | None => false
                   end in
       let nl := (nis c N_newline_format_table_constructor 1 || wide) && ind in
       run_items c src W n [IIf ind IDec; IDecF; INl nl 1 (table_hint c); ITok (s2l "}")]) wa = (ROk tt, w')).
  { unfold oneline_or in E1. destruct (oneline_table_cfg c n) as [c'|] eqn:Ec; [|right; exists w; split; [split; reflexivity|exact E1]].
    unfold bind at 1 in E1. destruct (test_oneline_no_nl c' [W c' n] w) as [[[line|]| | |] wa] eqn:Et; try discriminate.
    - left. unfold oneline_table_cfg in Ec. destruct (is_kind KTableConstructor n); [|discriminate]. cbn [andb] in Ec.
      destruct (nsome c N_max_width) eqn:X1; [|discriminate]. destruct (nsome c N_newline_format_table_constructor) eqn:X2; [|discriminate].
      destruct (on c B_force_single_line_table) eqn:X3; [|discriminate]. destruct (fits_twice c n) eqn:X4; [|discriminate].
      unfold nsome in X1, X2. destruct (cn c N_max_width) as [mw|] eqn:X5; [|discriminate]. exists mw, line. split.
      + split; [exact Kn|]. split; [exact X5|]. split; [destruct (cn c N_newline_format_table_constructor); [discriminate|discriminate X2]|].
        split; [now apply on_is|]. unfold fits_twice in X4. rewrite X5 in X4. now apply N.ltb_lt in X4.
      + unfold test_oneline_no_nl, test_oneline, bind in Et. destruct (run_all [W c' n] false (set_f [] w)) as [[[]| | |] wt]; try discriminate.
        destruct (cn c' N_max_width); [|discriminate]. destruct (N.ltb _ _); [|discriminate]. destruct (has_newlines (w_f wt)) eqn:Nl; [discriminate|].
        injection Et as <- <-. unfold bind, set_oneline, emit in E1. injection E1 as <-. split; [now apply no_nl_in|reflexivity].
    - right. exists wa. split; [|exact E1]. unfold test_oneline_no_nl, test_oneline, bind in Et. destruct (run_all [W c' n] false (set_f [] w)) as [[[]| | |] wt]; try discriminate.
      + injection Et as <-. split; reflexivity.
      + destruct (cn c' N_max_width); [|discriminate]. injection Et as _ <-. split; reflexivity. }
  clear E1. destruct D as [D|(wa & Pa & E)]; [left; exact D|]. right.
  unfold bind at 1 in E. destruct (get_oneline n wa) as [[one| | |] wa'] eqn:Eo; try discriminate. destruct (get_marked _ _ _ _ Eo) as [-> Mk]. cbv zeta in E.
  apply seq_in in E; [|now exists tt]. destruct E as (wb & Eb & E). apply seq_in in E; [|now exists tt]. destruct E as (wc & Ec & E).
  assert (T : on c B_force_single_line_table && obool_is (o_iv (n_opts n)) true && obool_is (o_single (n_opts n)) true = false).
  { apply not_true_is_false. intros X. apply andb_true_iff in X. destruct X as [X X3]. apply andb_true_iff in X. destruct X as [X1 X2].
    apply Hc. split; [now apply on_is|]. split; now apply is_true_is. }
  rewrite T in E. unfold bind at 1, ret at 1 in E.
  apply seq_in in E; [|now exists tt]. destruct E as (wc1 & Ec1 & E). cbn [run_items run_item] in E.
  apply seq_in in E; [|now exists tt]. destruct E as (wd & Ed & E). unfold bind at 1, get_f at 1 in E.
  apply seq_in in Ed; [|now exists tt]. destruct Ed as (wc2 & Ec2 & Ed). apply seq_in in Ed; [|now exists tt]. destruct Ed as (wc3 & Ec3 & Ed).
  apply seq_in in Ed; [|now exists tt]. destruct Ed as (wd' & Ed & [= ->]).
  apply seq_in in E; [|now exists tt]. destruct E as (we1 & Ee1 & E). apply seq_in in E; [|now exists tt]. destruct E as (we & Ee & E).
  apply seq_in in E; [|now exists tt]. destruct E as (wf & Ef & E). apply seq_in in E; [|now exists tt]. destruct E as (wg & Eg & [= ->]).
  assert (C1 : w_f wc1 = w_f wc /\ w_st wc1 = w_st wc).
  { destruct (is_kind KFields (kid n 0)); [unfold set_indent_cell in Ec1|unfold ret in Ec1]; injection Ec1 as <-; split; reflexivity. }
  destruct C1 as [C1 C1'].
  assert (C0 : w_f wc = w_f wb ++ s2l "{" /\ indent_level (w_st wc) = indent_level (w_st wb) /\ stack_indent (w_st wc) = stack_indent (w_st wb)).
  { cbn [run_items run_item] in Ec. unfold bind, emit, inc_func_level, get_st, put_st, ret in Ec. injection Ec as <-. repeat split; reflexivity. }
  destruct C0 as (C0 & C0' & C0'').
  assert (B0 : indent_level (w_st wb) = indent_level (w_st w)).
  { rewrite <- (proj2 Pa). refine (proj1 (ok_base _ _ _ _ _ Eb)). apply ok_if_newline; auto; intros; apply hint_ok. }
  assert (C2 : w_f wc2 = w_f wc1 /\ indent_level (w_st wc2) = (indent_level (w_st wc1) + 1)%Z /\ exists r, stack_indent (w_st wc2) = None :: r).
  { unfold inc_indent, bind, get_st, put_st in Ec2. injection Ec2 as <-. cbn. split; [reflexivity|]. split; [reflexivity|eauto]. }
  destruct C2 as (C2 & C2' & [rs C2'']).
  exists wa, wb, wc2, wd, we, wf. split; [exact Pa|].
  split; [eapply line_or_gap_by; [|exact Eb]|].
  { unfold brace_breaks. rewrite andb_true_iff, on_is, negb_true_iff, <- not_true_iff_false, Mk. reflexivity. }
  split; [now rewrite C2, C1, C0|]. split; [now rewrite C2', C1', C0', B0|].
  split; [econstructor; [exact Ec3|]; econstructor; [exact Ed|constructor]|].
  assert (D0 : indent_level (w_st wd) = indent_level (w_st wc2) /\ stack_indent (w_st wd) = stack_indent (w_st wc2)).
  { destruct (write_keeps_indent _ _ _ _ _ _ _ Ed) as (X1 & X2 & _). destruct (ok_base _ _ _ _ (hint_ok _ _ _ _) Ec3) as (X3 & X4). split; congruence. }
  destruct D0 as (D0 & D0'). cbn [orb andb] in Ee1. 
  assert (F1 : w_f we1 = w_f wd /\ indent_level (w_st we1) = indent_level (w_st w)).
  { unfold dec_indent, bind, get_st, put_st in Ee1. injection Ee1 as <-. cbn [w_f w_st]. split; [reflexivity|]. unfold dec_indent_st. rewrite D0', C2''. cbn [is_none orb set_indent indent_level].
    rewrite D0, C2', C1', C0', B0. cbn. lia. }
  destruct F1 as (F1 & F1').
  assert (F2 : w_f we = w_f we1 /\ indent_level (w_st we) = indent_level (w_st we1)).
  { unfold dec_func_level, bind, get_st, put_st in Ee. injection Ee as <-. split; reflexivity. }
  destruct F2 as (F2 & F2').
  split; [now rewrite F2|]. split; [now rewrite F2'|].
  split; [eapply line_or_gap_by; [|exact Ef]|unfold emit in Eg; now injection Eg as <-].
  unfold closing_breaks. rewrite andb_true_r, orb_true_iff. unfold nis. split.
  - intros [X|X].
    + left. destruct (cn c N_newline_format_table_constructor); [apply N.eqb_eq in X; now subst|discriminate].
    + right. destruct (cn c N_max_width) as [mw|]; [|discriminate]. apply N.leb_le in X. exists mw. eexists. split; [reflexivity|]. split; [apply last_line_len|exact X].
  - intros [->|(mw & k & -> & Hk & X)]; [left; reflexivity|right]. apply N.leb_le. apply last_line_unique in Hk. now rewrite <- Hk.
Qed.

Lemma noted_is n w : lookup_indent (fst (n_span n)) (w_indent w) = true <-> noted_indented n w.
Proof.
  unfold noted_indented. generalize (fst (n_span n)) as p. intros p. induction (w_indent w) as [|[k b] l IH]; cbn.
  - split; [discriminate|]. intros (l1 & l2 & X & _). now destruct l1.
  - unfold lookup_indent. cbn [find fst]. destruct (Nat.eqb k p) eqn:K.
    + apply Nat.eqb_eq in K. subst k. cbn [snd]. split.
      * intros ->. exists [], l. split; [reflexivity|auto].
      * intros (l1 & l2 & X & Y). destruct l1 as [|[k' b'] l1]; cbn in X; [now injection X as -> _|]. injection X as <- <- X. exfalso. apply Y. now left.
    + unfold lookup_indent in IH. rewrite IH. apply Nat.eqb_neq in K. split.
      * intros (l1 & l2 & -> & Y). exists ((k, b) :: l1), l2. split; [reflexivity|]. cbn. intros [X|X]; auto.
      * intros (l1 & l2 & X & Y). destruct l1 as [|[k' b'] l1]; cbn in X; [injection X as -> _; congruence|]. injection X as <- <- X. exists l1, l2. split; [exact X|]. intros Z. apply Y. now right.
Qed.

Theorem positional_break fuel src c n p m q z l mw w w' :
  n_kind n = KFields -> n_seps n = (p, m, q, z) :: l -> o_iv (n_opts n) = Some true -> Forall (fun x => n_kind (snd (fst (fst x))) = KFieldSequential) (n_seps n) ->
  cb c B_force_single_line_iv_table_field = Some true ->
  cn c N_max_width = Some mw -> cn c N_newline_format_table_field <> None -> pos_range (w_st w) = None -> write (S fuel) src c n w = (ROk tt, w') ->
  let gap := comment_hint c src in
  let x := write fuel src c in
  exists w1 w2 w3 z', set_down c (first_breaks c mw n m (x m) w) (gap p []) (x m) w w1 /\ in_turn [gap q []] w1 w2 /\ positional c mw gap x m z l z' w2 w3 /\
    (~ iv_trailing c n z' w3 /\ w_f w' = w_f w3 \/ iv_trailing c n z' w3 /\ w_f w' = w_f w3 ++ used_separator c z').
Proof.
  intros Kn Hs Hi Ha Hf Hm Hn Hr E. cbv zeta. set (W := write fuel src) in *.
  change (write (S fuel) src c n) with (write_body c src W n) in E. unfold write_body in E. rewrite Kn in E. unfold range_or in E. unfold bind at 1, get_st at 1 in E. rewrite Hr in E.
  cbn [test_out_of_range test_not_completely_contained] in E.
  assert (E1 : exists b, lua_seps c src W n w = (ROk b, w')).
  { destruct (raw_items n); unfold bind in E; destruct (lua_seps c src W n w) as [[b| | |] w2]; try discriminate; injection E as <-; eauto. }
  clear E. destruct E1 as [b0 E].
  assert (Ho : on c B_force_single_line_iv_table_field = true) by (unfold on; now rewrite Hf).
  assert (Hn' : nsome c N_newline_format_table_field = true) by (unfold nsome; destruct (cn c N_newline_format_table_field); [reflexivity|congruence]).
  assert (Sn : sep_need_newlines c n = true) by (unfold sep_need_newlines; now rewrite Kn).
  rewrite Hs in Ha. inversion Ha as [|? ? Ha0 Ha1]. cbn [fst snd] in Ha0. subst.
  unfold lua_seps, write_seps in E. rewrite Hs, Sn in E. cbn [lazy_and] in E.
  unfold bind at 1 in E. destruct (need_first_newline c src W n m w) as [[r| | |] wa] eqn:Ea; try discriminate.
  assert (A : same_place wa w /\ (r = true <-> first_breaks c mw n m (W c m) w)).
  { unfold need_first_newline in Ea. rewrite Kn, Hn', Hi, Ho in Ea. cbn [negb obool_is Bool.eqb andb orb] in Ea. rewrite !andb_true_r in Ea. unfold first_breaks.
    destruct (on c B_force_single_line_table) eqn:Ot.
    - apply on_is in Ot. unfold bind, get_indent, ret in Ea. injection Ea as <- <-. split; [split; reflexivity|]. rewrite orb_true_iff, negb_true_iff, <- not_true_iff_false, is_true_is, noted_is. intuition congruence.
    - rewrite <- not_true_iff_false, on_is in Ot. cbn [orb] in Ea. apply (field_decides c W m mw _ _ _ Hm Hn') in Ea. destruct Ea as (Pa & A1 & A2). split; [exact Pa|].
      split; [auto|]. intros [[X _]|[_ X]]; [congruence|]. destruct r; [reflexivity|]. exfalso. auto. }
  destruct A as [Pa A].
  apply seq_in in E; [|now exists b0]. destruct E as (wb & Eb & E). apply seq_in in E; [|now exists b0]. destruct E as (wc & Ec & E). apply seq_in in E; [|now exists b0]. destruct E as (wd & Ed & E).
  unfold bind at 1 in E. match type of E with match ?t with _ => _ end = _ => destruct t as [[res| | |] w3] eqn:Ew end; try discriminate.
  exists wc, wd, w3, (snd res). split; [eapply set_down_by; eauto|]. split; [econstructor; [exact Ed|constructor]|].
  assert (Sp : forall y, get_sep (separator c n) y = used_separator c y) by (intros y; unfold separator, get_sep, used_separator; now rewrite Kn).
  split.
  - assert (R0 : pos_range (w_st wd) = None) by (eapply rest_range; eauto; rewrite (proj2 Pa); exact Hr).
    clear - Ew R0 Kn Hm Ho Hi Hn' Sp Ha0 Ha1. revert r m z wd Ew R0 Ha0. induction l as [|[[[p x] q] z'] l IH]; intros r m z wd E R0 Hk; cbn [write_seps_rest] in E.
    { injection E as <- <-. constructor. }
    inversion Ha1 as [|? ? Ha2 Ha3]. cbn [fst snd] in Ha2. subst.
    apply seq_in in E; [|now exists res]. destruct E as (we & Ee & E). assert (Re : pos_range (w_st we) = None) by (unfold emit in Ee; injection Ee as <-; exact R0).
    unfold bind at 1, get_st at 1 in E. rewrite Re in E. cbn [test_out_of_range lazy_and] in E.
    unfold bind at 1 in E. unfold bind at 1 in E. destruct (need_newline c src W n m x we) as [[b| | |] wa] eqn:Ea; try discriminate.
    assert (A : same_place wa we /\ (b = true <-> later_breaks c mw m (W c x) we)).
    { unfold need_newline in Ea. rewrite Kn, Hn', Hi, Ho in Ea. cbn [negb obool_is Bool.eqb andb] in Ea. unfold later_breaks.
      assert (Km : is_kind KFieldSequential m = true) by (unfold is_kind; now rewrite Hk). rewrite Km, andb_true_r in Ea.
      destruct (on c B_force_single_line_table) eqn:Ot.
      - apply on_is in Ot. destruct (is_kind KTableConstructor (kid m 0)) eqn:Kt.
        + assert (Kt' : n_kind (kid m 0) = KTableConstructor) by (unfold is_kind in Kt; destruct (n_kind (kid m 0)); try discriminate Kt; reflexivity).
          unfold bind at 1 in Ea. destruct (get_oneline (kid m 0) we) as [[one| | |] wz] eqn:Eo; try discriminate. destruct (get_marked _ _ _ _ Eo) as [-> Mk]. destruct one.
          * injection Ea as <- <-. split; [split; reflexivity|]. intuition congruence.
          * unfold issome, bind in Ea. destruct (test_oneline_no_nl c [W c x] we) as [[o| | |] wy] eqn:Et; try discriminate. injection Ea as <- <-.
            destruct (no_nl_fits _ _ _ _ _ _ Hm Et) as [Py F]. split; [exact Py|]. rewrite F. assert (~ marked (kid m 0) we) by (rewrite <- Mk; discriminate). intuition congruence.
        + assert (Kt' : n_kind (kid m 0) <> KTableConstructor) by (intros X; unfold is_kind in Kt; rewrite X in Kt; discriminate).
          unfold isnone, bind in Ea. destruct (test_oneline_no_nl c [W c x] we) as [[o| | |] wy] eqn:Et; try discriminate. injection Ea as <- <-.
          destruct (no_nl_fits _ _ _ _ _ _ Hm Et) as [Py F]. split; [exact Py|]. rewrite <- F. destruct o; cbn; intuition congruence.
      - rewrite <- not_true_iff_false, on_is in Ot. injection Ea as <- <-. split; [split; reflexivity|]. intuition congruence. }
    destruct A as [Pa A].
    unfold bind at 1 in E. destruct (if_newline c b (H c src p) (elem_prefix_hint n) wa) as [[[]| | |] wb] eqn:Eb; try discriminate. cbn in E.
    apply seq_in in E; [|now exists res]. destruct E as (wc & Ec & E). apply seq_in in E; [|now exists res]. destruct E as (wf & Ef & E).
    assert (Hh : elem_prefix_hint n = [32%N]) by (unfold elem_prefix_hint; now rewrite Kn).
    rewrite Sp in Ee. rewrite Hh in Eb.
    eapply po_more with (w1 := we) (w2 := wc) (w3 := wf).
    + econstructor; [exact Ee|constructor].
    + eapply (set_down_by c b _ (H c src p)); eauto.
    + econstructor; [exact Ef|constructor].
    + eapply IH; [exact Ha3|exact E| |exact Ha2]. eapply (rest_range c src fuel p x q b [32%N]); eauto. rewrite (proj2 Pa). exact Re.
  - unfold bind at 1 in E. destruct (trailing_separator c n w3) as [[t| | |] w4] eqn:Et; try discriminate.
    assert (F4 : w4 = w3 /\ t = if on c B_force_single_line_table && negb (lookup_indent (fst (n_span n)) (w_indent w3)) then Some false else cb c B_write_trailing_field_separator).
    { unfold trailing_separator in Et. rewrite Kn, Hn', Hi in Et. cbn [negb andb obool_is Bool.eqb orb] in Et. unfold bind, get_indent, ret in Et. now injection Et as <- <-. }
    destruct F4 as [-> ->]. apply seq_in in E; [|now exists b0]. destruct E as (w5 & E5 & E). injection E as _ <-. rewrite Sp in E5.
    unfold iv_trailing. rewrite <- noted_is, <- on_is. destruct (on c B_force_single_line_table && _) eqn:X.
    + cbn in E5. injection E5 as <-. apply andb_true_iff in X. destruct X as [X1 X2]. left. split; [|reflexivity]. intros [Y _]. apply Y. split; [exact X1|]. intros Z. now rewrite Z in X2.
    + rewrite (trailing_is c (snd res)) in E5 by reflexivity.
      assert (Y : ~ (on c B_force_single_line_table = true /\ lookup_indent (fst (n_span n)) (w_indent w3) <> true)).
      { intros [Y1 Y2]. rewrite Y1 in X. cbn in X. apply negb_false_iff in X. congruence. }
      destruct (trailing_dec c (snd res)) as [T|T]; [right|left]; (split; [tauto|]); [unfold emit in E5|unfold ret in E5]; now injection E5 as <-.
Qed.
