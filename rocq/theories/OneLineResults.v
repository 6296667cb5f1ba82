(** Conditionals and functions on one line. *)
From Coq Require Import Lia.
From Verif Require Import Base Lib Config State Ast WriterBase LuaWriter TotalSpec TotalResults PrettySpec PrettyGap OneLineSpec.

Lemma covered_in r span : covered r span -> test_out_of_range r span = false /\ test_not_completely_contained r span = false.
Proof.
  intros Hr. destruct r as [[a b]|]; [|auto]. destruct (Hr a b eq_refl) as (A & B & C & D). cbn. split; apply orb_false_iff; split.
  - now apply Nat.leb_gt.
  - now apply Nat.leb_gt.
  - apply andb_false_iff. left. now apply Nat.ltb_ge.
  - apply andb_false_iff. right. now apply Nat.ltb_ge.
Qed.
Lemma set_without k c : without_breaks k c (set_n k None c).
Proof. repeat split; try reflexivity; cbn; [now destruct k|]. intros j H. destruct k, j; try reflexivity; now elim H. Qed.


Lemma run_items_app c src W n a b w w' : run_items c src W n (a ++ b) w = (ROk tt, w') -> exists w1, run_items c src W n b w1 = (ROk tt, w').
Proof.
  revert w. induction a as [|x a IH]; cbn [app run_items]; intros w E; [eauto|].
  unfold bind in E. destruct (run_item c src W n x w) as [[[]| | |] w1]; try discriminate. eauto.
Qed.
Lemma ends_nl_snoc f : ends_nl f = true -> exists x, f = x ++ [10%N].
Proof.
  unfold ends_nl, lastc. destruct (rev f) as [|a r] eqn:E; [discriminate|]. intros Ha. apply (f_equal (@rev N)) in E. rewrite rev_involutive in E. cbn in E.
  exists (rev r). rewrite E. unfold ceq, ch_nl in Ha. apply N.eqb_eq in Ha. now subst.
Qed.
Lemma newline_end c src W n i h w w' : run_items c src W n [INl true i h; ITok (s2l "end")] w = (ROk tt, w') ->
  exists x, w_f w' = x ++ [10%N] ++ indent_text c (w_st w') ++ s2l "end".
Proof.
  cbn [run_items run_item]. unfold if_newline. cbn [negb]. unfold bind at 1 2. destruct (in_buffer [] _ w) as [[b| | |] w1]; try discriminate. cbv zeta.
  set (t := trim_end_spaces_and_tabs b). intros E.
  assert (G : exists w2 x, w_f w2 = x ++ [10%N] /\ (write_indent c ;;; emit (s2l "end") ;;; ret tt) w2 = (ROk tt, w')).
  { destruct (negb (is_empty t)).
    - destruct (ends_nl t) eqn:En.
      + apply ends_nl_snoc in En. destruct En as [x Ex]. exists (set_f (w_f w1 ++ t) w1), (w_f w1 ++ x). split; [cbn; now rewrite Ex, app_assoc|exact E].
      + exists (set_f ((w_f w1 ++ t) ++ [10%N]) w1), (w_f w1 ++ t). split; [reflexivity|exact E].
    - destruct (ends_nl (pop_blank (w_f w1))) eqn:En.
      + destruct (ends_nl_snoc _ En) as [x Ex]. exists (set_f (pop_blank (w_f w1)) w1), x. split; [exact Ex|]. unfold bind in E |- *. rewrite En in E. exact E.
      + exists (set_f (pop_blank (w_f w1) ++ [10%N]) w1), (pop_blank (w_f w1)). split; [reflexivity|]. unfold bind in E |- *. rewrite En in E. exact E. }
  destruct G as (w2 & x & Ex & E'). exists x. unfold write_indent, bind, get_st, emit, ret in E'. injection E' as <-. cbn. rewrite Ex, <- !app_assoc. reflexivity.
Qed.
Lemma clause_end c src W n k w w' : broken_by n k -> cn c k = Some 1%N -> run_clause c src W n (clause_of c n) w = (ROk tt, w') ->
  exists x, w_f w' = x ++ [10%N] ++ indent_text c (w_st w') ++ s2l "end".
Proof.
  intros K N E.
  assert (F : exists a i h, clause_of c n = plain (a ++ [INl true i h; ITok (s2l "end")])).
  { unfold clause_of. destruct K as [[Kn ->]|[Kn ->]]; cbn in Kn; decompose [or] Kn; try contradiction;
      match goal with H : _ = n_kind n |- _ => rewrite <- H end; unfold nis; rewrite N; cbn [N.eqb Pos.eqb];
      match goal with |- exists _ _ _, plain ?l = _ => let r := eval cbn [rev app] in (rev l) in
        match r with _ :: INl _ ?i ?h :: ?q => let a := eval cbn [rev app] in (rev q) in exists a, i, h; reflexivity end end. }
  destruct F as (a & i & h & F). rewrite F in E. unfold run_clause, plain in E. cbn [cl_pre cl_test cl_post run_items] in E. unfold bind at 1 in E.
  destruct (run_items c src W n (a ++ _) w) as [[[]| | |] w1] eqn:E1; try discriminate. apply run_items_app in E1. destruct E1 as [w0 E1].
  unfold bind, ret in E. injection E as <-. eapply newline_end; eauto.
Qed.

Theorem construct_one_line fuel src c n k mw w w' : on_one_line c (function_nested_level (w_st w)) n k mw -> covered (pos_range (w_st w)) (n_span n) ->
  write (S fuel) src c n w = (ROk tt, w') ->
  exists c', without_breaks k c c' /\
  let fits line := ~ In 10%N line /\ exists k, last_line (w_f w ++ line) k /\ (N.of_nat k < mw)%N in
  let alone line := exists w1, write fuel src c' n (mk_world [] (w_st w) (w_oneline w) (w_indent w)) = (ROk tt, w1) /\ w_f w1 = line in
  (exists line, alone line /\ fits line /\ w_f w' = w_f w ++ line) \/ ~ (exists line, alone line /\ fits line) /\ (cn c k = Some 1%N -> end_line c (indent_level (w_st w)) (w_f w')).
Proof.
  intros (K & H2 & H3 & H5) Hr E. pose proof (proj1 (write_keeps_indent _ _ _ _ _ _ _ E)) as Il.
  assert (Kb : broken_by n k) by (unfold broken_by; tauto).
  assert (Z : forall w0, run_clause c src (write fuel src) n (clause_of c n) w0 = (ROk tt, w') -> cn c k = Some 1%N -> end_line c (indent_level (w_st w)) (w_f w')).
  { intros w0 E0 N. destruct (clause_end _ _ _ _ _ _ _ Kb N E0) as [x Ex]. exists x. rewrite Ex. now rewrite (indent_eq c (w_st w') _ eq_refl), Il. }
  destruct (covered_in _ _ Hr) as [R1 R2]. set (W := write fuel src) in *.
  assert (O : write (S fuel) src c n w = oneline_or W (Some (set_n k None c)) n (ret tt) (run_clause c src W n (clause_of c n)) w).
  { assert (Hf : fits_twice c n = true) by (unfold fits_twice; rewrite H2; now apply N.ltb_lt).
    assert (B : write_body c src W n = range_or c src W n (s <- get_st ;;
        oneline_or W (match oneline_if_cfg c n with Some c' => Some c' | None => oneline_function_cfg c s n end) n (ret tt) (run_clause c src W n (clause_of c n)))).
    { assert (Kn : In (n_kind n) (conditionals ++ functions)) by (apply in_or_app; destruct K as [[? _]|[? _]]; auto).
      unfold write_body. destruct (n_kind n); try reflexivity; exfalso; cbn in Kn; decompose [or] Kn; try discriminate; assumption. }
    change (write (S fuel) src c n) with (write_body c src W n). rewrite B. unfold range_or. unfold bind at 1, get_st at 1. rewrite R1, R2.
    assert (T : match oneline_if_cfg c n with Some c' => Some c' | None => oneline_function_cfg c (w_st w) n end = Some (set_n k None c)).
    { unfold oneline_if_cfg, oneline_function_cfg, nsome, on. rewrite H2, Hf. destruct K as [(Kn & -> & ->)|(Kn & -> & Kd)].
      - assert (I : is_if n = true) by (unfold is_if; cbn in Kn; decompose [or] Kn; try contradiction; match goal with H : _ = n_kind n |- _ => now rewrite <- H end).
        rewrite I. destruct (cn c N_newline_format_if); [reflexivity|congruence].
      - assert (I : is_if n = false /\ is_func_body n = true) by (unfold is_if, is_func_body; cbn in Kn; decompose [or] Kn; try contradiction; match goal with H : _ = n_kind n |- _ => now rewrite <- H end).
        destruct I as [-> ->]. destruct (cn c N_newline_format_function); [|congruence]. cbn [andb is_some obool_is].
        destruct Kd as [[Kd ->]|[Kd ->]]; [rewrite Kd; reflexivity|]. apply Z.ltb_lt in Kd. rewrite Kd. cbn [andb obool_is Bool.eqb]. now rewrite orb_true_r. }
    destruct (raw_items n); unfold bind at 1, get_st; now rewrite T. }
  rewrite O in E. clear O. exists (set_n k None c). split; [apply set_without|]. cbv zeta.
  assert (Hw : cn (set_n k None c) N_max_width = Some mw) by (destruct K as [(_ & -> & _)|(_ & -> & _)]; exact H2).
  unfold oneline_or, test_oneline_no_nl, test_oneline in E. unfold bind at 1 in E. unfold bind at 1 in E. cbn [run_all] in E. change (set_f [] w) with (mk_world [] (w_st w) (w_oneline w) (w_indent w)) in E.
  destruct (W (set_n k None c) n (mk_world [] (w_st w) (w_oneline w) (w_indent w))) as [[[]| | |] w1] eqn:Ew; cbn [run_all] in E; try discriminate.
  - rewrite Hw in E. destruct (N.ltb _ mw) eqn:Lt.
    + unfold ret at 1 in E. destruct (has_newlines (w_f w1)) eqn:Nl.
      * right. split; [|apply (Z _ E)]. intros (line & (w2 & [= <-] & <-) & (Hn & _)). apply no_nl_in in Hn. congruence.
      * left. exists (w_f w1). split; [eauto|]. unfold bind, emit in E. cbn in E. injection E as <-. cbn. split; [|reflexivity].
        pose proof (proj1 (no_nl_in _) Nl) as Hn. split; [exact Hn|]. apply N.ltb_lt in Lt. unfold get_len_till_newline in Lt. rewrite no_nl_count in Lt by exact Nl.
        exists (get_len_after_newline (w_f w) + List.length (w_f w1)). split; [|exact Lt]. apply last_line_app; [exact Hn|apply last_line_len].
    + right. split; [|apply (Z _ E)]. intros (line & (w2 & [= <-] & <-) & (Hn & k' & Hk & Hlt)). apply N.ltb_ge in Lt.
      pose proof (last_line_app _ _ _ Hn (last_line_len (w_f w))) as Hk'. apply last_line_unique in Hk, Hk'. apply no_nl_in in Hn.
      unfold get_len_till_newline in Lt. rewrite no_nl_count in Lt by exact Hn. lia.
  - right. split; [|apply (Z _ E)]. intros (line & (w2 & E2 & _) & _). discriminate.
Qed.

Theorem construct_broken fuel src c n k w w' : broken_by n k -> (forall mw, ~ on_one_line c (function_nested_level (w_st w)) n k mw) -> cn c k = Some 1%N ->
  covered (pos_range (w_st w)) (n_span n) -> write (S fuel) src c n w = (ROk tt, w') -> end_line c (indent_level (w_st w)) (w_f w').
Proof.
  intros K No N Hr E. destruct (covered_in _ _ Hr) as [R1 R2]. pose proof (proj1 (write_keeps_indent _ _ _ _ _ _ _ E)) as Il. set (W := write fuel src) in *.
  assert (B : write_body c src W n = range_or c src W n (s <- get_st ;;
      oneline_or W (match oneline_if_cfg c n with Some c' => Some c' | None => oneline_function_cfg c s n end) n (ret tt) (run_clause c src W n (clause_of c n)))).
  { assert (Kn : In (n_kind n) (conditionals ++ functions)) by (apply in_or_app; destruct K as [[? _]|[? _]]; auto).
    unfold write_body. destruct (n_kind n); try reflexivity; exfalso; cbn in Kn; decompose [or] Kn; try discriminate; assumption. }
  assert (T : match oneline_if_cfg c n with Some c' => Some c' | None => oneline_function_cfg c (w_st w) n end = None).
  { unfold oneline_if_cfg, oneline_function_cfg, nsome. destruct (cn c N_max_width) as [mw|] eqn:Hm; [|cbn [is_some]; now rewrite !andb_false_r].
    specialize (No mw). destruct (fits_twice c n) eqn:Ft; [|now rewrite !andb_false_r]. unfold fits_twice in Ft. rewrite Hm in Ft. apply N.ltb_lt in Ft.
    unfold on_one_line in No. rewrite Hm, N in No. unfold on, obool_is. destruct K as [[Kn ->]|[Kn ->]].
    - assert (I : is_if n = true /\ is_func_body n = false) by (unfold is_if, is_func_body; cbn in Kn; decompose [or] Kn; try contradiction; match goal with H : _ = n_kind n |- _ => now rewrite <- H end).
      destruct I as [-> ->]. rewrite N. cbn [andb is_some]. destruct (cb c B_force_single_line_if) as [[]|] eqn:Ef; cbn [Bool.eqb andb]; try reflexivity.
      exfalso. apply No. split; [auto|]. split; [reflexivity|]. split; [discriminate|exact Ft].
    - assert (I : is_if n = false /\ is_func_body n = true) by (unfold is_if, is_func_body; cbn in Kn; decompose [or] Kn; try contradiction; match goal with H : _ = n_kind n |- _ => now rewrite <- H end).
      destruct I as [-> ->]. rewrite N. cbn [andb is_some].
      destruct (_ || _) eqn:Eo; [|reflexivity]. exfalso. apply No. split; [right; split; [auto|]; split; [reflexivity|]|split; [reflexivity|]; split; [discriminate|exact Ft]].
      apply orb_true_iff in Eo. destruct Eo as [Eo|Eo]; apply andb_true_iff in Eo; destruct Eo as [E1 E2]; [left|right];
        [apply Z.eqb_eq in E1|apply Z.ltb_lt in E1]; (split; [exact E1|]);
        match type of E2 with context [cb c ?k] => destruct (cb c k) as [[]|] end; try discriminate; reflexivity. }
  change (write (S fuel) src c n) with (write_body c src W n) in E. rewrite B in E. unfold range_or in E. unfold bind at 1, get_st at 1 in E. rewrite R1, R2 in E.
  assert (E' : run_clause c src W n (clause_of c n) w = (ROk tt, w')) by (destruct (raw_items n); unfold bind at 1, get_st in E; rewrite T in E; exact E).
  destruct (clause_end _ _ _ _ _ _ _ K N E') as [x Ex]. exists x. rewrite Ex. now rewrite (indent_eq c (w_st w') _ eq_refl), Il.
Qed.
