(** Formatting all lines is formatting without a range. *)
From Verif Require Import Base Lib Config LuaLexer State LuaWriter Formatter UtilSpec UtilProofs WholeSpec BlindProofs BlindTree.

Lemma covers_range src L R : covers src L R -> line_range_to_pos_range src (Some (L, R)) = Some (0, List.length src).
Proof.
  intros [H1 H2]. destruct (line_range_spec src L R) as (a & b & -> & H3 & _ & A & B1 & B2). rewrite (A ltac:(lia)).
  destruct (N.leb R (N.of_nat (lines src))) eqn:E; [apply N.leb_le in E|apply N.leb_gt in E].
  - assert (ER : R = N.of_nat (lines src)) by lia. assert (1 <= lines src) by (unfold lines; lia).
    destruct B1 as (B3 & B4 & [B5|B5]); [lia|now rewrite B5|]. rewrite ER, Nnat.Nat2N.id in B4. unfold lines in B4. injection B4 as B4.
    exfalso. clear -B4 B5. assert (Ec : newlines src = newlines (firstn b src) + newlines (skipn b src)) by (unfold newlines; rewrite <- count_occ_app; now rewrite firstn_skipn).
    assert (G : exists t, skipn b src = 10%N :: t).
    { revert B5. clear. revert src. induction b as [|b IH]; intros [|x src]; cbn; try discriminate; eauto. intros [= ->]. eauto. }
    destruct G as [t G]. rewrite G in Ec. unfold newlines at 3 in Ec. cbn [count_occ] in Ec. destruct (N.eq_dec 10 10); [lia|congruence].
  - now rewrite (B2 ltac:(lia)).
Qed.
Lemma misses_range src L R : misses src L R -> line_range_to_pos_range src (Some (L, R)) = Some (0, List.length src).
Proof.
  intros H. unfold misses in H. destruct (line_range_spec src L R) as (a & b & -> & H3 & _ & A & _ & B2). now rewrite (A ltac:(lia)), (B2 ltac:(lia)).
Qed.
Lemma hint_free0 c : no_brace_hint c -> table_hint c = [] \/ on c B_replace_zero_spaces_with_hint = false.
Proof.
  intros [H|[H|H]]; [left; unfold table_hint; now rewrite H..|]. right. unfold on. destruct (cb c B_replace_zero_spaces_with_hint) as [[]|]; [congruence|reflexivity|reflexivity].
Qed.
Lemma hint_free src c : no_brace_hint c \/ no_filled_table src -> table_free c \/ (forall ts, lex src = LexOk ts -> empty_tables ts).
Proof. intros [H|H]; [left; exact (hint_free0 c H)|right]. intros ts E a l r x b Et. exact (H ts a l r x b E Et). Qed.
Theorem format_covered src c L R : covers src L R -> line_range c = None -> no_brace_hint c \/ no_filled_table src -> process_buffer src c <> Panicked ->
  process_buffer src (set_line_range (Some (L, R)) c) = process_buffer src c.
Proof. intros H1 H2 H3 H4. apply process_whole; auto; [now apply covers_range|now apply hint_free]. Qed.
Theorem format_missed src c L R : misses src L R -> line_range c = None -> no_brace_hint c \/ no_filled_table src -> process_buffer src c <> Panicked ->
  process_buffer src (set_line_range (Some (L, R)) c) = process_buffer src c.
Proof. intros H1 H2 H3 H4. apply process_whole; auto; [now apply misses_range|now apply hint_free]. Qed.
Lemma covered_panic : exists (src : str) (c : config), covers src 1 1 /\ line_range c = None /\ no_brace_hint c
  /\ process_buffer src c = Panicked /\ exists o, process_buffer src (set_line_range (Some (1, 1)%N) c) = Formatted o.
Proof.
  exists (s2l "--[[x]]"), (set_s S_hint_after_multiline_comment (Some [233%N]) default_config). split; [vm_compute; split; discriminate|]. split; [reflexivity|].
  split; [left; reflexivity|]. split; [vm_compute; reflexivity|]. eexists. vm_compute. reflexivity.
Qed.
