(** Writing the text between two tokens when all lines are formatted, with and without a range. *)
From Verif Require Import Base Lib Config State Ast LuaLexer CommentLexer LR LRSpec CommentGrammar CommentTables CommentParser ParserProofs WriterBase LexSpec LexLoop CommentSpec
  CommentProofs UtilProofs LayoutSpec LayoutText GapProofs RangeGap BlindFrame.

(** a place between the ends of a text of length [n] *)
Definition inside (n : nat) (l : loc) : Prop := 0 < snd l /\ fst l < n.
Lemma inside_range n l : inside n l -> test_out_of_range (Some (0, n)) l = false.
Proof. intros [H1 H2]. cbn. apply orb_false_iff. split; apply Nat.leb_gt; lia. Qed.
Lemma outside_range n l : test_out_of_range (Some (0, n)) l = true -> fst l <= snd l -> snd l <= n -> fst l = snd l.
Proof. cbn. intros H H1 H2. apply orb_true_iff in H as [H|H]; apply Nat.leb_le in H; lia. Qed.

(** atoms are not empty *)
Definition firm_slot (buf : str) (s : cslot) : Prop :=
  in_text buf s /\ match s with CAt a => fst (atom_span a) < snd (atom_span a) | CSp _ => True end.
Lemma comment_tokens_firm gs : forall p, Forall (fun x => fst (fst x) < snd x) (comment_tokens p gs).
Proof.
  induction gs as [|g gs IH]; intros p; cbn; [constructor|]. destruct (comment_token g) eqn:E; [|apply IH]. constructor; [|apply IH]. cbn.
  destruct g; cbn in *; lia || discriminate.
Qed.
Lemma clay_firm p ss e w : clay p ss e w -> Forall (fun x => snd (fst x) <> CEOF -> fst (fst x) < snd x) w ->
  Forall (fun s => match s with CAt a => fst (atom_span a) < snd (atom_span a) | CSp _ => True end) ss.
Proof.
  induction 1 as [p|p r|a b ss e w Hb H IH|l t r a ss e w Ha H IH]; intros F; constructor; auto.
  - inversion F as [|? ? F1 F2]; subst. cbn in F1. destruct t; cbn in Ha; [| | |discriminate]; injection Ha as <-; cbn; apply F1; discriminate.
  - inversion F; subst. auto.
Qed.

Section Comment.
  Variables (c : config) (buf : str) (off len R : nat).
  Hypothesis Hlen : off + len <= List.length buf.
  Hypothesis HR : List.length buf = off + R.
  Let cbuf := slice buf off (off + len).
  Definition comment_S (s t : state) : Prop :=
    c2b s = update_indexes buf /\ c2b t = update_indexes buf
    /\ pos_range s = Some (0, List.length buf) /\ pos_range t = None
    /\ comment_pos_range s = Some (0, R) /\ comment_pos_range t = None
    /\ comment_offset s = off /\ comment_offset t = off
    /\ indent_level s = indent_level t /\ stack_indent s = stack_indent t /\ function_nested_level s = function_nested_level t.
  Notation sees := (sees comment_S).
  Lemma cS_level s t : comment_S s t -> indent_level s = indent_level t. Proof. intros H. apply H. Qed.
  Lemma cS_stack s t : comment_S s t -> stack_indent s = stack_indent t. Proof. intros H. apply H. Qed.
  Lemma cS_depth s t : comment_S s t -> function_nested_level s = function_nested_level t. Proof. intros H. apply H. Qed.
  Lemma cS_indent s t lv sk : comment_S s t -> comment_S (set_indent lv sk s) (set_indent lv sk t).
  Proof. unfold comment_S. cbn. tauto. Qed.
  Lemma cS_func s t z : comment_S s t -> comment_S (set_func_level z s) (set_func_level z t).
  Proof. unfold comment_S. cbn. tauto. Qed.
  Lemma cbuf_length : List.length cbuf = len. Proof. unfold cbuf. rewrite slice_length; lia. Qed.
  Lemma len_R : len <= R. Proof. lia. Qed.

  Lemma sees_piece l s t : comment_S s t -> fst l <= snd l -> snd l <= len ->
    substr l cbuf s (comment_offset s) = Some (slice cbuf (fst l) (snd l)) /\ substr l cbuf t (comment_offset t) = Some (slice cbuf (fst l) (snd l)).
  Proof.
    intros (E1 & E2 & _ & _ & _ & _ & -> & -> & _) H1 H2. destruct l as [a b]. cbn [fst snd] in *. unfold cbuf.
    split; apply substr_block; auto; lia.
  Qed.
  (** a span that holds something *)
  Lemma sees_range sp m k : fst sp < snd sp -> snd sp <= len -> sees m k -> sees (comment_range_or cbuf sp m) (comment_range_or cbuf sp k).
  Proof.
    intros H1 H2 H. unfold comment_range_or. apply sees_get_st. intros s t Hs. pose proof Hs as (_ & _ & _ & _ & -> & -> & _).
    rewrite inside_range; [exact H|]. pose proof len_R. split; lia.
  Qed.
  (** an empty span, of which nothing is written *)
  Lemma sees_range_empty sp m k : fst sp = snd sp -> snd sp <= len -> sees m k -> sees (emit []) k -> sees (comment_range_or cbuf sp m) (comment_range_or cbuf sp k).
  Proof.
    intros H1 H2 H H'. unfold comment_range_or. apply sees_get_st. intros s t Hs. destruct (sees_piece sp s t Hs) as [-> _]; [lia|exact H2|].
    pose proof Hs as (_ & _ & _ & _ & -> & -> & _). destruct (test_out_of_range (Some (0, R)) sp); [|exact H]. cbn [emit_opt test_out_of_range].
    replace (slice cbuf (fst sp) (snd sp)) with (@nil char); [exact H'|]. rewrite H1. unfold slice. now rewrite Nat.sub_diag.
  Qed.
  Lemma nil_ret : sees (emit []) (ret tt).
  Proof. intros w v (R1 & R2 & R3 & R4). split; [reflexivity|]. cbn. rewrite app_nil_r. exact (conj R1 (conj R2 (conj R3 R4))). Qed.
  Lemma piece_all l h : fst l <= snd l -> snd l <= len ->
    sees (if on c B_remove_spaces_between_tokens then emit h else s <- get_st ;; emit_opt (substr l cbuf s (comment_offset s)))
         (if on c B_remove_spaces_between_tokens then emit h else s <- get_st ;; emit_opt (substr l cbuf s (comment_offset s))).
  Proof.
    intros H1 H2. destruct (on c _); [apply sees_emit|]. apply sees_get_st. intros s t Hs. destruct (sees_piece l s t Hs H1 H2) as [-> ->]. apply sees_emit_opt.
  Qed.
  Lemma sees_space_in l h : inside R l -> fst l <= snd l -> snd l <= len -> sees (space_hint c cbuf l h) (space_hint c cbuf l h).
  Proof.
    intros Hi H1 H2. unfold space_hint, comment_range_or. apply sees_get_st. intros s t Hs. pose proof Hs as (_ & _ & _ & _ & -> & -> & _).
    rewrite (inside_range _ _ Hi). cbn [test_out_of_range]. now apply piece_all.
  Qed.
  Lemma sees_space l : fst l <= snd l -> snd l <= len -> sees (space_hint c cbuf l []) (space_hint c cbuf l []).
  Proof.
    intros H1 H2. destruct (test_out_of_range (Some (0, R)) l) eqn:E.
    - pose proof len_R. assert (fst l = snd l) as H3 by (apply (outside_range R); auto; lia). apply sees_range_empty; auto; [now apply piece_all|].
      destruct (on c _); [apply sees_emit|]. intros w v Rw. unfold bind, get_st. destruct (sees_piece l (w_st w) (w_st v)) as [_ ->]; auto; [apply Rw|].
      replace (slice cbuf (fst l) (snd l)) with (@nil char); [now apply sees_emit|]. rewrite H3. unfold slice. now rewrite Nat.sub_diag.
    - apply sees_space_in; auto. cbn in E. apply orb_false_iff in E as [E1 E2]. apply Nat.leb_gt in E1, E2. split; lia.
  Qed.
  Lemma sees_atom a : firm_slot cbuf (CAt a) -> sees (write_atom c cbuf a) (write_atom c cbuf a).
  Proof.
    intros ((_ & _ & H2) & H3). cbn in *. rewrite cbuf_length in H2. apply sees_range; auto. apply sees_emit.
  Qed.

  Notation open := (open_at comment_S (space_hint c cbuf)).
  Notation quiet := (quiet_at comment_S (space_hint c cbuf)).
  Lemma quiet_slot l : firm_slot cbuf (CSp l) -> quiet l.
  Proof. intros ((_ & H1 & H2) & _). cbn in *. rewrite cbuf_length in H2. now apply sees_space. Qed.
  (** blanks behind an atom and before another one *)
  Lemma open_slot l : firm_slot cbuf (CSp l) -> 0 < fst l -> snd l < len -> open l.
  Proof.
    intros ((_ & H1 & H2) & _) H3 H4. cbn in *. rewrite cbuf_length in H2. pose proof len_R. split.
    - intros h. apply sees_space_in; auto. split; lia.
    - intros s t (_ & _ & -> & -> & _). split; [|reflexivity]. apply inside_range. split; lia.
  Qed.
  Lemma atoms_rest its : forall p e, chain p (atoms_slots its) e -> Forall (firm_slot cbuf) (atoms_slots its) -> 0 < p ->
    Forall (fun x => open (fst x) /\ firm_slot cbuf (CAt (snd x))) its.
  Proof.
    induction its as [|[l a] its IH]; intros p e C F Hp; [constructor|]. cbn in C. destruct C as (C1 & C2 & C3).
    inversion F as [|? ? F1 F2]; subst. inversion F2 as [|? ? F3 F4]; subst. cbn in F3.
    assert (fst l <= snd l) by apply F1. assert (snd (atom_span a) <= len) by (rewrite <- cbuf_length; apply F3). assert (fst (atom_span a) < snd (atom_span a)) by apply F3.
    constructor; [cbn; split; [apply open_slot; auto; lia|exact F3]|]. eapply IH; eauto. lia.
  Qed.
  Lemma atoms_open its p e : chain p (atoms_slots its) e -> Forall (firm_slot cbuf) (atoms_slots its) ->
    list_open comment_S (space_hint c cbuf) (fun a => firm_slot cbuf (CAt a)) its.
  Proof.
    destruct its as [|[l a] its]; [intros; exact Logic.I|]. intros C F. cbn in C. destruct C as (C1 & C2 & C3).
    inversion F as [|? ? F1 F2]; subst. inversion F2 as [|? ? F3 F4]; subst. cbn in F3. cbn. split; [now apply quiet_slot|]. split; [exact F3|].
    eapply atoms_rest; eauto. assert (fst (atom_span a) < snd (atom_span a)) by apply F3. lia.
  Qed.
  Lemma sees_atoms nn l p e : chain p (atoms_slots l) e -> Forall (firm_slot cbuf) (atoms_slots l) ->
    sees (write_list c cbuf (space_hint c cbuf) (write_atom c cbuf) nn (fun _ => ret false) (fun _ a => ret (atom_nl c a)) (atom_hint c) l ;;; ret tt)
         (write_list c cbuf (space_hint c cbuf) (write_atom c cbuf) nn (fun _ => ret false) (fun _ a => ret (atom_nl c a)) (atom_hint c) l ;;; ret tt).
  Proof.
    intros C F. apply sees_bind; [|intros; apply sees_ret].
    apply (sees_list comment_S cS_level) with (okn := fun a => firm_slot cbuf (CAt a)); intros; try apply sees_ret; [now apply sees_atom|].
    eapply atoms_open; eauto.
  Qed.
  Definition group_firm (g : cgroup) : Prop := Forall (firm_slot cbuf) (group_slots g) /\ gchain g.
  Lemma chain_le p ss e : Forall (firm_slot cbuf) ss -> chain p ss e -> p <= e.
  Proof.
    intros F. revert p. induction F as [|s ss ((_ & H1 & _) & _) F IH]; intros p; cbn; [intros ->; lia|]. intros [<- C]. apply IH in C. lia.
  Qed.
  Lemma chain_end p ss e : Forall (firm_slot cbuf) ss -> chain p ss e -> ss <> [] -> e <= len.
  Proof.
    intros F. revert p. induction F as [|s ss ((_ & H1 & H2) & _) F IH]; intros p; [congruence|]. intros [_ C] _.
    rewrite cbuf_length in H2. destruct ss; [cbn in C; lia|]. eapply IH; eauto. discriminate.
  Qed.
  Lemma group_strict g : group_firm g -> fst (group_span g) < snd (group_span g) /\ snd (group_span g) <= len.
  Proof.
    intros [F [Hn C]]. pose proof (chain_end _ _ _ F C Hn) as He. split; [|exact He]. clear He.
    assert (G : forall p l e, Forall (firm_slot cbuf) (atoms_slots l) -> chain p (atoms_slots l) e -> atoms_slots l <> [] -> p < e).
    { clear F C Hn. intros p [|[q a] l] e F C Hn; [now elim Hn|]. cbn in C. destruct C as (<- & C2 & C3). inversion F as [|? ? F1 F2]; subst. inversion F2 as [|? ? F3 F4]; subst. cbn in F3.
      apply chain_le in C3; [|exact F4]. assert (fst (atom_span a) < snd (atom_span a)) by apply F3. assert (fst q <= snd q) by apply F1. lia. }
    destruct g; cbn in *; eapply G; eauto.
  Qed.
  Lemma sees_group g : group_firm g -> sees (write_group c cbuf g) (write_group c cbuf g).
  Proof.
    intros H. destruct (group_strict g H) as [H1 H2]. destruct H as [F [_ C]]. destruct g; cbn in *; apply sees_range; auto; eapply sees_atoms; eauto.
  Qed.
  Lemma chain_split p a b e : chain p (a ++ b) e -> exists q, chain p a q /\ chain q b e.
  Proof. revert p. induction a as [|s a IH]; intros p; cbn; [eauto|]. intros [H1 H2]. apply IH in H2 as (q & H2 & H3). eauto. Qed.
  Lemma group_enter p g q : Forall (firm_slot cbuf) (group_slots g) -> gchain g -> chain p (group_slots g) q -> p < q /\ q <= len.
  Proof.
    intros F [Hn C] Cp. assert (E : fst (group_span g) = p).
    { destruct (group_slots g); [congruence|]. cbn [chain] in C, Cp. destruct C as [C _], Cp as [Cp _]. now rewrite <- C. }
    rewrite E in C. assert (snd (group_span g) = q).
    { clear -C Cp. revert p C Cp. induction (group_slots g) as [|s ss IH]; intros p; cbn; [congruence|]. intros [_ A] [_ B]. eauto. }
    subst p q. apply (group_strict g). split; auto. split; auto.
  Qed.
  Lemma groups_rest gs : forall p e, chain p (groups_slots gs) e -> Forall (firm_slot cbuf) (groups_slots gs) -> groups_chain gs -> 0 < p ->
    Forall (fun x => open (fst x) /\ group_firm (snd x)) gs.
  Proof.
    induction gs as [|[l g] gs IH]; intros p e C F Hg Hp; [constructor|]. cbn in C. destruct C as [C1 C2]. apply chain_split in C2 as (q & C2 & C3).
    inversion F as [|? ? F1 F2]; subst. apply Forall_app in F2 as [F2 F3]. inversion Hg as [|? ? G1 G2]; subst. cbn in G1, F2.
    destruct (group_enter _ g q F2 G1 C2) as [L1 L2]. assert (fst l <= snd l) by apply F1.
    constructor; [|eapply IH; eauto; lia]. cbn. split; [|split; auto]. apply open_slot; auto. lia.
  Qed.
  Lemma groups_open gs p e : chain p (groups_slots gs) e -> Forall (firm_slot cbuf) (groups_slots gs) -> groups_chain gs ->
    list_open comment_S (space_hint c cbuf) group_firm gs.
  Proof.
    destruct gs as [|[l g] gs]; [intros; exact Logic.I|]. intros C F Hg. cbn in C. destruct C as [C1 C2]. apply chain_split in C2 as (q & C2 & C3).
    inversion F as [|? ? F1 F2]; subst. apply Forall_app in F2 as [F2 F3]. inversion Hg as [|? ? G1 G2]; subst. cbn in G1, F2.
    destruct (group_enter _ g q F2 G1 C2) as [L1 L2]. cbn. split; [now apply quiet_slot|]. split; [split; auto|]. eapply groups_rest; eauto. lia.
  Qed.
  Lemma sees_variants sp gs : Forall (firm_slot cbuf) (groups_slots gs) -> groups_chain gs -> chain (fst sp) (groups_slots gs) (snd sp) -> fst sp <= len ->
    sees (write_variants c cbuf sp gs) (write_variants c cbuf sp gs).
  Proof.
    intros F Hg C Hp. unfold write_variants.
    assert (B : sees (if on c B_remove_single_newlines && match gs with [(_, GNewLines _ [_])] => true | _ => false end then ret tt
        else write_list c cbuf (space_hint c cbuf) (write_group c cbuf) true (fun g => ret (group_first_nl c g)) (fun _ g => ret (group_nl c g)) (fun _ => []) gs ;;; ret tt)
      (if on c B_remove_single_newlines && match gs with [(_, GNewLines _ [_])] => true | _ => false end then ret tt
        else write_list c cbuf (space_hint c cbuf) (write_group c cbuf) true (fun g => ret (group_first_nl c g)) (fun _ g => ret (group_nl c g)) (fun _ => []) gs ;;; ret tt)).
    { destruct (_ && _); [apply sees_ret|]. apply sees_bind; [|intros; apply sees_ret].
      apply (sees_list comment_S cS_level) with (okn := group_firm); intros; try apply sees_ret; [now apply sees_group|]. eapply groups_open; eauto. }
    destruct gs as [|[l g] gs].
    - cbn in C. apply sees_range_empty; auto; [lia|]. rewrite andb_false_r. cbn. exact nil_ret.
    - assert (Ne : groups_slots ((l, g) :: gs) <> []) by discriminate. pose proof (chain_end _ _ _ F C Ne) as He.
      apply sees_range; auto. cbn in C. destruct C as [C1 C2]. apply chain_split in C2 as (q & C2 & C3).
      inversion F as [|? ? F1 F2]; subst. apply Forall_app in F2 as [F2 F3]. inversion Hg as [|? ? G1 G2]; subst. cbn in G1, F2.
      destruct (group_enter _ g q F2 G1 C2) as [L1 L2]. assert (fst l <= snd l) by apply F1. apply chain_le in C3; [|exact F3]. lia.
  Qed.
  Lemma sees_cchunk t : Forall (firm_slot cbuf) (chunk_slots t) ->
    chain (fst (cc_locl t)) (chunk_slots t) (snd (cc_locr t)) -> groups_chain (cc_groups t) ->
    chain (fst (cc_span t)) (groups_slots (cc_groups t)) (snd (cc_span t)) -> fst (cc_span t) = snd (cc_locl t) ->
    sees (write_cchunk c cbuf t) (write_cchunk c cbuf t).
  Proof.
    intros F C Hg Cs El. pose proof (chain_le _ _ _ F C) as L1. assert (Ne : chunk_slots t <> []) by discriminate. pose proof (chain_end _ _ _ F C Ne) as L2.
    unfold chunk_slots in F, C. inversion F as [|? ? F1 F2]; subst. apply Forall_app in F2 as [F2 F3]. inversion F3 as [|? ? F4 _]; subst.
    assert (B1 : sees (space_hint c cbuf (cc_locl t) []) (space_hint c cbuf (cc_locl t) [])) by now apply quiet_slot.
    assert (B2 : sees (space_hint c cbuf (cc_locr t) []) (space_hint c cbuf (cc_locr t) [])) by now apply quiet_slot.
    assert (snd (cc_locl t) <= len) by (rewrite <- cbuf_length; apply F1).
    assert (B3 : sees (write_variants c cbuf (cc_span t) (cc_groups t)) (write_variants c cbuf (cc_span t) (cc_groups t))) by (apply sees_variants; auto; lia).
    assert (B : sees (space_hint c cbuf (cc_locl t) [] ;;; write_variants c cbuf (cc_span t) (cc_groups t) ;;; space_hint c cbuf (cc_locr t) [])
                     (space_hint c cbuf (cc_locl t) [] ;;; write_variants c cbuf (cc_span t) (cc_groups t) ;;; space_hint c cbuf (cc_locr t) []))
      by (apply sees_bind; [exact B1|]; intros _; apply sees_bind; [exact B3|]; intros _; exact B2).
    unfold write_cchunk. destruct (Nat.eq_dec (fst (cc_locl t)) (snd (cc_locr t))) as [E|E]; [|apply sees_range; cbn [fst snd]; auto; lia].
    apply sees_range_empty; cbn [fst snd]; auto. clear B B1 B2 B3.
    cbn in C. destruct C as (_ & C). apply chain_split in C as (q & C1 & C2). cbn in C2. destruct C2 as [C2 _].
    assert (fst (cc_locl t) <= snd (cc_locl t)) by apply F1. assert (fst (cc_locr t) <= snd (cc_locr t)) by apply F4.
    pose proof (chain_le _ _ _ F2 C1). pose proof (chain_le _ _ _ F2 Cs).
    assert (Eg : cc_groups t = []).
    { destruct (cc_groups t) as [|[l g] gs]; [reflexivity|]. exfalso. cbn in C1. destruct C1 as [C3 C4]. apply chain_split in C4 as (q' & C4 & C5).
      cbn in F2. inversion F2 as [|? ? G1 G2]; subst. apply Forall_app in G2 as [G2 G3]. inversion Hg as [|? ? G4 G5]; subst. cbn in G4, G2.
      destruct (group_enter _ g q' G2 G4 C4). assert (fst l <= snd l) by apply G1. apply chain_le in C5; [|exact G3]. lia. }
    rewrite Eg in *. cbn in C1, Cs. clear F2 Hg.
    assert (P : forall l s u, comment_S s u -> fst l = snd l -> snd l <= len -> substr l cbuf u (comment_offset u) = Some []).
    { intros l s u Hs E1 E2. destruct (sees_piece l s u Hs) as [_ ->]; [lia|exact E2|]. rewrite E1. unfold slice. now rewrite Nat.sub_diag. }
    assert (N : forall l, fst l = snd l -> snd l <= len -> sees (ret tt) (space_hint c cbuf l [])).
    { intros l E1 E2 w v Rw. unfold space_hint, comment_range_or, bind, get_st. pose proof Rw as (R1 & R2 & R3 & R4).
      pose proof R2 as (_ & _ & _ & _ & _ & -> & _). cbn [test_out_of_range]. destruct (on c _); [|rewrite (P l _ _ R2 E1 E2); unfold emit_opt];
        unfold emit; rewrite app_nil_r; (split; [reflexivity|exact (conj R1 (conj R2 (conj R3 R4)))]). }
    assert (V : sees (ret tt) (write_variants c cbuf (cc_span t) [])).
    { intros w v Rw. unfold write_variants, comment_range_or, bind, get_st. pose proof Rw as (R1 & R2 & R3 & R4).
      pose proof R2 as (_ & _ & _ & _ & _ & -> & _). cbn [test_out_of_range]. rewrite andb_false_r. cbn. split; [reflexivity|exact Rw]. }
    intros w v Rw. assert (Q : sees (ret tt ;;; ret tt ;;; ret tt) (space_hint c cbuf (cc_locl t) [] ;;; write_variants c cbuf (cc_span t) [] ;;; space_hint c cbuf (cc_locr t) [])).
    { apply sees_bind; [apply N; lia|]. intros _. apply sees_bind; [exact V|]. intros _. apply N; lia. }
    specialize (Q w v Rw). unfold emit. rewrite app_nil_r. destruct w. exact Q.
  Qed.
End Comment.

(** ** [CommentLocHint] *)
Definition lua_S (src : str) (s t : state) : Prop :=
  c2b s = update_indexes src /\ c2b t = update_indexes src
  /\ pos_range s = Some (0, List.length src) /\ pos_range t = None
  /\ indent_level s = indent_level t /\ stack_indent s = stack_indent t /\ function_nested_level s = function_nested_level t.
Lemma lS_level src s t : lua_S src s t -> indent_level s = indent_level t. Proof. intros H. apply H. Qed.
Lemma lS_stack src s t : lua_S src s t -> stack_indent s = stack_indent t. Proof. intros H. apply H. Qed.
Lemma lS_depth src s t : lua_S src s t -> function_nested_level s = function_nested_level t. Proof. intros H. apply H. Qed.
Lemma lS_indent src s t lv sk : lua_S src s t -> lua_S src (set_indent lv sk s) (set_indent lv sk t).
Proof. unfold lua_S. cbn. tauto. Qed.
Lemma lS_func src s t z : lua_S src s t -> lua_S src (set_func_level z s) (set_func_level z t).
Proof. unfold lua_S. cbn. tauto. Qed.

Lemma parse_nothing : parse_comment [] = Some (mk_cchunk (0, 0) (0, 0) [] (0, 0)).
Proof. vm_compute. reflexivity. Qed.

Lemma sees_hint c src l h : slot_ok src (SGap l) -> inside (List.length src) l \/ h = [] \/ on c B_replace_zero_spaces_with_hint = false ->
  sees (lua_S src) (comment_hint c src l h) (comment_hint c src l h).
Proof.
  intros Hl Hh w v Rw. destruct l as [x y]. destruct Hl as (H1 & H2 & g & Hg & Et). apply gap_at_last in Hg.
  pose proof Rw as (R1 & (I1 & I2 & I3 & I4 & I5 & I6 & I7) & R3 & R4).
  unfold comment_hint.
  match goal with |- same ?s (bind get_st ?K w) (bind get_st ?K2 v) => change (same s (K (w_st w) w) (K2 (w_st v) v)) end. cbv beta. rewrite I3, I4.
  destruct (substr_code src x y (w_st w) I1) as [S1 _]. rewrite !S1 by lia. destruct (substr_code src x y (w_st v) I2) as [S2 _]. rewrite !S2 by lia. clear S1 S2.
  destruct (test_out_of_range (Some (0, List.length src)) (x, y)) eqn:Er.
  - assert (E : x = y) by (apply (outside_range _ _ Er); auto). subst y. cbn [test_out_of_range].
    assert (Hn : h = [] \/ on c B_replace_zero_spaces_with_hint = false).
    { destruct Hh as [Hi|Hh]; [|exact Hh]. rewrite (inside_range _ _ Hi) in Er. discriminate. }
    replace (slice src x x) with (@nil char) by (unfold slice; now rewrite Nat.sub_diag). rewrite parse_nothing.
    unfold bind at 1, put_st at 1. unfold bind at 1, get_f at 1. cbn [set_st w_f emit_opt].
    set (d := match lastc (w_f v) with Some x0 => x0 | None => ch_sp end). unfold bind, in_buffer.
    assert (Ew : exists v', write_cchunk c [] (mk_cchunk (0, 0) (0, 0) [] (0, 0)) (set_f [d] (set_st (set_comment (fst (x, x)) None (w_st v)) v)) = (ROk tt, v')
        /\ w_f v' = [d] /\ w_st v' = set_comment x None (w_st v) /\ w_oneline v' = w_oneline v /\ w_indent v' = w_indent v).
    { assert (Es : forall s, c2b s = update_indexes src -> comment_offset s = x -> substr (0, 0) [] s (comment_offset s) = Some []).
      { intros s Ec Eo. rewrite Eo. pose proof (substr_block src x 0 0 0 s Ec) as B. rewrite Nat.add_0_r in B.
        replace (slice src x x) with (@nil char) in B by (unfold slice; now rewrite Nat.sub_diag). rewrite B by lia. reflexivity. }
      assert (Sp : forall u, c2b (w_st u) = update_indexes src -> comment_offset (w_st u) = x -> comment_pos_range (w_st u) = None ->
        space_hint c [] (0, 0) [] u = (ROk tt, set_f (w_f u ++ []) u)).
      { intros u U1 U2 U3. unfold space_hint, comment_range_or, bind, get_st. rewrite U3. cbn [test_out_of_range].
        destruct (on c B_remove_spaces_between_tokens); [reflexivity|]. rewrite Es by auto. reflexivity. }
      assert (Vr : forall u, comment_pos_range (w_st u) = None -> write_variants c [] (0, 0) [] u = (ROk tt, u)).
      { intros u U3. unfold write_variants, comment_range_or, bind, get_st. rewrite U3. cbn [test_out_of_range]. now rewrite andb_false_r. }
      set (u := set_f [d] _). assert (U1 : c2b (w_st u) = update_indexes src) by exact I2.
      unfold write_cchunk, comment_range_or, bind, get_st. cbn [cc_locl cc_locr cc_span cc_groups fst snd].
      replace (comment_pos_range (w_st u)) with (@None (nat * nat)) by reflexivity. cbn [test_out_of_range].
      rewrite Sp by (auto; reflexivity). rewrite Vr by reflexivity. rewrite Sp by (auto; reflexivity). eexists. split; [reflexivity|].
      cbn. auto. }
    destruct Ew as (v' & -> & E1 & E2 & E3 & E4). rewrite E1.
    destruct (bslice [d] 1 (blen [d])) as [b|] eqn:Eb; [|exact Logic.I]. apply bslice_cut in Eb as ->.
    assert (Ef : formatted_block c h [] = []) by (unfold formatted_block; destruct Hn as [->| ->]; [now destruct (on c B_replace_zero_spaces_with_hint)|reflexivity]).
    rewrite Ef. cbn. rewrite !app_nil_r. split; [reflexivity|]. repeat split; cbn; auto; try (rewrite E2; cbn; auto); congruence.
  - cbn [test_out_of_range fst snd]. replace (slice src x y) with (gap_text g) by (symmetry; exact Et).
    destruct (parse_gap g Hg) as (t & Ep & Cl). rewrite Ep.
    pose proof (parse_spans _ _ Ep) as (P1 & P2 & P3 & P4). pose proof (last_gap_ok g Hg) as [Hok _].
    assert (Esl : slice src x (x + (y - x)) = gap_text g) by (rewrite <- Et; unfold slice, text_at; do 2 f_equal; lia).
    assert (Hin : Forall (firm_slot (gap_text g)) (chunk_slots t)).
    { assert (A : Forall (in_text (gap_text g)) (chunk_slots t)).
      { eapply clay_in; [exact Cl|apply le_n|lia| |now left]. apply (spaced_gap g Hok []); auto. rewrite text_at_empty. constructor. }
      assert (B : Forall (fun s => match s with CAt a => fst (atom_span a) < snd (atom_span a) | CSp _ => True end) (chunk_slots t)).
      { eapply clay_firm; [exact Cl|]. apply Forall_app. split; [|constructor; [cbn; congruence|constructor]].
        eapply Forall_impl; [|apply comment_tokens_firm]. intros a Ha _. exact Ha. }
      apply Forall_forall. intros s Hs. rewrite Forall_forall in A, B. split; [exact (A s Hs)|exact (B s Hs)]. }
    unfold bind, put_st, get_f. cbn [set_st w_f]. rewrite R1.
    set (d := match lastc (w_f v) with Some x0 => x0 | None => ch_sp end).
    assert (C : sees (comment_S src x (List.length src - x)) (write_cchunk c (gap_text g) t) (write_cchunk c (gap_text g) t)).
    { rewrite <- Esl. apply sees_cchunk; auto; [lia|lia|]. now rewrite Esl. }
    unfold in_buffer.
    match goal with |- context [write_cchunk c (gap_text g) t (set_f [d] ?a)] => set (w1 := a) end.
    match goal with |- context [write_cchunk c (gap_text g) t (set_f [d] (set_st (set_comment x None ?b) ?a))] => set (v1 := set_st (set_comment x None b) a) end.
    assert (Rc : rel (comment_S src x (List.length src - x)) (set_f [d] w1) (set_f [d] v1)).
    { split; [reflexivity|]. split; [|split; assumption]. unfold comment_S. cbn. replace (List.length src - Nat.min (List.length src) x) with (List.length src - x) by lia.
      repeat split; auto. }
    specialize (C _ _ Rc). clear Rc.
    destruct (write_cchunk c (gap_text g) t (set_f [d] w1)) as [r w2]. destruct (write_cchunk c (gap_text g) t (set_f [d] v1)) as [r2 v2].
    destruct r2; unfold same in C; cbn [fst snd] in C; try exact Logic.I; destruct C as [-> (C1 & (C2 & C3 & C4 & C5 & _ & _ & _ & _ & C6) & C7 & C8)].
    + rewrite C1. destruct (bslice _ _ _) as [b|]; [|exact Logic.I]. cbn. split; [reflexivity|]. unfold rel, lua_S. cbn. rewrite R1. tauto.
    + cbn. split; [reflexivity|]. unfold rel, lua_S. cbn. tauto.
    + cbn. split; [reflexivity|]. unfold rel, lua_S. tauto.
Qed.
