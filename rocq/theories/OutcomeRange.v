(** Outcomes of formatting some lines of an ASCII text. *)
From Verif Require Import Base Lib Config State Ast LuaLexer LuaParser Recon WriterBase LuaWriter Formatter LexSpec CommentSpec CommentProofs CommentGrammar
  CommentParser LayoutSpec LayoutProofs LayoutText UtilProofs RenderSpec RenderGeneral RangeKeepSpec WriterFrame GapProofs RenderProofs ReconProofs ParserProofs
  ReconRange SpanProofs RangeGap RangeTree TotalFrame TotalProofs OutcomeProofs TotalSpec TotalResults.

Lemma ascii_ends s : RangeKeepSpec.ascii s -> ends_ascii s.
Proof. intros H. apply ea_all. apply forallb_forall. intros x Hx. unfold RangeKeepSpec.ascii in H. rewrite Forall_forall in H. apply N.ltb_lt. auto. Qed.

Section Comment.
  Variables (c0 c : config) (buf : str) (off len : nat) (pr : option loc).
  Hypothesis cfg_ascii : forall k t, cs c0 k = Some t -> ends_ascii t.
  Hypothesis Kc : reach c0 c.
  Hypothesis Hlen : off + len <= List.length buf.
  Hypothesis Hascii : RangeKeepSpec.ascii buf.
  Let cbuf := slice buf off (off + len).
  Notation ok := (TotalFrame.ok False False False ends_ascii (ISr buf off pr)).
  Lemma ordered_chain ss p e : Forall (in_text cbuf) ss -> chain p ss e -> p <= len -> p <= e <= len.
  Proof. intros F C Hp. destruct (verbatim c buf off len Hlen ss p e F C Hp) as (H1 & H2 & _). auto. Qed.
  Lemma part_range sp m : fst sp <= snd sp <= len -> ok m -> ok (comment_range_or cbuf sp m).
  Proof.
    intros Hs Hm. apply ok_get_st. intros s (Ec & _ & Eo). destruct (test_out_of_range _ _); [|exact Hm]. rewrite Eo. destruct sp as [a b]. cbn [fst snd] in *.
    unfold cbuf. rewrite substr_block by (auto; lia). cbn [emit_opt]. apply ok_emit; [exact ea_app|]. apply ascii_ends. now do 2 apply ascii_slice.
  Qed.
  Lemma part_space l h : in_text cbuf (CSp l) -> ends_ascii h -> ok (space_hint c cbuf l h).
  Proof.
    intros ((H1 & H2 & H3) & _) Hh. pose proof (cbuf_len buf off len Hlen) as Hl. fold cbuf in Hl. apply part_range; [lia|].
    destruct (on c _); [apply ok_emit; auto using ea_app|].
    apply ok_get_st. intros s (Ec & _ & Eo). destruct l as [a b]. cbn [fst snd] in *. rewrite Eo. unfold cbuf.
    rewrite substr_block by (auto; lia). cbn [emit_opt]. apply ok_emit; [exact ea_app|]. apply ea_blanks. exact H3.
  Qed.
  Lemma part_loc l : in_text cbuf (CSp l) -> ok (write_loc cbuf l).
  Proof.
    intros ((H1 & H2 & H3) & _). apply ok_get_st. intros s (Ec & _). destruct l as [a b]. cbn [fst snd] in *.
    rewrite (substr_piece buf); auto.
    - cbn [emit_opt]. apply ok_emit; [exact ea_app|]. apply ea_blanks. exact H3.
    - now apply ascii_slice.
    - pose proof (cbuf_len buf off len Hlen) as Hl. fold cbuf in Hl. rewrite Hl. lia.
  Qed.
  Lemma part_list {A} (W : A -> M unit) (Sl : A -> Prop) nn f1 f2 ph l :
    (forall x, Sl x -> ok (W x)) -> (forall x, ends_ascii (ph x)) ->
    Forall (fun x => in_text cbuf (CSp (fst x)) /\ Sl (snd x)) l ->
    ok (write_list c cbuf (space_hint c cbuf) W nn (fun x => ret (f1 x)) (fun x y => ret (f2 x y)) ph l).
  Proof.
    intros HW Hp Hl. apply (ok_list False False False ends_ascii (ISr buf off pr) Logic.I ea_app ea_nl c cbuf (space_hint c cbuf) W _ _ _ _
      (fun l => in_text cbuf (CSp l)) Sl); auto.
    - intros s. apply (T_indent ends_ascii c0); auto using ea_app. exact Logic.I.
    - intros. now apply part_space.
    - intros. now apply ok_ret.
    - intros. now apply ok_ret.
    - intros. now apply part_loc.
  Qed.
  Lemma cfg_before' : ends_ascii (sopt_or (cs c S_hint_before_comment)).
  Proof. destruct Kc as [[K _] _]. rewrite K. destruct (cs c0 _) eqn:E; [eauto|exact Logic.I]. Qed.
  Lemma part_atoms nn l : Forall (in_text cbuf) (atoms_slots l) ->
    ok (write_list c cbuf (space_hint c cbuf) (write_atom c cbuf) nn (fun _ => ret false) (fun _ a => ret (atom_nl c a)) (atom_hint c) l).
  Proof.
    intros H. apply (part_list (write_atom c cbuf) (fun a => in_text cbuf (CAt a)) nn (fun _ => false) (fun _ a => atom_nl c a)).
    - intros x (_ & H1 & H2). pose proof (cbuf_len buf off len Hlen) as Hl. fold cbuf in Hl. apply part_range; [cbn in *; lia|].
      apply ok_emit; [exact ea_app|apply ea_atom].
    - intros []; cbn [atom_hint]; try apply cfg_before'. exact Logic.I.
    - induction l as [|[p x] l IH]; constructor; cbn in H; inversion H as [|? ? H1 H2]; subst; inversion H2; subst; auto.
  Qed.
  Lemma part_group g : Forall (in_text cbuf) (group_slots g) -> gchain g -> ok (write_group c cbuf g).
  Proof.
    intros H [Hn C]. pose proof (chain_head buf off len Hlen _ _ _ H C Hn) as Hp.
    destruct g; cbn in *; (apply part_range; [now apply (ordered_chain _ _ _ H)|]); (apply ok_seq; [now apply part_atoms|]); intros; now apply ok_ret.
  Qed.
  Lemma part_chunk t : Forall (in_text cbuf) (chunk_slots t) ->
    chain (fst (cc_locl t)) (chunk_slots t) (snd (cc_locr t)) -> groups_chain (cc_groups t) ->
    chain (fst (cc_span t)) (groups_slots (cc_groups t)) (snd (cc_span t)) -> fst (cc_span t) = snd (cc_locl t) ->
    ok (write_cchunk c cbuf t).
  Proof.
    intros H C Hg Cs El. pose proof (cbuf_len buf off len Hlen) as Hl. fold cbuf in Hl.
    assert (Hp : fst (cc_locl t) <= len) by (eapply (chain_head buf off len Hlen); eauto; discriminate).
    pose proof (ordered_chain _ _ _ H C Hp) as Ho.
    unfold chunk_slots in H. apply Forall_cons_iff in H as [H1 H2].
    apply Forall_app in H2 as [H2 H3]. apply Forall_cons_iff in H3 as [H4 _].
    assert (Hq : fst (cc_span t) <= len) by (destruct H1 as (_ & _ & X); cbn in X; lia).
    pose proof (ordered_chain _ _ _ H2 Cs Hq) as Ho2.
    apply part_range; [cbn [fst snd] in *; lia|]. apply ok_seq; [apply part_space; [exact H1|exact Logic.I]|]. intros _.
    apply ok_seq; [|intros; apply part_space; [exact H4|exact Logic.I]]. apply part_range; [lia|]. destruct (_ && _); [now apply ok_ret|].
    apply ok_seq; [|intros; now apply ok_ret].
    apply (part_list (write_group c cbuf) (fun g => Forall (in_text cbuf) (group_slots g) /\ gchain g) true (group_first_nl c) (fun _ g => group_nl c g)).
    - intros x [X1 X2]. now apply part_group.
    - intros x. exact Logic.I.
    - revert H2 Hg. clear. generalize (cc_groups t) as gs. intros gs H2 Hg. induction gs as [|[p x] l IH]; constructor; cbn in H2; inversion H2 as [|? ? A B]; subst; apply Forall_app in B as [B D];
        inversion Hg; subst; auto.
  Qed.
End Comment.

Section Text.
  Variables (c0 : config) (src : str) (pr : option loc).
  Hypothesis cfg_ascii : forall k t, cs c0 k = Some t -> ends_ascii t.
  Hypothesis Hascii : RangeKeepSpec.ascii src.
  Notation ok := (TotalFrame.ok False False False ends_ascii (ISp src pr)).
  Definition rising_loc (l : loc) : Prop := fst l <= snd l.
  Lemma part_raw l : rising_loc l -> ok (write_loc src l).
  Proof.
    intros Hl. apply ok_get_st. intros s [Ec _]. destruct l as [a b]. unfold rising_loc in Hl. cbn [fst snd] in *.
    destruct (substr_code src a b s Ec) as (S1 & S2 & _). destruct (Nat.le_gt_cases b (List.length src)) as [Hb|Hb].
    - rewrite S1 by lia. apply ok_emit; [exact ea_app|]. apply ascii_ends. now apply ascii_slice.
    - rewrite S2 by lia. apply ok_emit; [exact ea_app|]. exact Logic.I.
  Qed.
  Lemma part_hint c l h : reach c0 c -> slot_ok src (SGap l) -> ends_ascii h -> ok (comment_hint c src l h).
  Proof.
    intros Kc Hl Hh. destruct l as [x y]. destruct Hl as (H1 & H2 & g & Hg & Et). apply gap_at_last in Hg.
    apply ok_leaf. intros w Ht [I1 I2]. unfold comment_hint. unfold bind at 1, get_st at 1.
    destruct (substr_code src x y (w_st w) I1) as [S _]. rewrite S by lia. replace (slice src x y) with (gap_text g) by (symmetry; exact Et).
    destruct (test_out_of_range (pos_range (w_st w)) (x, y)).
    { cbn. split; [exact Logic.I|]. split; [|split; [split; assumption|reflexivity]]. apply ea_app; [exact Ht|]. apply ascii_ends. rewrite <- Et.
      now apply ascii_slice. }
    destruct (parse_gap g Hg) as (t & Ep & Cl). rewrite Ep. cbn [fst].
    pose proof (parse_kind _ _ Ep) as HK. pose proof (parse_spans _ _ Ep) as (P1 & P2 & P3 & P4).
    pose proof (last_gap_ok g Hg) as [Hok _].
    assert (Esl : slice src x (x + (y - x)) = gap_text g) by (rewrite <- Et; unfold slice, text_at; do 2 f_equal; lia).
    assert (Hin : Forall (in_text (gap_text g)) (chunk_slots t)).
    { eapply clay_in; [exact Cl|apply le_n|lia| |now left]. apply (spaced_gap g Hok []); auto. rewrite text_at_empty. constructor. }
    unfold bind at 1, put_st at 1. unfold bind at 1, get_f at 1. cbn [set_st w_f].
    set (d := match lastc (w_f w) with Some x0 => x0 | None => ch_sp end). set (w1 := set_st _ w).
    assert (Hd : OutcomeProofs.ascii d = true) by (unfold d, ends_ascii in *; destruct (lastc (w_f w)); auto).
    unfold bind, in_buffer.
    assert (C : wr (kL c src x (y - x)) (kL c src x (y - x)) true (ISr src x pr) (write_cchunk c (gap_text g) t) (chunk_slots t)).
    { rewrite <- Esl. apply kchunk; auto; [lia|]. now rewrite Esl. }
    assert (D : TotalFrame.ok False False False ends_ascii (ISr src x pr) (write_cchunk c (gap_text g) t)).
    { rewrite <- Esl. apply (part_chunk c0); auto; [lia|]. now rewrite Esl. }
    assert (I0 : ISr src x pr (w_st (set_f [d] w1))) by (split; [exact I1|]; split; [exact I2|]; reflexivity).
    pose proof (D 0 0 _ (set_f [d] w1) (ea_snoc [] d Hd) I0 (proj2 (at_depth_zero _ _) eq_refl)) as R.
    destruct (write_cchunk c (gap_text g) t (set_f [d] w1)) as [[u| | |] w2] eqn:E; try exact R.
    destruct R as (_ & R1 & (J1 & J2 & _) & R2). apply at_depth_zero in R2.
    destruct (C _ _ _ I0 E) as [_ A]. cbn [set_f w_f] in A. apply adds_from_one in A as (b & Eb & _). rewrite Eb in R1 |- *.
    rewrite bslice_one by exact Hd. unfold emit. cbn [res_ok set_f w_f w_st]. split; [exact Logic.I|]. split; [|split; [split; assumption|exact R2]].
    apply ea_app; [exact Ht|]. apply ea_cons in R1. unfold formatted_block. destruct b as [|ch b]; [destruct (on c _); [exact Hh|exact Logic.I]|].
    pose proof (cfg_opt c0 cfg_ascii) as Co.
    apply ea_app; [destruct (ceq _ _); [now apply Co|exact Logic.I]|]. apply ea_app; [exact R1|].
    destruct (lastc (ch :: b)); [destruct (ceq _ _); [now apply Co|exact Logic.I]|exact Logic.I].
  Qed.
  Hypothesis width : tries c0 -> cn c0 N_max_width <> None.
  Theorem write_part_no_panic n : good (slot_ok src) rising_loc n -> forall fuel, height n + selfs c0 < fuel ->
    forall w, ends_ascii (w_f w) -> ISp src pr (w_st w) -> exists a w', write fuel src c0 n w = (ROk a, w').
  Proof.
    intros Hg fuel Hf w Ht Hw.
    assert (B : ok (write fuel src c0 n)).
    { apply (write_ok False False False ends_ascii (ISp src pr) (slot_ok src) rising_loc c0 src); auto using ea_app, ea_nl.
      - exact Logic.I.
      - exact ea_all.
      - contradiction.
      - contradiction.
      - intros t [H|H]; [now apply ea_token|now subst].
      - intros z [[-> | ->] | [-> | [-> | ->]]]; reflexivity.
      - intros. now apply part_hint.
      - split; [lia|]. split; [lia|]. exists []. split; [left; constructor|reflexivity].
      - intros [a b] [Hl _]. exact Hl.
      - intros s l _ _ Hl. now apply part_raw.
      - apply reach_refl. }
    pose proof (B 0 0 _ w Ht Hw (proj2 (at_depth_zero _ _) eq_refl)) as R. destruct (write fuel src c0 n w) as [[a| | |] w'] eqn:E; try contradiction.
    now exists a, w'.
  Qed.
End Text.

(** ** the places of the parts of a tree *)
Lemma within_single b n x : within (set_single b n) x -> exists y, within n y /\ n_span y = n_span x.
Proof.
  intros H.
  assert (E : n_span (set_single b n) = n_span n /\ children (set_single b n) = children n) by (destruct n as [k sp ls t lv ks is ss o]; destruct k; split; reflexivity).
  destruct E as [E1 E2]. inversion H as [|? m ? Hm Hx]; subst; [exists n; split; [apply wi_here|congruence]|].
  exists x. split; [|reflexivity]. rewrite E2 in Hm. eapply wi_part; eauto.
Qed.
Lemma nested_rising c n : nested n -> forall sc s x, within (fst (recon c sc n s)) x -> rising_loc (n_span x).
Proof.
  induction 1 as [n O C IH]. assert (Nn : nested n) by (constructor; auto). intros sc s x Hx. inversion Hx as [|? m ? Hm Hi]; subst.
  - pose proof (recon_alike c sc n s) as (E & _). rewrite E. now apply nested_le.
  - destruct (recon_children c n sc s m Hm) as (y & Hy & [(sc' & s' & [-> |(b & ->)])| ->]).
    + exact (IH y Hy sc' s' x Hi).
    + apply within_single in Hi as (z & Hz & <-). exact (IH y Hy sc' s' z Hz).
    + exact (nested_le x (nested_within y x (C y Hy) Hi)).
Qed.
Lemma written_part src c n s : parse_lua src = Parsed n -> good (slot_ok src) rising_loc (fst (recon c None n s)).
Proof.
  intros P. split; [exact (proj1 (written_tree src c n None s P))|]. destruct (parse_lua_layout src n P) as (ts & _ & _ & [_ Nc]).
  pose proof (root_kind src n P) as K. pose proof (recon_kind c None n s K) as Ek.
  intros x Hx Hr. inversion Hx as [|? m ? Hm Hi]; subst; [rewrite Ek in Hr; destruct K as [K|K]; rewrite K in Hr; discriminate|].
  rewrite Forall_forall in Nc. destruct (recon_children c n None s m Hm) as (y & Hy & [(sc' & s' & [-> |(b & ->)])| ->]).
  - exact (nested_rising c y (Nc y Hy) sc' s' x Hi).
  - apply within_single in Hi as (z & Hz & <-). exact (nested_rising c y (Nc y Hy) sc' s' z Hz).
  - exact (nested_le x (nested_within y x (Nc y Hy) Hi)).
Qed.
Theorem format_total_plain src c : plain_ends c -> (measures c -> cn c N_max_width <> None) -> line_range c = None \/ RangeKeepSpec.ascii src ->
  (exists o, process_buffer src c = Formatted o) \/ process_buffer src c = ParsingError.
Proof.
  intros Ha Hw [Hl|Hs]; [now apply format_total|].
  unfold process_buffer. destruct (parse_lua src) as [n| |] eqn:P; [|now right|now elim (parse_lua_total src)]. left.
  unfold reconstruct. pose proof (written_part src c n (0%Z, line_range_to_pos_range src (line_range c)) P) as G.
  destruct (recon c None n _) as [n' [lv pr]]. cbn [fst] in G.
  assert (Hf : height n' + selfs c < write_fuel n') by (pose proof (selfs_max c); unfold write_fuel; lia).
  destruct (write_part_no_panic c src pr (plain_opts c Ha) Hs) with (n := n') (fuel := write_fuel n') (w := mk_world [] (start_state src pr) [] [])
    as (a & w' & E); auto.
  - auto using tries_spec.
  - exact Logic.I.
  - split; reflexivity.
  - cbn [snd]. rewrite E. eauto.
Qed.
Theorem format_total_part src c : ascii_options c -> width_known c -> line_range c = None \/ RangeKeepSpec.ascii src ->
  (exists o, process_buffer src c = Formatted o) \/ process_buffer src c = ParsingError.
Proof. intros Ha Hw. apply format_total_plain; auto using all_plain, known_needed. Qed.
