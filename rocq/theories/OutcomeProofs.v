(** Outcomes of formatting. *)
From Verif Require Import Base Lib Config State Ast LuaLexer LuaParser Recon WriterBase LuaWriter Formatter LexSpec CommentSpec CommentProofs CommentGrammar
  CommentParser LayoutSpec LayoutText UtilProofs RenderSpec RenderGeneral WriterFrame GapProofs RenderProofs ReconProofs ParserProofs TotalFrame TotalProofs.

(** ** comments write nothing but text *)
Section Any.
  Variables (Ef Ff : Prop) (I : state -> Prop).
  Let T := fun _ : str => True.
  Notation ok := (TotalFrame.ok Ef True Ff T I).
  Lemma any_emit_opt o : ok (emit_opt o).
  Proof. destruct o; [now apply ok_emit|]. now apply ok_panic. Qed.
  Lemma any_loc buf l : ok (write_loc buf l).
  Proof. apply ok_get_st. intros s _. apply any_emit_opt. Qed.
  Lemma any_range cbuf sp m : ok m -> ok (comment_range_or cbuf sp m).
  Proof. intros H. apply ok_get_st. intros s _. destruct (test_out_of_range _ _); [apply any_emit_opt|exact H]. Qed.
  Lemma any_space c cbuf l h : ok (space_hint c cbuf l h).
  Proof. apply any_range. destruct (on c _); [now apply ok_emit|]. apply ok_get_st. intros s _. apply any_emit_opt. Qed.
  Lemma any_list {A} c cbuf (W : A -> M unit) nn f1 f2 ph l : (forall x, ok (W x)) ->
    ok (write_list c cbuf (space_hint c cbuf) W nn (fun x => ret (f1 x)) (fun x y => ret (f2 x y)) ph l).
  Proof.
    intros H. apply (ok_list Ef True Ff T I Logic.I (fun _ _ _ _ => Logic.I) (fun _ => Logic.I) c cbuf (space_hint c cbuf) W _ _ _ _ (fun _ => True) (fun _ => True)); unfold T; auto.
    - intros. apply any_space.
    - intros. now apply ok_ret.
    - intros. now apply ok_ret.
    - intros. apply any_loc.
    - apply Forall_forall. auto.
  Qed.
  Lemma any_group c cbuf g : ok (write_group c cbuf g).
  Proof.
    destruct g; apply any_range; (apply ok_seq; [|intros; now apply ok_ret]);
      (apply (any_list c cbuf (write_atom c cbuf) _ (fun _ => false) (fun _ a => atom_nl c a)); intros x; apply any_range; now apply ok_emit).
  Qed.
  Lemma any_cchunk c cbuf t : ok (write_cchunk c cbuf t).
  Proof.
    apply any_range. apply ok_seq; [apply any_space|]. intros _. apply ok_seq; [|intros; apply any_space].
    apply any_range. destruct (_ && _); [now apply ok_ret|]. apply ok_seq; [|intros; now apply ok_ret].
    apply (any_list c cbuf (write_group c cbuf) _ (group_first_nl c) (fun _ g => group_nl c g)). apply any_group.
  Qed.
  Lemma any_hint c buf l h : (forall s off r, I s -> I (set_comment off r s)) ->
    Ef \/ (forall s cbuf, I s -> substr l buf s 0 = Some cbuf -> parse_comment cbuf <> None) -> ok (comment_hint c buf l h).
  Proof.
    intros Hc Hp. apply ok_leaf. intros w Ht Hi. unfold comment_hint. unfold bind at 1, get_st at 1.
    destruct (test_out_of_range _ _).
    { destruct (substr l buf (w_st w) 0) as [x|]; cbn; auto. }
    destruct (substr l buf (w_st w) 0) as [cbuf|] eqn:E; [|exact Logic.I]. unfold bind at 1, put_st at 1.
    set (st := set_comment _ _ (w_st w)). destruct (parse_comment cbuf) as [t|] eqn:P; [|destruct Hp as [Hp|Hp]; [exact Hp|exfalso; eapply Hp; eauto]].
    unfold bind at 1, get_f at 1. unfold bind, in_buffer. set (f0 := [_] : str).
    pose proof (any_cchunk c cbuf t 0 0 _ (set_f f0 (set_st st w)) Logic.I (Hc _ _ _ Hi) (proj2 (at_depth_zero _ _) eq_refl)) as R.
    destruct (write_cchunk c cbuf t (set_f f0 (set_st st w))) as [[u| | |] w2]; cbn in R |- *; try exact R.
    destruct R as (_ & _ & R1 & R2). apply at_depth_zero in R2. destruct (bslice _ _ _); cbn; auto.
  Qed.
End Any.

(** ** indentation *)
Theorem write_balanced fuel buf c n w a w' : write fuel buf c n w = (ROk a, w') -> base (w_st w') = base (w_st w).
Proof.
  intros E. pose proof (write_ok True True True (fun _ => True) (fun _ => True) (fun _ => True) (fun _ => True) c buf) as A.
  assert (B : TotalFrame.ok True True True (fun _ => True) (fun _ => True) (write fuel buf c n)).
  { apply A; auto.
    - intros. apply any_hint; auto.
    - intros. apply any_loc; auto.
    - apply reach_refl.
    - split; [apply Forall_forall; auto|intros ? ? ?; exact Logic.I]. }
  pose proof (B 0 0 _ w Logic.I Logic.I (proj2 (at_depth_zero _ _) eq_refl)) as R. rewrite E in R. cbn in R.
  destruct R as (_ & _ & _ & R). now apply at_depth_zero in R.
Qed.

(** ** the tree that is written *)
Lemma written_tree src c n sc s : parse_lua src = Parsed n -> good (slot_ok src) (fun _ => True) (fst (recon c sc n s)).
Proof.
  intros P. split; [|intros ? ? ?; exact Logic.I]. rewrite recon_layout. apply conv_ok. exact (proj2 (tree_reads src n P)).
Qed.

(** ** no formatting error, no lack of fuel *)
Lemma gap_parses src l s cbuf : slot_ok src (SGap l) -> c2b s = update_indexes src -> substr l src s 0 = Some cbuf -> parse_comment cbuf <> None.
Proof.
  destruct l as [a b]. intros (H1 & H2 & g & Hg & Et) Hs E. destruct (substr_code src a b s Hs) as [S _]. rewrite S in E by lia.
  injection E as <-. change (slice src a b) with (text_at src a b). rewrite Et. apply gap_at_last in Hg.
  destruct (comment_tree g Hg) as (t & -> & _). discriminate.
Qed.
Theorem write_no_error src c n : good (slot_ok src) (fun _ => True) n -> forall fuel, height n + selfs c < fuel ->
  forall w, c2b (w_st w) = update_indexes src ->
  match write fuel src c n w with (ROk _, _) => True | (RErr, _) => False | (RPanic, _) => True | (RFuel, _) => False end.
Proof.
  intros Hg fuel Hf w Hw.
  assert (B : TotalFrame.ok False True False (fun _ => True) (fun s => c2b s = update_indexes src) (write fuel src c n)).
  { apply (write_ok False True False (fun _ => True) (fun s => c2b s = update_indexes src) (slot_ok src) (fun _ => True) c src); auto.
    - contradiction.
    - intros c' l h _ Hl _. apply any_hint; [auto|]. right. intros s cbuf. now apply gap_parses.
    - split; [lia|]. split; [lia|]. exists []. split; [left; constructor|reflexivity].
    - intros. now apply any_loc.
    - apply reach_refl. }
  pose proof (B 0 0 _ w Logic.I Hw (proj2 (at_depth_zero _ _) eq_refl)) as R. destruct (write fuel src c n w) as [[]]; cbn in R; auto.
Qed.

(** ** no panic *)
Definition ascii (a : char) : bool := N.ltb a 128.
Definition ends_ascii (s : str) : Prop := match lastc s with Some a => ascii a = true | None => True end.
Lemma lastc_app a b : lastc (a ++ b) = match lastc b with Some x => Some x | None => lastc a end.
Proof.
  destruct (snoc_cases b) as [->|(b' & x & ->)]; [now rewrite app_nil_r|]. rewrite app_assoc, !lastc_snoc. reflexivity.
Qed.
Lemma ea_app a b : ends_ascii a -> ends_ascii b -> ends_ascii (a ++ b).
Proof. unfold ends_ascii. rewrite lastc_app. destruct (lastc b); auto. Qed.
Lemma ea_snoc a x : ascii x = true -> ends_ascii (a ++ [x]).
Proof. intros H. unfold ends_ascii. now rewrite lastc_snoc. Qed.
Lemma ea_nl a : ends_ascii (a ++ [ch_nl]). Proof. now apply ea_snoc. Qed.
Lemma ea_all s : forallb ascii s = true -> ends_ascii s.
Proof.
  intros H. destruct (snoc_cases s) as [->|(s' & x & ->)]; [exact Logic.I|]. apply ea_snoc. rewrite forallb_app in H. cbn in H.
  apply andb_true_iff in H as [_ H]. now rewrite andb_true_r in H.
Qed.
Lemma ea_cons x s : ends_ascii (x :: s) -> ends_ascii s.
Proof.
  destruct (snoc_cases s) as [->|(s' & y & ->)]; [intros; exact Logic.I|]. unfold ends_ascii.
  change (x :: s' ++ [y]) with ((x :: s') ++ [y]). now rewrite !lastc_snoc.
Qed.
Lemma ea_atom c a : ends_ascii (atom_text c a).
Proof.
  rewrite atom_text_spec. destruct (snoc_cases (comment_text c (atom_token a))) as [E|(s' & y & E)]; rewrite E; [exact Logic.I|].
  apply ea_snoc. apply comment_text_end in E as [-> | ->]; reflexivity.
Qed.
Lemma ea_blanks s : blanks s -> ends_ascii s.
Proof.
  intros H. apply ea_all. apply forallb_forall. intros x Hx. unfold blanks in H. rewrite Forall_forall in H. apply H in Hx. unfold blank in Hx.
  rewrite !orb_true_iff, !N.eqb_eq in Hx. unfold ascii. apply N.ltb_lt. lia.
Qed.

Lemma ea_digit x : digit x = true -> ascii x = true.
Proof. unfold digit, ascii. rewrite andb_true_iff, !N.leb_le, N.ltb_lt. lia. Qed.
Lemma ea_letter x : letter x = true -> ascii x = true.
Proof. unfold letter, ascii. rewrite !orb_true_iff, !andb_true_iff, !N.leb_le, N.eqb_eq, N.ltb_lt. lia. Qed.
Lemma ea_hexdigit x : hexdigit x = true -> ascii x = true.
Proof. unfold hexdigit, digit, ascii. rewrite !orb_true_iff, !andb_true_iff, !N.leb_le, N.ltb_lt. lia. Qed.
Lemma ea_num_step a x b : num_step a x = Some b -> ascii x = true.
Proof.
  assert (K : forall k, N.eqb x k = true -> N.ltb k 128 = true -> ascii x = true) by (intros k Hx Hk; apply N.eqb_eq in Hx; now subst).
  unfold num_step. cbv zeta. intros H. destruct a;
    repeat match type of H with
    | (if ?b then _ else _) = Some _ => let E := fresh "E" in destruct b eqn:E
    end; try discriminate; clear H;
    match goal with E : _ = true |- _ => try (now apply ea_hexdigit);
      repeat (apply orb_true_iff in E as [E|E]); first [exact (K _ E eq_refl)|auto using ea_digit] end.
Qed.
Lemma ea_num_run s : forall a b, num_run a s = Some b -> forallb ascii s = true.
Proof.
  induction s as [|x s IH]; intros a b; cbn [num_run forallb]; [reflexivity|]. destruct (num_step a x) as [a'|] eqn:E; [|discriminate].
  intros H. now rewrite (ea_num_step _ _ _ E), (IH _ _ H).
Qed.
Lemma ea_token t : token_ok t -> ends_ascii (tok_text t).
Proof.
  destruct t; intros H; try reflexivity; cbn [token_ok tok_text spelling] in *.
  - destruct s as [|x s]; [contradiction|]. destruct H as (H1 & H2 & _). apply ea_all. cbn [forallb]. rewrite (ea_letter _ H1). apply forallb_forall.
    intros y Hy. rewrite Forall_forall in H2. apply H2 in Hy. apply orb_true_iff in Hy as [Hy|Hy]; auto using ea_letter, ea_digit.
  - destruct H as (st & H & _). apply ea_all. exact (ea_num_run _ _ _ H).
  - rewrite app_assoc. now apply ea_snoc.
  - rewrite app_assoc. now apply ea_snoc.
  - unfold long, closing, brackets. rewrite !app_assoc. now apply ea_snoc.
  - now apply ea_snoc.
Qed.

Section NoPanic.
  Variables (c0 : config) (src : str).
  Hypothesis cfg_ascii : forall k t, cs c0 k = Some t -> ends_ascii t.

  Section Comment.
    Variables (c : config) (off len : nat).
    Hypothesis Kc : reach c0 c.
    Hypothesis Hlen : off + len <= List.length src.
    Let cbuf := slice src off (off + len).
    Notation ok := (TotalFrame.ok False False False ends_ascii (ISc src off)).
    Lemma sure_range sp m : ok m -> ok (comment_range_or cbuf sp m).
    Proof. intros H. apply ok_get_st. intros s (_ & _ & E & _). rewrite E. exact H. Qed.
    Lemma sure_space l h : cslot_ok cbuf (CSp l) -> ends_ascii h -> ok (space_hint c cbuf l h).
    Proof.
      intros (H1 & H2 & H3) Hh. apply sure_range. destruct (on c _); [apply ok_emit; auto using ea_app|].
      apply ok_get_st. intros s (Ec & _ & _ & Eo). destruct l as [a b]. cbn [fst snd] in *. rewrite Eo. unfold cbuf.
      assert (Hcl : List.length cbuf = len) by (unfold cbuf; rewrite slice_length; lia).
      rewrite substr_block by (auto; lia). apply ok_emit; [exact ea_app|]. apply ea_blanks. exact H3.
    Qed.
    Lemma cfg_before : ends_ascii (sopt_or (cs c S_hint_before_comment)).
    Proof. destruct Kc as [[K _] _]. rewrite K. destruct (cs c0 _) eqn:E; [eauto|exact Logic.I]. Qed.
    Lemma sure_indent s : ends_ascii (indent_text c s).
    Proof. apply (T_indent ends_ascii c0); auto using ea_app. exact Logic.I. Qed.
    Lemma sure_list {A} (W : A -> M unit) (Sl : A -> list cslot) nn f1 f2 ph l :
      (forall x, Forall (cslot_ok cbuf) (Sl x) -> ok (W x)) -> (forall x, ends_ascii (ph x)) ->
      Forall (fun x => cslot_ok cbuf (CSp (fst x)) /\ Forall (cslot_ok cbuf) (Sl (snd x))) l ->
      ok (write_list c cbuf (space_hint c cbuf) W nn (fun x => ret (f1 x)) (fun x y => ret (f2 x y)) ph l).
    Proof.
      intros HW Hp Hl. apply (ok_list False False False ends_ascii (ISc src off) Logic.I ea_app ea_nl c cbuf (space_hint c cbuf) W _ _ _ _
        (fun l => cslot_ok cbuf (CSp l)) (fun x => Forall (cslot_ok cbuf) (Sl x))); auto.
      - apply sure_indent.
      - intros. now apply sure_space.
      - intros. now apply ok_ret.
      - intros. now apply ok_ret.
      - intros s l0 (_ & E & _) H _. contradiction.
    Qed.
    Lemma sure_atoms nn l : Forall (cslot_ok cbuf) (atoms_slots l) ->
      ok (write_list c cbuf (space_hint c cbuf) (write_atom c cbuf) nn (fun _ => ret false) (fun _ a => ret (atom_nl c a)) (atom_hint c) l).
    Proof.
      intros H. apply (sure_list (write_atom c cbuf) (fun a => [CAt a]) nn (fun _ => false) (fun _ a => atom_nl c a)).
      - intros x _. apply sure_range. apply ok_emit; [exact ea_app|apply ea_atom].
      - intros []; cbn [atom_hint]; try apply cfg_before. exact Logic.I.
      - induction l as [|[p x] l IH]; constructor; cbn in H; inversion H as [|? ? H1 H2]; subst; inversion H2; subst; auto.
    Qed.
    Lemma sure_group g : Forall (cslot_ok cbuf) (group_slots g) -> ok (write_group c cbuf g).
    Proof. intros H. destruct g; cbn in *; apply sure_range; (apply ok_seq; [now apply sure_atoms|]); intros; now apply ok_ret. Qed.
    Lemma sure_cchunk t : Forall (cslot_ok cbuf) (chunk_slots t) -> ok (write_cchunk c cbuf t).
    Proof.
      intros H. unfold chunk_slots in H. inversion H as [|? ? H1 H2]; subst. apply Forall_app in H2 as [H2 H3].
      inversion H3 as [|? ? H4 _]; subst. apply sure_range. apply ok_seq; [apply sure_space; [exact H1|exact Logic.I]|]. intros _.
      apply ok_seq; [|intros; apply sure_space; [exact H4|exact Logic.I]]. apply sure_range. destruct (_ && _); [now apply ok_ret|].
      apply ok_seq; [|intros; now apply ok_ret].
      apply (sure_list (write_group c cbuf) group_slots true (group_first_nl c) (fun _ g => group_nl c g)).
      - intros x. apply sure_group.
      - intros x. exact Logic.I.
      - clear - H2. induction (cc_groups t) as [|[p x] l IH]; constructor; cbn in H2; inversion H2 as [|? ? A B]; subst; apply Forall_app in B as [B C]; auto.
    Qed.
  End Comment.

  Lemma bslice_one x b : ascii x = true -> bslice (x :: b) 1 (blen (x :: b)) = Some b.
  Proof.
    intros H. assert (E1 : blen [x] = 1) by (unfold blen, len_utf8; unfold ascii in H; now rewrite H).
    pose proof (bslice_app [x] b []) as E. rewrite E1, app_nil_r in E. cbn [app] in E.
    replace (blen (x :: b)) with (1 + blen b); [exact E|]. change (x :: b) with ([x] ++ b). cbn [blen app] in *. lia.
  Qed.
  Lemma cfg_opt k c : reach c0 c -> ends_ascii (sopt_or (cs c k)).
  Proof. intros [[K _] _]. rewrite K. destruct (cs c0 _) eqn:E; [eauto|exact Logic.I]. Qed.
  Lemma sure_hint c l h : reach c0 c -> slot_ok src (SGap l) -> ends_ascii h ->
    TotalFrame.ok False False False ends_ascii (IS src) (comment_hint c src l h).
  Proof.
    intros Kc Hl Hh. destruct l as [x y]. destruct Hl as (H1 & H2 & g & Hg & Et). apply gap_at_last in Hg.
    apply ok_leaf. intros w Ht [I1 I2]. unfold comment_hint. unfold bind at 1, get_st at 1. rewrite I2. cbn [test_out_of_range].
    destruct (substr_code src x y (w_st w) I1) as [S _]. rewrite S by lia. replace (slice src x y) with (gap_text g) by (symmetry; exact Et).
    destruct (comment_tree g Hg) as (t & Ep & Hok & _). rewrite Ep. cbn [fst].
    assert (Esl : slice src x (x + (y - x)) = gap_text g) by (rewrite <- Et; unfold slice, text_at; do 2 f_equal; lia).
    unfold bind at 1, put_st at 1. unfold bind at 1, get_f at 1. cbn [set_st w_f].
    set (d := match lastc (w_f w) with Some x0 => x0 | None => ch_sp end). set (w1 := set_st _ w).
    assert (Hd : ascii d = true) by (unfold d, ends_ascii in *; destruct (lastc (w_f w)); auto).
    unfold bind, in_buffer.
    assert (C : wr (cR c src x (y - x)) (cL c) (cnl c) (ISc src x) (write_cchunk c (gap_text g) t) (kept_slots c t)).
    { rewrite <- Esl. apply cchunk_wr; [lia|]. now rewrite Esl. }
    assert (D : TotalFrame.ok False False False ends_ascii (ISc src x) (write_cchunk c (gap_text g) t)).
    { rewrite <- Esl. apply sure_cchunk; [exact Kc|lia|]. now rewrite Esl. }
    assert (I0 : ISc src x (w_st (set_f [d] w1))) by (split; [exact I1|]; split; [exact I2|]; split; reflexivity).
    pose proof (D 0 0 _ (set_f [d] w1) (ea_snoc [] d Hd) I0 (proj2 (at_depth_zero _ _) eq_refl)) as R.
    destruct (write_cchunk c (gap_text g) t (set_f [d] w1)) as [[u| | |] w2] eqn:E; try exact R.
    destruct R as (_ & R1 & (J1 & J2 & _) & R2). apply at_depth_zero in R2.
    destruct (C _ _ _ I0 E) as [_ A]. cbn [set_f w_f] in A. apply adds_from_one in A as (b & Eb & _). rewrite Eb in R1 |- *.
    rewrite bslice_one by exact Hd. unfold emit. cbn [res_ok set_f w_f w_st]. split; [exact Logic.I|]. split; [|split; [split; assumption|exact R2]].
    apply ea_app; [exact Ht|]. apply ea_cons in R1. unfold formatted_block. destruct b as [|ch b]; [destruct (on c _); [exact Hh|exact Logic.I]|].
    apply ea_app; [destruct (ceq _ _); [now apply cfg_opt|exact Logic.I]|]. apply ea_app; [exact R1|].
    destruct (lastc (ch :: b)); [destruct (ceq _ _); [now apply cfg_opt|exact Logic.I]|exact Logic.I].
  Qed.
  Hypothesis width : tries c0 -> cn c0 N_max_width <> None.
  Theorem write_no_panic n : good (slot_ok src) (fun _ => True) n -> forall fuel, height n + selfs c0 < fuel ->
    forall w, ends_ascii (w_f w) -> IS src (w_st w) -> exists a w', write fuel src c0 n w = (ROk a, w').
  Proof.
    intros Hg fuel Hf w Ht Hw.
    assert (B : TotalFrame.ok False False False ends_ascii (IS src) (write fuel src c0 n)).
    { apply (write_ok False False False ends_ascii (IS src) (slot_ok src) (fun _ => True) c0 src); auto using ea_app, ea_nl.
      - exact Logic.I.
      - exact ea_all.
      - contradiction.
      - contradiction.
      - intros t [H|H]; [now apply ea_token|now subst].
      - intros z [[-> | ->] | [-> | [-> | ->]]]; reflexivity.
      - intros. now apply sure_hint.
      - split; [lia|]. split; [lia|]. exists []. split; [left; constructor|reflexivity].
      - intros s l [_ E] H _. contradiction.
      - apply reach_refl. }
    pose proof (B 0 0 _ w Ht Hw (proj2 (at_depth_zero _ _) eq_refl)) as R. destruct (write fuel src c0 n w) as [[a| | |] w'] eqn:E; try contradiction.
    now exists a, w'.
  Qed.
End NoPanic.
