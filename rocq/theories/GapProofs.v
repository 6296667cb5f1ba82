(** Writing the text between two tokens. *)
From Verif Require Import Base Lib Config State Ast LuaLexer CommentLexer LR LRSpec CommentGrammar CommentTables CommentParser ParserProofs WriterBase LexSpec CommentSpec
  CommentProofs UtilProofs RenderSpec WriterFrame LayoutSpec.

Lemma is_empty_true {A} (l : list A) : is_empty l = true -> l = [].
Proof. now destruct l. Qed.

(** ** comment texts *)
Lemma drop_while_nil p s : is_empty (drop_while p s) = forallb p s.
Proof. induction s as [|a s IH]; cbn; [reflexivity|]. destruct (p a); cbn; auto. Qed.
Lemma repeat_eqs n : level_str n = repeat 61%N n.
Proof. induction n as [|n IH]; [reflexivity|]. unfold level_str in *. cbn. now rewrite IH. Qed.
Lemma atom_text_spec c a : atom_text c a = comment_text c (atom_token a).
Proof.
  destruct a as [sp s|sp lv s|sp]; cbn [atom_text comment_text atom_token]; unfold line_feed.
  - destruct (on c B_remove_comments); [reflexivity|]. destruct (cs c S_hint_before_oneline_comment_text) as [p|]; [|reflexivity].
    unfold trim_start at 1. rewrite drop_while_nil. destruct (forallb is_whitespace s); [reflexivity|].
    unfold text_with, dashes. cbn [app]. now rewrite app_nil_r, <- app_assoc.
  - destruct (on c B_remove_comments); [reflexivity|]. unfold long, open_long, close_long, opening, closing, text_with. rewrite !repeat_eqs.
    cbn -[trim trim_start trim_end]. rewrite <- !app_assoc. cbn -[trim trim_start trim_end]. do 3 f_equal.
    unfold trim. destruct (cs c S_hint_before_multiline_comment_text), (cs c S_hint_after_multiline_comment_text);
      cbn -[trim trim_start trim_end]; rewrite <- ?app_assoc; cbn -[trim trim_start trim_end]; reflexivity.
  - reflexivity.
Qed.

(** texts of comments do not end in a blank *)
Lemma comment_text_end c t x b : comment_text c t = x ++ [b] -> b = 10%N \/ b = 93%N.
Proof.
  assert (G : forall (z : str) a, z ++ [a] = x ++ [b] -> b = a) by (intros z a E; now apply app_inj_tail in E as [_ ->]).
  destruct t as [s|lv s| |]; cbn [comment_text]; unfold line_feed; intros E.
  - destruct (on c B_remove_comments), (on c B_remove_all_newlines).
    + destruct x; discriminate.
    + left. now apply (G []) in E.
    + left. rewrite !app_assoc in E. now apply G in E.
    + left. rewrite !app_assoc in E. now apply G in E.
  - destruct (on c B_remove_comments); [destruct x; discriminate|]. right. unfold long, closing, brackets in E.
    rewrite !app_assoc in E. now apply G in E.
  - destruct (on c B_remove_all_newlines); [destruct x; discriminate|]. left. now apply (G []) in E.
  - destruct x; discriminate.
Qed.

Lemma filler_mono c (p q : Prop) x : (p -> q) -> filler c p x -> filler c q x.
Proof.
  intros Hpq. induction 1 as [ | | | | | | |H|h H|x b H IH Hb].
  - apply fl_nil.
  - now apply fl_app.
  - now apply fl_blank.
  - now apply fl_before.
  - now apply fl_after.
  - now apply fl_space.
  - now apply fl_table.
  - apply fl_newline; auto.
  - apply fl_indent; auto.
  - eapply fl_trim; eauto.
Qed.
Lemma filler_blanks c p s : on c B_remove_spaces_between_tokens = false -> blanks s -> filler c p s.
Proof.
  intros Hc. induction 1 as [|a s Ha Hs IH]; [constructor|]. change (a :: s) with ([a] ++ s). apply fl_app; [|exact IH].
  apply fl_blank; [exact Hc|]. unfold blank in Ha. rewrite !orb_true_iff, !N.eqb_eq in Ha. cbn. intuition.
Qed.
Lemma blankc_spec b : blankc b -> b = 32%N \/ b = 9%N.
Proof. unfold blankc, is_sp_tab. rewrite orb_true_iff, !ceq_true. auto. Qed.
Lemma filler_indent c (p : Prop) st : p -> filler c p (indent_text c st).
Proof.
  intros H. unfold indent_text. destruct (cs c S_indentation_string) as [t|] eqn:E; [|constructor].
  induction (Z.to_nat (indent_level st)) as [|n IH]; cbn; [constructor|]. apply fl_app; [now apply fl_indent|exact IH].
Qed.

Section CommentLevel.
  Variables (c : config) (buf : str) (off len : nat).
  Hypothesis Hlen : off + len <= List.length buf.
  Let cbuf := slice buf off (off + len).
  Definition ISc (s : state) : Prop :=
    c2b s = update_indexes buf /\ pos_range s = None /\ comment_pos_range s = None /\ comment_offset s = off.

  (** a newline format for comments is set *)
  Definition cnl : bool :=
    nis c N_newline_format_oneline_comment 1 || nis c N_newline_format_multiline_comment 1
    || nis c N_newline_format_first_oneline_comment 1 || nis c N_newline_format_first_multiline_comment 1.
  Definition cR (s : cslot) (x : str) : Prop :=
    match s with
    | CSp l => if on c B_remove_spaces_between_tokens then x = [] \/ cs c S_hint_before_comment = Some x
               else x = text_at cbuf (fst l) (snd l) /\ blanks x
    | CAt a => x = atom_text c a
    end.
  Definition cL (s : cslot) (x : str) : Prop :=
    match s with CSp l => filler c True x | CAt a => x = atom_text c a end.
  Lemma cRL s x : cR s x -> cL s x.
  Proof.
    destruct s as [l|a]; cbn; [|auto]. destruct (on c B_remove_spaces_between_tokens) eqn:E.
    - intros [->|H]; [constructor|now apply fl_before].
    - intros [-> H]. now apply filler_blanks.
  Qed.
  Lemma cclosed : cnl = true -> forall s x b, cL s (x ++ [b]) -> blankc b -> cL s x.
  Proof.
    intros _ [l|a] x b H Hb; cbn in *.
    - eapply fl_trim; eauto. now apply blankc_spec.
    - rewrite atom_text_spec in H. symmetry in H. apply comment_text_end in H as [-> | ->]; discriminate.
  Qed.
  Notation cwr := (wr cR cL cnl ISc).
  Lemma cbreakable l : cnl = true -> breakable cL cnl c (CSp l).
  Proof.
    intros H. split; [exact H|]. cbn. split; intros; apply fl_app; auto; [now apply fl_newline|now apply filler_indent].
  Qed.

  Lemma crange span (m : M unit) ss : cwr m ss -> cwr (comment_range_or cbuf span m) ss.
  Proof.
    intros H. unfold comment_range_or. apply wr_get_st. intros s (_ & _ & E & _). rewrite E. cbn [test_out_of_range]. exact H.
  Qed.
  Lemma cspace l h : cslot_ok cbuf (CSp l) -> h = [] \/ cs c S_hint_before_comment = Some h -> cwr (space_hint c cbuf l h) [CSp l].
  Proof.
    intros (H1 & H2 & H3) Hh. unfold space_hint. apply crange.
    destruct (on c B_remove_spaces_between_tokens) eqn:E.
    - apply wr_emit. cbn. now rewrite E.
    - apply wr_get_st. intros s (Ec & _ & _ & Eo). apply wr_emit_opt. intros x Ex. apply renders_one. cbn. rewrite E.
      assert (Hcl : List.length cbuf = len) by (unfold cbuf; rewrite slice_length; lia).
      rewrite Eo in Ex. destruct l as [a b]. cbn [fst snd] in *. unfold cbuf in Ex. rewrite substr_block in Ex by (auto; lia).
      injection Ex as <-. auto.
  Qed.
  Lemma catom_wr a : cwr (write_atom c cbuf a) [CAt a].
  Proof. apply crange. apply wr_emit. reflexivity. Qed.

  Lemma quiet_val {A} (b : A) : quiet ISc (ret b). Proof. apply quiet_ret. Qed.

  Definition okl (l : loc) : Prop := cslot_ok cbuf (CSp l).
  Lemma atoms_wr nn l : Forall (cslot_ok cbuf) (atoms_slots l) ->
    cwr (write_list c cbuf (space_hint c cbuf) (write_atom c cbuf) nn (fun _ => ret false) (fun _ a => ret (atom_nl c a)) (atom_hint c) l)
      (atoms_slots l).
  Proof.
    intros H.
    eapply wr_eq.
    - apply (wr_write_list cR cL cnl cRL cclosed ISc c cbuf (space_hint c cbuf) (write_atom c cbuf) nn (fun _ => ret false)
               (fun _ a => ret (atom_nl c a)) (atom_hint c) (fun l _ => CSp l) (fun a => [CAt a]) okl (fun _ => True)).
      + intros s p h (_ & I & _) Ho. rewrite I in Ho. discriminate.
      + intros p h Hp Hh. apply cspace; [exact Hp|]. destruct Hh as [->|(x & ->)]; [now left|]. destruct x; cbn; auto;
          destruct (cs c S_hint_before_comment); auto.
      + intros x _. apply catom_wr.
      + auto.
      + intros. apply quiet_ret.
      + intros. apply quiet_ret.
      + intros p h x w w' _ _ [=].
      + intros p h x y w w' _ _ [= E _]. apply cbreakable. unfold cnl. destruct y; cbn in E; rewrite ?E, ?orb_true_r; auto. discriminate.
      + clear -H. induction l as [|[p x] l IH]; constructor; cbn in H; inversion H as [|? ? H1 H2]; subst; inversion H2; subst; auto.
    - destruct l as [|[p x] l]; [reflexivity|]. cbn. f_equal.
  Qed.
  Lemma group_wr g : Forall (cslot_ok cbuf) (group_slots g) -> cwr (write_group c cbuf g) (group_slots g).
  Proof. intros H. destruct g; cbn in *; apply crange; apply (wr_then_ret _ _ _ cRL cclosed); now apply atoms_wr. Qed.

  Definition lone (gs : list (loc * cgroup)) : bool :=
    on c B_remove_single_newlines && match gs with [(_, GNewLines _ [_])] => true | _ => false end.
  Definition kept_slots (t : cchunk) : list cslot :=
    if lone (cc_groups t) then [CSp (cc_locl t); CSp (cc_locr t)] else chunk_slots t.
  Lemma variants_wr sp gs : Forall (cslot_ok cbuf) (groups_slots gs) ->
    cwr (write_variants c cbuf sp gs) (if lone gs then [] else groups_slots gs).
  Proof.
    intros H. apply crange. unfold lone. destruct (_ && _); [apply wr_ret|]. apply (wr_then_ret _ _ _ cRL cclosed).
    eapply wr_eq.
    - apply (wr_write_list cR cL cnl cRL cclosed ISc c cbuf (space_hint c cbuf) (write_group c cbuf) true (fun g => ret (group_first_nl c g))
               (fun _ g => ret (group_nl c g)) (fun _ => []) (fun l _ => CSp l) group_slots okl (fun g => Forall (cslot_ok cbuf) (group_slots g))).
      + intros s p h (_ & I & _) Ho. rewrite I in Ho. discriminate.
      + intros p h Hp Hh. apply cspace; [exact Hp|]. destruct Hh as [->|(x & ->)]; now left.
      + intros x Hx. now apply group_wr.
      + auto.
      + intros. apply quiet_ret.
      + intros. apply quiet_ret.
      + intros p h x w w' _ _ [= E _]. apply cbreakable. unfold cnl.
        destruct x as [sp' [|[q []] l]|]; cbn in E; rewrite ?E, ?orb_true_r; auto; discriminate.
      + intros p h x y w w' _ _ [= E _]. apply cbreakable. unfold cnl.
        destruct y as [sp' [|[q []] l]|]; cbn in E; rewrite ?E, ?orb_true_r; auto; discriminate.
      + clear -H. induction gs as [|[p x] l IH]; constructor; cbn in H; inversion H as [|? ? H1 H2]; subst; apply Forall_app in H2 as [H2 H3]; auto.
    - destruct gs as [|[p x] l]; [reflexivity|]. cbn. f_equal.
  Qed.
  Lemma cchunk_wr t : Forall (cslot_ok cbuf) (chunk_slots t) -> cwr (write_cchunk c cbuf t) (kept_slots t).
  Proof.
    intros H. unfold chunk_slots in H. inversion H as [|? ? H1 H2]; subst. apply Forall_app in H2 as [H2 H3].
    inversion H3 as [|? ? H4 _]; subst. apply crange.
    apply (wr_eq _ _ _ _ _ ([CSp (cc_locl t)] ++ (if lone (cc_groups t) then [] else groups_slots (cc_groups t)) ++ [CSp (cc_locr t)])).
    - apply (wr_bind _ _ _ cRL cclosed); [now apply cspace; auto|intros _].
      apply (wr_bind _ _ _ cRL cclosed); [now apply variants_wr|intros _]. now apply cspace; auto.
    - unfold kept_slots, chunk_slots. destruct (lone _); reflexivity.
  Qed.
End CommentLevel.

(** ** the whole gap *)
Lemma bslice_cut x (b r : str) : bslice (x :: b) 1 (blen (x :: b)) = Some r -> r = b.
Proof.
  intros H. assert (Hx : len_utf8 x = 1).
  { unfold bslice in H. destruct (_ <? _); [discriminate|]. cbn [bskip] in H. destruct (len_utf8 x <=? 1) eqn:E; [|discriminate].
    apply Nat.leb_le in E. unfold len_utf8 in *. repeat destruct (N.ltb _ _); lia. }
  assert (E1 : blen [x] = 1) by (cbn; lia).
  pose proof (bslice_app [x] b []) as E. rewrite E1, app_nil_r in E. cbn [app] in E. cbn [blen] in H. rewrite Hx, E in H. now injection H.
Qed.

Lemma rn_loose {Sl} (R L : Sl -> str -> Prop) nlc : (forall s x, R s x -> L s x) -> forall pre ss o rest,
  rn R L nlc pre ss o rest -> exists xs, Forall2 L ss xs /\ o = List.concat xs.
Proof.
  intros RL. induction 1 as [|pre s x ss y rest Hf H (xs & F & ->)]; [exists []; split; [constructor|reflexivity]|].
  exists (x :: xs). split; [constructor; [|exact F]|reflexivity]. destruct Hf as [Hf|(_ & Hf & _)]; auto.
Qed.
Lemma rn_strict {Sl} (R L : Sl -> str -> Prop) : forall pre ss o rest,
  rn R L false pre ss o rest -> exists xs, Forall2 R ss xs /\ o = List.concat xs.
Proof.
  induction 1 as [|pre s x ss y rest Hf H (xs & F & ->)]; [exists []; split; [constructor|reflexivity]|].
  exists (x :: xs). split; [constructor; [|exact F]|reflexivity]. destruct Hf as [Hf|(? & _)]; [auto|discriminate].
Qed.

Definition kept_tokens (c : config) (gs : list gitem) (ts : list ctoken) : Prop :=
  ts = gap_tokens gs \/ (on c B_remove_single_newlines = true /\ gap_tokens gs = [CNewLine] /\ ts = []).

Definition IS (buf : str) (s : state) : Prop := c2b s = update_indexes buf /\ pos_range s = None.

(** the text of the comments without the decorations around it *)
Record block_of (c : config) (gs : list gitem) (b : str) : Prop := {
  bo_text : exists ts, kept_tokens c gs ts /\ interleaved c (cnl c = true) ts b;
  bo_exact : cnl c = false -> on c B_remove_spaces_between_tokens = false -> on c B_remove_single_newlines = false ->
             b = flat_map (item_text (comment_text c)) gs
}.

Lemma slots_interleaved c (nl : Prop) (P : cslot -> str -> Prop) :
  (forall l x, P (CSp l) x -> filler c nl x) -> (forall a x, P (CAt a) x -> x = atom_text c a) ->
  forall ss xs, Forall2 P ss xs -> interleaved c nl (map atom_token (catoms ss)) (List.concat xs).
Proof.
  intros H1 H2. induction 1 as [|s x ss xs Hx F IH]; [constructor|]. destruct s as [l|a]; cbn [catoms map List.concat].
  - apply il_filler; eauto.
  - apply H2 in Hx as ->. rewrite atom_text_spec. now apply il_comment.
Qed.
(** groups are of one kind *)
Definition nl_atom (a : catom) : bool := match a with ANewLine _ => true | _ => false end.
Definition group_kind (g : cgroup) : Prop :=
  match g with
  | GComments _ l => Forall (fun x => nl_atom (snd x) = false) l
  | GNewLines _ l => Forall (fun x => nl_atom (snd x) = true) l
  end.
Definition groups_kind (gs : list (loc * cgroup)) : Prop := Forall (fun x => group_kind (snd x)) gs.
Definition ckind (x : sym) (v : cval) : Prop :=
  match x with
  | T k => exists t, v = CVTok t /\ cterm_of t = k
  | NT n =>
      match cclass_of n with
      | KAtom => exists a, v = CVAtom a /\ nl_atom a = N.eqb n cn_NewLine
      | KAtoms => exists l, v = CVAtoms l /\ Forall (fun x => nl_atom (snd x) = N.eqb n cn_TListN) l
      | KGroup => exists g, v = CVGroup g /\ group_kind g
      | KGroups => exists gs, v = CVGroups gs /\ groups_kind gs
      | KVariants => exists sp gs, v = CVVariants sp gs /\ groups_kind gs
      | KChunkC => exists t, v = CVChunk t /\ groups_kind (cc_groups t)
      end
  end.
Lemma cprod_kind p args : In p comment_prods -> Forall2 (fun x v => ckind x (snd (fst v))) (p_rhs p) args ->
  ckind (NT (p_lhs p)) (p_act p args).
Proof.
  intros Hp H. unfold comment_prods in Hp.
  repeat (destruct Hp as [<-|Hp]; [cbn [p_rhs p_lhs p_act] in *; repeat match goal with
    | H : Forall2 _ (_ :: _) _ |- _ => inv H
    | H : Forall2 _ [] _ |- _ => inv H
    | v : (nat * cval * nat)%type |- _ => destruct v as [[? ?] ?]
    end; cbn [fst snd] in *; unfold ckind in * |]); [.. |destruct Hp].
  all: repeat match goal with
    | H : context [cclass_of ?n] |- _ => let k := eval vm_compute in (cclass_of n) in change (cclass_of n) with k in H
    | |- context [cclass_of ?n] => let k := eval vm_compute in (cclass_of n) in change (cclass_of n) with k
    end; cbv iota beta in *.
  all: repeat match goal with
    | H : _ /\ _ |- _ => destruct H
    | H : exists _, _ |- _ => destruct H
    end; subst.
  all: repeat match goal with
    | H : cterm_of ?t = _ |- _ => first [destruct t; try discriminate H; clear H | fail]
    end.
  all: unfold groups_kind, group_kind in *.
  all: first [do 2 eexists; split; [reflexivity|] | eexists; split; [reflexivity|]].
  all: try assumption; try reflexivity.
  all: cbn; repeat match goal with
    | |- Forall _ (_ ++ _) => apply Forall_app; split
    | |- Forall _ (_ :: _) => constructor
    | |- Forall _ [] => constructor
    end; cbn; try assumption; try reflexivity.
Qed.
Lemma chunk_kind ts t : sentence comment_grammar ts (CVChunk t) -> groups_kind (cc_groups t).
Proof.
  intros (l & r & D).
  assert (G : (forall x w v, cderives x w v -> ckind x (snd (fst v))) /\
    (forall xs w vs, derives_list comment_grammar xs w vs -> Forall2 (fun x v => ckind x (snd (fst v))) xs vs)).
  { apply (derives_both _ _ comment_grammar (fun x w v _ => ckind x (snd (fst v))) (fun xs w vs _ => Forall2 (fun x v => ckind x (snd (fst v))) xs vs)).
    - intros l0 t0 r0. cbn. eauto.
    - intros p w args Hp _ IH. cbn [fst snd]. now apply cprod_kind.
    - constructor.
    - intros. now constructor. }
  apply G in D. cbn in D. destruct D as (t' & [= <-] & H). exact H.
Qed.
Lemma parse_kind s t : parse_comment s = Some t -> groups_kind (cc_groups t).
Proof.
  unfold parse_comment. destruct (clex s) as [ts| |]; try discriminate. destruct (parse_ctokens ts) as [v| |] eqn:E; try discriminate.
  destruct v; try discriminate. intros [= <-]. apply parse_ctokens_correct in E. eapply chunk_kind; eauto.
Qed.

Lemma lone_tokens c t : lone c (cc_groups t) = true -> groups_kind (cc_groups t) ->
  on c B_remove_single_newlines = true /\ map atom_token (catoms (chunk_slots t)) = [CNewLine].
Proof.
  unfold lone. rewrite andb_true_iff. intros [H1 H2] HK. split; [exact H1|].
  unfold chunk_slots. destruct (cc_groups t) as [|[p [|sp [|[q a] [|]]]] [|]]; try discriminate.
  inversion HK as [|? ? Hg _]; subst. cbn in Hg. inversion Hg as [|? ? Ha _]; subst. cbn in Ha. destruct a; try discriminate. reflexivity.
Qed.
Lemma chunk_block c buf off len gs t pre b : off + len <= List.length buf -> slice buf off (off + len) = gap_text gs -> last_gap gs ->
  parse_comment (gap_text gs) = Some t ->
  rn (cR c buf off len) (cL c) (cnl c) pre (kept_slots c t) b [] -> block_of c gs b.
Proof.
  intros Hlen Es Hg Ep H. pose proof (parse_kind _ _ Ep) as HK.
  destruct (comment_tree gs Hg) as (t' & Et & Hok & Ha & Ht). assert (t' = t) as -> by congruence. split.
  - destruct (cnl c) eqn:En.
    + destruct (rn_loose _ _ _ (cRL c buf off len) _ _ _ _ H) as (xs & F & ->).
      assert (G : interleaved c (true = true) (map atom_token (catoms (kept_slots c t))) (List.concat xs)).
      { eapply slots_interleaved; [| |exact F]; [|auto]. intros l x Hx. eapply filler_mono; [|exact Hx]. auto. }
      unfold kept_slots in *. destruct (lone c (cc_groups t)) eqn:El.
      * destruct (lone_tokens _ _ El HK) as [L1 L2]. exists []. split; [right; split; [exact L1|split; [congruence|reflexivity]]|exact G].
      * exists (gap_tokens gs). split; [now left|]. now rewrite <- Ha.
    + destruct (rn_strict _ _ _ _ _ _ H) as (xs & F & ->).
      assert (G : interleaved c (false = true) (map atom_token (catoms (kept_slots c t))) (List.concat xs)).
      { eapply slots_interleaved; [| |exact F]; [|auto]. intros l x Hx. cbn in Hx.
        destruct (on c B_remove_spaces_between_tokens) eqn:E; [destruct Hx as [->|Hx]; [constructor|now apply fl_before]|].
        destruct Hx as [-> Hx]. now apply filler_blanks. }
      unfold kept_slots in *. destruct (lone c (cc_groups t)) eqn:El.
      * destruct (lone_tokens _ _ El HK) as [L1 L2]. exists []. split; [right; split; [exact L1|split; [congruence|reflexivity]]|exact G].
      * exists (gap_tokens gs). split; [now left|]. now rewrite <- Ha.
  - intros En Es' Esn. rewrite En in H. destruct (rn_strict _ _ _ _ _ _ H) as (xs & F & ->). rewrite <- Ht.
    assert (El : lone c (cc_groups t) = false) by (unfold lone; now rewrite Esn). unfold kept_slots in F. rewrite El in F.
    clear -F Es Es'. induction F as [|s x ss xs Hx F IH]; [reflexivity|]. cbn [List.concat flat_map]. f_equal; [|exact IH].
    destruct s as [l|a]; cbn in Hx |- *.
    + rewrite Es' in Hx. destruct Hx as [-> _]. now rewrite Es.
    + rewrite Hx. apply atom_text_spec.
Qed.

Lemma comment_hint_spec c buf l h gs w a w' : fst l <= snd l -> snd l <= List.length buf -> last_gap gs ->
  text_at buf (fst l) (snd l) = gap_text gs -> IS buf (w_st w) ->
  comment_hint c buf l h w = (ROk a, w') ->
  IS buf (w_st w') /\ exists b, block_of c gs b /\ w_f w' = w_f w ++ formatted_block c h b.
Proof.
  intros H1 H2 Hg Et [I1 I2]. destruct l as [x y]. cbn [fst snd] in *. unfold comment_hint. unfold bind at 1, get_st at 1. rewrite I2. cbn [test_out_of_range].
  destruct (substr_code buf x y (w_st w) I1) as [S _]. rewrite S by lia. replace (slice buf x y) with (gap_text gs) by (symmetry; exact Et).
  destruct (comment_tree gs Hg) as (t & Ep & Hok & _). rewrite Ep. cbn [fst].
  assert (Esl : slice buf x (x + (y - x)) = gap_text gs) by (rewrite <- Et; unfold slice, text_at; do 2 f_equal; lia).
  unfold bind at 1, put_st at 1. unfold bind at 1, get_f at 1. cbn [set_st w_f].
  set (d := match lastc (w_f w) with Some x0 => x0 | None => ch_sp end).
  set (w1 := set_st _ w).
  unfold bind, in_buffer.
  assert (C : wr (cR c buf x (y - x)) (cL c) (cnl c) (ISc buf x) (write_cchunk c (gap_text gs) t) (kept_slots c t)).
  { rewrite <- Esl. apply cchunk_wr; [lia|]. now rewrite Esl. }
  destruct (write_cchunk c (gap_text gs) t (set_f [d] w1)) as [[u| | |] w2] eqn:E; try discriminate.
  assert (I0 : ISc buf x (w_st (set_f [d] w1))) by (split; [exact I1|]; split; [exact I2|]; split; reflexivity).
  destruct (C _ _ _ I0 E) as [(J1 & J2 & J3 & J4) A]. cbn [set_f w_f] in A.
  apply adds_from_one in A as (b & Eb & Hb). rewrite Eb.
  destruct (bslice (d :: b) 1 (blen (d :: b))) as [b'|] eqn:Ebs; [|discriminate]. apply bslice_cut in Ebs as ->.
  intros [= _ <-]. cbn [set_f w_f w_st]. split; [split; assumption|]. exists b. split; [|reflexivity].
  eapply chunk_block; [| |exact Hg|exact Ep|exact Hb]; [lia|exact Esl].
Qed.
