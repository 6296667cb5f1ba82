(** Writing the text between two tokens when only some lines are formatted. *)
From Verif Require Import Base Lib Config State Ast LuaLexer CommentLexer LR LRSpec CommentGrammar CommentTables CommentParser ParserProofs WriterBase LexSpec LexLoop CommentSpec
  CommentProofs UtilProofs RenderSpec FormatSpec RangeKeepSpec WriterFrame LayoutSpec GapProofs.

(** ** white text *)
Lemma white_nil c : white c []. Proof. apply wh_filler. constructor. Qed.
Lemma white_blanks c s : blanks s -> white c s.
Proof.
  induction 1 as [|a s Ha Hs IH]; [apply white_nil|]. change (a :: s) with ([a] ++ s). apply wh_app; [|exact IH].
  apply wh_blank. unfold CommentProofs.blank in Ha. rewrite !orb_true_iff, !N.eqb_eq in Ha. cbn. intuition.
Qed.
Lemma kept_snoc c gs x y : kept_gap c gs x -> white c y -> kept_gap c gs (x ++ y).
Proof.
  intros H Hy. induction H as [|z gs u Hz H IH|b gs u H IH|gs u H IH|g z gs u Hz H IH|g t gs u Ht H IH].
  - cbn. rewrite <- (app_nil_r y). apply kg_white; [exact Hy|constructor].
  - rewrite <- app_assoc. now apply kg_white.
  - now apply kg_blank.
  - now apply kg_newline.
  - rewrite <- app_assoc. now apply kg_same.
  - rewrite <- app_assoc. now apply kg_comment.
Qed.
Lemma cut_snoc y x b : cut_of y (x ++ [b]) -> b = 32%N \/ b = 9%N -> cut_of y x.
Proof. intros (l & -> & Hl) Hb. exists (b :: l). rewrite <- app_assoc. split; [reflexivity|]. now constructor. Qed.
Lemma kept_trim c gs x b : kept_gap c gs (x ++ [b]) -> b = 32%N \/ b = 9%N -> kept_gap c gs x.
Proof.
  intros H Hb. remember (x ++ [b]) as y eqn:E. revert x E.
  assert (G : forall (P : str -> str -> Prop) gs z u x, z ++ u = x ++ [b] ->
    (forall y, u = y ++ [b] -> P z y) -> (forall y, z = y ++ [b] -> u = [] -> P y []) -> kept_gap c gs u ->
    exists z' u', x = z' ++ u' /\ P z' u').
  { intros P gs' z u x E H1 H2 _. apply app_eq_app in E as (l & [[-> E]|[-> ->]]).
    - destruct l as [|a l]; cbn in E.
      + subst u. exists x, []. rewrite app_nil_r in *. split; [reflexivity|]. now apply H1.
      + injection E as <- E. symmetry in E. apply app_eq_nil in E as [-> ->]. exists x, []. rewrite app_nil_r. split; [reflexivity|]. now apply H2.
    - exists z, l. split; [reflexivity|]. now apply H1. }
  induction H as [|z gs u Hz H IH|d gs u H IH|gs u H IH|g z gs u Hz H IH|g t gs u Ht H IH]; intros x E.
  - destruct x; discriminate.
  - destruct (G (fun z u => white c z /\ kept_gap c gs u) gs z u x E) as (z' & u' & -> & A & B); auto.
    + intros y -> ->. split; [eapply wh_cut; eauto|exact H].
    + now apply kg_white.
  - apply kg_blank. now apply IH.
  - apply kg_newline. now apply IH.
  - destruct (G (fun z u => cut_of (gitem_text g) z /\ kept_gap c gs u) gs z u x E) as (z' & u' & -> & A & B); auto.
    + intros y -> ->. split; [eapply cut_snoc; eauto|exact H].
    + now apply kg_same.
  - destruct (G (fun z u => z = comment_text c t /\ kept_gap c gs u) gs _ u x E) as (z' & u' & -> & -> & B); auto.
    + intros y E1 ->. apply comment_text_end in E1. destruct E1 as [-> | ->], Hb; discriminate.
    + now apply kg_comment.
Qed.
Lemma kept_verbatim c gs : kept_gap c gs (gap_text gs).
Proof.
  induction gs as [|g gs IH]; [constructor|]. change (gap_text (g :: gs)) with (gitem_text g ++ gap_text gs).
  apply kg_same; [|exact IH]. exists []. rewrite app_nil_r. auto.
Qed.

(** ** the spans of a comment tree *)
Definition group_span (g : cgroup) : loc := match g with GComments sp _ => sp | GNewLines sp _ => sp end.
Definition slot_span (s : cslot) : loc := match s with CSp l => l | CAt a => atom_span a end.
(** each slot starts where the one before it ends *)
Fixpoint chain (p : nat) (ss : list cslot) (e : nat) : Prop :=
  match ss with [] => p = e | s :: r => fst (slot_span s) = p /\ chain (snd (slot_span s)) r e end.
Lemma chain_app p a q b e : chain p a q -> chain q b e -> chain p (a ++ b) e.
Proof. revert p. induction a as [|s a IH]; intros p; cbn; [now intros ->|]. intros [H1 H2] H3. split; auto. Qed.
Definition gchain (g : cgroup) : Prop := group_slots g <> [] /\ chain (fst (group_span g)) (group_slots g) (snd (group_span g)).
Definition groups_chain (gs : list (loc * cgroup)) : Prop := Forall (fun x => gchain (snd x)) gs.
Definition cspans (x : sym) (lv : located cval) : Prop :=
  let '(l, v, r) := lv in
  match x with
  | T k => exists t, v = CVTok t /\ cterm_of t = k
  | NT n =>
      match cclass_of n with
      | KAtom => exists a, v = CVAtom a /\ atom_span a = (l, r)
      | KAtoms => exists its, v = CVAtoms its /\ chain l (atoms_slots its) r /\ atoms_slots its <> []
      | KGroup => exists g, v = CVGroup g /\ gchain g /\ group_span g = (l, r)
      | KGroups => exists gs, v = CVGroups gs /\ chain l (groups_slots gs) r /\ groups_chain gs
      | KVariants => exists gs, v = CVVariants (l, r) gs /\ chain l (groups_slots gs) r /\ groups_chain gs
      | KChunkC => exists t, v = CVChunk t /\ chain (fst (cc_locl t)) (chunk_slots t) (snd (cc_locr t)) /\ groups_chain (cc_groups t)
          /\ chain (fst (cc_span t)) (groups_slots (cc_groups t)) (snd (cc_span t)) /\ fst (cc_span t) = snd (cc_locl t)
      end
  end.
Lemma group_chain l g r : gchain g -> group_span g = (l, r) -> chain l (group_slots g) r.
Proof. unfold gchain. intros [_ H] E. now rewrite E in H. Qed.
Lemma cprod_spans p args l r : In p comment_prods -> Forall2 cspans (p_rhs p) args -> l = a_start args -> r = a_end args ->
  cspans (NT (p_lhs p)) (l, p_act p args, r).
Proof.
  intros Hp H El Er. unfold comment_prods in Hp.
  repeat (destruct Hp as [<-|Hp]; [cbn [p_rhs p_lhs p_act] in *; repeat match goal with
    | H : Forall2 _ (_ :: _) _ |- _ => inv H
    | H : Forall2 _ [] _ |- _ => inv H
    | v : located cval |- _ => destruct v as [[? ?] ?]
    end; unfold cspans in * |]); [.. |destruct Hp].
  all: repeat match goal with
    | H : context [cclass_of ?n] |- _ => let k := eval vm_compute in (cclass_of n) in change (cclass_of n) with k in H
    | |- context [cclass_of ?n] => let k := eval vm_compute in (cclass_of n) in change (cclass_of n) with k
    end; cbv iota beta in *.
  all: repeat match goal with
    | H : _ /\ _ |- _ => destruct H
    | H : exists _, _ |- _ => destruct H
    end; subst.
  all: repeat match goal with
    | H : cterm_of ?t = _ |- _ => first [destruct t; try discriminate H; clear H | fail]
    end.
  all: repeat match goal with H1 : gchain ?g, H2 : group_span ?g = _ |- _ => lazymatch goal with
    | _ : chain _ (group_slots g) _ |- _ => fail | _ => pose proof (group_chain _ _ _ H1 H2) end end.
  all: eexists; split; [reflexivity|].
  all: unfold groups_chain in *; cbn; repeat match goal with
    | |- _ /\ _ => split
    | |- Forall _ (_ ++ _) => apply Forall_app; split
    | |- Forall _ (_ :: _) => constructor
    | |- Forall _ [] => constructor
    end; cbn; try assumption; try reflexivity.
  all: rewrite ?groups_slots_app, ?atoms_slots_app, ?groups_slots_one, ?groups_slots_two.
  all: repeat match goal with
    | |- chain _ (_ ++ _) _ => eapply chain_app
    | |- chain _ (CSp _ :: _) _ => split; [reflexivity|]
    end; cbn; eauto.
  all: repeat match goal with H : atom_span _ = _ |- _ => rewrite H end; cbn; auto.
  all: try (unfold gchain; split; assumption).
  all: try discriminate.
  all: intros X; apply app_eq_nil in X as [_ X]; discriminate.
Qed.
Lemma chunk_spans ts t : sentence comment_grammar ts (CVChunk t) ->
  chain (fst (cc_locl t)) (chunk_slots t) (snd (cc_locr t)) /\ groups_chain (cc_groups t)
  /\ chain (fst (cc_span t)) (groups_slots (cc_groups t)) (snd (cc_span t)) /\ fst (cc_span t) = snd (cc_locl t).
Proof.
  intros (l & r & D).
  assert (G : (forall x w v, cderives x w v -> cspans x v) /\
    (forall xs w vs, derives_list comment_grammar xs w vs -> Forall2 cspans xs vs)).
  { apply (derives_both _ _ comment_grammar (fun x w v _ => cspans x v) (fun xs w vs _ => Forall2 cspans xs vs)).
    - intros l0 t0 r0. cbn. eauto.
    - intros p w args Hp _ IH. now apply cprod_spans.
    - constructor.
    - intros. now constructor. }
  apply G in D. cbn in D. destruct D as (t' & [= <-] & H). exact H.
Qed.
Lemma parse_spans s t : parse_comment s = Some t ->
  chain (fst (cc_locl t)) (chunk_slots t) (snd (cc_locr t)) /\ groups_chain (cc_groups t)
  /\ chain (fst (cc_span t)) (groups_slots (cc_groups t)) (snd (cc_span t)) /\ fst (cc_span t) = snd (cc_locl t).
Proof.
  unfold parse_comment. destruct (clex s) as [ts| |]; try discriminate. destruct (parse_ctokens ts) as [v| |] eqn:E; try discriminate.
  destruct v; try discriminate. intros [= <-]. apply parse_ctokens_correct in E. eapply chunk_spans; eauto.
Qed.

(** the slots of a tree are blanks and comments of its text *)
Definition in_text (buf : str) (s : cslot) : Prop :=
  cslot_ok buf s /\ fst (slot_span s) <= snd (slot_span s) /\ snd (slot_span s) <= List.length buf.
Lemma clay_in buf p ss e w : clay p ss e w -> forall q, q <= p -> p <= List.length buf -> CommentProofs.spaced buf q w -> (q = p \/ CommentProofs.begins w p) ->
  Forall (in_text buf) ss.
Proof.
  induction 1 as [p|p r|a b ss e w Hb H IH|l t r a ss e w Ha H IH]; intros q Hq Hp Hs Hqp; try constructor.
  - assert (G : cslot_ok buf (CSp (a, b))); [|split; [exact G|]; destruct G as (? & ? & _); auto].
    cbn [cslot_ok fst snd]. destruct Hb as [->|(t & r & w' & ->)].
    + rewrite text_at_empty. repeat split; auto. constructor.
    + cbn in Hs. destruct Hs as (S1 & S2 & S3 & S4 & S5). assert (a <= b).
      { destruct Hqp as [->|(? & ? & ? & E)]; [exact S1|]. injection E as -> _ _ _. lia. }
      repeat split; try lia. rewrite (text_at_split _ q a b) in S4 by lia. apply Forall_app in S4. apply S4.
  - destruct Hb as [->|(t & r & w' & ->)]; [eapply IH; eauto|].
    cbn in Hs. apply (IH q); [lia|lia|exact Hs|right; unfold CommentProofs.begins; eauto].
  - cbn in Hs. destruct Hs as (S1 & S2 & S3 & S4 & S5). split; [exact I|].
    assert (E : slot_span (CAt a) = (l, r)) by (destruct t; cbn in Ha; [| | |discriminate]; injection Ha as <-; reflexivity).
    rewrite E. cbn. auto.
  - cbn in Hs. destruct Hs as (S1 & S2 & S3 & S4 & S5). apply (IH r); auto.
Qed.
Lemma chain_text buf ss : Forall (in_text buf) ss -> forall p e, chain p ss e -> p <= List.length buf ->
  p <= e /\ e <= List.length buf /\ text_at buf p e = List.concat (map (fun s => text_at buf (fst (slot_span s)) (snd (slot_span s))) ss).
Proof.
  induction 1 as [|s ss (H0 & H1 & H2) F IH]; intros p e C Hp; cbn in C.
  - subst e. repeat split; auto. apply text_at_empty.
  - destruct C as [<- C]. destruct (IH _ _ C H2) as (I1 & I2 & I3). repeat split; [lia|lia|].
    cbn [map List.concat]. rewrite <- I3. apply text_at_split; lia.
Qed.

Lemma ascii_len s : ascii s -> blen s = List.length s.
Proof.
  induction 1 as [|a s Ha Hs IH]; [reflexivity|]. cbn. rewrite IH. enough (len_utf8 a = 1) by lia.
  unfold len_utf8. destruct (N.ltb_spec a 128); [reflexivity|lia].
Qed.
Lemma ascii_firstn n s : ascii s -> ascii (firstn n s).
Proof. intros H. rewrite <- (firstn_skipn n s) in H. apply Forall_app in H. apply H. Qed.
Lemma ascii_skipn n s : ascii s -> ascii (skipn n s).
Proof. intros H. rewrite <- (firstn_skipn n s) in H. apply Forall_app in H. apply H. Qed.
Lemma ascii_slice s a b : ascii s -> ascii (slice s a b).
Proof. intros H. unfold slice. now apply ascii_firstn, ascii_skipn. Qed.
(** a position in a piece of an ASCII text, cut out with the byte offsets of the whole text *)
Lemma substr_piece buf t a b st : c2b st = update_indexes buf -> ascii buf -> ascii t -> List.length t <= List.length buf ->
  a <= b <= List.length t -> substr (a, b) t st 0 = Some (text_at t a b).
Proof.
  intros E Hb Ht Hl Hab. destruct (list_eq_dec N.eq_dec buf []) as [->|Hn].
  - destruct t; [|cbn in Hl; lia]. cbn in Hab. assert (a = 0) as -> by lia. assert (b = 0) as -> by lia.
    unfold substr. rewrite E. reflexivity.
  - unfold substr. rewrite E. cbn [fst snd]. rewrite !Nat.add_0_r, !c2b_get by (auto; lia). cbn [firstn blen].
    rewrite !ascii_len by (now apply ascii_firstn). rewrite !firstn_length, !Nat.min_l by lia. cbn [Nat.leb andb]. rewrite !Nat.sub_0_r.
    pose proof (bslice_app (firstn a t) (slice t a b) (skipn b t)) as S. rewrite <- slice_parts in S by lia.
    rewrite (ascii_len (firstn a t)), (ascii_len (slice t a b)) in S by (auto using ascii_firstn, ascii_slice).
    rewrite slice_length, firstn_length, Nat.min_l in S by lia. replace (a + (b - a)) with b in S by lia. exact S.
Qed.

(** ** writing the tree *)
Section CommentRange.
  Variables (c : config) (buf : str) (off len : nat).
  Hypothesis Hlen : off + len <= List.length buf.
  Hypothesis Hascii : ascii buf.
  Let cbuf := slice buf off (off + len).
  Definition ISr (pr : option loc) (s : state) : Prop :=
    c2b s = update_indexes buf /\ pos_range s = pr /\ comment_offset s = off.
  Variable pr : option loc.

  Definition kL (s : cslot) (x : str) : Prop :=
    match s with
    | CSp l => white c x
    | CAt a => x = atom_text c a \/ cut_of (text_at cbuf (fst (atom_span a)) (snd (atom_span a))) x \/ (nl_atom a = true /\ x = [])
    end.
  Lemma kRL s x : kL s x -> kL s x. Proof. auto. Qed.
  Lemma kclosed : true = true -> forall s x b, kL s (x ++ [b]) -> blankc b -> kL s x.
  Proof.
    intros _ [l|a] x b H Hb; cbn in *; apply blankc_spec in Hb.
    - eapply wh_cut; eauto.
    - destruct H as [H|[H|[_ H]]].
      + rewrite atom_text_spec in H. symmetry in H. apply comment_text_end in H as [-> | ->]; destruct Hb; discriminate.
      + right; left. eapply cut_snoc; eauto.
      + destruct x; discriminate.
  Qed.
  Notation kwr := (wr kL kL true (ISr pr)).
  Lemma kbreakable l : breakable kL true c (CSp l).
  Proof.
    split; [reflexivity|]. cbn. split; intros; apply wh_app; auto; apply wh_filler; [now apply fl_newline|now apply filler_indent].
  Qed.
  Lemma cbuf_len : List.length cbuf = len. Proof. unfold cbuf. rewrite slice_length; lia. Qed.
  Lemma verbatim ss p e : Forall (in_text cbuf) ss -> chain p ss e -> p <= len ->
    p <= e /\ e <= len /\ renders kL kL true ss (text_at cbuf p e).
  Proof.
    intros F C Hp. destruct (chain_text cbuf ss F p e C) as (H1 & H2 & E); [now rewrite cbuf_len|]. rewrite cbuf_len in H2.
    repeat split; auto. rewrite E. clear E C H1 H2 Hp. induction F as [|s ss Hs F IH]; [apply renders_nil|].
    cbn [map List.concat]. apply (renders_app kL kL true [s] ss); [|exact IH]. apply renders_one.
    destruct Hs as [Hok _]. destruct s as [l|a]; cbn in *.
    - now apply white_blanks.
    - right; left. exists []. rewrite app_nil_r. auto.
  Qed.
  Lemma krange span (m : M unit) ss : Forall (in_text cbuf) ss -> chain (fst span) ss (snd span) -> fst span <= len ->
    kwr m ss -> kwr (comment_range_or cbuf span m) ss.
  Proof.
    intros F C Hp H. unfold comment_range_or. apply wr_get_st. intros s (Ec & _ & Eo). destruct (test_out_of_range _ _); [|exact H].
    destruct (verbatim ss _ _ F C Hp) as (H1 & H2 & R). apply wr_emit_opt. intros x. rewrite Eo. destruct span as [a b]. cbn [fst snd] in *.
    unfold cbuf. rewrite substr_block by (auto; lia). intros [= <-]. exact R.
  Qed.
  Lemma one_span s : in_text cbuf s -> chain (fst (slot_span s)) [s] (snd (slot_span s)) /\ fst (slot_span s) <= len.
  Proof. intros (_ & H1 & H2). rewrite cbuf_len in H2. cbn. repeat split; auto. lia. Qed.
  Lemma kspace l h : in_text cbuf (CSp l) -> white c h -> kwr (space_hint c cbuf l h) [CSp l].
  Proof.
    intros Hl Hh. unfold space_hint. destruct (one_span _ Hl) as [C Hp]. apply krange; auto.
    destruct (on c B_remove_spaces_between_tokens) eqn:E.
    - now apply wr_emit.
    - apply wr_get_st. intros s (Ec & _ & Eo). apply wr_emit_opt. intros x Ex. destruct Hl as ((H1 & H2 & H3) & _).
      rewrite cbuf_len in H2. rewrite Eo in Ex. destruct l as [a b]. cbn [fst snd] in *. unfold cbuf in Ex. rewrite substr_block in Ex by (auto; lia).
      injection Ex as <-. apply renders_one. cbn. now apply white_blanks.
  Qed.
  Lemma katom a : in_text cbuf (CAt a) -> kwr (write_atom c cbuf a) [CAt a].
  Proof. intros Ha. destruct (one_span _ Ha) as [C Hp]. apply krange; auto. apply wr_emit. now left. Qed.
  Lemma kloc l : in_text cbuf (CSp l) -> kwr (write_loc cbuf l) [CSp l].
  Proof.
    intros ((H1 & H2 & H3) & _). apply wr_get_st. intros s (Ec & _). apply wr_emit_opt. intros x Ex. destruct l as [a b]. cbn [fst snd] in *.
    rewrite (substr_piece buf) in Ex; auto.
    - injection Ex as <-. apply renders_one. now apply white_blanks.
    - now apply ascii_slice.
    - rewrite cbuf_len. lia.
  Qed.
  Lemma hint_white a : white c (atom_hint c a).
  Proof.
    destruct a; cbn; [| |apply white_nil]; unfold sopt_or; destruct (cs c S_hint_before_comment) eqn:E; try apply white_nil; apply wh_filler; now apply fl_before.
  Qed.
  Lemma katoms nn l : Forall (in_text cbuf) (atoms_slots l) ->
    kwr (write_list c cbuf (space_hint c cbuf) (write_atom c cbuf) nn (fun _ => ret false) (fun _ a => ret (atom_nl c a)) (atom_hint c) l)
      (atoms_slots l).
  Proof.
    intros H.
    eapply wr_eq.
    - apply (wr_write_list kL kL true kRL kclosed (ISr pr) c cbuf (space_hint c cbuf) (write_atom c cbuf) nn (fun _ => ret false)
               (fun _ a => ret (atom_nl c a)) (atom_hint c) (fun l _ => CSp l) (fun a => [CAt a]) (fun l => in_text cbuf (CSp l)) (fun a => in_text cbuf (CAt a))).
      + intros s p h _ _ Hp _. now apply kloc.
      + intros p h Hp Hh. apply kspace; [exact Hp|]. destruct Hh as [->|(x & ->)]; [apply white_nil|apply hint_white].
      + intros x Hx. now apply katom.
      + auto.
      + intros. apply quiet_ret.
      + intros. apply quiet_ret.
      + intros. apply kbreakable.
      + intros. apply kbreakable.
      + clear -H. induction l as [|[p x] l IH]; constructor; cbn in H; inversion H as [|? ? H1 H2]; subst; inversion H2; subst; auto.
    - destruct l as [|[p x] l]; [reflexivity|]. cbn. f_equal.
  Qed.
  Lemma chain_head ss p e : Forall (in_text cbuf) ss -> chain p ss e -> ss <> [] -> p <= len.
  Proof. intros F C Hn. destruct F as [|s ss (_ & H1 & H2) F]; [congruence|]. destruct C as [<- _]. rewrite cbuf_len in H2. lia. Qed.
  Lemma kgroup g : Forall (in_text cbuf) (group_slots g) -> gchain g -> kwr (write_group c cbuf g) (group_slots g).
  Proof.
    intros H [Hn C]. pose proof (chain_head _ _ _ H C Hn) as Hp.
    destruct g; cbn in *; apply krange; auto; apply (wr_then_ret _ _ _ kRL kclosed); now apply katoms.
  Qed.
  Lemma kvariants sp gs : Forall (in_text cbuf) (groups_slots gs) -> groups_chain gs -> groups_kind gs ->
    chain (fst sp) (groups_slots gs) (snd sp) -> fst sp <= len ->
    kwr (write_variants c cbuf sp gs) (groups_slots gs).
  Proof.
    intros H Hc Hk C Hp. apply krange; auto.
    destruct (on c B_remove_single_newlines && match gs with [(_, GNewLines _ [_])] => true | _ => false end) eqn:El.
    - apply wr_ret_r. apply andb_true_iff in El as [_ El].
      destruct gs as [|[p [|q [|[r a] [|]]]] [|]]; try discriminate. cbn.
      apply (renders_app kL kL true [CSp p] [CSp r; CAt a] [] []); [apply renders_one; apply white_nil|].
      apply (renders_app kL kL true [CSp r] [CAt a] [] []); [apply renders_one; apply white_nil|].
      apply renders_one. right; right. split; [|reflexivity].
      inversion Hk as [|? ? Hg _]; subst. cbn in Hg. inversion Hg; subst. auto.
    - apply (wr_then_ret _ _ _ kRL kclosed). eapply wr_eq.
      + apply (wr_write_list kL kL true kRL kclosed (ISr pr) c cbuf (space_hint c cbuf) (write_group c cbuf) true (fun g => ret (group_first_nl c g))
               (fun _ g => ret (group_nl c g)) (fun _ => []) (fun l _ => CSp l) group_slots (fun l => in_text cbuf (CSp l))
               (fun g => Forall (in_text cbuf) (group_slots g) /\ gchain g)).
        * intros s p h _ _ Hp' _. now apply kloc.
        * intros p h Hp' Hh. apply kspace; [exact Hp'|]. destruct Hh as [->|(x & ->)]; apply white_nil.
        * intros x (H1 & H2). now apply kgroup.
        * auto.
        * intros. apply quiet_ret.
        * intros. apply quiet_ret.
        * intros. apply kbreakable.
        * intros. apply kbreakable.
        * clear -H Hc. induction gs as [|[p x] l IH]; constructor; cbn in H; inversion H as [|? ? H1 H2]; subst;
            apply Forall_app in H2 as [H2 H3]; inversion Hc; subst; auto.
      + destruct gs as [|[p x] l]; [reflexivity|]. cbn. f_equal.
  Qed.
  Lemma kchunk t : Forall (in_text cbuf) (chunk_slots t) -> groups_kind (cc_groups t) ->
    chain (fst (cc_locl t)) (chunk_slots t) (snd (cc_locr t)) -> groups_chain (cc_groups t) ->
    chain (fst (cc_span t)) (groups_slots (cc_groups t)) (snd (cc_span t)) -> fst (cc_span t) = snd (cc_locl t) ->
    kwr (write_cchunk c cbuf t) (chunk_slots t).
  Proof.
    intros H Hk C Hg Cs El. pose proof (chain_head _ _ _ H C) as Hp. unfold chunk_slots in H. inversion H as [|? ? H1 H2]; subst.
    apply Forall_app in H2 as [H2 H3]. inversion H3 as [|? ? H4 _]; subst. apply krange; auto.
    - apply Hp. discriminate.
    - apply (wr_bind _ _ _ kRL kclosed _ _ _ [CSp (cc_locl t)]); [apply kspace; auto using white_nil|intros _].
      apply (wr_bind _ _ _ kRL kclosed _ _ _ (groups_slots (cc_groups t))); [|intros _; apply kspace; auto using white_nil].
      apply kvariants; auto. destruct H1 as (_ & _ & X). rewrite cbuf_len in X. cbn in X. lia.
  Qed.
End CommentRange.

(** ** the text of the comments *)
Lemma next_token E l t r w : forall gs p pre buf, comment_tokens p gs ++ E = (l, t, r) :: w -> buf = pre ++ gap_text gs -> p = List.length pre ->
  (gap_tokens gs = [] /\ E = (l, t, r) :: w)
  \/ exists bs g gs' pre', gs = bs ++ g :: gs' /\ Forall (fun b => exists d, b = GBlank d) bs /\ comment_token g = Some t /\
       text_at buf l r = gitem_text g /\ w = comment_tokens r gs' ++ E /\ buf = pre' ++ gap_text gs' /\ r = List.length pre'.
Proof.
  induction gs as [|g gs IH]; intros p pre buf H Eb Ep; cbn in H; [left; auto|].
  assert (Eb' : buf = (pre ++ gitem_text g) ++ gap_text gs) by (now rewrite Eb, <- app_assoc).
  destruct (comment_token g) as [t'|] eqn:Et.
  - cbn in H. injection H as -> -> Er Ew. right. exists [], g, gs, (pre ++ gitem_text g). rewrite <- Er.
    assert (Ex : text_at buf l (l + List.length (gitem_text g)) = gitem_text g).
    { rewrite Eb. cbn [gap_text flat_map]. apply text_at_mid; auto. }
    repeat split; auto. rewrite app_length. lia.
  - destruct (IH _ (pre ++ gitem_text g) buf H Eb') as [[H1 H2]|(bs & g' & gs' & pre' & -> & H1 & H2)]; [rewrite app_length; lia| |].
    + left. split; [|exact H2]. unfold gap_tokens. cbn [flat_map]. now rewrite Et.
    + right. exists (g :: bs), g', gs', pre'. split; [reflexivity|]. split; [|exact H2]. constructor; [|exact H1].
      destruct g; try discriminate. eauto.
Qed.
Lemma kept_blanks c bs gs x : Forall (fun b => exists d, b = GBlank d) bs -> kept_gap c gs x -> kept_gap c (bs ++ gs) x.
Proof. intros H Hx. induction H as [|b bs (d & ->) H IH]; [exact Hx|]. cbn. now apply kg_blank. Qed.
Lemma kept_none c gs : gap_tokens gs = [] -> kept_gap c gs [].
Proof.
  induction gs as [|g gs IH]; intros H; [constructor|]. unfold gap_tokens in H. cbn [flat_map] in H. apply app_eq_nil in H as [H1 H2].
  destruct g; try discriminate. apply kg_blank. now apply IH.
Qed.
Lemma slots_kept c buf off len ss p e w : clay p ss e w -> forall gs pre n, w = comment_tokens (List.length pre) gs ++ [(n, CEOF, n)] ->
  slice buf off (off + len) = pre ++ gap_text gs ->
  forall xs, Forall2 (kL c buf off len) ss xs -> kept_gap c gs (List.concat xs).
Proof.
  induction 1 as [p|p r|a b ss e w Hb H IH|l t r a ss e w Ha H IH]; intros gs pre n Ew Eb xs F.
  - destruct (comment_tokens _ gs); discriminate.
  - inversion F; subst. cbn. symmetry in Ew. eapply next_token in Ew as [[H _]|(bs & g & gs' & pre' & -> & _ & Hg & _ & Ew & _)]; eauto.
    + now apply kept_none.
    + destruct (comment_tokens r gs'); discriminate.
  - inversion F as [|? x ? xs' Hx F']; subst. cbn [List.concat]. apply kg_white; [exact Hx|]. eapply IH; eauto.
  - inversion F as [|? x ? xs' Hx F']; subst. cbn [List.concat]. symmetry in Ew.
    eapply next_token in Ew as [[_ Ew]|(bs & g & gs' & pre' & -> & Hbs & Hg & Ex & Ew & Eb' & Er)]; eauto.
    { injection Ew; intros; subst. discriminate. }
    apply kept_blanks; [exact Hbs|]. subst r. specialize (IH gs' pre' n Ew Eb' xs' F').
    assert (Et : atom_token a = t) by (destruct t; cbn in Ha; [| | |discriminate]; injection Ha as <-; reflexivity).
    assert (Es : atom_span a = (l, List.length pre')) by (destruct t; cbn in Ha; [| | |discriminate]; injection Ha as <-; reflexivity).
    cbn in Hx. destruct Hx as [->|[Hx|[Hn ->]]].
    + rewrite atom_text_spec, Et. now apply kg_comment.
    + rewrite Es in Hx. cbn [fst snd] in Hx. rewrite Ex in Hx. now apply kg_same.
    + destruct a; try discriminate. cbn in Et. subst t. cbn. destruct g; try discriminate. now apply kg_newline.
Qed.

Definition ISp (buf : str) (pr : option loc) (s : state) : Prop := c2b s = update_indexes buf /\ pos_range s = pr.
Lemma comment_hint_ranged c buf pr l h gs w a w' : fst l <= snd l -> snd l <= List.length buf -> last_gap gs -> ascii buf ->
  text_at buf (fst l) (snd l) = gap_text gs -> ISp buf pr (w_st w) ->
  comment_hint c buf l h w = (ROk a, w') ->
  ISp buf pr (w_st w') /\ exists b, w_f w' = w_f w ++ b /\ (b = gap_text gs \/ exists b0, kept_gap c gs b0 /\ b = formatted_block c h b0).
Proof.
  intros H1 H2 Hg Ha Et [I1 I2]. destruct l as [x y]. cbn [fst snd] in *. unfold comment_hint. unfold bind at 1, get_st at 1.
  destruct (substr_code buf x y (w_st w) I1) as [S _]. rewrite S by lia. replace (slice buf x y) with (gap_text gs) by (symmetry; exact Et).
  destruct (test_out_of_range (pos_range (w_st w)) (x, y)).
  { cbn. intros [= _ <-]. cbn. split; [split; assumption|]. exists (gap_text gs). auto. }
  destruct (parse_gap gs Hg) as (t & Ep & Cl). rewrite Ep. cbn [fst].
  pose proof (parse_kind _ _ Ep) as HK. pose proof (parse_spans _ _ Ep) as (P1 & P2 & P3 & P4).
  pose proof (last_gap_ok gs Hg) as [Hok _].
  assert (Esl : slice buf x (x + (y - x)) = gap_text gs) by (rewrite <- Et; unfold slice, text_at; do 2 f_equal; lia).
  assert (Hin : Forall (in_text (gap_text gs)) (chunk_slots t)).
  { eapply clay_in; [exact Cl|apply le_n|lia| |now left]. apply (spaced_gap gs Hok []); auto. rewrite text_at_empty. constructor. }
  unfold bind at 1, put_st at 1. unfold bind at 1, get_f at 1. cbn [set_st w_f].
  set (d := match lastc (w_f w) with Some x0 => x0 | None => ch_sp end).
  set (w1 := set_st _ w).
  unfold bind, in_buffer.
  assert (C : wr (kL c buf x (y - x)) (kL c buf x (y - x)) true (ISr buf x pr) (write_cchunk c (gap_text gs) t) (chunk_slots t)).
  { rewrite <- Esl. apply kchunk; auto; [lia|]. now rewrite Esl. }
  destruct (write_cchunk c (gap_text gs) t (set_f [d] w1)) as [[u| | |] w2] eqn:E; try discriminate.
  assert (I0 : ISr buf x pr (w_st (set_f [d] w1))) by (split; [exact I1|]; split; [exact I2|]; reflexivity).
  destruct (C _ _ _ I0 E) as [(J1 & J2 & J3) A]. cbn [set_f w_f] in A.
  apply adds_from_one in A as (b & Eb & Hb). rewrite Eb.
  destruct (bslice (d :: b) 1 (blen (d :: b))) as [b'|] eqn:Ebs; [|discriminate]. apply bslice_cut in Ebs as ->.
  intros [= _ <-]. cbn [set_f w_f w_st]. split; [split; assumption|]. eexists. split; [reflexivity|]. right. exists b. split; [|reflexivity].
  apply rn_loose in Hb as (xs & F & ->); [|auto]. eapply (slots_kept c buf x (y - x)); [exact Cl| |rewrite Esl; exact (eq_refl ([] ++ gap_text gs))|exact F].
  reflexivity.
Qed.
