(** The text written for a gap is the one of the specification. *)
From Verif Require Import Base Lib Config State Ast LuaLexer CommentLexer LR LRSpec CommentGrammar CommentTables CommentParser ParserProofs WriterBase LexSpec CommentSpec
  CommentProofs UtilProofs RenderSpec WriterFrame LayoutSpec GapProofs PrettySpec.

(** ** small functions *)
Lemma sp_tab_eq x : is_sp_tab x = sp_tab x. Proof. reflexivity. Qed.
Lemma drop_blanks_eq s : drop_while is_sp_tab s = drop_blanks s.
Proof. induction s as [|x s IH]; cbn; [reflexivity|]. rewrite sp_tab_eq. now destruct (sp_tab x). Qed.
Lemma trim_eq s : trim_end_spaces_and_tabs s = without_end_blanks s.
Proof. unfold trim_end_spaces_and_tabs. now rewrite drop_blanks_eq. Qed.
Lemma lastc_rev f : lastc f = match rev f with x :: _ => Some x | [] => None end.
Proof. unfold lastc. now destruct (rev f). Qed.
Lemma ends_nl_eq f : ends_nl f = ends_line f.
Proof. unfold ends_nl, ends_line. rewrite lastc_rev. now destruct (rev f). Qed.
Lemma blen_pos x : 1 <= len_utf8 x.
Proof. unfold len_utf8. repeat destruct (N.ltb _ _); lia. Qed.
Lemma blen_app' x y : blen (x ++ y) = blen x + blen y.
Proof. induction x; cbn; lia. Qed.
Lemma sp_tab_len x : sp_tab x = true -> len_utf8 x = 1.
Proof. unfold sp_tab. rewrite orb_true_iff, !N.eqb_eq. intros [-> | ->]; reflexivity. Qed.
Lemma pop_blank_eq f : pop_blank f = without_last_blank f.
Proof.
  unfold pop_blank, without_last_blank. destruct (rev f) as [|x [|y r]] eqn:E; apply (f_equal (@rev _)) in E; rewrite rev_involutive in E;
    cbn [rev app] in E; subst f.
  - reflexivity.
  - rewrite sp_tab_eq. destruct (sp_tab x) eqn:E; [|destruct (1 <? blen [x]); reflexivity]. cbn [blen]. now rewrite (sp_tab_len x E).
  - rewrite sp_tab_eq, !blen_app'. cbn [blen]. pose proof (blen_pos x). pose proof (blen_pos y).
    replace (1 <? _) with true by (symmetry; apply Nat.ltb_lt; lia). reflexivity.
Qed.
Lemma indent_eq c s d : Z.to_nat (indent_level s) = d -> indent_text c s = indentation c d.
Proof.
  intros E. unfold indent_text, indentation. rewrite E. destruct (cs c S_indentation_string) as [t|]; [|reflexivity].
  clear E. induction d as [|d IH]; cbn; [reflexivity|]. now rewrite IH.
Qed.
Lemma has_newlines_eq s : has_newlines s = existsb (N.eqb 10) s.
Proof. unfold has_newlines. induction s as [|x s IH]; cbn; [reflexivity|]. rewrite IH. unfold ceq, ch_nl. now rewrite N.eqb_sym. Qed.
Lemma line_length_eq f : get_len_after_newline f = line_length f.
Proof.
  unfold get_len_after_newline, line_length. induction (rev f) as [|x r IH]; cbn; [reflexivity|].
  rewrite IH. unfold not_nl, ceq, ch_nl. destruct (N.eqb x 10); reflexivity.
Qed.
Lemma dressed_eq c h b : formatted_block c h b = dressed c h b.
Proof.
  unfold formatted_block, dressed. destruct b as [|x b]; [reflexivity|]. rewrite lastc_rev.
  destruct (rev (x :: b)); reflexivity.
Qed.
Lemma last_char_eq f : match lastc f with Some x => x | None => ch_sp end = last_char f.
Proof. unfold last_char. rewrite lastc_rev. now destruct (rev f). Qed.

(** a line break: [if_newline] after the block [b] *)
Definition nl_text (c : config) (d : nat) (f b : str) : str := break_line c d f b.
Lemma if_newline_true' c H hint w b w1 d : in_buffer [] (H []) w = (ROk b, w1) -> w_f w1 = w_f w ->
  Z.to_nat (indent_level (w_st w1)) = d ->
  if_newline c true H hint w = (ROk tt, set_f (break_line c d (w_f w) b) w1).
Proof.
  intros Eb Ef Ei. unfold if_newline. cbn [negb]. unfold bind at 1. rewrite Eb. cbn [fst snd].
  rewrite trim_eq. unfold break_line. destruct (without_end_blanks b) as [|x t] eqn:Et; cbn [is_empty negb].
  - unfold bind, write_indent, get_st, emit. cbn [set_f w_f w_st w_oneline w_indent]. unfold bind. cbn [set_f w_f w_st w_oneline w_indent].
    rewrite pop_blank_eq, ends_nl_eq, (indent_eq c (w_st w1) d Ei), Ef. destruct (ends_line _); cbn [app].
    + now rewrite ?app_nil_r.
    + reflexivity.
  - unfold bind, write_indent, get_st, emit, ret. rewrite ends_nl_eq. destruct (ends_line (x :: t));
      cbn [set_f w_f w_st w_oneline w_indent]; unfold bind; cbn [set_f w_f w_st w_oneline w_indent];
      rewrite (indent_eq c (w_st w1) d Ei), Ef, ?app_nil_r, <- ?app_assoc; reflexivity.
Qed.
Lemma if_newline_true c H hint w b w1 d : in_buffer [] (H []) w = (ROk b, w1) -> w_f w1 = w_f w ->
  indent_level (w_st w1) = Z.of_nat d ->
  if_newline c true H hint w = (ROk tt, set_f (break_line c d (w_f w) b) w1).
Proof. intros A B E. apply if_newline_true'; auto. now rewrite E, Nat2Z.id. Qed.

(** ** the comment tree *)
Definition newlines_group (g : cgroup) : bool := match g with GNewLines _ _ => true | GComments _ _ => false end.
Definition empty_loc (l : loc) : Prop := fst l = snd l.
Definition heads_empty {A} (l : list (loc * A)) : Prop := match l with [] => False | x :: _ => empty_loc (fst x) end.
Definition group_atoms (g : cgroup) : list (loc * catom) := match g with GComments _ l => l | GNewLines _ l => l end.
Definition good_group (g : cgroup) : Prop := heads_empty (group_atoms g).
Fixpoint alternate (k : bool) (l : list (loc * cgroup)) : Prop :=
  match l with [] => True | x :: r => newlines_group (snd x) = k /\ good_group (snd x) /\ alternate (negb k) r end.
Lemma alternate_app k a b : Nat.even (List.length a) = true -> alternate k a -> alternate k b -> alternate k (a ++ b).
Proof.
  intros E. revert k. remember (List.length a) as n eqn:En. revert a En E. induction n as [n IH] using (well_founded_induction lt_wf).
  intros [|x [|y a]] -> E k; [auto|discriminate|]. intros (A1 & A2 & A3 & A4 & A5) B. cbn [app alternate].
  rewrite negb_involutive in *. repeat split; auto. eapply IH; [|reflexivity|exact E| |]; cbn; auto.
Qed.

Definition cgood (x : sym) (v : cval) : Prop :=
  match x with
  | T k => True
  | NT n =>
      match cclass_of n with
      | KAtom => True
      | KAtoms => exists l, v = CVAtoms l /\ heads_empty l
      | KGroup => exists g, v = CVGroup g /\ good_group g /\ newlines_group g = N.eqb n cn_NewLineList
      | KGroups => exists gs, v = CVGroups gs /\ heads_empty gs
          /\ alternate (N.eqb n cn_AltNC || N.eqb n cn_HelperNC) gs
          /\ (N.eqb n cn_HelperCN || N.eqb n cn_HelperNC = true -> Nat.even (List.length gs) = true)
      | KVariants => exists sp gs, v = CVVariants sp gs /\ heads_empty gs /\ exists k, alternate k gs
      | KChunkC => exists t, v = CVChunk t /\ (cc_groups t = [] \/ heads_empty (cc_groups t)) /\ exists k, alternate k (cc_groups t)
      end
  end.
Lemma heads_app {A} (a b : list (loc * A)) : heads_empty a -> heads_empty (a ++ b).
Proof. destruct a; cbn; tauto. Qed.
Lemma cprod_good p args : In p comment_prods -> Forall2 (fun x v => cgood x (snd (fst v))) (p_rhs p) args ->
  cgood (NT (p_lhs p)) (p_act p args).
Proof.
  intros Hp H. unfold comment_prods in Hp.
  repeat (destruct Hp as [<-|Hp]; [cbn [p_rhs p_lhs p_act] in *; repeat match goal with
    | H : Forall2 _ (_ :: _) _ |- _ => inv H
    | H : Forall2 _ [] _ |- _ => inv H
    | v : (nat * cval * nat)%type |- _ => destruct v as [[? ?] ?]
    end; cbn [fst snd] in *; unfold cgood in * |]); [.. |destruct Hp].
  all: repeat match goal with
    | H : context [cclass_of ?n] |- _ => let k := eval vm_compute in (cclass_of n) in change (cclass_of n) with k in H
    | |- context [cclass_of ?n] => let k := eval vm_compute in (cclass_of n) in change (cclass_of n) with k
    end; cbv iota beta in *.
  all: repeat match goal with
    | H : _ /\ _ |- _ => destruct H
    | H : exists _, _ |- _ => destruct H
    end; subst.
  all: repeat match goal with
    | H : context [N.eqb ?a ?b] |- _ => let k := eval vm_compute in (N.eqb a b) in change (N.eqb a b) with k in H
    | |- context [N.eqb ?a ?b] => let k := eval vm_compute in (N.eqb a b) in change (N.eqb a b) with k
    end; cbn [orb] in *.
  all: try exact Logic.I.
  all: repeat match goal with H : true = true -> _ |- _ => specialize (H eq_refl) end.
  all: first [do 2 eexists; split; [reflexivity|] | eexists; split; [reflexivity|]].
  all: cbn; repeat match goal with |- _ /\ _ => split end; try discriminate; try reflexivity; try assumption; try (now left); try (now right); eauto.
  all: try (now apply heads_app).
  all: try (apply alternate_app; auto; cbn; auto).
  all: try (now exists true).
  all: intros _; rewrite app_length, Nat.even_add; cbn [List.length Nat.even];
    match goal with H : Nat.even _ = true |- _ => rewrite H; reflexivity end.
Qed.

Lemma chunk_good ts t : sentence comment_grammar ts (CVChunk t) ->
  (cc_groups t = [] \/ heads_empty (cc_groups t)) /\ exists k, alternate k (cc_groups t).
Proof.
  intros (l & r & D).
  assert (G : (forall x w v, cderives x w v -> cgood x (snd (fst v))) /\
    (forall xs w vs, derives_list comment_grammar xs w vs -> Forall2 (fun x v => cgood x (snd (fst v))) xs vs)).
  { apply (derives_both _ _ comment_grammar (fun x w v _ => cgood x (snd (fst v))) (fun xs w vs _ => Forall2 (fun x v => cgood x (snd (fst v))) xs vs)).
    - intros l0 t0 r0. exact Logic.I.
    - intros p w args Hp _ IH. cbn [fst snd]. now apply cprod_good.
    - constructor.
    - intros. now constructor. }
  apply G in D. cbn in D. destruct D as (t' & [= <-] & H). exact H.
Qed.
Lemma parse_good s t : parse_comment s = Some t ->
  (cc_groups t = [] \/ heads_empty (cc_groups t)) /\ exists k, alternate k (cc_groups t).
Proof.
  unfold parse_comment. destruct (clex s) as [ts| |]; try discriminate. destruct (parse_ctokens ts) as [v| |] eqn:E; try discriminate.
  destruct v; try discriminate. intros [= <-]. apply parse_ctokens_correct in E. eapply chunk_good; eauto.
Qed.

(** ** units of slots *)
Fixpoint slot_units (buf b : str) (ss : list cslot) : list (str * ctoken) * str :=
  match ss with
  | [] => ([], b)
  | CSp l :: r => slot_units buf (b ++ text_at buf (fst l) (snd l)) r
  | CAt a :: r => let u := slot_units buf [] r in ((b, atom_token a) :: fst u, snd u)
  end.
Definition flat (u : list (str * ctoken) * str) : str := flat_map (fun x => fst x ++ [10%N]) (fst u) ++ snd u.
Definition plain_units (u : list (str * ctoken) * str) : Prop := Forall (fun x => ~ In 10%N (fst x)) (fst u) /\ ~ In 10%N (snd u).
Lemma split_10 (a b x y : str) : ~ In 10%N a -> ~ In 10%N b -> a ++ 10%N :: x = b ++ 10%N :: y -> a = b /\ x = y.
Proof.
  revert b. induction a as [|p a IH]; intros [|q b] Ha Hb E; cbn in *.
  - now injection E.
  - injection E as E _. elim Hb. now left.
  - injection E as E _. elim Ha. now left.
  - injection E as -> E. apply IH in E as [-> ->]; tauto.
Qed.
Lemma flat_inj u v : plain_units u -> plain_units v -> map snd (fst u) = map snd (fst v) -> flat u = flat v -> u = v.
Proof.
  destruct u as [u e], v as [v g]. unfold plain_units, flat. cbn [fst snd]. intros [A1 A2]. revert v. induction A1 as [|[b t] u Hb A1 IH]; intros [|[b' t'] v] [B1 B2] Et Ef; try discriminate.
  - cbn in Ef. now subst.
  - cbn [map snd fst flat_map] in *. injection Et as -> Et. rewrite <- !app_assoc in Ef. cbn [app] in Ef.
    inversion B1 as [|? ? Hb' B1']; subst. cbn [fst] in Hb'. apply split_10 in Ef as [-> Ef]; auto.
    assert (E : (u, e) = (v, g)) by (apply IH; auto). now injection E as -> ->.
Qed.
Lemma not_10 s : blanks s -> ~ In 10%N s.
Proof. intros H Hin. unfold blanks in H. rewrite Forall_forall in H. apply H in Hin. discriminate. Qed.
Lemma blanks_app a b : blanks a -> blanks b -> blanks (a ++ b).
Proof. intros. now apply Forall_app. Qed.
Lemma slot_units_plain buf ss : Forall (cslot_ok buf) ss -> forall b, blanks b -> plain_units (slot_units buf b ss).
Proof.
  induction 1 as [|[l|a] ss Hs _ IH]; intros b Hb; cbn [slot_units].
  - split; [constructor|now apply not_10].
  - apply IH. apply blanks_app; [exact Hb|]. apply Hs.
  - destruct (IH [] (Forall_nil _)) as [I1 I2]. split; cbn [fst snd]; [constructor|]; auto. now apply not_10.
Qed.
Lemma slot_units_flat buf ss : forall b, flat (slot_units buf b ss) = b ++ flat_map (slot_text buf (fun _ => [10%N])) ss.
Proof.
  induction ss as [|[l|a] ss IH]; intros b; cbn [slot_units flat_map slot_text].
  - unfold flat. cbn. now rewrite app_nil_r.
  - rewrite IH. now rewrite <- app_assoc.
  - specialize (IH []). cbn [app] in IH. rewrite <- IH. unfold flat. cbn [fst snd flat_map]. now rewrite <- !app_assoc.
Qed.
Lemma slot_units_tokens buf ss : forall b, map snd (fst (slot_units buf b ss)) = map atom_token (catoms ss).
Proof.
  induction ss as [|[l|a] ss IH]; intros b; cbn [slot_units catoms map]; [reflexivity|apply IH|]. cbn [fst map snd]. f_equal. apply IH.
Qed.
Lemma units_plain gs : Forall gitem_ok gs -> forall b, blanks b -> plain_units (units b gs).
Proof.
  induction 1 as [|g gs Hg _ IH]; intros b Hb; [split; [constructor|now apply not_10]|].
  destruct (IH [] (Forall_nil _)) as [I1 I2].
  destruct g; cbn [units comment_token]; try (split; cbn [fst snd]; [constructor|]; auto; now apply not_10).
  apply IH. apply blanks_app; [exact Hb|]. constructor; [now apply gitem_blank|constructor].
Qed.
Lemma units_flat gs : forall b, flat (units b gs) = b ++ flat_map (item_text (fun _ => [10%N])) gs.
Proof.
  induction gs as [|g gs IH]; intros b; [unfold flat; cbn; now rewrite app_nil_r|].
  destruct g; cbn [units comment_token flat_map]; unfold item_text at 1; cbn [comment_token gitem_text];
    try (specialize (IH []); cbn [app] in IH; rewrite <- IH; unfold flat; cbn [fst snd flat_map]; now rewrite <- !app_assoc).
  rewrite IH. now rewrite <- app_assoc.
Qed.
Lemma units_tokens gs : forall b, map snd (fst (units b gs)) = gap_tokens gs.
Proof.
  induction gs as [|g gs IH]; intros b; [reflexivity|].
  destruct g; cbn [units comment_token]; unfold gap_tokens; cbn [flat_map comment_token app]; try (cbn [fst map snd]; f_equal); apply IH.
Qed.
Lemma tree_units gs t : last_gap gs -> parse_comment (gap_text gs) = Some t ->
  slot_units (gap_text gs) [] (chunk_slots t) = units [] gs.
Proof.
  intros Hg Ep. destruct (comment_tree gs Hg) as (t' & Et & Hok & Ha & Ht). assert (t' = t) as -> by congruence.
  pose proof (last_gap_ok gs Hg) as [Hi _].
  apply flat_inj.
  - apply slot_units_plain; [exact Hok|constructor].
  - apply units_plain; [exact Hi|constructor].
  - now rewrite slot_units_tokens, units_tokens.
  - now rewrite slot_units_flat, units_flat, Ht.
Qed.

(** ** running the comment writer *)
Lemma kept_app c a b : kept_blanks c (a ++ b) = kept_blanks c a ++ kept_blanks c b.
Proof. unfold kept_blanks. now destruct (on c _). Qed.
Lemma set_f_same w : set_f (w_f w) w = w. Proof. now destruct w. Qed.

Section Run.
  Variables (c : config) (buf : str) (off len d : nat).
  Hypothesis Hlen : off + len <= List.length buf.
  Let cbuf := slice buf off (off + len).
  Definition ISd (s : state) : Prop := ISc buf off s /\ Z.to_nat (indent_level s) = d.
  Definition runs {A} (m : M A) (F : str -> str) : Prop :=
    forall w, ISd (w_st w) -> exists a, m w = (ROk a, set_f (F (w_f w)) w).

  Lemma runs_ret {A} (a : A) : runs (ret a) (fun f => f).
  Proof. intros w I. exists a. now rewrite set_f_same. Qed.
  Lemma runs_emit s : runs (emit s) (fun f => f ++ s).
  Proof. intros w I. now exists tt. Qed.
  Lemma runs_bind {A B} (m : M A) (k : A -> M B) F G : runs m F -> (forall a, runs (k a) G) -> runs (bind m k) (fun f => G (F f)).
  Proof.
    intros Hm Hk w I. destruct (Hm w I) as [a E]. unfold bind. rewrite E. destruct (Hk a (set_f (F (w_f w)) w) I) as [b E2]. exists b. exact E2.
  Qed.
  Lemma runs_ext {A} (m : M A) F G : (forall f, F f = G f) -> runs m F -> runs m G.
  Proof. intros E H w I. destruct (H w I) as [a Ea]. exists a. now rewrite Ea, E. Qed.
  Lemma runs_get {A} (k : state -> M A) F : (forall s, ISd s -> runs (k s) F) -> runs (bind get_st k) F.
  Proof. intros H w I. exact (H (w_st w) I w I). Qed.
  Lemma runs_val {A B} (v : A) (k : A -> M B) F : runs (k v) F -> runs (bind (ret v) k) F.
  Proof. intros H. exact H. Qed.
  Lemma runs_range span (m : M unit) F : runs m F -> runs (comment_range_or cbuf span m) F.
  Proof.
    intros H. unfold comment_range_or. apply runs_get. intros s ((_ & _ & E & _) & _). rewrite E. exact H.
  Qed.

  Definition sptext (l : loc) (h : str) : str := if on c B_remove_spaces_between_tokens then h else text_at cbuf (fst l) (snd l).
  Lemma runs_space l h : cslot_ok cbuf (CSp l) -> runs (space_hint c cbuf l h) (fun f => f ++ sptext l h).
  Proof.
    intros (H1 & H2 & H3). unfold space_hint. apply runs_range. unfold sptext.
    destruct (on c B_remove_spaces_between_tokens); [apply runs_emit|].
    apply runs_get. intros s ((Ec & _ & _ & Eo) & _).
    assert (Hcl : List.length cbuf = len) by (unfold cbuf; rewrite slice_length; lia).
    rewrite Eo. destruct l as [x y]. cbn [fst snd] in *. unfold cbuf. rewrite substr_block by (auto; lia). apply runs_emit.
  Qed.
  Definition step (b : bool) (l : loc) (h f : str) : str := if b then break_line c d f (sptext l []) else f ++ sptext l h.
  Lemma runs_nl b l h : cslot_ok cbuf (CSp l) -> runs (if_newline c b (space_hint c cbuf l) h) (step b l h).
  Proof.
    intros Hl. unfold step. destruct b; [|now apply runs_space].
    intros w I. destruct (runs_space l [] Hl (set_f [] w) I) as [a E]. exists tt.
    eapply if_newline_true' with (b := sptext l []).
    - unfold in_buffer. rewrite E. destruct w; reflexivity.
    - reflexivity.
    - apply I.
  Qed.

  Section Items.
    Context {X : Type}.
    Variables (W : X -> M unit) (nn : bool) (first nl : X -> bool) (hint : X -> str) (F : X -> str -> str) (ok : X -> Prop).
    Hypothesis HW : forall x, ok x -> runs (W x) (F x).
    Fixpoint lrest (l : list (loc * X)) (f : str) : str :=
      match l with [] => f | x :: r => lrest r (F (snd x) (step (nn && nl (snd x)) (fst x) (hint (snd x)) f)) end.
    Definition lrun (l : list (loc * X)) (f : str) : str :=
      match l with [] => f | x :: r => lrest r (F (snd x) (step (nn && first (snd x)) (fst x) [] f)) end.
    Definition okx (x : loc * X) : Prop := cslot_ok cbuf (CSp (fst x)) /\ ok (snd x).
    Lemma lazy_ret b v : lazy_and b (ret v) = ret (b && v).
    Proof. now destruct b. Qed.
    Lemma runs_rest l : Forall okx l -> forall i p, runs (write_list_rest c cbuf (space_hint c cbuf) W nn (fun _ x => ret (nl x)) hint i p l) (lrest l).
    Proof.
      induction 1 as [|[p x] l [H1 H2] Hl IH]; intros i q; [apply runs_ret|]. cbn [write_list_rest lrest fst snd] in *.
      apply runs_get. intros s ((_ & E & _) & _). rewrite E. cbn [test_out_of_range]. rewrite lazy_ret.
      apply (runs_bind _ _ (step (nn && nl x) p (hint x)) (fun f => lrest l (F x f))).
      - apply runs_val. apply (runs_bind _ _ (step (nn && nl x) p (hint x)) (fun f => f)); [now apply runs_nl|intros; apply runs_ret].
      - intros a. apply (runs_bind _ _ (F x) (lrest l)); [now apply HW|]. intros _. apply IH.
    Qed.
    Lemma runs_list l : Forall okx l -> runs (write_list c cbuf (space_hint c cbuf) W nn (fun x => ret (first x)) (fun _ x => ret (nl x)) hint l) (lrun l).
    Proof.
      destruct 1 as [|[p x] l [H1 H2] Hl]; [apply runs_ret|]. cbn [write_list lrun fst snd] in *. rewrite lazy_ret. apply runs_val.
      apply (runs_bind _ _ (step (nn && first x) p []) (fun f => lrest l (F x f))); [now apply runs_nl|intros _].
      apply (runs_bind _ _ (F x) (lrest l)); [now apply HW|intros _]. now apply runs_rest.
    Qed.
  End Items.

  Definition afun (a : catom) (f : str) : str := f ++ comment_text c (atom_token a).
  Lemma runs_atom a : runs (write_atom c cbuf a) (afun a).
  Proof. apply runs_range. rewrite atom_text_spec. apply runs_emit. Qed.
  Definition atoms_fun (nn : bool) (l : list (loc * catom)) : str -> str :=
    lrun nn (fun _ => false) (atom_nl c) (atom_hint c) afun l.
  Definition gfun (g : cgroup) : str -> str := atoms_fun (negb (newlines_group g)) (group_atoms g).
  Definition okg (g : cgroup) : Prop := Forall (cslot_ok cbuf) (group_slots g).
  Lemma ok_atoms l : Forall (cslot_ok cbuf) (atoms_slots l) -> Forall (okx (fun _ : catom => True)) l.
  Proof.
    induction l as [|[p a] l IH]; intros H; constructor; cbn in H; inversion H as [|? ? H1 H2]; subst; inversion H2; subst;
      [split; [exact H1|exact Logic.I]|auto].
  Qed.
  Lemma runs_group g : okg g -> runs (write_group c cbuf g) (gfun g).
  Proof.
    intros H. destruct g as [sp l|sp l]; cbn [write_group]; apply runs_range;
      apply (runs_bind _ _ (gfun _) (fun f => f)); try (intros; apply runs_ret).
    - apply (runs_list (write_atom c cbuf) true (fun _ => false) (atom_nl c) (atom_hint c) afun (fun _ => True)); [intros; apply runs_atom|].
      now apply ok_atoms.
    - apply (runs_list (write_atom c cbuf) false (fun _ => false) (atom_nl c) (atom_hint c) afun (fun _ => True)); [intros; apply runs_atom|].
      now apply ok_atoms.
  Qed.
  Definition groups_fun (gs : list (loc * cgroup)) : str -> str := lrun true (group_first_nl c) (group_nl c) (fun _ => []) gfun gs.
  Definition chunk_fun (t : cchunk) (f : str) : str :=
    let f1 := f ++ sptext (cc_locl t) [] in
    (if lone c (cc_groups t) then f1 else groups_fun (cc_groups t) f1) ++ sptext (cc_locr t) [].
  Lemma runs_chunk t : Forall (cslot_ok cbuf) (chunk_slots t) -> runs (write_cchunk c cbuf t) (chunk_fun t).
  Proof.
    intros H. unfold chunk_slots in H. inversion H as [|? ? H1 H2]; subst. apply Forall_app in H2 as [H2 H3].
    inversion H3 as [|? ? H4 _]; subst. apply runs_range. unfold chunk_fun. cbv zeta.
    apply (runs_bind _ _ (fun f => f ++ sptext (cc_locl t) [])
      (fun f => (if lone c (cc_groups t) then f else groups_fun (cc_groups t) f) ++ sptext (cc_locr t) [])); [now apply runs_space|intros _].
    apply (runs_bind _ _ (fun f => if lone c (cc_groups t) then f else groups_fun (cc_groups t) f) (fun f => f ++ sptext (cc_locr t) []));
      [|intros _; now apply runs_space].
    apply runs_range. unfold lone. destruct (_ && _); [apply runs_ret|].
    apply (runs_bind _ _ (groups_fun (cc_groups t)) (fun f => f)); [|intros; apply runs_ret].
    apply (runs_list (write_group c cbuf) true (group_first_nl c) (group_nl c) (fun _ => []) gfun okg); [intros; now apply runs_group|].
    clear -H2. induction (cc_groups t) as [|[p x] l IH]; constructor; cbn in H2; inversion H2 as [|? ? H1 H3]; subst; apply Forall_app in H3 as [H3 H4]; auto.
    split; auto.
  Qed.

  (** ** the same by the specification *)
  Notation U := (slot_units cbuf).
  Definition cf (f : str) (prev : option ctoken) (u : list (str * ctoken) * str) : str :=
    comments_from c d f prev (fst u) ++ kept_blanks c (snd u).
  Lemma text_empty l : empty_loc l -> text_at cbuf (fst l) (snd l) = [].
  Proof. intros E. unfold empty_loc in E. rewrite E. apply text_at_empty. Qed.
  Lemma sptext_kept l : sptext l [] = kept_blanks c (text_at cbuf (fst l) (snd l)).
  Proof. reflexivity. Qed.
  Lemma nl_is a : nl_atom a = is_newline (atom_token a). Proof. now destruct a. Qed.
  Lemma own_atom a : atom_nl c a = own_line c false (atom_token a). Proof. now destruct a. Qed.

  Lemma atoms_rest k l rest : Forall (fun x => nl_atom (snd x) = k) l -> forall f t0, is_newline t0 = k ->
    exists t1, is_newline t1 = k /\
    cf f (Some t0) (U [] (atoms_slots l ++ rest)) = cf (lrest (negb k) (atom_nl c) (atom_hint c) afun l f) (Some t1) (U [] rest).
  Proof.
    induction 1 as [|[p a] l Ha Hl IH]; intros f t0 Ht; [now exists t0|]. cbn [atoms_slots flat_map fst snd app lrest] in *.
    rewrite nl_is in Ha.
    destruct (IH (afun a (step (negb k && atom_nl c a) p (atom_hint c a) f)) (atom_token a) Ha) as (t1 & H1 & H2).
    exists t1. split; [exact H1|]. rewrite <- H2. unfold cf at 1. cbn [slot_units fst snd comments_from app].
    unfold cf. unfold afun at 1. do 3 f_equal. unfold step. rewrite own_atom.
    destruct (own_line c false (atom_token a)) eqn:Eo.
    - destruct k; [destruct a; discriminate|]. reflexivity.
    - rewrite andb_false_r. f_equal. unfold sptext. destruct (on c _); [|reflexivity]. rewrite Ht, Ha, orb_diag.
      destruct k; [now destruct a|]. now destruct a.
  Qed.

  Lemma group_after g rest : group_kind g -> good_group g ->
    exists a r, group_atoms g = a :: r /\ nl_atom (snd a) = newlines_group g /\ text_at cbuf (fst (fst a)) (snd (fst a)) = [] /\
      group_slots g ++ rest = CSp (fst a) :: CAt (snd a) :: atoms_slots r ++ rest /\
      Forall (fun x => nl_atom (snd x) = newlines_group g) r.
  Proof.
    intros Hk Hg. unfold good_group in Hg. destruct g as [sp [|a r]|sp [|a r]]; cbn in *; try tauto; inversion Hk; subst; exists a, r;
      repeat split; auto; now apply text_empty.
  Qed.
  Lemma gfun_eq g a r f : group_atoms g = a :: r -> text_at cbuf (fst (fst a)) (snd (fst a)) = [] ->
    gfun g f = lrest (negb (newlines_group g)) (atom_nl c) (atom_hint c) afun r (afun (snd a) f).
  Proof.
    intros E Ea. unfold gfun, atoms_fun. rewrite E. cbn [lrun]. rewrite andb_false_r. unfold step, sptext. rewrite Ea.
    destruct (on c _); now rewrite app_nil_r.
  Qed.
  Lemma group_nl_eq g a r : group_atoms g = a :: r -> nl_atom (snd a) = newlines_group g ->
    group_nl c g = own_line c false (atom_token (snd a)) /\ group_first_nl c g = own_line c true (atom_token (snd a)).
  Proof. destruct g as [sp l|sp l], a as [p []]; cbn; intros -> E; try discriminate; split; reflexivity. Qed.

  Lemma groups_rest k gs rest : alternate k gs -> groups_kind gs -> forall f t0, is_newline t0 = negb k ->
    exists t1,
    cf f (Some t0) (U [] (groups_slots gs ++ rest)) = cf (lrest true (group_nl c) (fun _ => []) gfun gs f) (Some t1) (U [] rest).
  Proof.
    revert k. induction gs as [|[p g] gs IH]; intros k HA HK f t0 Ht; [now exists t0|].
    destruct HA as (A1 & A2 & A3). inversion HK as [|? ? K1 K2]; subst. cbn [snd fst] in *.
    destruct (group_after g (groups_slots gs ++ rest) K1 A2) as (a & r & Ea & En & Et & Es & Fr).
    pose proof En as En'. rewrite nl_is in En'. destruct (group_nl_eq g a r Ea En) as [Eg _].
    cbn [groups_slots flat_map fst snd app]. rewrite <- app_assoc. fold (groups_slots gs). rewrite Es.
    set (f1 := step (group_nl c g) p [] f).
    destruct (atoms_rest (newlines_group g) r (groups_slots gs ++ rest) Fr (afun (snd a) f1) (atom_token (snd a)) En') as (t1 & H1 & H2).
    destruct (IH (negb (newlines_group g)) A3 K2 (gfun g f1) t1) as (t2 & H3); [now rewrite negb_involutive|].
    exists t2. cbn [lrest snd fst andb]. fold f1. rewrite <- H3. rewrite (gfun_eq g a r f1 Ea Et), <- H2.
    unfold cf at 1. cbn [slot_units fst snd comments_from app]. rewrite Et, app_nil_r.
    unfold cf. unfold afun at 1. do 3 f_equal. unfold f1, step. rewrite Eg.
    destruct (own_line c false (atom_token (snd a))) eqn:Eo; [reflexivity|].
    f_equal. unfold sptext. destruct (on c _); [|reflexivity]. rewrite Ht, En'. now destruct (newlines_group g).
  Qed.

  Lemma lone_one t : groups_kind (cc_groups t) -> (exists k, alternate k (cc_groups t)) ->
    forall x f, (match slot_units cbuf [] (chunk_slots t) with
    | (us, e) => (match us with
      | [(b, CNewLine)] => if on c B_remove_single_newlines then [x] ++ kept_blanks c b else f us
      | _ => f us end) ++ kept_blanks c e end : str) =
    let u := slot_units cbuf [] (chunk_slots t) in
    (if lone c (cc_groups t) then [x] ++ kept_blanks c (match fst u with [(b, _)] => b | _ => [] end) else f (fst u)) ++ kept_blanks c (snd u).
  Proof.
    intros HK (k & HA) x f. unfold chunk_slots, lone. cbv zeta. cbn [slot_units app].
    destruct (slot_units cbuf _ _) as [us e] eqn:E. cbn [fst snd].
    assert (G : match us with [(_, CNewLine)] => true | _ => false end = match cc_groups t with [(_, GNewLines _ [_])] => true | _ => false end).
    { destruct (cc_groups t) as [|[p g] gs].
      - cbn in E. now injection E as <- _.
      - inversion HK as [|? ? K1 K2]; subst. destruct HA as (A1 & A2 & A3). cbn [fst snd] in *.
        cbn [groups_slots flat_map app fst snd] in E. rewrite <- app_assoc in E. fold (groups_slots gs) in E.
        destruct (group_after g (groups_slots gs ++ [CSp (cc_locr t)]) K1 A2) as (a & r & Ea & En & Et & Es & Fr). rewrite Es in E.
        cbn [slot_units fst snd] in E. injection E as <- _. rewrite nl_is in En.
        destruct g as [sp l|sp l]; cbn [newlines_group group_atoms] in *; subst l.
        + destruct (atom_token (snd a)); try discriminate; reflexivity.
        + destruct (atom_token (snd a)); try discriminate. destruct r as [|b r]; [|destruct gs; reflexivity].
          destruct gs as [|[p2 g2] gs]; [reflexivity|]. destruct A3 as (B1 & B2 & B3). inversion K2 as [|? ? K3 K4]; subst. cbn [fst snd] in *.
          cbn [atoms_slots groups_slots flat_map app fst snd]. rewrite <- app_assoc.
          destruct (group_after g2 (groups_slots gs ++ [CSp (cc_locr t)]) K3 B2) as (a2 & r2 & Ea2 & En2 & Et2 & Es2 & Fr2).
          fold (groups_slots gs). rewrite Es2. reflexivity. }
    rewrite <- G. destruct us as [|[b []] [|]]; rewrite ?andb_false_r, ?andb_true_r; try reflexivity; now destruct (on c _).
  Qed.

  Lemma chunk_fun_eq t x : groups_kind (cc_groups t) -> (exists k, alternate k (cc_groups t)) ->
    (cc_groups t = [] \/ heads_empty (cc_groups t)) ->
    chunk_fun t [x] =
    match slot_units cbuf [] (chunk_slots t) with
    | (us, e) => match us with
      | [(b, CNewLine)] => if on c B_remove_single_newlines then [x] ++ kept_blanks c b else comments_from c d [x] None us
      | _ => comments_from c d [x] None us end ++ kept_blanks c e end.
  Proof.
    intros HK (k & HA) HE. rewrite (lone_one t HK (ex_intro _ k HA) x (comments_from c d [x] None)). cbv zeta. unfold chunk_fun. cbv zeta.
    set (f0 := [x] ++ sptext (cc_locl t) []).
    destruct (cc_groups t) as [|[p g] gs] eqn:Eg.
    - unfold chunk_slots, f0. rewrite Eg. unfold lone. rewrite andb_false_r. cbn. now rewrite kept_app, !sptext_kept.
    - destruct HE as [HE|HE]; [discriminate|]. cbn [heads_empty fst] in HE. pose proof (text_empty p HE) as Ep.
      inversion HK as [|? ? K1 K2]; subst. destruct HA as (A1 & A2 & A3). cbn [fst snd] in *.
      destruct (group_after g (groups_slots gs ++ [CSp (cc_locr t)]) K1 A2) as (a & r & Ea & En & Et & Es & Fr).
      assert (EU : U [] (chunk_slots t) = let u := U [] (atoms_slots r ++ groups_slots gs ++ [CSp (cc_locr t)]) in
        ((text_at cbuf (fst (cc_locl t)) (snd (cc_locl t)), atom_token (snd a)) :: fst u, snd u)).
      { unfold chunk_slots. rewrite Eg. cbn [groups_slots flat_map app fst snd]. rewrite <- app_assoc. fold (groups_slots gs). rewrite Es.
        cbn [slot_units app fst snd]. now rewrite Ep, Et, !app_nil_r. }
      rewrite EU. cbv zeta. cbn [fst snd].
      destruct (lone c ((p, g) :: gs)) eqn:El.
      + unfold lone in El. apply andb_true_iff in El as [_ El]. destruct g as [|sp [|b [|]]]; try discriminate. destruct gs; [|discriminate].
        cbn in Ea. injection Ea as <- <-. cbn [atoms_slots groups_slots flat_map app slot_units fst snd]. unfold f0. now rewrite !sptext_kept.
      + pose proof En as En'. rewrite nl_is in En'. destruct (group_nl_eq g a r Ea En) as [_ Ef].
        cbn [comments_from]. unfold groups_fun. cbn [lrun fst snd andb].
        set (f1 := step (group_first_nl c g) p [] f0).
        destruct (atoms_rest (newlines_group g) r (groups_slots gs ++ [CSp (cc_locr t)]) Fr (afun (snd a) f1) (atom_token (snd a)) En') as (t1 & H1 & H2).
        destruct (groups_rest (negb k) gs [CSp (cc_locr t)] A3 K2 (gfun g f1) t1) as (t2 & H3); [rewrite negb_involutive; congruence|].
        rewrite (gfun_eq g a r f1 Ea Et) in H3. rewrite <- H2 in H3. rewrite <- (gfun_eq g a r f1 Ea Et) in H3.
        unfold cf in H3 at 2. cbn [slot_units fst snd comments_from app] in H3. rewrite sptext_kept. etransitivity; [symmetry; exact H3|].
        unfold cf, afun. do 3 f_equal. unfold f1, step, f0. rewrite Ef, !sptext_kept, Ep.
        replace (kept_blanks c []) with ([] : str) by (unfold kept_blanks; now destruct (on c _)). now rewrite app_nil_r.
  Qed.
End Run.

(** ** the whole gap *)
Lemma last_blank_head x f : exists g, without_last_blank (x :: f) = x :: g.
Proof.
  unfold without_last_blank. destruct (rev (x :: f)) as [|a [|b r]] eqn:E; try (now exists f). destruct (sp_tab a); [|now exists f].
  apply (f_equal (@rev _)) in E. rewrite rev_involutive in E. cbn [rev] in E. destruct (rev r ++ [b]) as [|y g] eqn:E2; [destruct (rev r); discriminate|].
  cbn [rev]. rewrite E2. injection E as -> _. now exists g.
Qed.
Lemma break_head c d x f b : exists g, break_line c d (x :: f) b = x :: g.
Proof.
  unfold break_line. destruct (without_end_blanks b); [|eexists; reflexivity]. destruct (last_blank_head x f) as [g ->]. eexists. reflexivity.
Qed.
Lemma comments_head c d x us : forall f p, exists g, comments_from c d (x :: f) p us = x :: g.
Proof.
  induction us as [|[b t] us IH]; intros f p; [now exists f|]. cbn [comments_from].
  match goal with |- context [comments_from c d (?X ++ _) (Some t) us] => assert (G : exists y, X = x :: y) end.
  { destruct p as [p|]; cbv zeta; destruct (own_line c _ t); cbn [app]; try apply break_head; eexists; reflexivity. }
  destruct G as [y ->]. apply IH.
Qed.

(** the hint at a position: the block, unless the character before it takes more than one byte *)
Lemma comment_hint_value c buf l h g d w : gap_text_at buf l g -> IS buf (w_st w) -> Z.to_nat (indent_level (w_st w)) = d ->
  let z := last_char (w_f w) in
  exists w2, comment_hint c buf l h w =
    match bslice (z :: block c d z g) 1 (blen (z :: block c d z g)) with
    | Some _ => (ROk tt, set_f (put_gap c d h (w_f w) g) (set_st (set_comment (fst l) None (w_st w)) w))
    | None => (RPanic, w2)
    end.
Proof.
  intros (H1 & H2 & Hga & Et) [I1 I2] Hd z.
  assert (Hg : last_gap g).
  { destruct Hga as [Hg|[_ Hg]]; [|exact Hg]. exists g, []. rewrite app_nil_r. split; [reflexivity|]. split; [exact Hg|now left]. }
  clear Hga. destruct l as [x y]. cbn [fst snd] in *. unfold comment_hint. unfold bind at 1, get_st at 1. rewrite I2. cbn [test_out_of_range].
  destruct (substr_code buf x y (w_st w) I1) as [S _]. rewrite S by lia. replace (slice buf x y) with (gap_text g) by (symmetry; exact Et).
  destruct (comment_tree g Hg) as (t & Ep & Hok & _). rewrite Ep. cbn [fst].
  assert (Esl : slice buf x (x + (y - x)) = gap_text g) by (rewrite <- Et; unfold slice, text_at; do 2 f_equal; lia).
  unfold bind at 1, put_st at 1. unfold bind at 1, get_f at 1. cbn [set_st w_f]. rewrite last_char_eq.
  fold z. set (w1 := set_st _ w).
  unfold bind, in_buffer.
  assert (C : runs buf x d (write_cchunk c (gap_text g) t) (chunk_fun c buf x (y - x) d t)).
  { rewrite <- Esl. apply runs_chunk; [lia|]. now rewrite Esl. }
  destruct (C (set_f [z] w1)) as [u E].
  { split; [|exact Hd]. split; [exact I1|]. split; [exact I2|]. split; reflexivity. }
  rewrite E. cbn [set_f w_f].
  destruct (parse_good _ _ Ep) as [P1 P2]. rewrite chunk_fun_eq; [|now apply parse_kind in Ep|exact P2|exact P1].
  rewrite Esl, (tree_units g t Hg Ep).
  assert (B : exists y0, (let (us, e) := units [] g in
      match us with
      | [(b, CNewLine)] => if on c B_remove_single_newlines then [z] ++ kept_blanks c b else comments_from c d [z] None us
      | _ => comments_from c d [z] None us
      end ++ kept_blanks c e) = z :: y0 /\ y0 = block c d z g).
  { unfold block. destruct (units [] g) as [us e].
    assert (B : exists y0, match us with
      | [(b, CNewLine)] => if on c B_remove_single_newlines then [z] ++ kept_blanks c b else comments_from c d [z] None us
      | _ => comments_from c d [z] None us
      end = z :: y0).
    { destruct us as [|[b []] [|]]; try destruct (on c B_remove_single_newlines); try apply comments_head. eexists. reflexivity. }
    destruct B as [y0 ->]. eexists. split; reflexivity. }
  destruct B as (y0 & -> & ->).
  destruct (bslice _ 1 _) as [b'|] eqn:Ebs; [|eexists; reflexivity]. apply bslice_cut in Ebs as ->.
  exists w. unfold emit. cbn. unfold put_gap. rewrite dressed_eq. reflexivity.
Qed.
Lemma comment_hint_exact c buf l h g d w : gap_text_at buf l g -> IS buf (w_st w) -> indent_level (w_st w) = Z.of_nat d ->
  match comment_hint c buf l h w with
  | (ROk _, w') => w' = set_f (put_gap c d h (w_f w) g) (set_st (set_comment (fst l) None (w_st w)) w)
  | (RErr, _) => False
  | _ => True
  end.
Proof.
  intros Hg I E. assert (Z.to_nat (indent_level (w_st w)) = d) as Hd by (rewrite E; apply Nat2Z.id).
  pose proof (comment_hint_value c buf l h g d w Hg I Hd) as [w2 V]. rewrite V. now destruct (bslice _ _ _).
Qed.
