(** Reasoning about the writer: what a piece of it adds to the output. *)
From Verif Require Import Base Lib Config State Ast WriterBase.

Definition blankc (c : char) : Prop := is_sp_tab c = true.

Lemma lastc_snoc s x : lastc (s ++ [x]) = Some x.
Proof. unfold lastc. now rewrite rev_app_distr. Qed.
Lemma lastc_inv s x : lastc s = Some x -> exists s', s = s' ++ [x].
Proof.
  unfold lastc. destruct (rev s) as [|y r] eqn:E; [discriminate|]. intros [= <-]. exists (rev r).
  rewrite <- (rev_involutive s), E. reflexivity.
Qed.
Lemma snoc_cases {A} (s : list A) : s = [] \/ exists s' x, s = s' ++ [x].
Proof. destruct s using rev_ind; eauto. Qed.

(** trailing blanks *)
Definition trims (f f0 : str) : Prop := exists bl, f = f0 ++ bl /\ Forall blankc bl.
Lemma trims_refl f : trims f f.
Proof. exists []. rewrite app_nil_r. auto. Qed.
Lemma trims_trans a b c : trims a b -> trims b c -> trims a c.
Proof.
  intros (x & -> & Hx) (y & -> & Hy). exists (y ++ x). rewrite app_assoc. split; [reflexivity|]. now apply Forall_app.
Qed.
Lemma trim_end_trims s : trims s (trim_end_spaces_and_tabs s).
Proof.
  unfold trim_end_spaces_and_tabs. rewrite <- (rev_involutive s) at 1. generalize (rev s). clear s. intros s.
  induction s as [|c s IH]; cbn [drop_while]; [apply trims_refl|].
  destruct (is_sp_tab c) eqn:E; [|apply trims_refl]. cbn [rev]. eapply trims_trans; [|exact IH].
  exists [c]. split; [reflexivity|]. constructor; auto.
Qed.


Definition has_nl (s : str) : Prop := In ch_nl s.
Definition ends_with_nl (s : str) : Prop := exists s', s = s' ++ [ch_nl].
Definition starts_with_nl (s : str) : Prop := exists s', s = ch_nl :: s'.
Lemma ends_nl_iff s : ends_nl s = true <-> ends_with_nl s.
Proof.
  unfold ends_nl, ends_with_nl. split.
  - destruct (lastc s) as [c|] eqn:E; [|discriminate]. rewrite ceq_true. intros ->. now apply lastc_inv.
  - intros (s' & ->). rewrite lastc_snoc. now rewrite ceq_true.
Qed.
Lemma ends_nl_blank s c : ends_with_nl (s ++ [c]) -> ~ blankc c.
Proof. intros (s' & E) H. apply app_inj_tail in E as [_ ->]. discriminate. Qed.
Lemma ends_nl_app a b : ends_with_nl b -> ends_with_nl (a ++ b).
Proof. intros (s' & ->). exists (a ++ s'). now rewrite app_assoc. Qed.
Lemma starts_nl_app a b : starts_with_nl a -> starts_with_nl (a ++ b).
Proof. intros (s' & ->). exists (s' ++ b). reflexivity. Qed.
(** a line feed in [x], just before it or just after it *)
Definition nl_near (pre x rest : str) : Prop := has_nl x \/ ends_with_nl pre \/ starts_with_nl rest.

Section Frame.
  Context {Sl : Type}.
  (** [R s x]: the slot [s] may be written as [x]; [L s x]: it may be if there is a line feed next to it *)
  Variables (R L : Sl -> str -> Prop) (nlc : bool).
  Hypothesis RL : forall s x, R s x -> L s x.
  (** texts that lost trailing blanks *)
  Hypothesis closed : nlc = true -> forall s x c, L s (x ++ [c]) -> blankc c -> L s x.

  Definition fits (s : Sl) (pre x rest : str) : Prop := R s x \/ (nlc = true /\ L s x /\ nl_near pre x rest).
  (** [o], between [pre] and [rest], consists of the slots *)
  Inductive rn : str -> list Sl -> str -> str -> Prop :=
  | rn_nil : forall pre rest, rn pre [] [] rest
  | rn_cons : forall pre s x ss y rest, fits s pre x (y ++ rest) -> rn (pre ++ x) ss y rest ->
      rn pre (s :: ss) (x ++ y) rest.
  Definition renders (ss : list Sl) (o : str) : Prop := rn [] ss o [].

  Lemma fits_mono s pre x rest a b : fits s pre x rest -> fits s (a ++ pre) x (rest ++ b).
  Proof.
    intros [H|(Hn & H & Hx)]; [now left|right]. repeat split; auto. destruct Hx as [?|[?|?]]; [now left|right; left|right; right].
    - now apply ends_nl_app.
    - now apply starts_nl_app.
  Qed.
  Lemma rn_mono pre ss o rest a b : rn pre ss o rest -> rn (a ++ pre) ss o (rest ++ b).
  Proof.
    induction 1 as [|pre s x ss y rest Hf H IH]; constructor.
    - rewrite app_assoc. now apply fits_mono.
    - now rewrite <- app_assoc.
  Qed.
  Lemma rn_any ss o pre rest : renders ss o -> rn pre ss o rest.
  Proof. intros H. apply (rn_mono _ _ _ _ pre rest) in H. now rewrite app_nil_r in H. Qed.
  Lemma rn_app pre a b x y rest : rn pre a x (y ++ rest) -> rn (pre ++ x) b y rest -> rn pre (a ++ b) (x ++ y) rest.
  Proof.
    revert pre x. induction a as [|s a IH]; intros pre x H1 H2; inversion H1; subst; cbn.
    - now rewrite app_nil_r in H2.
    - rewrite <- app_assoc. constructor; [now rewrite <- app_assoc|]. apply IH; [assumption|]. now rewrite <- app_assoc.
  Qed.
  Lemma rn_app_inv a b : forall pre o rest, rn pre (a ++ b) o rest ->
    exists x y, o = x ++ y /\ rn pre a x (y ++ rest) /\ rn (pre ++ x) b y rest.
  Proof.
    induction a as [|s a IH]; intros pre o rest H; cbn in H.
    - exists [], o. rewrite app_nil_r. repeat split; auto. constructor.
    - inversion H as [|? ? x ? y ? Hf Hy]; subst. destruct (IH _ _ _ Hy) as (x1 & x2 & -> & Ha & Hb).
      exists (x ++ x1), x2. rewrite app_assoc. repeat split.
      + constructor; [now rewrite <- app_assoc in Hf|assumption].
      + now rewrite app_assoc.
  Qed.
  Lemma rn_one s x pre rest : fits s pre x rest -> rn pre [s] x rest.
  Proof. intros H. rewrite <- (app_nil_r x). constructor; [exact H|constructor]. Qed.
  Lemma rn_one_inv s x pre rest : rn pre [s] x rest -> fits s pre x rest.
  Proof. intros H. inversion H as [|? ? ? ? y ? Hf Hy]; subst. inversion Hy; subst. now rewrite app_nil_r in *. Qed.
  Lemma renders_nil : renders [] []. Proof. constructor. Qed.
  Lemma renders_one s x : R s x -> renders [s] x.
  Proof. intros H. apply rn_one. now left. Qed.
  Lemma renders_one_loose s x : renders [s] x -> L s x.
  Proof. intros H. apply rn_one_inv in H as [H|(_ & H & _)]; auto. Qed.
  Lemma renders_app a b x y : renders a x -> renders b y -> renders (a ++ b) (x ++ y).
  Proof. intros H1 H2. apply rn_app; [now apply rn_any|now apply rn_any]. Qed.

  (** losing trailing blanks next to a line feed *)
  Lemma near_end pre x rest : ends_with_nl (pre ++ x) \/ starts_with_nl rest -> nl_near pre x rest.
  Proof.
    intros [(z & E)|H]; [|right; now right]. destruct (snoc_cases x) as [->|(x' & e & ->)].
    - right; left. rewrite app_nil_r in E. now exists z.
    - left. rewrite app_assoc in E. apply app_inj_tail in E as [_ ->]. apply in_or_app. right. now left.
  Qed.
  Lemma L_trims s x bl : nlc = true -> L s (x ++ bl) -> Forall blankc bl -> L s x.
  Proof.
    intros Hn. induction bl as [|c bl IH] using rev_ind; intros H Hb; [now rewrite app_nil_r in H|].
    apply Forall_app in Hb as [Hb Hc]. inversion Hc; subst. apply IH; auto. rewrite app_assoc in H. eapply closed; eauto.
  Qed.
  Lemma blank_starts l : Forall blankc l -> ~ starts_with_nl l.
  Proof. intros H (z & ->). inversion H as [|? ? Hc]. discriminate. Qed.
  Lemma rn_trims ss : nlc = true -> forall pre1 pre o bl r0 rest, rn pre1 ss (o ++ bl) r0 ->
    (pre1 = pre \/ (o = [] /\ trims pre1 pre)) -> Forall blankc bl ->
    ends_with_nl (pre ++ o) \/ starts_with_nl rest -> rn pre ss o rest.
  Proof.
    intros Hn. induction ss as [|s ss IH]; intros pre1 pre o bl r0 rest H Hp Hb Hr.
    - inversion H as [? ? E1 E2 E3|]; subst. symmetry in E3. apply app_eq_nil in E3 as [-> _]. constructor.
    - inversion H as [|? ? x ? y ? Hf Hy E1 E2 E]; subst. symmetry in E. apply app_eq_app in E as (l & [[-> ->]|[-> ->]]).
      + (* the cut is inside [y] *)
        constructor.
        * destruct Hf as [Hf|(_ & Hf & Hx)]; [now left|right]. repeat split; auto.
          destruct Hx as [Hx|[Hx|Hx]].
          -- now left.
          -- destruct Hp as [->|[_ (b0 & -> & Hb0)]]; [right; now left|]. destruct (snoc_cases b0) as [->|(b1 & d & ->)].
             ++ rewrite app_nil_r in Hx. right. now left.
             ++ rewrite app_assoc in Hx. apply ends_nl_blank in Hx. apply Forall_app in Hb0 as [_ Hd]. inversion Hd; contradiction.
          -- destruct l as [|e l].
             ++ rewrite app_nil_r in *. now apply near_end.
             ++ right; right. destruct Hx as (z & E). cbn in E. injection E as -> _. now exists (l ++ rest).
        * eapply IH; [exact Hy| |exact Hb|now rewrite <- app_assoc].
          destruct Hp as [->|[E Ht]]; [now left|right]. apply app_eq_nil in E as [-> ->]. rewrite !app_nil_r. auto.
      + (* inside [x] *)
        apply Forall_app in Hb as [Hl Hy0]. rewrite <- (app_nil_r o). constructor.
        * right. split; [exact Hn|]. split; [|now apply near_end].
          eapply L_trims; [exact Hn| |exact Hl]. destruct Hf as [Hf|(_ & Hf & _)]; auto.
        * apply (IH (pre1 ++ o ++ l) (pre ++ o) [] y r0); [exact Hy| |exact Hy0|now rewrite app_nil_r].
          right. split; [reflexivity|]. destruct Hp as [->|[-> (b0 & -> & Hb0)]].
          -- exists l. now rewrite app_assoc.
          -- exists (b0 ++ l). rewrite app_nil_r, <- app_assoc. split; [reflexivity|]. now apply Forall_app.
  Qed.

  (** ** what is added to a buffer *)
  Definition adds (ss : list Sl) (f f' : str) : Prop :=
    exists f0 o, f' = f0 ++ o /\ rn f0 ss o [] /\
      (f0 = f \/ (nlc = true /\ trims f f0 /\ (f <> [] -> f0 <> []) /\ (ends_with_nl f0 \/ starts_with_nl o))).

  Lemma adds_refl f : adds [] f f.
  Proof. exists f, []. rewrite app_nil_r. repeat split; auto. constructor. Qed.
  Lemma adds_render ss f o : renders ss o -> adds ss f (f ++ o).
  Proof. intros H. exists f, o. repeat split; auto. now apply rn_any. Qed.
  Lemma adds_from_nil ss o : adds ss [] o -> renders ss o.
  Proof.
    intros (f0 & x & -> & H & Hp). assert (f0 = []) as ->.
    { destruct Hp as [->|(_ & (bl & E & _) & _)]; [reflexivity|]. symmetry in E. apply app_eq_nil in E. tauto. }
    exact H.
  Qed.
  Lemma adds_from_one ss x o : adds ss [x] o -> exists b, o = x :: b /\ rn [x] ss b [].
  Proof.
    intros (f0 & b & -> & H & Hp). assert (f0 = [x]) as ->; [|exists b; auto].
    destruct Hp as [->|(_ & (bl & E & _) & Hne & _)]; [reflexivity|]. destruct f0 as [|y f0]; [elim Hne; congruence|].
    cbn in E. injection E as <- E. symmetry in E. apply app_eq_nil in E as [-> _]. reflexivity.
  Qed.
  Lemma adds_app a b f f1 f2 : adds a f f1 -> adds b f1 f2 -> adds (a ++ b) f f2.
  Proof.
    intros (f0 & o & -> & H & P) (g & o2 & -> & H2 & P2). destruct P2 as [->|(Hn & (cl & E & Hc) & Hne & Hs)].
    - exists f0, (o ++ o2). rewrite app_assoc. split; [reflexivity|]. split.
      + apply rn_app; [|exact H2]. pose proof (rn_mono _ _ _ _ [] (o2 ++ []) H) as H'. exact H'.
      + destruct P as [->|(Hn & Ht & Hne & Hs)]; [now left|right]. repeat split; auto. destruct Hs; [now left|right].
        now apply starts_nl_app.
    - apply app_eq_app in E as (l & [[-> ->]|[-> ->]]).
      + (* the cut goes into f0 *)
        apply Forall_app in Hc as [Hl Ho]. exists g, o2. split; [reflexivity|]. split.
        * change o2 with ([] ++ o2). apply rn_app; [|now rewrite app_nil_r]. cbn [app].
          apply (rn_trims a Hn (g ++ l) g [] o []); auto.
          -- right. split; [reflexivity|]. exists l. auto.
          -- rewrite !app_nil_r. exact Hs.
        * assert (Ht : trims f g /\ (f <> [] -> g <> [])).
          { assert (Hg : (g ++ l) ++ o <> [] -> g <> []) by exact Hne.
            assert (T : trims f (g ++ l) /\ (f <> [] -> g ++ l <> [])) by (destruct P as [->|(_ & Ht & Hne2 & _)]; [split; [apply trims_refl|auto]|auto]).
            destruct T as [T1 T2]. split; [eapply trims_trans; [exact T1|exists l; auto]|].
            intros Hf. apply Hg. intros E. apply app_eq_nil in E as [E _]. now apply T2 in Hf. }
          right. tauto.
      + exists f0, (l ++ o2). rewrite app_assoc. split; [reflexivity|]. split.
        * apply rn_app; [|exact H2]. rewrite app_nil_r. apply (rn_trims a Hn f0 f0 l cl []); auto.
        * destruct P as [->|(_ & Ht & Hne2 & [Hs2|(z & E)])]; [now left|right; repeat split; auto|].
          right. repeat split; auto. destruct l as [|e l].
          -- cbn in E. subst cl. exfalso. apply (blank_starts _ Hc). now exists z.
          -- cbn in E. injection E as -> _. right. now exists (l ++ o2).
  Qed.

  (** ** writing *)
  Variable IS : state -> Prop.
  Definition wr {A} (m : M A) (ss : list Sl) : Prop :=
    forall w a w', IS (w_st w) -> m w = (ROk a, w') -> IS (w_st w') /\ adds ss (w_f w) (w_f w').
  (** nothing is written *)
  Definition quiet {A} (m : M A) : Prop :=
    forall w a w', IS (w_st w) -> m w = (ROk a, w') -> IS (w_st w') /\ w_f w' = w_f w.

  Lemma wr_bind {A B} (m : M A) (k : A -> M B) a b : wr m a -> (forall x, wr (k x) b) -> wr (bind m k) (a ++ b).
  Proof.
    intros Hm Hk w x w' I. unfold bind. destruct (m w) as [[y| | |] w1] eqn:E; try discriminate.
    intros E2. destruct (Hm _ _ _ I E) as [I1 A1]. destruct (Hk y _ _ _ I1 E2) as [I2 A2]. split; [exact I2|].
    eapply adds_app; eauto.
  Qed.
  Lemma wr_quiet {A B} (m : M A) (k : A -> M B) ss : quiet m -> (forall x, wr (k x) ss) -> wr (bind m k) ss.
  Proof.
    intros Hm Hk w x w' I. unfold bind. destruct (m w) as [[y| | |] w1] eqn:E; try discriminate.
    intros E2. destruct (Hm _ _ _ I E) as [I1 E1]. rewrite <- E1. eapply Hk; eauto.
  Qed.
  Lemma wr_ret {A} (a : A) : wr (ret a) [].
  Proof. intros w x w' I [= _ <-]. split; [exact I|apply adds_refl]. Qed.
  Lemma wr_ret_r {A} (a : A) ss : renders ss [] -> wr (ret a) ss.
  Proof. intros H w x w' I [= _ <-]. split; [exact I|]. rewrite <- (app_nil_r (w_f w)) at 2. now apply adds_render. Qed.
  Lemma wr_then_ret {A B} (m : M A) (k : A -> B) ss : wr m ss -> wr (bind m (fun x => ret (k x))) ss.
  Proof. intros H. rewrite <- (app_nil_r ss). apply wr_bind; auto. intros x. apply wr_ret. Qed.
  Lemma wr_emits ss x : renders ss x -> wr (emit x) ss.
  Proof. intros H w a w' I [= _ <-]. split; [exact I|]. now apply adds_render. Qed.
  Lemma wr_emit s x : R s x -> wr (emit x) [s].
  Proof. intros H. apply wr_emits. now apply renders_one. Qed.
  Lemma wr_emit_opt ss o : (forall x, o = Some x -> renders ss x) -> wr (emit_opt o) ss.
  Proof. intros H. destruct o; [now apply wr_emits; auto|]. intros w a w' _ [=]. Qed.
  Lemma wr_err {A} ss : wr (@err A) ss. Proof. intros w a w' _ [=]. Qed.
  Lemma wr_panic {A} ss : wr (@panic A) ss. Proof. intros w a w' _ [=]. Qed.
  Lemma wr_nofuel {A} ss : wr (@nofuel A) ss. Proof. intros w a w' _ [=]. Qed.
  Lemma quiet_wr {A} (m : M A) : quiet m -> wr m [].
  Proof. intros H w a w' I E. destruct (H _ _ _ I E) as [I1 ->]. split; [exact I1|apply adds_refl]. Qed.
  Lemma quiet_ret {A} (a : A) : quiet (ret a). Proof. intros w x w' I [= _ <-]. auto. Qed.
  Lemma quiet_bind {A B} (m : M A) (k : A -> M B) : quiet m -> (forall x, quiet (k x)) -> quiet (bind m k).
  Proof.
    intros Hm Hk w x w' I. unfold bind. destruct (m w) as [[y| | |] w1] eqn:E; try discriminate.
    intros E2. destruct (Hm _ _ _ I E) as [I1 E1]. destruct (Hk y _ _ _ I1 E2) as [I2 E3]. split; congruence.
  Qed.
  Lemma quiet_panic {A} : quiet (@panic A). Proof. intros w a w' _ [=]. Qed.
  Lemma wr_get_st {B} (k : state -> M B) ss : (forall s, IS s -> wr (k s) ss) -> wr (s <- get_st ;; k s) ss.
  Proof. intros H w a w' I E. unfold bind, get_st in E. eapply H; eauto. Qed.
  Lemma quiet_get_st {B} (k : state -> M B) : (forall s, IS s -> quiet (k s)) -> quiet (s <- get_st ;; k s).
  Proof. intros H w a w' I E. unfold bind, get_st in E. eapply H; eauto. Qed.
  Lemma quiet_put_st s : IS s -> quiet (put_st s).
  Proof. intros H w a w' I [= _ <-]. auto. Qed.
  Lemma wr_put_st {B} s (k : M B) ss : IS s -> wr k ss -> wr (put_st s ;;; k) ss.
  Proof. intros Hs H w a w' I E. unfold bind, put_st in E. apply (H (set_st s w) a w'); auto. Qed.
  Lemma wr_get_f {B} (k : str -> M B) ss : (forall f, wr (k f) ss) -> wr (f <- get_f ;; k f) ss.
  Proof. intros H w a w' I E. unfold bind, get_f in E. eapply H; eauto. Qed.

  (** a buffer of its own *)
  Lemma wr_buffer {B} start m (k : str -> M B) ss tt : wr m ss ->
    (forall b, adds ss start b -> wr (k b) tt) -> wr (b <- in_buffer start m ;; k b) tt.
  Proof.
    intros Hm Hk w a w' I. unfold bind, in_buffer. destruct (m (set_f start w)) as [[y| | |] w1] eqn:E; try discriminate.
    intros E2. destruct (Hm _ _ _ (I : IS (w_st (set_f start w))) E) as [I1 A1]. cbn [w_f set_f] in A1.
    apply (Hk _ A1 (set_f (w_f w) w1) a w'); auto.
  Qed.

  (** ** [IfNewLine] *)
  (** a slot that may be followed by a forced newline and indentation *)
  Definition breakable (c : config) (s : Sl) : Prop :=
    nlc = true /\ (forall x, L s x -> L s (x ++ [ch_nl])) /\ (forall st x, L s x -> L s (x ++ indent_text c st)).

  Lemma pop_blank_trims f : trims f (pop_blank f) /\ (f <> [] -> pop_blank f <> []).
  Proof.
    unfold pop_blank. destruct (1 <? blen f) eqn:E; [|split; [apply trims_refl|auto]].
    destruct (rev f) as [|c r] eqn:Er; [split; [apply trims_refl|auto]|].
    assert (f = rev r ++ [c]) as -> by (rewrite <- (rev_involutive f), Er; reflexivity).
    destruct (is_sp_tab c) eqn:Ec; [|split; [apply trims_refl|auto]]. split; [exists [c]; repeat constructor; auto|].
    intros _ Hr. rewrite Hr in E. cbn in E. unfold is_sp_tab in Ec. rewrite orb_true_iff, !ceq_true in Ec.
    destruct Ec as [-> | ->]; discriminate.
  Qed.
  Lemma wr_if_newline c b (Hh : hinted) h s s0 : (b = true -> breakable c s /\ forall x, L s0 x -> L s x) ->
    (b = false -> wr (Hh h) [s]) -> (b = true -> wr (Hh []) [s0]) -> wr (if_newline c b Hh h) [s].
  Proof.
    intros Hb H1 H2. unfold if_newline. destruct b; cbn [negb]; [|auto]. destruct (Hb eq_refl) as ((Hn & Hnl & Hind) & H0).
    eapply wr_buffer; [exact (H2 eq_refl)|]. intros block Hbl. apply adds_from_nil in Hbl. apply renders_one_loose in Hbl.
    apply H0 in Hbl. pose proof (trim_end_trims block) as (bl & Eb & Hbb).
    set (t := trim_end_spaces_and_tabs block) in *. rewrite Eb in Hbl. pose proof (L_trims _ _ _ Hn Hbl Hbb) as Lt.
    intros w a w' I. unfold bind, write_indent, get_st, emit. cbn [bind].
    destruct t as [|t0 t1] eqn:Et; cbn [is_empty negb].
    - intros [= _ <-]. cbn [w_st w_f set_f]. split; [exact I|]. destruct (pop_blank_trims (w_f w)) as [P1 P2].
      destruct (ends_nl (pop_blank (w_f w))) eqn:En.
      + apply ends_nl_iff in En. exists (pop_blank (w_f w)), (indent_text c (w_st w)). split; [reflexivity|]. split.
        * apply rn_one. right. repeat split; auto. { change (indent_text c (w_st w)) with ([] ++ indent_text c (w_st w)). now apply Hind. }
          right; now left.
        * right. tauto.
      + exists (pop_blank (w_f w)), (ch_nl :: indent_text c (w_st w)). split; [now rewrite <- app_assoc|]. split.
        * apply rn_one. right. repeat split; auto. { change (ch_nl :: indent_text c (w_st w)) with (([] ++ [ch_nl]) ++ indent_text c (w_st w)). now apply Hind, Hnl. }
          left; now left.
        * right. repeat split; auto. right. eexists. reflexivity.
    - rewrite <- Et in *. cbv beta iota. intros E.
      assert (N : exists y, w_f w' = w_f w ++ y /\ w_st w' = w_st w /\ L s y /\ has_nl y).
      { destruct (ends_nl t) eqn:En; cbn in E; injection E as _ <-; cbn [w_f w_st set_f].
        - exists (t ++ indent_text c (w_st w)). rewrite app_assoc. repeat split; auto. apply ends_nl_iff in En as (z & ->).
          unfold has_nl. rewrite !in_app_iff. cbn. auto.
        - exists ((t ++ [ch_nl]) ++ indent_text c (w_st w)). rewrite !app_assoc. repeat split; auto.
          unfold has_nl. rewrite !in_app_iff. cbn. auto. }
      destruct N as (y & Ef & Es & Ly & Ny). rewrite Es. split; [exact I|]. rewrite Ef. apply adds_render. apply rn_one.
      right. repeat split; auto. now left.
  Qed.

  Lemma wr_bind_val {A B} (m : M A) (k : A -> M B) ss : quiet m ->
    (forall w x w', m w = (ROk x, w') -> wr (k x) ss) -> wr (bind m k) ss.
  Proof.
    intros Hm Hk w x w' I. unfold bind. destruct (m w) as [[y| | |] w1] eqn:E; try discriminate.
    intros E2. destruct (Hm _ _ _ I E) as [I1 E1]. rewrite <- E1. eapply Hk; eauto.
  Qed.
  Lemma wr_eq {A} (m : M A) a b : wr m a -> a = b -> wr m b. Proof. now intros ? ->. Qed.

  (** ** lists *)
  Section WList.
    Context {node : Type}.
    Variables (c : config) (buf : str) (LH : loc -> hinted) (W : node -> M unit) (nn : bool)
      (first_nl : node -> M bool) (nl : node -> node -> M bool) (ph : node -> str)
      (gp : loc -> str -> Sl) (ws : node -> list Sl) (ok : loc -> Prop) (okn : node -> Prop).
    Hypothesis loc_wr : forall s p h, IS s -> test_out_of_range (pos_range s) p = true -> ok p -> (h = [] \/ exists x, h = ph x) ->
      wr (write_loc buf p) [gp p h].
    Hypothesis LH_wr : forall p h, ok p -> (h = [] \/ exists x, h = ph x) -> wr (LH p h) [gp p h].
    Hypothesis W_wr : forall x, okn x -> wr (W x) (ws x).
    Hypothesis loose : forall p h h' x, nlc = true -> L (gp p h) x -> L (gp p h') x.
    Hypothesis first_quiet : forall x, okn x -> quiet (first_nl x).
    Hypothesis nl_quiet : forall x y, okn x -> okn y -> quiet (nl x y).
    Hypothesis first_brk : forall p h x w w', ok p -> nn = true -> first_nl x w = (ROk true, w') -> breakable c (gp p h).
    Hypothesis nl_brk : forall p h x y w w', ok p -> nn = true -> nl x y w = (ROk true, w') -> breakable c (gp p h).

    Definition rest_slots (l : list (loc * node)) : list Sl := flat_map (fun x => gp (fst x) (ph (snd x)) :: ws (snd x)) l.
    Definition list_slots (l : list (loc * node)) : list Sl :=
      match l with [] => [] | (p, x) :: r => gp p [] :: ws x ++ rest_slots r end.

    Lemma quiet_lazy b m : quiet m -> quiet (lazy_and b m).
    Proof. intros H. destruct b; [exact H|apply quiet_ret]. Qed.
    Lemma lazy_true b m w w' : lazy_and b m w = (ROk true, w') -> b = true /\ m w = (ROk true, w').
    Proof. destruct b; cbn; [auto|]. discriminate. Qed.

    Lemma wr_gap_nl p h b : ok p -> (h = [] \/ exists x, h = ph x) -> (b = true -> breakable c (gp p h)) -> wr (if_newline c b (LH p) h) [gp p h].
    Proof.
      intros Hp Hh Hb. apply (wr_if_newline c b (LH p) h (gp p h) (gp p [])).
      - intros E. split; [now apply Hb|]. intros x Hx. destruct (Hb E) as (Hn & _). eapply loose; eauto.
      - intros _. now apply LH_wr.
      - intros _. apply LH_wr; auto.
    Qed.
    Lemma wr_list_rest l : forall indent prev, okn prev -> Forall (fun x => ok (fst x) /\ okn (snd x)) l ->
      wr (write_list_rest c buf LH W nn nl ph indent prev l) (rest_slots l).
    Proof.
      induction l as [|[p x] l IH]; intros indent prev Hprev Hl; cbn [write_list_rest rest_slots flat_map fst snd]; [apply wr_ret|].
      inversion Hl as [|? ? [Hp Hx] Hl']; subst. cbn in Hp, Hx.
      apply wr_get_st. intros s I.
      refine (wr_bind _ _ [gp p (ph x)] (ws x ++ rest_slots l) _ _);
        [|intros i; refine (wr_bind _ _ (ws x) (rest_slots l) _ _); [now apply W_wr|intros _; now apply IH]].
      destruct (test_out_of_range (pos_range s) p) eqn:Er; [apply wr_then_ret; eapply loc_wr; eauto|].
      apply wr_bind_val; [now apply quiet_lazy, nl_quiet|]. intros w b w' E. apply wr_then_ret.
      apply wr_gap_nl; eauto. intros ->. apply lazy_true in E as [-> E]. eapply nl_brk; eauto.
    Qed.
    Lemma wr_write_list l : Forall (fun x => ok (fst x) /\ okn (snd x)) l ->
      wr (write_list c buf LH W nn first_nl nl ph l) (list_slots l).
    Proof.
      destruct l as [|[p x] l]; intros Hl; cbn [write_list list_slots]; [apply wr_ret|].
      inversion Hl as [|? ? [Hp Hx] Hl']; subst. cbn in Hp, Hx.
      apply wr_bind_val; [now apply quiet_lazy, first_quiet|]. intros w b w' E.
      refine (wr_bind _ _ [gp p []] (ws x ++ rest_slots l) _ _);
        [|intros _; refine (wr_bind _ _ (ws x) (rest_slots l) _ _); [now apply W_wr|intros _; now apply wr_list_rest]].
      apply wr_gap_nl; eauto. intros ->. apply lazy_true in E as [-> E]. eapply first_brk; eauto.
    Qed.

    Variables (sep : option str) (trailing : M (option bool)) (eh : str) (sp tr : str -> list Sl).
    Hypothesis eh_ph : eh = [] \/ exists x, eh = ph x.
    Hypothesis sep_r : forall z, renders (sp z) (get_sep sep z).
    Hypothesis trail_quiet : quiet trailing.
    Hypothesis trail_r : forall z w t w', trailing w = (ROk t, w') ->
      renders (tr z) (if (is_none t && negb (is_empty z)) || obool_is t true then get_sep sep z else []).
    Fixpoint rest_sslots (z : str) (l : list (loc * node * loc * str)) : list Sl :=
      match l with
      | [] => tr z
      | (p, x, q, z') :: r => sp z ++ gp p eh :: ws x ++ gp q [] :: rest_sslots z' r
      end.
    Definition seps_slots (l : list (loc * node * loc * str)) : list Sl :=
      match l with [] => [] | (p, x, q, z) :: r => gp p [] :: ws x ++ gp q [] :: rest_sslots z r end.
    Definition ok4 (x : loc * node * loc * str) : Prop :=
      ok (fst (fst (fst x))) /\ okn (snd (fst (fst x))) /\ ok (snd (fst x)).

    (** the separator left over *)
    Fixpoint last_sep (z : str) (l : list (loc * node * loc * str)) : str :=
      match l with [] => z | (_, z') :: r => last_sep z' r end.
    Fixpoint rest_body (z : str) (l : list (loc * node * loc * str)) : list Sl :=
      match l with
      | [] => []
      | (p, x, q, z') :: r => sp z ++ gp p eh :: ws x ++ gp q [] :: rest_body z' r
      end.
    Lemma rest_body_end l : forall z, rest_sslots z l = rest_body z l ++ tr (last_sep z l).
    Proof.
      induction l as [|[[[p x] q] z'] l IH]; intros z; cbn [rest_sslots rest_body last_sep]; [reflexivity|].
      rewrite IH. repeat (rewrite <- ?app_assoc; cbn [app]). reflexivity.
    Qed.
    Lemma wr_seps_rest l : forall indent prev z, okn prev -> Forall ok4 l ->
      wr (write_seps_rest c buf LH W nn nl sep eh indent prev z l) (rest_body z l).
    Proof.
      induction l as [|[[[p x] q] z'] l IH]; intros indent prev z Hprev Hl; cbn [write_seps_rest rest_body]; [apply wr_ret|].
      inversion Hl as [|? ? (Hp & Hx & Hq) Hl']; subst. cbn in Hp, Hx, Hq.
      apply wr_bind; [apply wr_emits, sep_r|intros _].
      apply wr_get_st. intros s I.
      refine (wr_bind _ _ [gp p eh] (ws x ++ [gp q []] ++ rest_body z' l) _ _); [|intros i].
      - destruct (test_out_of_range (pos_range s) p) eqn:Er; [apply wr_then_ret; eapply loc_wr; eauto|].
        apply wr_bind_val; [now apply quiet_lazy, nl_quiet|]. intros w b w' E. apply wr_then_ret.
        apply wr_gap_nl; eauto. intros ->. apply lazy_true in E as [-> E]. eapply nl_brk; eauto.
      - apply wr_bind; [now apply W_wr|intros _]. apply wr_bind; [now apply LH_wr; auto|intros _]. now apply IH.
    Qed.
    Lemma seps_rest_last l : forall indent prev z w r w',
      write_seps_rest c buf LH W nn nl sep eh indent prev z l w = (ROk r, w') -> snd r = last_sep z l.
    Proof.
      assert (B : forall A B (m : M A) (k : A -> M B) w b w', bind m k w = (ROk b, w') -> exists a w1, m w = (ROk a, w1) /\ k a w1 = (ROk b, w')).
      { intros A B m k w b w'. unfold bind. destruct (m w) as [[a| | |] w1]; try discriminate. eauto. }
      induction l as [|[[[p x] q] z'] l IH]; intros indent prev z w r w' E; cbn [write_seps_rest last_sep] in *.
      - injection E as <- _. reflexivity.
      - repeat (apply B in E as (? & ? & _ & E)). eapply IH; eauto.
    Qed.
    Lemma wr_write_seps l : Forall ok4 l ->
      wr (write_seps c buf LH W nn first_nl nl sep trailing eh l) (seps_slots l).
    Proof.
      destruct l as [|[[[p x] q] z] l]; intros Hl; cbn [write_seps seps_slots]; [apply wr_ret|].
      inversion Hl as [|? ? (Hp & Hx & Hq) Hl']; subst. cbn in Hp, Hx, Hq.
      apply wr_bind_val; [now apply quiet_lazy, first_quiet|]. intros w b w' E. rewrite rest_body_end.
      refine (wr_bind _ _ [gp p []] (ws x ++ [gp q []] ++ rest_body z l ++ tr (last_sep z l)) _ _); [|intros _].
      { apply wr_gap_nl; eauto. intros ->. apply lazy_true in E as [-> E]. eapply first_brk; eauto. }
      apply wr_bind; [now apply W_wr|intros _]. apply wr_bind; [now apply LH_wr; auto|intros _].
      intros w1 a w2 I E1. unfold bind at 1 in E1.
      destruct (write_seps_rest c buf LH W nn nl sep eh b x z l w1) as [[r| | |] w3] eqn:Er; try discriminate.
      pose proof (wr_seps_rest l b x z Hx Hl' _ _ _ I Er) as [I3 A3]. apply seps_rest_last in Er.
      assert (T : wr (t <- trailing ;; (if (is_none t && negb (is_empty (snd r))) || obool_is t true
         then emit (get_sep sep (snd r)) else ret tt) ;;; ret (fst r)) (tr (last_sep z l))).
      { apply wr_bind_val; [exact trail_quiet|]. intros w4 t w5 Et. apply wr_then_ret. specialize (trail_r (last_sep z l) _ _ _ Et).
        rewrite Er. destruct (_ || _); [now apply wr_emits|]. intros w6 a6 w7 I6 [= _ <-]. split; [exact I6|].
        rewrite <- (app_nil_r (w_f w6)) at 2. now apply adds_render. }
      destruct (T _ _ _ I3 E1) as [I4 A4]. split; [exact I4|]. eapply adds_app; eauto.
    Qed.
  End WList.
End Frame.
