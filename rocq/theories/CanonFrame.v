(** Two trees that differ in positions only are written the same when the gaps at their positions are. *)
From Verif Require Import Base Config State Ast WriterBase LuaWriter GapProofs UtilSpec FormatSpec CanonSpec.

(** the separators after the fields of a table, as far as they are written *)
Definition last_out (c : config) (z : str) : str :=
  match cb c B_write_trailing_field_separator with
  | Some true => separator_out c z
  | Some false => []
  | None => match z with [] => [] | _ => separator_out c z end
  end.
Fixpoint seps_alike (c : config) (l l' : list str) : Prop :=
  match l, l' with
  | [], [] => True
  | z :: r, z' :: r' =>
      match r, r' with
      | [], [] => last_out c z = last_out c z'
      | _, _ => separator_out c z = separator_out c z' /\ seps_alike c r r'
      end
  | _, _ => False
  end.

(** the children that the reconstruction does not visit are absent *)
Definition visited (k : kind) (ks : list node) (is : list (loc * node)) (ss : list sitem) : Prop :=
  match k with
  | KStatementList => ks = [] /\ ss = []
  | KFields => ks = [] /\ is = []
  | KTableConstructor => is = [] /\ ss = []
  | KFuncNameSelf => is = []
  | KCharStringLiteral => ks = [] /\ is = [] /\ ss = []
  | _ => True
  end.

Section Twin.
  Variables (c : config) (strings : bool) (conv : str -> str) (SG : loc -> loc -> Prop).
  Inductive twin : node -> node -> Prop :=
  | tw_node : forall k sp sp' ls ls' t lv ks ks' is is' ss ss' o,
      Forall2 SG ls ls' -> Forall2 twin ks ks' ->
      Forall2 (fun x y => SG (fst x) (fst y) /\ twin (snd x) (snd y)) is is' ->
      Forall2 (fun x y => SG (si_loc x) (si_loc y) /\ twin (si_node x) (si_node y) /\ SG (si_loc2 x) (si_loc2 y)) ss ss' ->
      (k = KFields -> on c B_force_single_line_table = false -> seps_alike c (map si_sep ss) (map si_sep ss')) ->
      (strings = true -> visited k ks is ss) ->
      twin (Nd k sp ls t lv ks is ss o) (Nd k sp' ls' t lv ks' is' ss' o)
  | tw_string : forall sp sp' s o, strings = true -> lua_value (conv s) = lua_value s ->
      twin (Nd KCharStringLiteral sp [] s 0 [] [] [] o) (Nd KNormalStringLiteral sp' [] (conv s) 0 [] [] [] o).
End Twin.

Section Congruence.
  Variables (c : config) (buf buf' : str).
  Hypothesis NS : no_size_tests c.

  Record weq (w w' : world) : Prop := mk_weq {
    we_f : w_f w = w_f w';
    we_1 : IS buf (w_st w);
    we_2 : IS buf' (w_st w');
    we_indent : indent_level (w_st w) = indent_level (w_st w');
    we_stack : stack_indent (w_st w) = stack_indent (w_st w');
    we_func : function_nested_level (w_st w) = function_nested_level (w_st w');
    we_one : w_oneline w = [] /\ w_oneline w' = [] }.
  Definition rel {A B} (Q : A -> B -> Prop) (x : res A * world) (y : res B * world) : Prop :=
    match fst x, fst y with
    | ROk a, ROk b => Q a b /\ weq (snd x) (snd y)
    | RErr, RErr => weq (snd x) (snd y)
    | RPanic, RPanic => True
    | RFuel, RFuel => True
    | _, _ => False
    end.
  Definition simv {A B} (Q : A -> B -> Prop) (m : M A) (m' : M B) : Prop := forall w w', weq w w' -> rel Q (m w) (m' w').
  Definition sim {A} : M A -> M A -> Prop := simv (@eq A).

  Lemma simv_bind {A B A' B'} Q R (m : M A) (m' : M A') (k : A -> M B) (k' : A' -> M B') :
    simv Q m m' -> (forall a b, Q a b -> simv R (k a) (k' b)) -> simv R (bind m k) (bind m' k').
  Proof.
    intros Hm Hk w w' E. specialize (Hm w w' E). unfold bind, rel in *. destruct (m w) as [[a| | |] w1], (m' w') as [[b| | |] w1']; cbn [fst snd] in *; try contradiction; auto.
    destruct Hm as [Q1 E1]. exact (Hk a b Q1 w1 w1' E1).
  Qed.
  Lemma sim_bind {A B} (m m' : M A) (k k' : A -> M B) : sim m m' -> (forall a, sim (k a) (k' a)) -> sim (bind m k) (bind m' k').
  Proof. intros Hm Hk. apply (simv_bind eq); [exact Hm|]. intros a b <-. apply Hk. Qed.
  Lemma sim_ret {A} (a : A) : sim (ret a) (ret a).
  Proof. intros w w' E. cbn. auto. Qed.
  Lemma sim_panic {A} : sim (@panic A) panic. Proof. intros w w' E. exact Logic.I. Qed.
  Lemma sim_fuel {A} : sim (@nofuel A) nofuel. Proof. intros w w' E. exact Logic.I. Qed.
  Lemma weq_f f w w' : weq w w' -> weq (set_f f w) (set_f f w').
  Proof. intros [E1 E2 E3 E4 E5 E6 E7]. now constructor. Qed.
  Lemma sim_emit s : sim (emit s) (emit s).
  Proof. intros w w' E. cbn. split; [reflexivity|]. rewrite <- (we_f _ _ E). now apply weq_f. Qed.
  Lemma sim_get_f {A} (k k' : str -> M A) : (forall f, sim (k f) (k' f)) -> sim (bind get_f k) (bind get_f k').
  Proof. intros H w w' E. unfold bind, get_f. rewrite <- (we_f _ _ E). exact (H (w_f w) w w' E). Qed.
  Lemma sim_get {A} (k k' : state -> M A) : (forall w w', weq w w' -> rel eq (k (w_st w) w) (k' (w_st w') w')) -> sim (bind get_st k) (bind get_st k').
  Proof. intros H w w' E. exact (H w w' E). Qed.
  Lemma simv_get {A B} Q (k : state -> M A) (k' : state -> M B) :
    (forall w w', weq w w' -> rel Q (k (w_st w) w) (k' (w_st w') w')) -> simv Q (bind get_st k) (bind get_st k').
  Proof. intros H w w' E. exact (H w w' E). Qed.
  Lemma simv_one {A} Q n n' (k k' : bool -> M A) : simv Q (k false) (k' false) -> simv Q (bind (get_oneline n) k) (bind (get_oneline n') k').
  Proof. intros H w w' E. unfold bind, get_oneline. destruct (we_one _ _ E) as [-> ->]. exact (H w w' E). Qed.
  Lemma sim_st g : (forall s s', indent_level s = indent_level s' -> stack_indent s = stack_indent s' -> function_nested_level s = function_nested_level s' ->
      c2b (g s) = c2b s /\ pos_range (g s) = pos_range s /\ c2b (g s') = c2b s' /\ pos_range (g s') = pos_range s' /\
      indent_level (g s) = indent_level (g s') /\ stack_indent (g s) = stack_indent (g s') /\ function_nested_level (g s) = function_nested_level (g s')) ->
    sim (s <- get_st ;; put_st (g s)) (s <- get_st ;; put_st (g s)).
  Proof.
    intros H. apply sim_get. intros w w' E. cbn. split; [reflexivity|]. destruct E as [E1 [I1 I2] [J1 J2] E4 E5 E6 E7].
    destruct (H _ _ E4 E5 E6) as (A1 & A2 & A3 & A4 & A5 & A6 & A7). constructor; cbn; auto; split; congruence.
  Qed.
  Lemma sim_inc o : sim (inc_indent o) (inc_indent o).
  Proof.
    apply sim_st. intros s s' E1 E2 E3. unfold inc_indent_st. rewrite E1, E2. now repeat split.
  Qed.
  Lemma sim_dec : sim dec_indent dec_indent.
  Proof.
    apply sim_st. intros s s' E1 E2 E3. unfold dec_indent_st. rewrite <- E2. destruct (stack_indent s) as [|x r] eqn:Es.
    - repeat split; auto. congruence.
    - rewrite E1. now repeat split.
  Qed.
  Lemma sim_incf : sim inc_func_level inc_func_level.
  Proof. apply sim_st. intros s s' E1 E2 E3. cbn. repeat split; auto. congruence. Qed.
  Lemma sim_decf : sim dec_func_level dec_func_level.
  Proof. apply sim_st. intros s s' E1 E2 E3. cbn. repeat split; auto. congruence. Qed.
  Lemma sim_write_indent : sim (write_indent c) (write_indent c).
  Proof.
    apply sim_get. intros w w' E. unfold indent_text. rewrite <- (we_indent _ _ E). now apply sim_emit.
  Qed.
  Lemma sim_buffer s (m m' : M unit) : sim m m' -> sim (in_buffer s m) (in_buffer s m').
  Proof.
    intros H w w' E. specialize (H (set_f s w) (set_f s w') (weq_f s _ _ E)). unfold rel, in_buffer in *.
    destruct (m (set_f s w)) as [[a| | |] w1], (m' (set_f s w')) as [[b| | |] w1']; cbn [fst snd] in *; try contradiction; auto.
    - destruct H as [_ H]. split; [exact (we_f _ _ H)|]. rewrite <- (we_f _ _ E). now apply weq_f.
    - rewrite <- (we_f _ _ E). now apply weq_f.
  Qed.
  Lemma sim_newline b (H H' : WriterBase.hinted) h : (forall h, sim (H h) (H' h)) -> sim (if_newline c b H h) (if_newline c b H' h).
  Proof.
    intros Hh. unfold if_newline. destruct (negb b); [apply Hh|]. apply sim_bind; [apply sim_buffer, Hh|]. intros bl.
    apply sim_bind; [|intros; apply sim_write_indent]. destruct (negb (is_empty _)).
    - apply sim_bind; [apply sim_emit|]. intros _. destruct (ends_nl _); [apply sim_ret|apply sim_emit].
    - intros w w' E. cbn. split; [reflexivity|]. rewrite <- (we_f _ _ E). now apply weq_f.
  Qed.
  Lemma weq_restore w w' w1 w1' : weq w w' -> weq w1 w1' -> weq (restore w w1) (restore w' w1').
  Proof. intros [E1 E2 E3 E4 E5 E6 E7] [D1 D2 D3 D4 D5 D6 D7]. now constructor. Qed.
  Lemma sim_copy (m m' : M bool) : sim m m' -> sim (on_copy m) (on_copy m').
  Proof.
    intros H w w' E. specialize (H w w' E). unfold rel, on_copy in *.
    destruct (m w) as [[a| | |] w1], (m' w') as [[b| | |] w1']; cbn [fst snd] in *; try contradiction; auto.
    - destruct H as [-> H]. split; [reflexivity|now apply weq_restore].
    - split; [reflexivity|now apply weq_restore].
  Qed.
  Lemma run_all_sim ms ms' : Forall2 sim ms ms' -> forall b w w', weq w w' -> rel eq (run_all ms b w) (run_all ms' b w').
  Proof.
    induction 1 as [|m m' ms ms' Hm H IH]; intros b w w' E; cbn [run_all]; [cbn; auto|]. specialize (Hm w w' E). unfold rel in Hm.
    destruct (m w) as [[a| | |] w1], (m' w') as [[a'| | |] w1']; cbn [fst snd] in *; try contradiction; try exact Logic.I.
    - apply IH. apply Hm.
    - apply IH. apply Hm.
  Qed.
  Lemma sim_oneline ms ms' : Forall2 sim ms ms' -> sim (test_oneline c ms) (test_oneline c ms').
  Proof.
    intros H w w' E. pose proof (run_all_sim _ _ H false _ _ (weq_f [] _ _ E)) as R. unfold test_oneline, rel in *.
    destruct (run_all ms false (set_f [] w)) as [[a| | |] w1], (run_all ms' false (set_f [] w')) as [[b| | |] w1']; cbn [fst snd] in *; try contradiction; auto.
    - destruct R as [<- R]. destruct a; cbn.
      + split; [reflexivity|now apply weq_restore].
      + rewrite <- (we_f _ _ R), <- (we_f _ _ E). destruct (cn c N_max_width); cbn; auto. split; [reflexivity|now apply weq_restore].
    - now apply weq_restore.
  Qed.
  Lemma sim_no_nl ms ms' : Forall2 sim ms ms' -> sim (test_oneline_no_nl c ms) (test_oneline_no_nl c ms').
  Proof. intros H. apply sim_bind; [now apply sim_oneline|]. intros; apply sim_ret. Qed.
  Lemma sim_isnone {A} (m m' : M (option A)) : sim m m' -> sim (isnone m) (isnone m').
  Proof. intros H. apply sim_bind; [exact H|]. intros; apply sim_ret. Qed.
  Lemma sim_issome {A} (m m' : M (option A)) : sim m m' -> sim (issome m) (issome m').
  Proof. intros H. apply sim_bind; [exact H|]. intros; apply sim_ret. Qed.

  (** ** trees *)
  Variables (conv : str -> str) (SG : loc -> loc -> Prop).
  Hypothesis SG_hint : forall l l' h, SG l l' -> sim (comment_hint c buf l h) (comment_hint c buf' l' h).
  Hypothesis SG_void : SG (0, 0) (0, 0).
  Notation twin := (twin c false conv SG).

  Lemma twin_parts n n' : twin n n' ->
    n_kind n = n_kind n' /\ n_text n = n_text n' /\ n_level n = n_level n' /\ n_opts n = n_opts n' /\ Forall2 SG (n_locs n) (n_locs n')
    /\ Forall2 twin (n_kids n) (n_kids n')
    /\ Forall2 (fun x y => SG (fst x) (fst y) /\ twin (snd x) (snd y)) (n_items n) (n_items n')
    /\ Forall2 (fun x y => SG (si_loc x) (si_loc y) /\ twin (si_node x) (si_node y) /\ SG (si_loc2 x) (si_loc2 y)) (n_seps n) (n_seps n')
    /\ (n_kind n = KFields -> on c B_force_single_line_table = false -> seps_alike c (map si_sep (n_seps n)) (map si_sep (n_seps n'))).
  Proof. intros H. inversion H; subst; [|discriminate]. repeat split; auto. Qed.
  Lemma twin_kind n n' : twin n n' -> n_kind n' = n_kind n. Proof. intros H. now destruct (twin_parts _ _ H) as (-> & _). Qed.
  Lemma twin_dummy : twin dummy_node dummy_node.
  Proof. constructor; try discriminate; constructor. Qed.
  Lemma nth_twin ks ks' : Forall2 twin ks ks' -> forall j, twin (nth j ks dummy_node) (nth j ks' dummy_node).
  Proof. induction 1; intros [|j]; cbn; auto using twin_dummy. Qed.
  Lemma twin_kid n n' i : twin n n' -> twin (kid n i) (kid n' i).
  Proof. intros H. destruct (twin_parts _ _ H) as (_ & _ & _ & _ & _ & A & _). now apply nth_twin. Qed.
  Lemma nth_SG l l' : Forall2 SG l l' -> forall j, SG (nth j l dummy_loc) (nth j l' dummy_loc).
  Proof. induction 1; intros [|j]; cbn; auto. Qed.
  Lemma twin_loc n n' i : twin n n' -> SG (nloc n i) (nloc n' i).
  Proof. intros H. destruct (twin_parts _ _ H) as (_ & _ & _ & _ & A & _). now apply nth_SG. Qed.

  Definition raw_free (x : item) : Prop :=
    match x with IRaw _ => False | IIf _ (IRaw _) => False | IIf _ (IIf _ _) => False | _ => True end.
  Lemma clause_raw n : Forall raw_free (cl_pre (clause_of c n)) /\ forall b, Forall raw_free (cl_post (clause_of c n) b).
  Proof. unfold clause_of. destruct (n_kind n); split; cbn; intros; repeat constructor. Qed.
  Lemma clause_twin n n' : twin n n' -> clause_of c n' = clause_of c n.
  Proof. intros H. destruct (twin_parts _ _ H) as (E1 & E2 & E3 & _). unfold clause_of. rewrite <- E1, <- E2. reflexivity. Qed.

  Section Body.
    Variables W W' : config -> node -> M unit.
    Hypothesis HW : forall n n', twin n n' -> sim (W c n) (W' c n').

    Lemma item_sim n n' x : twin n n' -> raw_free x -> sim (run_item c buf W n x) (run_item c buf' W' n' x).
    Proof.
      intros T Hx. assert (B : forall x, match x with IRaw _ | IIf _ _ => False | _ => True end -> sim (run_item c buf W n x) (run_item c buf' W' n' x)).
      { intros y Hy. destruct y; cbn [run_item]; try contradiction.
        - apply sim_emit.
        - apply SG_hint. now apply twin_loc.
        - apply sim_newline. intros h. apply SG_hint. now apply twin_loc.
        - apply HW. now apply twin_kid.
        - apply sim_inc.
        - apply sim_dec.
        - apply sim_incf.
        - apply sim_decf. }
      destruct x; try (apply B; exact Logic.I); [destruct Hx|]. cbn [run_item]. destruct b; [|apply sim_ret].
      apply B. destruct x; auto.
    Qed.
    Lemma items_sim n n' l : twin n n' -> Forall raw_free l -> sim (run_items c buf W n l) (run_items c buf' W' n' l).
    Proof.
      intros T. induction 1 as [|x l Hx Hl IH]; cbn [run_items]; [apply sim_ret|]. apply sim_bind; [now apply item_sim|]. intros _. exact IH.
    Qed.

    Lemma NSk k : In k [B_force_single_line_table; B_force_single_line_iv_table_field; B_force_single_line_kv_table_field;
                  B_force_single_line_if; B_force_single_line_top_level_function; B_force_single_line_scoped_function] -> on c k = false.
    Proof. apply NS. Qed.
    Lemma off_table : on c B_force_single_line_table = false. Proof. apply NS. cbn; tauto. Qed.
    Lemma off_iv : on c B_force_single_line_iv_table_field = false. Proof. apply NS. cbn; tauto. Qed.
    Lemma off_kv : on c B_force_single_line_kv_table_field = false. Proof. apply NS. cbn; tauto. Qed.
    Lemma off_if : on c B_force_single_line_if = false. Proof. apply NS. cbn; tauto. Qed.
    Lemma off_top : on c B_force_single_line_top_level_function = false. Proof. apply NS. cbn; tauto. Qed.
    Lemma off_scoped : on c B_force_single_line_scoped_function = false. Proof. apply NS. cbn; tauto. Qed.

    Lemma suffix_sim x x' : twin x x' -> sim (suffix_newline c buf W x) (suffix_newline c buf' W' x').
    Proof.
      intros T. unfold suffix_newline. rewrite (twin_kind _ _ T), (twin_kind _ _ (twin_kid _ _ 1 T)).
      assert (A : sim (isnone (test_oneline c [W c x])) (isnone (test_oneline c [W' c x']))).
      { apply sim_isnone, sim_oneline. apply Forall2_cons; [now apply HW|constructor]. }
      assert (B : sim (isnone (test_oneline c [emit (s2l ":"); LuaWriter.H c buf (nloc x 0) []; W c (kid x 0)]))
                      (isnone (test_oneline c [emit (s2l ":"); LuaWriter.H c buf' (nloc x' 0) []; W' c (kid x' 0)]))).
      { apply sim_isnone, sim_oneline. apply Forall2_cons; [apply sim_emit|]. apply Forall2_cons; [apply SG_hint; now apply twin_loc|]. apply Forall2_cons; [apply HW; now apply twin_kid|constructor]. }
      destruct (n_kind x); try apply sim_ret; destruct (negb _); try apply sim_ret; destruct (on c B_force_single_line_var_suffix); try apply sim_ret; try exact A.
      destruct (n_kind (kid x 1)); try exact A; try exact B. destruct (nsome c _); assumption.
    Qed.
    Lemma newline_sim p p' v v' x x' : twin p p' -> twin v v' -> twin x x' -> sim (need_newline c buf W p v x) (need_newline c buf' W' p' v' x').
    Proof.
      intros Tp Tv Tx. unfold need_newline. rewrite (twin_kind _ _ Tp). destruct (twin_parts _ _ Tp) as (_ & _ & _ & <- & _).
      unfold is_kind at 2. rewrite off_iv, off_kv, andb_false_r. cbn [andb].
      destruct (n_kind p); try apply sim_ret.
      - destruct (negb _); apply sim_ret.
      - unfold is_kind. rewrite (twin_kind _ _ Tx). destruct (_ && _ && _); [apply sim_ret|]. destruct (nis c _ _); [|apply sim_ret].
        destruct (on c B_force_single_line_exp_list); [|apply sim_ret]. apply sim_isnone, sim_oneline. apply Forall2_cons; [now apply HW|constructor].
      - now apply suffix_sim.
    Qed.
    Lemma first_sim p p' x x' : twin p p' -> twin x x' -> sim (need_first_newline c buf W p x) (need_first_newline c buf' W' p' x').
    Proof.
      intros Tp Tx. unfold need_first_newline. rewrite (twin_kind _ _ Tp). rewrite off_table, off_iv, off_kv. cbn [andb orb].
      destruct (n_kind p); try apply sim_ret.
      - destruct (negb _); apply sim_ret.
      - destruct (nis c _ _); [|apply sim_ret].
        destruct (on c B_force_single_line_exp_list); [|apply sim_ret]. apply sim_isnone, sim_oneline. apply Forall2_cons; [now apply HW|constructor].
      - now apply suffix_sim.
    Qed.
    Lemma lazy_sim b (m m' : M bool) : sim m m' -> sim (lazy_and b m) (lazy_and b m').
    Proof. intros H. unfold lazy_and. destruct b; [exact H|apply sim_ret]. Qed.
    Lemma hint_text_twin x x' : twin x x' -> list_prefix_hint x' = list_prefix_hint x.
    Proof. intros T. unfold list_prefix_hint. now rewrite (twin_kind _ _ T). Qed.
    Lemma sim_range {A} (l l' : loc) (a a' b b' : M A) : sim b b' ->
      sim (s <- get_st ;; if test_out_of_range (pos_range s) l then a else b) (s <- get_st ;; if test_out_of_range (pos_range s) l' then a' else b').
    Proof.
      intros H. apply sim_get. intros w w' E. rewrite (proj2 (we_1 _ _ E)), (proj2 (we_2 _ _ E)). cbn [test_out_of_range]. now apply H.
    Qed.

    Lemma list_rest_sim need n n' : twin n n' -> forall l l', Forall2 (fun x y => SG (fst x) (fst y) /\ twin (snd x) (snd y)) l l' ->
      forall b v v', twin v v' ->
      sim (write_list_rest c buf (LuaWriter.H c buf) (W c) need (need_newline c buf W n) list_prefix_hint b v l)
          (write_list_rest c buf' (LuaWriter.H c buf') (W' c) need (need_newline c buf' W' n') list_prefix_hint b v' l').
    Proof.
      intros T. induction 1 as [|[p x] [p' x'] l l' [Hp Hx] F IH]; intros b v v' Tv; cbn [write_list_rest]; [apply sim_ret|]. cbn [fst snd] in *.
      apply sim_get. intros w w' E. rewrite (proj2 (we_1 _ _ E)), (proj2 (we_2 _ _ E)). cbn [test_out_of_range]. revert w w' E.
      apply sim_bind.
      - apply sim_bind; [apply lazy_sim; now apply newline_sim|]. intros b1. apply sim_bind; [|intros; apply sim_ret].
        rewrite (hint_text_twin _ _ Hx). apply sim_newline. intros h. now apply SG_hint.
      - intros b1. apply sim_bind; [now apply HW|]. intros _. now apply IH.
    Qed.
    Lemma list_sim n n' : twin n n' -> sim (lua_list c buf W n) (lua_list c buf' W' n').
    Proof.
      intros T. unfold lua_list. replace (list_need_newlines c n') with (list_need_newlines c n) by (unfold list_need_newlines; now rewrite (twin_kind _ _ T)).
      destruct (twin_parts _ _ T) as (_ & _ & _ & _ & _ & _ & F & _). unfold write_list.
      destruct F as [|[p x] [p' x'] l l' [Hp Hx] F]; [apply sim_ret|]. cbn [fst snd] in *.
      apply sim_bind; [apply lazy_sim; now apply first_sim|]. intros b. apply sim_bind; [apply sim_newline; intros h; now apply SG_hint|]. intros _.
      apply sim_bind; [now apply HW|]. intros _. now apply list_rest_sim.
    Qed.

    (** separated lists *)
    Section Seps.
      Variables (sep : option str) (R1 R2 : str -> str -> Prop).
      Hypothesis R1_sep : forall z z', R1 z z' -> get_sep sep z = get_sep sep z'.
      Fixpoint chain (l l' : list str) : Prop :=
        match l, l' with
        | [], [] => True
        | z :: r, z' :: r' => match r, r' with [], [] => R2 z z' | _, _ => R1 z z' /\ chain r r' end
        | _, _ => False
        end.
      Lemma seps_rest_sim need h n n' : twin n n' -> forall l l',
        Forall2 (fun x y => SG (si_loc x) (si_loc y) /\ twin (si_node x) (si_node y) /\ SG (si_loc2 x) (si_loc2 y)) l l' ->
        forall b v v' z z', twin v v' -> chain (z :: map si_sep l) (z' :: map si_sep l') ->
        simv (fun a a' => fst a = fst a' /\ R2 (snd a) (snd a'))
          (write_seps_rest c buf (LuaWriter.H c buf) (W c) need (need_newline c buf W n) sep h b v z l)
          (write_seps_rest c buf' (LuaWriter.H c buf') (W' c) need (need_newline c buf' W' n') sep h b v' z' l').
      Proof.
        intros T. induction 1 as [|[[[p x] q] y] [[[p' x'] q'] y'] l l' (Hp & Hx & Hq) F IH]; intros b v v' z z' Tv C; cbn [write_seps_rest].
        - intros w w' E. cbn in *. auto.
        - unfold si_loc, si_loc2, si_node in *. cbn [fst snd] in *. cbn [map si_sep snd] in C. destruct C as [C1 C2].
          rewrite <- (R1_sep _ _ C1). eapply simv_bind; [apply sim_emit|]. intros _ _ _.
          apply simv_get. intros w w' E. rewrite (proj2 (we_1 _ _ E)), (proj2 (we_2 _ _ E)). cbn [test_out_of_range]. revert w w' E.
          apply (simv_bind eq).
          + apply sim_bind; [apply lazy_sim; now apply newline_sim|]. intros b1. apply sim_bind; [|intros; apply sim_ret].
            apply sim_newline. intros k. now apply SG_hint.
          + intros b1 b1' <-. eapply simv_bind; [apply HW; exact Hx|]. intros _ _ _. eapply simv_bind; [now apply SG_hint|]. intros _ _ _. now apply IH.
      Qed.
    End Seps.

    Definition final (t : option bool) (sep : option str) (z : str) : str :=
      if (is_none t && negb (is_empty z)) || obool_is t true then get_sep sep z else [].
    Lemma final_emit (t : option bool) sep z w :
      (if (is_none t && negb (is_empty z)) || obool_is t true then emit (get_sep sep z) else ret tt) w = emit (final t sep z) w.
    Proof.
      unfold final. destruct (_ || _); [reflexivity|]. unfold ret, emit, set_f. rewrite app_nil_r. now destruct w.
    Qed.
    Lemma trailing_kind n : (n_kind n = KFields -> forall w, trailing_separator c n w = ret (cb c B_write_trailing_field_separator) w) /\
      (In (n_kind n) [KExpList; KNameList; KVarList; KParList; KFuncName; KFuncNameSelf] -> trailing_separator c n = ret (Some false)).
    Proof.
      unfold trailing_separator. split.
      - intros -> w. unfold bind, get_indent. rewrite off_table. reflexivity.
      - cbn [In]. intros [<-|[<-|[<-|[<-|[<-|[<-|[]]]]]]]; reflexivity.
    Qed.
    Lemma seps_sim n n' : twin n n' -> In (n_kind n) [KFields; KExpList; KNameList; KVarList; KParList; KFuncName; KFuncNameSelf] ->
      sim (lua_seps c buf W n) (lua_seps c buf' W' n').
    Proof.
      intros T Hk. unfold lua_seps. replace (sep_need_newlines c n') with (sep_need_newlines c n) by (unfold sep_need_newlines; now rewrite (twin_kind _ _ T)).
      replace (elem_prefix_hint n') with (elem_prefix_hint n) by (unfold elem_prefix_hint; now rewrite (twin_kind _ _ T)).
      replace (separator c n') with (separator c n) by (unfold separator; now rewrite (twin_kind _ _ T)).
      assert (Ht : exists t, (forall w, trailing_separator c n w = ret t w) /\ (forall w, trailing_separator c n' w = ret t w) /\
        chain (fun z z' => get_sep (separator c n) z = get_sep (separator c n) z') (fun z z' => final t (separator c n) z = final t (separator c n) z')
          (map si_sep (n_seps n)) (map si_sep (n_seps n'))).
      { destruct (twin_parts _ _ T) as (E & _ & _ & _ & _ & _ & _ & F & S). pose proof (trailing_kind n) as [A1 A2]. pose proof (trailing_kind n') as [B1 B2]. rewrite <- E in B1, B2.
        destruct Hk as [Hk|Hk].
        - symmetry in Hk. exists (cb c B_write_trailing_field_separator). split; [now apply A1|]. split; [now apply B1|].
          specialize (S Hk off_table). unfold separator. rewrite Hk. clear - S. revert S. generalize (map si_sep (n_seps n)) as l, (map si_sep (n_seps n')) as l'.
          assert (G : forall z, final (cb c B_write_trailing_field_separator) (cs c S_field_separator) z = last_out c z).
          { intros z. unfold final, last_out, get_sep, separator_out. destruct (cb c B_write_trailing_field_separator) as [[]|]; try reflexivity. destruct z; reflexivity. }
          induction l as [|z l IH]; intros [|z' l'] S; cbn [seps_alike chain] in *; auto.
          destruct l as [|y l], l' as [|y' l']; [now rewrite !G| | |]; destruct S as [S1 S2]; (split; [exact S1|now apply IH]).
        - exists (Some false). split; [intros; now rewrite A2|]. split; [intros; now rewrite B2|].
          assert (Es : exists s, separator c n = Some s).
          { unfold separator. cbn [In] in Hk. destruct Hk as [<-|[<-|[<-|[<-|[<-|[<-|[]]]]]]]; eexists; reflexivity. }
          destruct Es as [s ->]. clear - F. induction F as [|x y l l' _ F IH]; cbn [map chain]; [exact Logic.I|]. destruct F; [reflexivity|]. split; [reflexivity|exact IH]. }
      destruct Ht as (t & T1 & T2 & C). destruct (twin_parts _ _ T) as (_ & _ & _ & _ & _ & _ & _ & F & _). unfold write_seps.
      destruct F as [|[[[p x] q] y] [[[p' x'] q'] y'] l l' (Hp & Hx & Hq) F]; [apply sim_ret|]. unfold si_loc, si_loc2, si_node in *. cbn [fst snd] in *.
      apply sim_bind; [apply lazy_sim; now apply first_sim|]. intros b. apply sim_bind; [apply sim_newline; intros h; now apply SG_hint|]. intros _.
      apply sim_bind; [now apply HW|]. intros _. apply sim_bind; [now apply SG_hint|]. intros _.
      eapply simv_bind.
      - eapply seps_rest_sim with (R1 := fun z z' => get_sep (separator c n) z = get_sep (separator c n) z'); [auto|exact T|exact F|exact Hx|exact C].
      - intros a a' [E1 E2] w w' E. unfold bind at 1. rewrite T1. cbn [ret]. unfold bind at 2. rewrite T2. cbn [ret].
        unfold bind. rewrite !final_emit, E2, E1. pose proof (sim_emit (final t (separator c n) (snd a')) w w' E) as S. unfold rel in S |- *. cbn in *. split; [reflexivity|apply S].
    Qed.

    Lemma indent_sim n n' l l' h : twin n n' -> SG l l' -> sim (test_indent c buf W n l h) (test_indent c buf' W' n' l' h).
    Proof.
      intros T Hl. unfold test_indent. rewrite (twin_kind _ _ T). destruct (twin_parts _ _ T) as (_ & _ & _ & _ & _ & _ & Fi & Fs & _).
      destruct (n_kind n) eqn:Ek; try apply sim_ret.
      - assert (S : sim (on_copy (LuaWriter.H c buf l h ;;; lua_seps c buf W n)) (on_copy (LuaWriter.H c buf' l' h ;;; lua_seps c buf' W' n'))).
        { apply sim_copy, sim_bind; [now apply SG_hint|]. intros _. apply seps_sim; [exact T|]. rewrite Ek. cbn. tauto. }
        destruct Fs; [apply sim_ret|exact S].
      - assert (S : sim (on_copy (LuaWriter.H c buf l h ;;; (if on c B_indent_exp_list then if on c B_indent_one_line_exp_list then ret true else lua_seps c buf W n else ret false)))
                        (on_copy (LuaWriter.H c buf' l' h ;;; (if on c B_indent_exp_list then if on c B_indent_one_line_exp_list then ret true else lua_seps c buf' W' n' else ret false)))).
        { apply sim_copy, sim_bind; [now apply SG_hint|]. intros _. destruct (on c _); [|apply sim_ret]. destruct (on c _); [apply sim_ret|]. apply seps_sim; [exact T|]. rewrite Ek. cbn. tauto. }
        destruct Fs as [|x y r r' _ F]; [apply sim_ret|]. destruct F; [|exact S]. destruct (negb _); [apply sim_ret|exact S].
      - destruct Fi; [apply sim_ret|]. apply sim_copy, sim_bind; [now apply SG_hint|]. intros _.
        destruct (on c _); [|apply sim_ret]. destruct (on c _); [apply sim_ret|]. now apply list_sim.
    Qed.
    Lemma clause_sim n n' : twin n n' -> sim (run_clause c buf W n (clause_of c n)) (run_clause c buf' W' n' (clause_of c n')).
    Proof.
      intros T. rewrite (clause_twin _ _ T). destruct (clause_raw n) as [R1 R2]. unfold run_clause. apply sim_bind; [now apply items_sim|]. intros _.
      apply sim_bind; [|intros b; now apply items_sim]. destruct (cl_test _) as [[[k p] h]|]; [|apply sim_ret]. apply indent_sim; [now apply twin_kid|now apply twin_loc].
    Qed.
    Lemma binary_sim n n' : twin n n' -> sim (write_binary c buf W n) (write_binary c buf' W' n').
    Proof.
      intros T. unfold write_binary. destruct (twin_parts _ _ T) as (_ & <- & _). apply sim_bind; [apply items_sim; [exact T|repeat constructor]|]. intros _.
      apply sim_bind.
      - destruct (_ && _); [|apply sim_ret]. apply sim_issome, sim_oneline. repeat (apply Forall2_cons || apply Forall2_nil); try apply sim_emit; try (apply SG_hint; now apply twin_loc). apply HW. now apply twin_kid.
      - intros b. apply items_sim; [exact T|repeat constructor].
    Qed.
    Lemma no_table n : oneline_table_cfg c n = None.
    Proof. unfold oneline_table_cfg. now rewrite off_table, !andb_false_r. Qed.
    Lemma no_if n : oneline_if_cfg c n = None.
    Proof. unfold oneline_if_cfg. rewrite off_if, !andb_false_r. reflexivity. Qed.
    Lemma no_function s n : oneline_function_cfg c s n = None.
    Proof. unfold oneline_function_cfg. now rewrite off_top, off_scoped, !andb_false_r. Qed.
    Lemma table_sim n n' : twin n n' -> sim (write_table c buf W n) (write_table c buf' W' n').
    Proof.
      intros T. unfold write_table. rewrite !no_table. cbn [oneline_or]. rewrite off_table. cbn [andb].
      unfold is_kind. rewrite (twin_kind _ _ (twin_kid _ _ 0 T)).
      apply simv_one.
      apply sim_bind; [apply sim_newline; intros h; now apply SG_hint|]. intros _.
      apply sim_bind; [apply items_sim; [exact T|repeat constructor]|]. intros _.
      apply sim_bind; [apply sim_ret|]. intros ind.
      apply sim_bind.
      { destruct (kind_beq _ _); [|apply sim_ret]. intros w w' [E1 E2 E3 E4 E5 E6 E7]. cbn. split; [reflexivity|now constructor]. }
      intros _. apply sim_bind; [apply items_sim; [exact T|repeat constructor]|]. intros _.
      apply sim_get_f. intros f. apply items_sim; [exact T|repeat constructor].
    Qed.
    Lemma empty_sim n n' : twin n n' -> sim (write_empty_table c buf W n) (write_empty_table c buf' W' n').
    Proof.
      intros T. unfold write_empty_table. apply sim_bind; [apply sim_buffer, SG_hint; now apply twin_loc|]. intros t.
      apply items_sim; [exact T|repeat constructor].
    Qed.
    Lemma range_sim n n' m m' : sim m m' -> sim (range_or c buf W n m) (range_or c buf' W' n' m').
    Proof.
      intros H. unfold range_or. apply sim_get. intros w w' E. rewrite (proj2 (we_1 _ _ E)), (proj2 (we_2 _ _ E)). cbn [test_out_of_range test_not_completely_contained].
      destruct (raw_items n), (raw_items n'); now apply H.
    Qed.
    Lemma body_sim n n' : twin n n' -> sim (write_body c buf W n) (write_body c buf' W' n').
    Proof.
      intros T. unfold write_body. rewrite (twin_kind _ _ T). pose proof (clause_sim n n' T) as C.
      assert (S : In (n_kind n) [KFields; KExpList; KNameList; KVarList; KParList; KFuncName; KFuncNameSelf] ->
        sim (lua_seps c buf W n ;;; ret tt) (lua_seps c buf' W' n' ;;; ret tt)).
      { intros Hk. apply sim_bind; [now apply seps_sim|]. intros _. apply sim_ret. }
      assert (L : sim (lua_list c buf W n ;;; ret tt) (lua_list c buf' W' n' ;;; ret tt)).
      { apply sim_bind; [now apply list_sim|]. intros _. apply sim_ret. }
      assert (O : sim (s <- get_st ;; oneline_or W (match oneline_if_cfg c n with Some c' => Some c' | None => oneline_function_cfg c s n end) n (ret tt) (run_clause c buf W n (clause_of c n)))
                      (s <- get_st ;; oneline_or W' (match oneline_if_cfg c n' with Some c' => Some c' | None => oneline_function_cfg c s n' end) n' (ret tt) (run_clause c buf' W' n' (clause_of c n')))).
      { apply sim_get. intros w w' E. rewrite !no_if, !no_function. cbn [oneline_or]. now apply C. }
      destruct (twin_parts _ _ T) as (_ & Et & El & _). rewrite <- Et, <- El.
      destruct (n_kind n) eqn:Ek; try exact C; try (apply range_sim; exact O); try (apply range_sim; exact L); try (apply range_sim, S; cbn; tauto); try apply sim_emit.
      - apply range_sim. now apply binary_sim.
      - apply range_sim. now apply table_sim.
      - apply range_sim. now apply empty_sim.
      - apply range_sim. apply sim_bind; [apply seps_sim; [exact T|rewrite Ek; cbn; tauto]|]. intros _. apply items_sim; [exact T|repeat constructor].
    Qed.
  End Body.

  Theorem write_sim fuel : forall n n', twin n n' -> sim (write fuel buf c n) (write fuel buf' c n').
  Proof.
    induction fuel as [|k IH]; intros n n' T; [apply sim_fuel|].
    change (write (S k) buf c n) with (write_body c buf (write k buf) n). change (write (S k) buf' c n') with (write_body c buf' (write k buf') n').
    now apply body_sim.
  Qed.
End Congruence.
