(** Every node of the parser starts and ends with a token. *)
From Coq Require Import Lia.
From Verif Require Import Base Lib Config State LuaLexer Ast LR LRSpec LuaGrammar LuaParser ParserProofs LexSpec LayoutSpec LayoutProofs SafeSpec PrettySpec SettleSpec SettleWalk SettleProds LineSpec LineProofs LineTree.

Definition plain_nt (x : sym) : bool :=
  match x with
  | NT n => existsb (N.eqb n) [n_Block_; n_Stats_; n_Stat_; n_StatStartsMayEndsPar_; n_StatMayEndsPar_; n_StatNoPar_; n_ElseIfThenVec_; n_ElseIfThen_;
      n_RetStat_; n_Label_; n_VarListStartsPar_; n_VarListNoStartPar_; n_FunctionCallNoStartsMayEndsPar_; n_VarNoExp_; n_FunctionCallStartsMayEndsPar_;
      n_PrefixMayStartsMayEndsPar_; n_VarExp_; n_VarMayExp_; n_Name_; n_TList_Stat_; n_TList_ElseIfThen_; n_TSepList_VarMayExp_]
  | T _ => true
  end.
Definition ending_nt (x : sym) : bool := match x with NT n => negb (N.eqb n n_Chunk_) | T _ => true end.
Section Prods.
  Variable c : config.
  Definition vok (x : sym) (lv : located val) : Prop :=
    Forall (fine c) (vnodes (snd (fst lv)))
    /\ (ending_nt x = true -> Forall (ends c) (vnodes (snd (fst lv))))
    /\ (plain_nt x = true -> Forall (plain c) (vnodes (snd (fst lv)))).
  Inductive voks : list sym -> list (located val) -> Prop :=
  | voks_nil : voks [] []
  | voks_cons : forall x xs v vs, vok x v -> voks xs vs -> voks (x :: xs) (v :: vs).
  Lemma voks_fine xs vs : voks xs vs -> Forall (fine c) (flat_map (fun x => vnodes (snd (fst x))) vs).
  Proof. induction 1 as [|x xs v vs [H _] _ IH]; cbn [flat_map]; [constructor|]. now apply Forall_app. Qed.
  Lemma voks_ends xs vs : voks xs vs -> forallb ending_nt xs = true -> Forall (ends c) (flat_map (fun x => vnodes (snd (fst x))) vs).
  Proof.
    induction 1 as [|x xs v vs (_ & H & _) _ IH]; cbn [flat_map forallb]; [constructor|]. intros [A B]%andb_prop. apply Forall_app. auto.
  Qed.
  Lemma fine_node n ns : children n = ns -> good c n -> Forall (fine c) ns -> fine c n.
  Proof. intros <- G H. now constructor. Qed.
  Lemma walk_node_ends n w r x : node_walk c n w r x -> ends c x.
  Proof.
    intros H d op. destruct (walk_ends c _ _ _ (H [(0, CloseCurlyBracket, 0)] d op QG false 0 eq_refl (fun _ => eq_refl) (fun _ => eq_refl) (fun _ => ex_intro _ 0 (ex_intro _ 0 (ex_intro _ [] eq_refl)))) _ eq_refl) as [[_ E]|K]; [discriminate|exact K].
  Qed.
  Lemma fine_list k s its : is_chunk k = false -> plain_parts k = [] -> Forall (fine c) (map snd its) -> Forall (ends c) (map snd its) ->
    (is_list k = true -> Forall (plain c) (map snd its)) -> fine c (nlist k s its).
  Proof.
    intros K P F E Pl. apply (fine_node _ (map snd its)); [reflexivity| |exact F]. split; [intros _; exact E|]. split; [|split; [exact Pl|]].
    - cbn [n_kind nlist]. rewrite P. intros ? ? [].
    - unfold chunk_shape. cbn [n_kind nlist]. now destruct k.
  Qed.
  Lemma plain_list k s p n its : is_list k = true -> plain c n -> plain c (nlist k s ((p, n) :: its)).
  Proof.
    intros K P d op. rewrite list_pieces by exact K. cbn [nlist n_kind n_items printed_items map items_from snd].
    replace (starts_line c k true n) with false by (destruct k; try discriminate; reflexivity). apply plain_gap, plain_app, P.
  Qed.
  Lemma plain_vars s p n q z ss : plain c n -> plain c (nseps KVarList s ((p, n, q, z) :: ss)).
  Proof. intros P d op. cbn [nseps pieces map seps_from fst snd starts_line gap_or_line]. apply plain_gap, plain_app, P. Qed.
  Ltac use_nts := repeat match goal with
      | H : context [plain_nt ?n] |- _ => let k := eval vm_compute in (plain_nt n) in change (plain_nt n) with k in H
      | |- context [plain_nt ?n] => let k := eval vm_compute in (plain_nt n) in change (plain_nt n) with k
      | H : context [ending_nt ?n] |- _ => let k := eval vm_compute in (ending_nt n) in change (ending_nt n) with k in H
      | |- context [ending_nt ?n] => let k := eval vm_compute in (ending_nt n) in change (ending_nt n) with k
      end.
  Ltac use_vok := repeat match goal with
      | H : true = true -> _ |- _ => specialize (H eq_refl)
      | H : false = true -> _ |- _ => clear H
      | H : Forall (plain c) [_] |- _ => apply Forall_inv in H
      end.
  Lemma prod_vok p w args : In p lua_prods -> vals_ok (p_rhs p) w args -> voks (p_rhs p) args ->
    walks c (NT (p_lhs p)) w (a_start args, p_act p args, a_end args) -> vok (NT (p_lhs p)) (a_start args, p_act p args, a_end args).
  Proof.
    intros Hp H G Wk. pose proof (voks_fine _ _ G) as V. pose proof (voks_ends _ _ G) as VE. unfold lua_prods in Hp.
    repeat (destruct Hp as [<-|Hp]; [cbn [p_rhs p_lhs p_act] in *; repeat match goal with
      | H : vals_ok (_ :: _) _ _ |- _ => inv H
      | H : vals_ok [] _ _ |- _ => inv H
      | H : voks (_ :: _) _ |- _ => inv H
      | H : voks [] _ |- _ => inv H
      | v : located val |- _ => destruct v as [[? ?] ?]
      | H : val_ok _ _ _ |- _ => destruct H as ([? _] & ? & _)
      | H : vok _ _ |- _ => destruct H as (_ & _ & ?)
      end; unfold shape, walks in *; use_class; use_parts; use_term; cbn [fst snd] in *;
      specialize (VE eq_refl); unfold vok; cbn [fst snd]; use_nts; cbn [vnodes] in *; use_vok |]); [.. |destruct Hp].
    all: split; [|split; [|try discriminate; intros _]].
    all: try exact V.
    all: try (intros _; exact VE).
    all: try (intros _; constructor; [|constructor]; refine (walk_node_ends _ _ _ _ (Wk _ eq_refl))).
    all: try assumption.
    all: try discriminate.
    all: try solve [constructor; [assumption|constructor]].
    all: try (constructor; [|constructor]; intros d op; refine (plain_tok _ _)).
    all: try (constructor; [|constructor]; refine (fine_node _ _ _ _ V); [reflexivity|]; split; [intros _; exact VE|split; [|split; [discriminate|first [exact Logic.I|reflexivity]]]];
      intros ? ? I P; cbn in I; decompose [or] I; try contradiction; subst; cbn in P; injection P as <-; assumption).
    all: try (constructor; [|constructor]; refine (fine_node _ _ _ _ V); [reflexivity|]; split; [discriminate|split; [intros ? ? []|split; [discriminate|reflexivity]]]).
    all: try (constructor; [|constructor]; intros d op; cbn [pieces mkn nd weave template map nth flat_map val_nodes app fst snd]; apply plain_app; match goal with H : plain c _ |- _ => apply H end).
    all: cbn [flat_map vnodes fst snd app map] in V, VE; rewrite ?app_nil_r in V, VE.
    all: unfold act_list1, act_list_cons, act_list, act_list2, act_varlist_cons, act_varlist1, act_tlist_snoc, act_sep_cons, arg_items, arg_seps, arg_node, arg_val, set_first, sset_first;
      cbn [nth map fst snd vnodes].
    all: try (constructor; [|constructor]; first [apply plain_list; [reflexivity|]|apply plain_vars]; first [assumption|eapply Forall_inv; eassumption]; fail).
    all: try (constructor; [|constructor]; apply fine_list; [reflexivity|reflexivity|exact V|exact VE|]; try discriminate; intros _; cbn [map snd]; first [assumption|constructor; assumption|solve [repeat (constructor; [assumption|]); constructor]]).
    all: try (intros _).
    all: rewrite ?map_app; cbn [map snd app].
    all: try exact V.
    all: try exact VE.
    all: try assumption.
    all: try (match goal with H : plain c ?x |- Forall (plain c) (_ :: _ ++ [?x]) => rewrite app_comm_cons; apply Forall_app; split; [assumption|repeat constructor; exact H] end).
    all: try (constructor; assumption).
    constructor; [|constructor]. apply (fine_node _ [nlist KStatementList (n, n) []]); [reflexivity| |].
    - split; [discriminate|]. split; [intros ? ? []|]. split; [discriminate|reflexivity].
    - constructor; [|constructor]. apply fine_list; auto; try (intros _); constructor.
  Qed.
  Hypothesis C : calm c.
  Lemma line_shapes : (forall x w v, derives lua_grammar x w v -> val_ok x w v /\ vok x v) /\
    (forall xs w vs, derives_list lua_grammar xs w vs -> vals_ok xs w vs /\ voks xs vs).
  Proof.
    apply (derives_both _ _ lua_grammar (fun x w v _ => val_ok x w v /\ vok x v) (fun xs w vs _ => vals_ok xs w vs /\ voks xs vs)).
    - intros l t r. split; [exact (proj1 shapes _ _ _ (d_tok lua_grammar l t r))|]. split; [constructor|split; intros _; constructor].
    - intros p w args Hp D [IH1 IH2]. pose proof (d_prod lua_grammar p w args Hp D) as Dp. split; [exact (proj1 shapes _ _ _ Dp)|].
      exact (prod_vok p w args Hp IH1 IH2 (walks_all c C _ _ _ Dp)).
    - split; constructor.
    - intros x xs w1 w2 v vs _ [A1 A2] _ [B1 B2]. split; now constructor.
  Qed.
  Lemma parsed_fine src n : parse_lua src = Parsed n -> fine c n.
  Proof.
    unfold parse_lua. destruct (lex src) as [ts|e|] eqn:L; try discriminate.
    destruct (parse_tokens ts) as [v| |] eqn:P; try discriminate. destruct v as [| n' | | |] eqn:Ev; try discriminate.
    intros [= <-]. apply parse_tokens_correct in P as (l & r & D). apply (proj1 line_shapes) in D. destruct D as [_ [D _]].
    cbn in D. inversion D. assumption.
  Qed.
End Prods.
