(** What a configuration file sets. *)
From Verif Require Import Base LuaLexer Ast LR LRSpec LuaGrammar LuaParser ParserProofs Config ConfigSpec CliProofs ConfigFileSpec.

Notation g := lua_grammar.

(** ** statements that set nothing *)
Definition inert (v : val) : Prop := exists m, v = VNode m /\ forall c, load_options m c = c.
Definition starts (w : list (located token)) : Prop := exists l n r w', w = (l, Variable_ n, r) :: w'.
Definition among (n : N) (l : list N) : bool := existsb (N.eqb n) l.
Definition fact (n : N) (w : list (located token)) (v : val) : Prop :=
  if among n [n_Label_; n_FunctionCallStartsMayEndsPar_; n_FunctionCallNoStartsMayEndsPar_; n_StatNoPar_; n_StatStartsMayEndsPar_]
  then inert v
  else if N.eqb n n_VarListStartsPar_ then exists m, v = VNode m /\
    (n_kind m <> KVarList \/ exists s r, n_seps m = s :: r /\ n_kind (si_node s) <> KName)
  else if N.eqb n n_VarExp_ then exists m, v = VNode m /\ n_kind m = KVarRoundSuffix
  else if among n [n_StatMayEndsPar_; n_Stat_] then starts w \/ inert v
  else if among n [n_VarListNoStartPar_; n_VarNoExp_; n_Name_] then starts w
  else True.
Definition vfact (x : sym) (w : list (located token)) (v : located val) : Prop :=
  match x with
  | T a => exists l t r, w = [(l, t, r)] /\ a = g_term g t /\ snd (fst v) = VTok t
  | NT n => fact n w (snd (fst v))
  end.
Inductive vfacts : list sym -> list (located token) -> list (located val) -> Prop :=
| vf_nil : vfacts [] [] []
| vf_cons : forall x xs w1 w2 v vs, vfact x w1 v -> vfacts xs w2 vs -> vfacts (x :: xs) (w1 ++ w2) (v :: vs).

Lemma inert_nd k l ls cs : k <> KVarsExprs -> k <> KStatementList -> inert (VNode (nd k l ls cs)).
Proof. intros H1 H2. eexists. split; [reflexivity|]. intros c. destruct k; try reflexivity; congruence. Qed.
Lemma starts_app w1 w2 : starts w1 -> starts (w1 ++ w2).
Proof. intros (l & n & r & w' & ->). exists l, n, r, (w' ++ w2). reflexivity. Qed.

Ltac inv H := inversion H; subst; clear H.
Lemma prod_fact p w args : In p lua_prods -> vfacts (p_rhs p) w args -> fact (p_lhs p) w (p_act p args).
Proof.
  intros Hp H. unfold lua_prods in Hp.
  repeat (destruct Hp as [<-|Hp]; [try exact Logic.I; cbn [p_rhs p_lhs p_act] in *; repeat match goal with
    | H : vfacts (_ :: _) _ _ |- _ => inv H
    | H : vfacts [] _ _ |- _ => inv H
    | v : located val |- _ => destruct v as [[? ?] ?]
    end; cbn [vfact fst snd] in *; rewrite ?app_nil_r |]); [.. |destruct Hp].
  all: unfold fact in *; cbn in *.
  all: try assumption; try (now left); try (now right); try (now apply starts_app).
  all: try (left; now apply starts_app).
  all: try (apply inert_nd; discriminate).
  all: try (right; apply inert_nd; discriminate).
  - (* act_list2 *) right. destruct H2 as (m & -> & Hm), H1 as (m' & -> & Hm'). eexists. split; [reflexivity|].
    intros c. change (load_options m' (load_options m c) = c). now rewrite Hm, Hm'.
  - (* KVarsExprs *) destruct H2 as (m & -> & Hm). destruct H1 as (? & ? & ? & _ & _ & ->).
    eexists. split; [reflexivity|]. intros c. cbn. destruct v1 as [| e | | |]; try reflexivity. cbn.
    destruct Hm as [Hm|(s & r & -> & Hm)].
    + destruct (n_kind m); try reflexivity. congruence.
    + destruct (n_kind m); try reflexivity. destruct (n_kind e); try reflexivity. destruct (n_seps e); [reflexivity|].
      destruct (n_kind (si_node s)); try reflexivity. congruence.
  - destruct H2 as (? & t & ? & _ & _ & ->). destruct t; eexists; (split; [reflexivity|]); reflexivity.
  - destruct H2 as (? & t & ? & _ & _ & ->). destruct t; eexists; (split; [reflexivity|]); reflexivity.
  - destruct H2 as (m & -> & Hm). exists m. split; [reflexivity|]. left. congruence.
  - destruct H2 as (m & -> & Hm). eexists. split; [reflexivity|]. right. cbn. do 2 eexists. split; [reflexivity|]. cbn. congruence.
  - eexists. split; [reflexivity|]. reflexivity.
  - destruct H2 as (l & t & r & -> & E & _). destruct t; try discriminate E. unfold starts. eauto.
Qed.
Lemma derives_fact : (forall x w v, derives g x w v -> vfact x w v) /\ (forall xs w vs, derives_list g xs w vs -> vfacts xs w vs).
Proof.
  apply (derives_both _ _ g (fun x w v _ => vfact x w v) (fun xs w vs _ => vfacts xs w vs)).
  - intros l t r. cbn [vfact]. eauto 6.
  - intros p w args Hp _ IH. now apply prod_fact.
  - constructor.
  - intros. now constructor.
Qed.

(** ** derivations *)
Lemma use k p w args v : nth_error lua_prods k = Some p -> derives_list g (p_rhs p) w args ->
  v = (a_start args, p_act p args, a_end args) -> derives g (NT (p_lhs p)) w v.
Proof. intros H D ->. apply (d_prod g p); [exact (nth_error_In _ _ H)|exact D]. Qed.
Lemma one x w v : derives g x w v -> derives_list g [x] w [v].
Proof. intros H. rewrite <- (app_nil_r w). constructor; [exact H|constructor]. Qed.

(** a literal is an expression *)
Definition literal_kind (t : token) : kind :=
  match t with
  | Numeral _ => KNumeral | NormalStringLiteral _ => KNormalStringLiteral | CharStringLiteral _ => KCharStringLiteral
  | True_ => KTrue | _ => KFalse
  end.
Lemma up k p x w v : nth_error lua_prods k = Some p -> p_rhs p = [x] -> (forall a, p_act p a = pass a) ->
  derives g x w v -> derives g (NT (p_lhs p)) w v.
Proof.
  intros H R A D. destruct v as [[l v] r]. eapply use; [exact H|rewrite R; apply one; exact D|]. rewrite A. reflexivity.
Qed.
Ltac up k := refine (up k _ _ _ _ eq_refl eq_refl (fun _ => eq_refl) _).
Lemma exp_opexp w v : derives g (NT n_Exp_) w v -> derives g (NT n_OpExp_) w v.
Proof.
  intros D. up 111. up 113. up 115. up 122. up 124. up 126. up 128. up 131. up 133. up 136. up 141. up 146. up 148. exact D.
Qed.
Lemma literal_exp l t r s : literal_text t s -> exists m, n_kind m = literal_kind t /\
  (literal_kind t <> KTrue -> literal_kind t <> KFalse -> n_text m = s) /\
  derives g (NT n_Exp_) [(l, t, r)] (l, VNode m, r).
Proof.
  intros H. assert (T : derives_list g [T (g_term g t)] [(l, t, r)] [(l, g_tval g t, r)]) by (apply one; constructor).
  destruct H; eexists; (split; [|split]).
  all: try match goal with |- derives _ _ _ _ => idtac | |- _ => shelve end.
  - refine (use 85 _ _ _ _ eq_refl T eq_refl).
  - up 86. refine (use 150 _ _ _ _ eq_refl T eq_refl).
  - up 86. refine (use 151 _ _ _ _ eq_refl T eq_refl).
  - refine (use 84 _ _ _ _ eq_refl T eq_refl).
  - refine (use 83 _ _ _ _ eq_refl T eq_refl).
  Unshelve. all: try reflexivity. all: cbn; congruence.
Qed.
Lemma name_derives l n r : derives g (NT n_Name_) [(l, Variable_ n, r)] (l, VNode (leaf KName (l, r) n), r).
Proof. refine (use 149 _ _ _ _ eq_refl (one _ _ _ (d_tok g l (Variable_ n) r)) eq_refl). Qed.

Lemma load_stat w l : sets w l -> exists a m b, derives g (NT n_Stat_) w (a, VNode m, b) /\ forall c, load_options m c = apply_settings l c.
Proof.
  intros [w' l' H | w' [[v D] H] | w' [v D]].
  - destruct H as [l1 r1 l2 r2 l3 r3 n t s H]. pose proof (name_derives l1 n r1) as D1.
    destruct (literal_exp l3 t r3 s H) as (m & K & X & D3). apply exp_opexp in D3.
    pose proof (use 165 _ _ _ _ eq_refl (one _ _ _ D3) eq_refl) as D4. pose proof (use 81 _ _ _ _ eq_refl (one _ _ _ D4) eq_refl) as D5.
    assert (D6 : derives g (NT n_VarNoExp_) [(l1, Variable_ n, r1)] (l1, VNode (leaf KName (l1, r1) n), r1)) by (up 65; exact D1).
    pose proof (use 62 _ _ _ _ eq_refl (one _ _ _ D6) eq_refl) as D7.
    assert (D8 : derives_list g [NT n_VarListNoStartPar_; LR.T t_EqualsSign; NT n_ExpList_]
       ([(l1, Variable_ n, r1)] ++ [(l2, EqualsSign, r2)] ++ [(l3, t, r3)] ++ []) _)
      by (apply dl_cons; [exact D7|]; apply dl_cons; [exact (d_tok g l2 EqualsSign r2)|]; apply dl_cons; [exact D5|constructor]).
    pose proof (use 17 _ _ _ _ eq_refl D8 eq_refl) as D9.
    do 3 eexists. split; [up 12; exact D9|]. intros c. cbn -[set_option]. rewrite K.
    destruct H; cbn in K, X |- *; try reflexivity; now rewrite X by discriminate.
  - pose proof (proj1 derives_fact _ _ _ D) as F. cbn in F. destruct v as [[a v] b]. cbn in F. destruct F as [F|(m & -> & F)].
    + destruct F as (l1 & n & r & w'' & E). now apply H in E.
    + exists a, m, b. split; [exact D|exact F].
  - pose proof (proj1 derives_fact _ _ _ D) as F. cbn in F. destruct v as [[a v] b]. destruct F as (m & E & F). cbn in E. subst v.
    exists a, m, b. split; [up 12; up 16; exact D|exact F].
Qed.

Fixpoint load_items (l : list (loc * node)) (c : config) : config :=
  match l with [] => c | (_, m) :: r => load_items r (load_options m c) end.
Lemma load_items_app a b c : load_items (a ++ b) c = load_items b (load_items a c).
Proof. revert c. induction a as [|[q m] a IH]; intros c; [reflexivity|]. cbn. now rewrite IH. Qed.

Lemma load_more ws ls : Forall2 sets ws ls -> forall w0 l0 a its b, derives g (NT n_TList_Stat_) w0 (a, VItems its, b) ->
  (forall c, load_items its c = apply_settings l0 c) ->
  exists a its b, derives g (NT n_TList_Stat_) (w0 ++ List.concat ws) (a, VItems its, b) /\
    forall c, load_items its c = apply_settings (l0 ++ List.concat ls) c.
Proof.
  induction 1 as [|w l ws ls Hw Hws IH]; intros w0 l0 a its b D L; cbn [List.concat]; rewrite ?app_nil_r.
  - exists a, its, b. auto.
  - rewrite !app_assoc. destruct (load_stat w l Hw) as (a' & m & b' & D' & L'). eapply IH.
    + refine (use 154 _ _ _ _ eq_refl _ eq_refl). constructor; [exact D|]. apply one. exact D'.
    + intros c. change (load_items (its ++ [((b, a'), m)]) c = apply_settings (l0 ++ l) c).
      rewrite load_items_app, L. cbn [load_items]. rewrite L'. now rewrite apply_settings_app.
Qed.
Lemma load_stats ws ls : Forall2 sets ws ls -> ws <> [] -> exists a its b, derives g (NT n_TList_Stat_) (List.concat ws) (a, VItems its, b) /\
  forall c, load_items its c = apply_settings (List.concat ls) c.
Proof.
  intros H Hn. destruct H as [|w l ws ls Hw Hws]; [congruence|]. destruct (load_stat w l Hw) as (a & m & b & D & L).
  cbn [List.concat]. eapply (load_more ws ls Hws).
  - exact (use 153 _ _ _ _ eq_refl (one _ _ _ D) eq_refl).
  - intros c. cbn [load_items]. apply L.
Qed.

Theorem reload_file t sb ws ls p q c : lex t = LexOk (sb ++ List.concat ws ++ [(p, EOF, q)]) -> shebang sb -> Forall2 sets ws ls ->
  reload_format t c = Some (apply_settings (List.concat ls) c).
Proof.
  intros HL HS HW. unfold reload_format, parse_lua. rewrite HL.
  pose proof (d_tok g p EOF q) as DE.
  assert (DS : forall l s r, derives g (NT n_SheBangLine_) [(l, SheBang s, r)] (l, VNode (leaf KSheBang (l, r) s), r))
    by (intros l s r; refine (use 7 _ _ _ _ eq_refl (one _ _ _ (d_tok g l (SheBang s) r)) eq_refl)).
  assert (P : exists k (m : node) i, sentence g (sb ++ List.concat ws ++ [(p, EOF, q)]) (VNode m) /\ n_kind m = k /\
    ((k = KChunk /\ i = 0) \/ (k = KSheBangChunk /\ i = 1)) /\ forall c, load_options (kid m i) c = apply_settings (List.concat ls) c).
  { destruct ws as [|w ws].
    - inversion HW; subst. destruct HS as [|l s r]; cbn [List.concat app].
      + do 3 eexists. split; [eexists _, _; exact (use 0 _ _ _ _ eq_refl (one _ _ _ DE) eq_refl)|]. split; [reflexivity|]. split; [now left|]. reflexivity.
      + do 3 eexists. split; [eexists _, _; refine (use 1 _ _ _ _ eq_refl (dl_cons g _ _ [_] _ _ _ (DS l s r) (one _ _ _ DE)) eq_refl)|].
        split; [reflexivity|]. split; [now left|]. reflexivity.
    - destruct (load_stats _ _ HW) as (a & its & b & D & L); [discriminate|].
      pose proof (use 10 _ _ _ _ eq_refl (one _ _ _ D) eq_refl) as D1.
      assert (D2 : derives g (NT n_Block_) (List.concat (w :: ws)) (a, VNode (nlist KStatementList (a, b) its), b)) by (up 4; exact D1).
      destruct HS as [|l s r]; cbn [app].
      + do 3 eexists. split; [eexists _, _; refine (use 2 _ _ _ _ eq_refl (dl_cons g _ _ _ _ _ _ D2 (one _ _ _ DE)) eq_refl)|].
        split; [reflexivity|]. split; [now left|]. intros c0. rewrite <- L. reflexivity.
      + do 3 eexists. split.
        * eexists _, _. refine (use 3 _ _ _ _ eq_refl (dl_cons g _ _ [_] _ _ _ (DS l s r) (dl_cons g _ _ _ _ _ _ D2 (one _ _ _ DE))) eq_refl).
        * split; [reflexivity|]. split; [now right|]. intros c0. rewrite <- L. reflexivity. }
  destruct P as (k & m & i & S & K & Hi & L). apply parse_tokens_correct in S. rewrite S, K.
  destruct Hi as [[-> ->]|[-> ->]]; now rewrite L.
Qed.

(** ** examples and counterexamples *)
Lemma call_empty l1 n r1 l2 r2 l3 r3 : call_statement [(l1, Variable_ n, r1); (l2, OpenRoundBracket, r2); (l3, CloseRoundBracket, r3)].
Proof.
  pose proof (dl_cons g _ _ [_] _ _ _ (d_tok g l2 OpenRoundBracket r2) (one _ _ _ (d_tok g l3 CloseRoundBracket r3))) as D.
  pose proof (use 92 _ _ _ _ eq_refl D eq_refl) as D1. pose proof (use 76 _ _ _ _ eq_refl (one _ _ _ D1) eq_refl) as D2.
  pose proof (use 157 _ _ _ _ eq_refl (one _ _ _ D2) eq_refl) as D3. pose proof (use 75 _ _ _ _ eq_refl (one _ _ _ D3) eq_refl) as D4.
  eexists. exact (use 64 _ _ _ _ eq_refl (dl_cons g _ _ [_] _ _ _ (name_derives l1 n r1) (one _ _ _ D4)) eq_refl).
Qed.
Lemma local_assignment l0 r0 l1 n r1 l2 r2 l3 t r3 s : literal_text t s ->
  keyword_statement [(l0, Local_, r0); (l1, Variable_ n, r1); (l2, EqualsSign, r2); (l3, t, r3)].
Proof.
  intros H. split; [|discriminate]. pose proof (use 163 _ _ _ _ eq_refl (one _ _ _ (name_derives l1 n r1)) eq_refl) as D1.
  pose proof (use 80 _ _ _ _ eq_refl (one _ _ _ D1) eq_refl) as D2. destruct (literal_exp l3 t r3 s H) as (m & _ & _ & D3). apply exp_opexp in D3.
  pose proof (use 165 _ _ _ _ eq_refl (one _ _ _ D3) eq_refl) as D4. pose proof (use 81 _ _ _ _ eq_refl (one _ _ _ D4) eq_refl) as D5.
  eexists. up 12. refine (use 20 _ _ _ _ eq_refl _ eq_refl).
  exact (dl_cons g _ _ [_] _ _ _ (d_tok g l0 Local_ r0) (dl_cons g _ _ [_] _ _ _ D2 (dl_cons g _ _ [_] _ _ _ (d_tok g l2 EqualsSign r2) (one _ _ _ D5)))).
Qed.
Lemma semicolon_statement l r : keyword_statement [(l, Semicolon, r)].
Proof. split; [|discriminate]. eexists. up 11. exact (use 21 _ _ _ _ eq_refl (one _ _ _ (d_tok g l Semicolon r)) eq_refl). Qed.

Lemma return_sets_nothing : exists t ws ls p q r c',
  Forall2 sets ws ls /\ lex t = LexOk (List.concat ws ++ [(p, Return, q); (r, EOF, r)]) /\
  reload_format t default_config = Some c' /\ c' = default_config /\
  cn (apply_settings (List.concat ls) default_config) N_max_width = Some 80%N.
Proof.
  exists (s2l "max_width = 80 return"), [[(0, Variable_ (s2l "max_width"), 9); (10, EqualsSign, 11); (12, Numeral (s2l "80"), 14)]],
    [[(s2l "max_width", s2l "80")]], 15, 21, 21, default_config.
  split; [constructor; [|constructor]; apply sets_assignment; repeat constructor|].
  split; [vm_compute; reflexivity|]. split; [|split; [reflexivity|vm_compute; reflexivity]].
  unfold reload_format. remember (parse_lua (s2l "max_width = 80 return")) as x eqn:E. vm_compute in E. subst x. reflexivity.
Qed.
Lemma first_of_several : exists t toks c',
  lex t = LexOk toks /\ map (fun x => snd (fst x)) toks =
    [Variable_ (s2l "max_width"); Comma; Variable_ (s2l "x"); EqualsSign; Numeral (s2l "80"); Comma; Numeral (s2l "1"); EOF] /\
  reload_format t default_config = Some c' /\ cn default_config N_max_width = None /\ cn c' N_max_width = Some 80%N.
Proof.
  exists (s2l "max_width, x = 80, 1"). eexists. eexists. split; [vm_compute; reflexivity|]. split; [reflexivity|].
  split; [|split; [reflexivity|]].
  - unfold reload_format. remember (parse_lua (s2l "max_width, x = 80, 1")) as x eqn:E. vm_compute in E. subst x. cbn -[set_option]. reflexivity.
  - vm_compute. reflexivity.
Qed.
