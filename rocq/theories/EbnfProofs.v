(** The productions of the parser and the extended BNF describe the same language. *)
From Verif Require Import Base Lib LuaLexer Ast LR LRSpec LuaGrammar EbnfSpec.

(** ** languages of expressions, given languages of the rules *)
Inductive star (L : list token -> Prop) : list token -> Prop :=
| star_nil : star L []
| star_cons : forall u v, L u -> star L v -> star L (u ++ v).
Section Interp.
  Variable den : rule -> list token -> Prop.
  Fixpoint interp (e : ebnf) (w : list token) : Prop :=
    match e with
    | Word t => w = [t]
    | Class c => exists t, w = [t] /\ c t = true
    | Rule r => den r w
    | Seq a b => exists u v, w = u ++ v /\ interp a u /\ interp b v
    | Alt a b => interp a w \/ interp b w
    | Opt a => w = [] \/ interp a w
    | Many a => star (interp a) w
    | Where p a => p w = true /\ interp a w
    end.
End Interp.
Lemma star_mono (L M : list token -> Prop) w : (forall u, L u -> M u) -> star L w -> star M w.
Proof. intros H. induction 1; constructor; auto. Qed.
Lemma star_app (L : list token -> Prop) u v : star L u -> star L v -> star L (u ++ v).
Proof. induction 1; intros; [assumption|]. rewrite <- app_assoc. constructor; auto. Qed.
Lemma star_one (L : list token -> Prop) u : L u -> star L u.
Proof. intros H. rewrite <- (app_nil_r u). constructor; [exact H|constructor]. Qed.
(** the languages of the rules are the least ones *)
Lemma matches_interp rules den : (forall r w, interp den (rules r) w -> den r w) ->
  forall e w, matches rules e w -> interp den e w.
Proof.
  intros H. induction 1; cbn [interp]; eauto 6.
  - constructor.
  - constructor; auto.
Qed.
Lemma interp_matches rules e w : interp (fun r => matches rules (Rule r)) e w -> matches rules e w.
Proof.
  revert w. induction e; intros w; cbn [interp].
  - intros ->. constructor.
  - intros (t & -> & H). now constructor.
  - auto.
  - intros (u & v & -> & A & B). constructor; auto.
  - intros [A|A]; [apply m_left|apply m_right]; auto.
  - intros [->|A]; [apply m_none|apply m_some; auto].
  - induction 1; [apply m_end|apply m_more; auto].
  - intros [P A]. apply m_where; auto.
Qed.
Lemma interp_mono (d1 d2 : rule -> list token -> Prop) : (forall r w, d1 r w -> d2 r w) -> forall e w, interp d1 e w -> interp d2 e w.
Proof.
  intros H. induction e; intros w; cbn [interp]; auto.
  - intros (u & v & E & A & B). exists u, v. auto.
  - intros [A|A]; auto.
  - intros [A|A]; auto.
  - apply star_mono. auto.
  - intros [P A]. auto.
Qed.

(** ** the productions without values and positions *)
Inductive cfg : sym -> list token -> Prop :=
| c_tok : forall t, cfg (T (term_of t)) [t]
| c_prod : forall p w, In p lua_prods -> cfgs (p_rhs p) w -> cfg (NT (p_lhs p)) w
with cfgs : list sym -> list token -> Prop :=
| cs_nil : cfgs [] []
| cs_cons : forall x xs u v, cfg x u -> cfgs xs v -> cfgs (x :: xs) (u ++ v).
Scheme cfg_mut := Induction for cfg Sort Prop with cfgs_mut := Induction for cfgs Sort Prop.
Combined Scheme cfg_both from cfg_mut, cfgs_mut.

Lemma derives_cfg : (forall x w v, derives lua_grammar x w v -> cfg x (bare w))
  /\ (forall xs w vs, derives_list lua_grammar xs w vs -> cfgs xs (bare w)).
Proof.
  apply derives_both.
  - intros l t r. apply (c_tok t).
  - intros p w args Hp _ IH. now apply (c_prod p).
  - constructor.
  - intros x xs w1 w2 v vs _ A _ B. unfold bare. rewrite map_app. now constructor.
Qed.
Lemma cfg_derives : (forall x w, cfg x w -> forall ts, bare ts = w -> exists v, derives lua_grammar x ts v)
  /\ (forall xs w, cfgs xs w -> forall ts, bare ts = w -> exists vs, derives_list lua_grammar xs ts vs).
Proof.
  apply cfg_both.
  - intros t [|[[l t'] r] [|]]; cbn; intros [= ->]. eexists. apply (d_tok lua_grammar).
  - intros p w Hp _ IH ts E. destruct (IH ts E) as [vs D]. eexists. exact (d_prod lua_grammar p ts vs Hp D).
  - intros [|]; [|discriminate]. intros _. eexists. constructor.
  - intros x xs u v _ A _ B ts E. apply map_eq_app in E. destruct E as (t1 & t2 & -> & E1 & E2).
    destruct (A t1 E1) as [? D1]. destruct (B t2 E2) as [? D2]. eexists. constructor; eassumption.
Qed.
Lemma sentence_cfg ts : (exists v, sentence lua_grammar ts v) <-> cfg (NT n_Chunk_) (bare ts).
Proof.
  split.
  - intros (v & l & r & D). exact (proj1 derives_cfg _ _ _ D).
  - intros C. destruct (proj1 cfg_derives _ _ C ts eq_refl) as [[[l v] r] D]. exists v, l, r. exact D.
Qed.

Definition rhss (n : N) : list (list sym) := map p_rhs (filter (fun p => N.eqb (p_lhs p) n) lua_prods).
Lemma c_use n rhs w : In rhs (rhss n) -> cfgs rhs w -> cfg (NT n) w.
Proof.
  unfold rhss. intros H C. apply in_map_iff in H. destruct H as (p & <- & H). apply filter_In in H.
  destruct H as [H E]. apply N.eqb_eq in E. subst n. now apply c_prod.
Qed.
Lemma c_inv n w : cfg (NT n) w -> exists rhs, In rhs (rhss n) /\ cfgs rhs w.
Proof.
  intros H. inversion H as [|p w' Hp C E1 E2]. subst. exists (p_rhs p). split; [|exact C].
  unfold rhss. apply in_map_iff. exists p. split; [reflexivity|]. apply filter_In. split; [exact Hp|apply N.eqb_refl].
Qed.
Lemma c_t n t : term_of t = n -> cfg (T n) [t].
Proof. intros <-. constructor. Qed.
Lemma cs_last x u : cfg x u -> cfgs [x] u.
Proof. intros H. rewrite <- (app_nil_r u). constructor; [exact H|constructor]. Qed.
Lemma cs_end x y xs u v : cfg x u -> cfgs (y :: xs) v -> cfgs (x :: y :: xs) (u ++ v).
Proof. constructor; assumption. Qed.

(** ** from the expressions to the productions *)
Definition inn (n : N) (w : list token) : Prop := cfg (NT n) w.
Definition binary (t : token) : bool :=
  match t with
  | OpAddition | Minus | OpMultiplication | OpDivision | OpFloorDivision | OpModulo | OpBitwiseAnd | Tilde | OpBitwiseOr
  | OpRightShift | OpLeftShift | OpConcatenation | OpLessThan | OpLessOrEqual | OpGreaterThan | OpGreaterOrEqual
  | OpEquality | OpInequality | OpLogicalAnd | OpLogicalOr => true
  | _ => false
  end.
Definition den (r : rule) (w : list token) : Prop :=
  match r with
  | RBlock => w = [] \/ inn n_Block_ w
  | RClosed => inn n_StatNoPar_ w
  | ROpen => inn n_StatMayEndsPar_ w
  | RRetstat => inn n_RetStat_ w
  | RLabel => inn n_Label_ w
  | RFuncname => inn n_FuncName_ w
  | RNamelist => inn n_NameList_ w
  | RExplist => inn n_ExpList_ w
  | RExp => inn n_OpExp_ w
  | RArgs => inn n_Args_ w
  | RFunctiondef => inn n_FunctionDef_ w
  | RFuncbody => inn n_FuncBody_ w
  | RParlist => inn n_ParList_ w
  | RTable => inn n_TableConstructor_ w
  | RFieldlist => inn n_FieldList_ w
  | RField => inn n_Field_ w
  | RFieldsep => inn n_FieldSep_ w
  | RBinop => exists t, w = [t] /\ binary t = true
  | RRound => inn n_StatStartsMayEndsPar_ w
  | RRoundexp => inn n_VarExp_ w
  | RSuffix => inn n_VarSuffix_ w
  | RTarget => inn n_VarMayExp_ w
  | RPar => inn n_Par_ w
  | RSimple => inn n_Exp_ w
  | ROperand => inn n_Op10_ w
  | _ => True
  end.

(** building a derivation: the parts of the right-hand side are among the hypotheses or are tokens *)
Ltac part := first [eassumption | apply c_t; reflexivity].
Ltac parts := repeat (first [apply cs_end; [part|] | apply cs_last; part]).
Lemma c_nth n i rhs w : nth_error (rhss n) i = Some rhs -> cfgs rhs w -> cfg (NT n) w.
Proof. intros H. apply c_use. eapply nth_error_In. exact H. Qed.
Ltac pick i l :=
  lazymatch l with
  | ?r :: ?l' => first [(apply (c_nth _ i r); [vm_compute; reflexivity|]; solve [parts]) | pick (S i) l']
  end.
Ltac by_prod :=
  unfold inn in *; repeat rewrite <- app_assoc; rewrite ?app_nil_l, ?app_nil_r;
  match goal with |- cfg (NT ?n) _ => let l := eval vm_compute in (rhss n) in pick O l end.

Lemma name_in u : (exists t, u = [t] /\ name t = true) -> inn n_Name_ u.
Proof. intros (t & -> & H). destruct t; try discriminate. by_prod. Qed.
Lemma literal_in u : (exists t, u = [t] /\ literal t = true) -> inn n_StringLiteral_ u.
Proof. intros (t & -> & H). destruct t; try discriminate; by_prod. Qed.
Lemma numeral_in u : (exists t, u = [t] /\ numeral t = true) -> cfg (T t_Numeral) u.
Proof. intros (t & -> & H). destruct t; try discriminate. apply c_t. reflexivity. Qed.

(** lists *)
Lemma suffixes_in w : star (inn n_VarSuffix_) w -> w = [] \/ inn n_VarSuffixList_ w.
Proof.
  assert (H : forall u, inn n_TList_VarSuffix_ u -> forall v, star (inn n_VarSuffix_) v -> inn n_TList_VarSuffix_ (u ++ v)).
  { intros u Hu v Hv. revert u Hu. induction Hv as [|v1 v2 H1 _ IH]; intros u Hu; [now rewrite app_nil_r|].
    rewrite app_assoc. apply IH. by_prod. }
  destruct 1 as [|u v Hu Hv]; [now left|]. right.
  assert (A : inn n_TList_VarSuffix_ u) by by_prod. specialize (H u A v Hv). clear - H. by_prod.
Qed.
Lemma suffixes_plus u v : inn n_VarSuffix_ u -> star (inn n_VarSuffix_) v -> inn n_VarSuffixList_ (u ++ v).
Proof.
  intros A B. destruct (suffixes_in (u ++ v)) as [E|H]; [now constructor| |exact H].
  apply app_eq_nil in E. destruct E as [-> _]. exfalso. clear - A.
  assert (X : forall x w, cfg x w -> w <> []).
  { clear. apply (cfg_mut (fun x w _ => w <> []) (fun xs w _ => xs <> [] -> w <> [])).
    - discriminate.
    - intros p w Hp _ IH. apply IH. clear - Hp.
      assert (F : forallb (fun p => match p_rhs p with [] => false | _ => true end) lua_prods = true) by (vm_compute; reflexivity).
      rewrite forallb_forall in F. specialize (F p Hp). intros E. rewrite E in F. discriminate.
    - congruence.
    - intros x xs u v _ A _ _ _ E. apply app_eq_nil in E. tauto. }
  exact (X _ _ A eq_refl).
Qed.
Lemma elseifs_in w : star (inn n_ElseIfThen_) w -> w = [] \/ inn n_ElseIfThenVec_ w.
Proof.
  assert (H : forall u, inn n_TList_ElseIfThen_ u -> forall v, star (inn n_ElseIfThen_) v -> inn n_TList_ElseIfThen_ (u ++ v)).
  { intros u Hu v Hv. revert u Hu. induction Hv as [|v1 v2 H1 _ IH]; intros u Hu; [now rewrite app_nil_r|].
    rewrite app_assoc. apply IH. by_prod. }
  destruct 1 as [|u v Hu Hv]; [now left|]. right.
  assert (A : inn n_TList_ElseIfThen_ u) by by_prod. specialize (H u A v Hv). clear - H. by_prod.
Qed.
(** [v] is separators, each with an [x] behind it *)
Definition tail (sep : token) (x : list token -> Prop) (v : list token) : Prop :=
  star (fun w => exists a b, w = a ++ b /\ a = [sep] /\ x b) v.
Lemma tail_cases sep x v : tail sep x v -> v = [] \/ exists a b, v = sep :: a ++ b /\ x a /\ tail sep x b.
Proof. destruct 1 as [|u v (a & b & -> & -> & H) Hv]; [now left|]. right. exists b, v. repeat split; auto. Qed.
(** a right recursive list *)
Lemma sep_in nx nl sep : (forall u, inn nx u -> inn nl u) -> (forall u v, inn nx u -> inn nl v -> inn nl (u ++ [sep] ++ v)) ->
  forall u v, inn nx u -> tail sep (inn nx) v -> inn nl (u ++ v).
Proof.
  intros H1 H2 u v Hu Hv. revert u Hu. induction Hv as [|w v (a & b & -> & -> & Hb) Hv IH]; intros u Hu.
  - rewrite app_nil_r. auto.
  - change (([sep] ++ b) ++ v) with ([sep] ++ b ++ v). apply H2; auto.
Qed.
Lemma names_in u v : inn n_Name_ u -> tail Comma (inn n_Name_) v -> inn n_NameList_ (u ++ v).
Proof.
  intros A B. assert (C : inn n_TSepList_Name_comma_ (u ++ v)); [|clear - C; by_prod].
  revert A B. apply sep_in; clear; intros; by_prod.
Qed.
Lemma exps_in u v : inn n_OpExp_ u -> tail Comma (inn n_OpExp_) v -> inn n_ExpList_ (u ++ v).
Proof.
  intros A B. assert (C : inn n_TSepList_OpExp_ (u ++ v)); [|clear - C; by_prod].
  revert A B. apply sep_in; clear; intros; by_prod.
Qed.
Lemma pars_in u v : inn n_Par_ u -> tail Comma (inn n_Par_) v -> inn n_ParList_ (u ++ v).
Proof.
  intros A B. assert (C : inn n_TSepList_Par_ (u ++ v)); [|clear - C; by_prod].
  revert A B. apply sep_in; clear; intros; by_prod.
Qed.
Lemma targets_in u v : inn n_VarMayExp_ u -> tail Comma (inn n_VarMayExp_) v -> inn n_TSepList_VarMayExp_ (u ++ v).
Proof. apply sep_in; clear; intros; by_prod. Qed.
Lemma dots_in u v : inn n_Name_ u -> tail Period (inn n_Name_) v -> inn n_TSepList_Name_dot_ (u ++ v).
Proof. apply sep_in; clear; intros; by_prod. Qed.
Lemma fields_in u v o : inn n_Field_ u ->
  star (fun w => exists a b, w = a ++ b /\ inn n_FieldSep_ a /\ inn n_Field_ b) v -> (o = [] \/ inn n_FieldSep_ o) ->
  inn n_TSepEndList_Field_ (u ++ v ++ o).
Proof.
  intros Hu Hv Ho. revert u Hu. induction Hv as [|w v (a & b & -> & Ha & Hb) Hv IH]; intros u Hu; cbn [app].
  - destruct Ho as [->|Ho]; [rewrite app_nil_r|]; by_prod.
  - specialize (IH b Hb). rewrite <- !app_assoc. by_prod.
Qed.

(** statements *)
Lemma stats_in u v : (u = [] \/ inn n_StatStartsMayEndsPar_ u) -> star (inn n_Stat_) v -> u ++ v = [] \/ inn n_Stats_ (u ++ v).
Proof.
  assert (H : forall u, inn n_TList_Stat_ u -> forall v, star (inn n_Stat_) v -> inn n_TList_Stat_ (u ++ v)).
  { clear. intros u Hu v Hv. revert u Hu. induction Hv as [|v1 v2 H1 _ IH]; intros u Hu; [now rewrite app_nil_r|].
    rewrite app_assoc. apply IH. by_prod. }
  assert (H' : star (inn n_Stat_) v -> v = [] \/ inn n_TList_Stat_ v).
  { destruct 1 as [|v1 v2 A B]; [now left|]. right. apply H; [|exact B]. clear - A. by_prod. }
  intros Hu Hv. apply H' in Hv. clear H H'. destruct Hu as [->|Hu], Hv as [->|Hv]; cbn [app].
  - now left.
  - right. by_prod.
  - right. rewrite app_nil_r. by_prod.
  - right. by_prod.
Qed.

(** operators: appending an operator of level [j] and an operand to an expression of level [k] *)
Definition op_nt (k : nat) : N := nth k [n_Op0_; n_Op1_; n_Op2_; n_Op3_; n_Op4_; n_Op5_; n_Op6_; n_Op7_; n_Op8_; n_Op9_] n_Op10_.
Lemma lift k w : k <= 10 -> inn n_Op10_ w -> inn (op_nt k) w.
Proof.
  intros Hk H.
  assert (H9 : inn n_Op9_ w) by by_prod. assert (H8 : inn n_Op8_ w) by by_prod. assert (H7 : inn n_Op7_ w) by by_prod.
  assert (H6 : inn n_Op6_ w) by by_prod. assert (H5 : inn n_Op5_ w) by by_prod. assert (H4 : inn n_Op4_ w) by by_prod.
  assert (H3 : inn n_Op3_ w) by by_prod. assert (H2 : inn n_Op2_ w) by by_prod. assert (H1 : inn n_Op1_ w) by by_prod.
  assert (H0 : inn n_Op0_ w) by by_prod.
  do 11 (destruct k as [|k]; [assumption|]). lia.
Qed.
Definition level (t : token) : nat :=
  match t with
  | OpLogicalOr => 0 | OpLogicalAnd => 1
  | OpEquality | OpInequality | OpLessThan | OpGreaterThan | OpLessOrEqual | OpGreaterOrEqual => 2
  | OpBitwiseOr => 3 | Tilde => 4 | OpBitwiseAnd => 5 | OpLeftShift | OpRightShift => 6 | OpConcatenation => 7
  | OpAddition | Minus => 8 | _ => 9
  end.
Lemma snoc_here t w o : binary t = true -> inn (op_nt (level t)) w -> inn n_Op10_ o -> inn (op_nt (level t)) (w ++ [t] ++ o).
Proof.
  intros B Hw Ho. apply (lift (S (level t))) in Ho; [|destruct t; cbn; lia].
  destruct t; try discriminate B; unfold op_nt, level, nth in *; by_prod.
Qed.
Lemma c_op k w : k < 10 -> inn (op_nt k) w ->
  inn (op_nt (S k)) w \/ exists u t v, w = u ++ [t] ++ v /\ binary t = true /\ level t = k /\ inn (op_nt k) u /\ inn (op_nt (S k)) v.
Proof.
  intros Hk H. apply c_inv in H. destruct H as (rhs & I & C).
  assert (X : forall x y z, cfgs [x; y; z] w -> exists u t v, w = u ++ [t] ++ v /\ T (term_of t) = y /\ cfg x u /\ cfg z v
             \/ exists n, y = NT n).
  { intros x y z D. inversion D as [|? ? u v' D1 D2]; subst. inversion D2 as [|? ? v v2 D3 D4]; subst.
    inversion D4 as [|? ? v3 v4 D5 D6]; subst. inversion D6; subst. rewrite app_nil_r in *.
    inversion D3; subst; [|exists [], OpAddition, []; right; eauto]. exists u, t, v3. left. auto. }
  assert (Y : forall x, cfgs [x] w -> cfg x w).
  { intros x D. inversion D as [|? ? u v' D1 D2]; subst. inversion D2; subst. now rewrite app_nil_r. }
  do 10 (destruct k as [|k]; [vm_compute in I; repeat (destruct I as [<-|I]; [
     first [ left; apply Y; exact C
           | right; destruct (X _ _ _ C) as (u & t & v & [(E & Et & Cu & Cv)|[n [=]]]); exists u, t, v;
             (split; [exact E|]); destruct t; try discriminate Et; repeat split; auto ] |]); destruct I|]). lia.
Qed.
Lemma snoc_op t k w o : binary t = true -> k <= level t -> inn (op_nt k) w -> inn n_Op10_ o -> inn (op_nt k) (w ++ [t] ++ o).
Proof.
  intros B. assert (L : level t <= 9) by (destruct t; cbn; lia).
  remember (level t - k) as d eqn:Hd. revert k w Hd. induction d as [|d IH]; intros k w Hd Hk Hw Ho.
  - replace k with (level t) in * by lia. now apply snoc_here.
  - destruct (c_op k w ltac:(lia) Hw) as [H|(u & t' & v & -> & B' & L' & Hu & Hv)].
    + specialize (IH (S k) w ltac:(lia) ltac:(lia) H Ho).
      assert (Hk10 : k < 10) by lia. clear - IH Hk10.
      do 10 (destruct k as [|k]; [unfold op_nt, nth in *; by_prod|]). lia.
    + specialize (IH (S k) v ltac:(lia) ltac:(lia) Hv Ho). subst k. clear - IH Hu B'.
      rewrite <- !app_assoc. remember (v ++ [t] ++ o) as z. clear Heqz.
      destruct t'; try discriminate B'; unfold op_nt, nth, level in *; by_prod.
Qed.
Lemma operands_in u v : inn n_Op10_ u ->
  star (fun w => exists a b, w = a ++ b /\ (exists t, a = [t] /\ binary t = true) /\ inn n_Op10_ b) v -> inn n_OpExp_ (u ++ v).
Proof.
  intros Hu Hv. assert (H : inn n_Op0_ (u ++ v)); [|clear - H; by_prod].
  apply (lift 0) in Hu; [|lia]. change (op_nt 0) with n_Op0_ in Hu. revert u Hu.
  induction Hv as [|w v (a & b & -> & (t & -> & B) & Hb) Hv IH]; intros u Hu; [now rewrite app_nil_r|].
  rewrite app_assoc. apply IH. apply (snoc_op t 0); auto. lia.
Qed.
Lemma powers_in u v : inn n_Exp_ u -> tail OpExponentiation (inn n_Exp_) v -> inn n_Op11_ (u ++ v).
Proof.
  intros Hu Hv. assert (H : inn n_Op11_ u) by by_prod. clear Hu. revert u H.
  induction Hv as [|w v (a & b & -> & -> & Hb) Hv IH]; intros u Hu; [now rewrite app_nil_r|].
  rewrite app_assoc. apply IH. by_prod.
Qed.

(** the alternatives of a rule *)
Ltac open_up :=
  repeat match goal with
    | H : exists _, _ |- _ => destruct H
    | H : _ /\ _ |- _ => destruct H
    | H : _ \/ _ |- _ => destruct H
    | E : ?w = _ |- _ => is_var w; subst w
    end.
Ltac leaves :=
  repeat match goal with
    | H : name ?t = true |- _ => destruct t; try discriminate H; clear H
    end.
Lemma name_tok s : inn n_Name_ [Variable_ s].
Proof. apply name_in. exists (Variable_ s). auto. Qed.
Ltac has_name :=
  repeat match goal with
    | |- context [[Variable_ ?s]] =>
        lazymatch goal with H : inn n_Name_ [Variable_ s] |- _ => fail | _ => pose proof (name_tok s) end
    end.
Lemma elseif_in w : interp den (Seq (Word ElseIf) (Seq (Rule RExp) (Seq (Word Then) (Rule RBlock)))) w -> inn n_ElseIfThen_ w.
Proof. cbn [interp den]. intros. open_up; rewrite ?app_nil_r; by_prod. Qed.
Lemma call_tail_in c w : star (interp den (Seq (Word Comma) (Rule c))) w -> tail Comma (den c) w.
Proof. intros H. exact H. Qed.
Lemma names_tail w sep : star (interp den (Seq (Word sep) Name_)) w -> tail sep (inn n_Name_) w.
Proof.
  apply star_mono. cbn [interp Name_]. intros u (a & b & -> & -> & H). exists [sep], b. repeat split. now apply name_in.
Qed.

Lemma block_case w : interp den (luafmt RBlock) w -> den RBlock w.
Proof.
  cbn [luafmt interp den]. intros (u & v' & -> & Hu & v & r & -> & Hv & Hr).
  assert (S : star (inn n_Stat_) v).
  { revert Hv. apply star_mono. intros x [(a & b & -> & Ha & Hb)|Hx].
    - destruct Hb as [->|Hb]; rewrite ?app_nil_r; by_prod.
    - by_prod. }
  destruct (stats_in u v Hu S) as [E|H]; rewrite app_assoc.
  - rewrite E. cbn [app]. destruct Hr as [->|Hr]; [now left|]. right. clear - Hr. by_prod.
  - right. clear - H Hr. generalize dependent (u ++ v). intros x H. destruct Hr as [->|Hr]; [rewrite app_nil_r|]; by_prod.
Qed.
Lemma closed_case w : interp den (luafmt RClosed) w -> den RClosed w.
Proof.
  cbn [luafmt manual closed_stat]. intros H. destruct H as [H|[H|[H|[H|[H|[H|[H|[H|[H|[H|[H|H]]]]]]]]]]].
  - cbn [interp den] in *. open_up. by_prod.
  - cbn [interp den] in *. open_up. by_prod.
  - cbn [interp den] in *. open_up. by_prod.
  - cbn [interp den Name_] in *. open_up. leaves. has_name. by_prod.
  - cbn [interp den] in *. open_up; by_prod.
  - cbn [interp den] in *. open_up; by_prod.
  - destruct H as (u1 & r1 & -> & H1 & u2 & r2 & -> & H2 & u3 & r3 & -> & H3 & u4 & r4 & -> & H4 & u5 & r5 & -> & H5
      & u6 & u7 & -> & H6 & H7).
    apply (star_mono _ _ _ elseif_in) in H5. apply elseifs_in in H5. cbn [interp den] in *.
    destruct H5 as [->|H5]; open_up; by_prod.
  - cbn [interp den Name_] in *. open_up; leaves; has_name; by_prod.
  - cbn [interp den] in *. open_up; by_prod.
  - cbn [interp den] in *. open_up; by_prod.
  - cbn [interp den Name_] in *. open_up; leaves; has_name; by_prod.
  - cbn [interp den] in *. open_up; by_prod.
Qed.
Lemma open_case w : interp den (luafmt ROpen) w -> den ROpen w.
Proof.
  cbn [luafmt]. intros H. destruct H as [H|[H|[H|H]]].
  - cbn [interp den Name_] in *. destruct H as (n & r1 & -> & Hn & s & r2 & -> & Hs & t & r3 & -> & Ht & r4 & e & -> & -> & He).
    apply name_in in Hn. apply suffixes_in in Hs.
    assert (V : inn n_VarNoExp_ (n ++ s)) by (destruct Hs as [->|Hs]; rewrite ?app_nil_r; by_prod).
    clear Hs Hn. rewrite app_assoc. generalize dependent (n ++ s). intros x V.
    apply tail_cases in Ht. destruct Ht as [->|(a & b & -> & Ha & Hb)].
    + assert (L : inn n_VarListNoStartPar_ x) by by_prod. clear V. by_prod.
    + pose proof (targets_in _ _ Ha Hb) as Y. clear Ha Hb. generalize dependent (a ++ b). intros y Y.
      assert (L : inn n_VarListNoStartPar_ (x ++ [Comma] ++ y)) by by_prod. clear V Y.
      change ((Comma :: y) ++ [EqualsSign] ++ e) with (([Comma] ++ y) ++ [EqualsSign] ++ e). rewrite app_assoc.
      generalize dependent (x ++ [Comma] ++ y). intros z L. by_prod.
  - cbn [interp den Name_] in *. destruct H as (n & r1 & -> & Hn & s & r2 & -> & Hs & Hr).
    apply name_in in Hn. pose proof (suffixes_plus _ _ Hs Hr) as V. clear Hs Hr. generalize dependent (s ++ r2). intros x V.
    assert (L : inn n_FunctionCallNoStartsMayEndsPar_ (n ++ x)) by by_prod. clear V Hn. by_prod.
  - cbn [interp den] in *. open_up; by_prod.
  - cbn [interp den] in *. open_up; by_prod.
Qed.
Lemma round_case w : interp den (luafmt RRound) w -> den RRound w.
Proof.
  cbn [luafmt]. intros H. destruct H as [H|[H|H]].
  - cbn [interp den] in *. destruct H as (x & r2 & -> & V & t & r3 & -> & Ht & r4 & e & -> & -> & He).
    apply tail_cases in Ht. destruct Ht as [->|(a & b & -> & Ha & Hb)].
    + assert (L : inn n_VarListStartsPar_ x) by by_prod. clear V. by_prod.
    + pose proof (targets_in _ _ Ha Hb) as Y. clear Ha Hb. generalize dependent (a ++ b). intros y Y.
      assert (L : inn n_VarListStartsPar_ (x ++ [Comma] ++ y)) by by_prod. clear V Y.
      change ((Comma :: y) ++ [EqualsSign] ++ e) with (([Comma] ++ y) ++ [EqualsSign] ++ e). rewrite app_assoc.
      generalize dependent (x ++ [Comma] ++ y). intros z L. by_prod.
  - cbn [interp den] in H |- *. unfold inn in H. apply c_inv in H. destruct H as (rhs & I & C). vm_compute in I.
    destruct I as [<-|[]]. assert (L : inn n_FunctionCallStartsMayEndsPar_ w).
    { apply (c_use _ [T t_OpenRoundBracket; NT n_OpExp_; T t_CloseRoundBracket; NT n_VarSuffixList_]); [vm_compute; tauto|exact C]. }
    clear C. by_prod.
  - cbn [interp den] in *. destruct H as (u1 & r1 & -> & -> & u2 & u3 & -> & H & ->).
    assert (L : inn n_FunctionCallStartsMayEndsPar_ ([OpenRoundBracket] ++ u2 ++ [CloseRoundBracket])) by by_prod.
    clear H. generalize dependent ([OpenRoundBracket] ++ u2 ++ [CloseRoundBracket]). intros. by_prod.
Qed.
Lemma simple_case w : interp den (luafmt RSimple) w -> den RSimple w.
Proof.
  cbn [luafmt]. intros H. destruct H as [H|[H|[H|[H|[H|[H|[H|[H|[H|H]]]]]]]]].
  - cbn [interp den] in *. open_up. by_prod.
  - cbn [interp den] in *. open_up. by_prod.
  - cbn [interp den] in *. open_up. by_prod.
  - apply numeral_in in H. cbn [interp den] in *. by_prod.
  - apply literal_in in H. cbn [interp den] in *. by_prod.
  - cbn [interp den] in *. open_up. by_prod.
  - cbn [interp den] in *. by_prod.
  - cbn [interp den Name_] in *. destruct H as (n & s & -> & Hn & Hs). apply name_in in Hn. apply suffixes_in in Hs.
    assert (V : inn n_VarMayExp_ (n ++ s)) by (destruct Hs as [->|Hs]; rewrite ?app_nil_r; by_prod).
    assert (P : inn n_PrefixMayStartsMayEndsPar_ (n ++ s)) by (clear - V; generalize dependent (n ++ s); intros; by_prod).
    clear - P. by_prod.
  - cbn [interp den] in *. destruct H as (u1 & r1 & -> & -> & u2 & r2 & -> & H2 & u3 & r3 & -> & -> & Hs).
    apply suffixes_in in Hs. destruct Hs as [->|Hs].
    + rewrite app_nil_r. assert (P : inn n_PrefixMayStartsMayEndsPar_ ([OpenRoundBracket] ++ u2 ++ [CloseRoundBracket])) by by_prod.
      clear - P. generalize dependent ([OpenRoundBracket] ++ u2 ++ [CloseRoundBracket]). intros. by_prod.
    + assert (V : inn n_VarMayExp_ ([OpenRoundBracket] ++ u2 ++ [CloseRoundBracket] ++ r3)) by by_prod.
      clear - V. generalize dependent ([OpenRoundBracket] ++ u2 ++ [CloseRoundBracket] ++ r3). intros.
      assert (P : inn n_PrefixMayStartsMayEndsPar_ l) by by_prod. clear V. by_prod.
  - cbn [interp den] in *. by_prod.
Qed.
Lemma operand_case w : interp den (luafmt ROperand) w -> den ROperand w.
Proof.
  cbn [luafmt interp den list_of]. intros (n & r1 & -> & Hn & o & r2 & -> & Ho & x & y & -> & Hx & Hy).
  pose proof (powers_in _ _ Hx Hy) as P. clear Hx Hy. generalize dependent (x ++ y). intros z P.
  assert (O : inn n_Op10_ (o ++ z)).
  { destruct Ho as [->|[->|[->| ->]]]; cbn [app]; [by_prod| | |]; change (?a :: z) with ([a] ++ z); by_prod. }
  clear P. induction Hn as [|u v -> Hv IH]; [exact O|]. rewrite <- app_assoc. clear O. by_prod.
Qed.
Lemma rule_case r w : interp den (luafmt r) w -> den r w.
Proof.
  destruct r.
  - apply block_case.
  - cbn. auto.
  - apply closed_case.
  - apply open_case.
  - cbn [luafmt manual interp den]. intros. open_up; by_prod.
  - cbn [luafmt manual interp den Name_]. intros. open_up; leaves; has_name; by_prod.
  - cbn [luafmt manual list_of]. intros (u & v & -> & (a & b & -> & Ha & Hb) & Ho). apply name_in in Ha. apply names_tail in Hb.
    pose proof (dots_in _ _ Ha Hb) as L. clear Ha Hb. generalize dependent (a ++ b). intros x L. cbn [interp den Name_] in *.
    open_up; rewrite ?app_nil_r; leaves; has_name; by_prod.
  - cbn. auto.
  - cbn. auto.
  - cbn [luafmt manual list_of]. intros (a & b & -> & Ha & Hb). apply name_in in Ha. apply names_tail in Hb. now apply names_in.
  - cbn [luafmt manual list_of]. intros (a & b & -> & Ha & Hb). now apply exps_in.
  - cbn [luafmt manual list_of]. intros (a & b & -> & Ha & Hb). now apply operands_in.
  - cbn. auto.
  - cbn. auto.
  - cbn [luafmt manual]. intros [H|[H|H]].
    + cbn [interp den] in *. open_up; by_prod.
    + cbn [interp den] in *. by_prod.
    + apply literal_in in H. cbn [den]. by_prod.
  - cbn [luafmt manual interp den]. intros. open_up; by_prod.
  - cbn [luafmt manual interp den]. intros. open_up; by_prod.
  - cbn [luafmt manual list_of]. intros (a & b & -> & Ha & Hb). now apply pars_in.
  - cbn [luafmt manual interp den]. intros. open_up; by_prod.
  - cbn [luafmt manual list_of]. intros (u & v & -> & (a & b & -> & Ha & Hb) & Ho). rewrite <- app_assoc.
    pose proof (fields_in _ _ _ Ha Hb Ho) as L. clear - L. cbn [den]. generalize dependent (a ++ b ++ v). intros. by_prod.
  - cbn [luafmt manual interp den Name_]. intros. open_up; leaves; has_name; by_prod.
  - cbn [luafmt manual interp den]. intros. open_up; by_prod.
  - cbn [luafmt manual interp den]. intros. open_up; eexists; split; reflexivity.
  - cbn. auto.
  - apply round_case.
  - cbn [luafmt interp den]. intros (u1 & r1 & -> & -> & u2 & r2 & -> & H2 & u3 & r3 & -> & -> & s & r4 & -> & Hs & Hr).
    pose proof (suffixes_plus _ _ Hs Hr) as V. clear Hs Hr. generalize dependent (s ++ r4). intros. by_prod.
  - cbn [luafmt interp den Name_]. intros. open_up; leaves; has_name; by_prod.
  - cbn [luafmt]. intros [H|H].
    + cbn [interp den Name_] in *. destruct H as (n & s & -> & Hn & Hs). apply name_in in Hn. apply suffixes_in in Hs.
      destruct Hs as [->|Hs]; rewrite ?app_nil_r; by_prod.
    + cbn [interp den] in H |- *. apply c_inv in H. destruct H as (rhs & I & C). vm_compute in I. destruct I as [<-|[]].
      apply (c_use _ [T t_OpenRoundBracket; NT n_OpExp_; T t_CloseRoundBracket; NT n_VarSuffixList_]); [vm_compute; tauto|exact C].
  - cbn [luafmt interp den Name_]. intros. open_up; leaves; has_name; by_prod.
  - apply simple_case.
  - apply operand_case.
Qed.
