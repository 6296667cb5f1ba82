(** From the productions to the extended BNF. *)
From Verif Require Import Base Lib LuaLexer Ast LR LRSpec LuaGrammar LuaParser LexSpec LexLoop ParserProofs LayoutProofs.
From Verif Require Import EbnfSpec EbnfProofs.

Notation fits := (matches luafmt).
Definition shebang_token (t : token) : bool := match t with SheBang _ => true | _ => false end.
(** the expression of a terminal *)
Definition terms : list ebnf :=
  [Word OpExponentiation; Word OpLogicalNot; Word OpLength; Word OpMultiplication; Word OpDivision; Word OpFloorDivision;
   Word OpModulo; Word OpAddition; Word Minus; Word OpConcatenation; Word OpLeftShift; Word OpRightShift;
   Word OpBitwiseAnd; Word Tilde; Word OpBitwiseOr; Word OpEquality; Word OpInequality; Word OpLessThan;
   Word OpGreaterThan; Word OpLessOrEqual; Word OpGreaterOrEqual; Word OpLogicalAnd; Word OpLogicalOr;
   Word LuaLexer.Semicolon; Word Comma; Word Colon; Word LuaLexer.Label; Word OpenRoundBracket; Word CloseRoundBracket;
   Word OpenSquareBracket; Word CloseSquareBracket; Word OpenCurlyBracket; Word CloseCurlyBracket; Word EqualsSign;
   Word Period; Word VarArg; Word Break; Word Do; Word Else; Word ElseIf; Word End; Word False_; Word For; Word Function_;
   Word GoTo; Word If_; Word In_; Word Local_; Word Nil; Word Repeat; Word Return; Word Then; Word True_; Word Until;
   Word While; Name_; Class numeral;
   Class (fun t => match t with NormalStringLiteral _ => true | _ => false end);
   Class (fun t => match t with CharStringLiteral _ => true | _ => false end);
   Class (fun t => match t with MultiLineStringLiteral _ _ => true | _ => false end);
   Class shebang_token; Word EOF].
Definition any_word : ebnf := Many (Class (fun _ => true)).
Definition item : ebnf := Alt (Seq (Rule RClosed) (Opt (Rule RRound))) (Rule ROpen).
Definition elif : ebnf := Seq (Word ElseIf) (Seq (Rule RExp) (Seq (Word Then) (Rule RBlock))).
Definition more_targets : ebnf := Many (Seq (Word Comma) (Rule RTarget)).
Definition suffixes : ebnf := Seq (Rule RSuffix) (Many (Rule RSuffix)).
(** the expression of a nonterminal *)
Definition nonterms : list ebnf :=
  [any_word; Rule RBlock; Class shebang_token; Seq (Opt (Rule RRound)) (Many item); item; Rule RRound; Rule ROpen; Rule RClosed;
   Many elif; elif; Rule RRetstat; Rule RLabel; Rule RFuncname; Seq (Rule RRoundexp) more_targets;
   Seq Name_ (Seq (Many (Rule RSuffix)) more_targets); Seq Name_ suffixes; Seq Name_ (Many (Rule RSuffix));
   Alt (Rule RRoundexp) (Seq (Word OpenRoundBracket) (Seq (Rule RExp) (Word CloseRoundBracket)));
   Rule RSimple; Rule RRoundexp; Rule RTarget; suffixes; Rule RSuffix; Rule RNamelist; Rule RExplist; Rule RSimple;
   Rule RArgs; Rule RFunctiondef; Rule RFuncbody; Rule RParlist; Rule RPar; Rule RTable; Rule RFieldlist; Rule RField;
   Rule RFieldsep; Rule RExp; Rule RExp; Rule RExp; Rule RExp; Rule RExp; Rule RExp; Rule RExp; Rule RExp; Rule RExp;
   Rule RExp; Rule RExp; Rule ROperand; list_of (Rule RSimple) (Word OpExponentiation); Name_; Class literal; Many item;
   Many elif; suffixes; list_of Name_ (Word Period); list_of (Rule RTarget) (Word Comma); list_of Name_ (Word Comma);
   list_of (Rule RExp) (Word Comma); list_of (Rule RPar) (Word Comma);
   Seq (list_of (Rule RField) (Rule RFieldsep)) (Opt (Rule RFieldsep))].
Definition expr (x : sym) : ebnf :=
  match x with T t => nth (N.to_nat t) terms any_word | NT n => nth (N.to_nat n) nonterms any_word end.

Fixpoint all_of (es : list ebnf) (w : list token) : Prop :=
  match es with
  | [] => w = []
  | [e] => fits e w
  | e :: r => exists u v, w = u ++ v /\ fits e u /\ all_of r v
  end.
Lemma all_cons e es u v : fits e u -> all_of es v -> all_of (e :: es) (u ++ v).
Proof. destruct es as [|e' es]; intros A B; [cbn in *; subst; now rewrite app_nil_r|]. exists u, v. auto. Qed.

(** ** building *)
Lemma s_opt a c w : fits (Seq a c) w -> fits (Seq (Opt a) c) w.
Proof. inversion 1; subst. constructor; [now apply m_some|assumption]. Qed.
Lemma s_skip a c w : fits c w -> fits (Seq (Opt a) c) w.
Proof. intros. change w with ([] ++ w). constructor; [apply m_none|assumption]. Qed.
Lemma s_done a c w : fits c w -> fits (Seq (Many a) c) w.
Proof. intros. change w with ([] ++ w). constructor; [apply m_end|assumption]. Qed.
Lemma s_assoc a b c w : fits (Seq a (Seq b c)) w -> fits (Seq (Seq a b) c) w.
Proof.
  inversion 1; subst. match goal with H : fits (Seq b c) _ |- _ => inversion H; subst end.
  rewrite app_assoc. constructor; [now constructor|assumption].
Qed.
Lemma s_left a b c w : fits (Seq a c) w -> fits (Seq (Alt a b) c) w.
Proof. inversion 1; subst. constructor; [now apply m_left|assumption]. Qed.
Lemma s_right a b c w : fits (Seq b c) w -> fits (Seq (Alt a b) c) w.
Proof. inversion 1; subst. constructor; [now apply m_right|assumption]. Qed.
Lemma no_block : fits (Rule RBlock) [].
Proof.
  apply m_rule. cbn [luafmt]. apply s_skip, s_done, m_none.
Qed.
Lemma s_no_block c w : fits c w -> fits (Seq (Rule RBlock) c) w.
Proof. intros. change w with ([] ++ w). constructor; [apply no_block|assumption]. Qed.
Lemma s_more a c w : fits (Seq a (Seq (Many a) c)) w -> fits (Seq (Many a) c) w.
Proof.
  inversion 1; subst. match goal with H : fits (Seq (Many a) c) _ |- _ => inversion H; subst end.
  rewrite app_assoc. constructor; [now constructor|assumption].
Qed.
Lemma inv_seq a b w : fits (Seq a b) w -> exists u v, w = u ++ v /\ fits a u /\ fits b v.
Proof. inversion 1; subst. eauto 6. Qed.
Lemma inv_alt a b w : fits (Alt a b) w -> fits a w \/ fits b w.
Proof. inversion 1; subst; auto. Qed.
Lemma s_last a c w : fits a w -> fits c [] -> fits (Seq a c) w.
Proof. intros. rewrite <- (app_nil_r w). now constructor. Qed.
Lemma many_one a w : fits a w -> fits (Many a) w.
Proof. intros. rewrite <- (app_nil_r w). constructor; [assumption|constructor]. Qed.
Lemma plus_many a w : fits (Seq a (Many a)) w -> fits (Many a) w.
Proof. inversion 1; subst. now constructor. Qed.
Lemma many_app a u v : fits (Many a) u -> fits (Many a) v -> fits (Many a) (u ++ v).
Proof.
  intros H. remember (Many a) as e eqn:E. revert E. induction H; intros [=]; subst; intros K; [exact K|].
  rewrite <- app_assoc. constructor; auto.
Qed.
Lemma plus_snoc a u v : fits (Seq a (Many a)) u -> fits a v -> fits (Seq a (Many a)) (u ++ v).
Proof. inversion 1; subst. intros. rewrite <- app_assoc. constructor; [assumption|]. apply many_app; [assumption|now apply many_one]. Qed.
Lemma list_cons x sep u v w : fits x u -> fits sep v -> fits (list_of x sep) w -> fits (list_of x sep) (u ++ v ++ w).
Proof.
  unfold list_of. intros A B C. inversion C; subst. constructor; [exact A|]. rewrite app_assoc. constructor; [now constructor|assumption].
Qed.
Lemma list_app x sep u v w : fits (list_of x sep) u -> fits sep v -> fits (list_of x sep) w -> fits (list_of x sep) (u ++ v ++ w).
Proof.
  unfold list_of. intros A B C. inversion A; subst. inversion C; subst. rewrite <- app_assoc. constructor; [assumption|].
  apply many_app; [assumption|]. rewrite app_assoc. constructor; [now constructor|assumption].
Qed.
Lemma list_one x sep u : fits x u -> fits (list_of x sep) u.
Proof. intros. rewrite <- (app_nil_r u). constructor; [assumption|constructor]. Qed.
Lemma in_rule r w : fits (luafmt r) w -> fits (Rule r) w.
Proof. apply m_rule. Qed.
Lemma of_rule r w : fits (Rule r) w -> fits (luafmt r) w.
Proof. inversion 1; assumption. Qed.

Ltac leaf := first [eassumption | apply m_word | (apply plus_many; eassumption) | exact no_block].
Ltac go :=
  lazymatch goal with
  | |- fits (Seq (Opt _) _) _ => first [apply m_seq; [leaf|go] | apply s_opt; go | apply s_skip; go]
  | |- fits (Seq (Seq _ _) _) _ => apply s_assoc; go
  | |- fits (Seq (Alt _ _) _) _ => first [apply s_left; go | apply s_right; go]
  | |- fits (Seq (Many _) _) _ => first [apply m_seq; [leaf|go] | apply s_last; [leaf|go] | apply s_more; go | apply s_done; go]
  | |- fits (Seq (Rule RBlock) _) _ => first [apply m_seq; [leaf|go] | apply s_last; [leaf|go] | apply s_no_block; go]
  | |- fits (Seq _ _) _ => first [apply m_seq; [leaf|go] | apply s_last; [leaf|go]]
  | |- fits (Alt _ _) _ => first [leaf | apply m_left; go | apply m_right; go]
  | |- fits (Opt _) _ => first [leaf | apply m_none | apply m_some; go]
  | |- fits (Many _) _ => first [leaf | apply m_end | apply plus_many; go]
  | |- fits (Rule RRoundexp) _ => first [leaf | apply in_rule; cbn [luafmt]; go]
  | |- fits (Rule _) _ => leaf
  | |- fits _ _ => leaf
  end.
Ltac split_up :=
  repeat match goal with
    | H : fits (Seq _ _) _ |- _ => apply inv_seq in H; destruct H as (? & ? & -> & ? & ?)
    | H : fits (Alt _ _) _ |- _ => apply inv_alt in H; destruct H
    end; rewrite <- ?app_assoc.
Ltac go0 := first [solve [go] | solve [apply in_rule; first [leaf | cbn [luafmt manual]; unfold closed_stat, list_of; first [leaf|go]]]].
Ltac go1 := first [go0 | unfold list_of in *; split_up; go0].
Lemma any w : fits any_word w.
Proof. induction w as [|t w IH]; [apply m_end|]. change (t :: w) with ([t] ++ w). constructor; [now constructor|exact IH]. Qed.
Lemma in_literal c w : fits (Class c) w -> (forall t, c t = true -> literal t = true) -> fits (Class literal) w.
Proof. inversion 1; subst. intros K. constructor. auto. Qed.
Lemma exp_binop u v w t : fits (Rule RExp) u -> fits (Word t) v -> binary t = true -> fits (Rule RExp) w -> fits (Rule RExp) (u ++ v ++ w).
Proof.
  intros A B C D. apply in_rule. apply of_rule in A, D. cbn [luafmt] in *. apply list_app; auto.
  apply in_rule. cbn [luafmt]. inversion B; subst. destruct t; try discriminate C; go.
Qed.

Lemma target_simple w : fits (Rule RTarget) w -> fits (Rule RSimple) w.
Proof.
  intros H. apply of_rule in H. cbn [luafmt] in H. apply inv_alt in H. destruct H as [H|H].
  - split_up. apply in_rule. cbn [luafmt]. go.
  - apply of_rule in H. cbn [luafmt] in H. split_up. apply in_rule. cbn [luafmt]. go.
Qed.
Lemma not_operand u v : fits (Word OpLogicalNot) u -> fits (Rule ROperand) v -> fits (Rule ROperand) (u ++ v).
Proof.
  intros A B. apply of_rule in B. apply in_rule. cbn [luafmt] in *. apply inv_seq in B. destruct B as (x & y & -> & B & C).
  rewrite app_assoc. constructor; [now constructor|exact C].
Qed.

Definition shape (p : prod val) : N * list sym := (p_lhs p, p_rhs p).
Definition sound (x : N * list sym) : Prop := forall w, all_of (map expr (snd x)) w -> fits (expr (NT (fst x))) w.
Lemma shapes_sound : Forall sound (map shape lua_prods).
Proof.
  let l := eval vm_compute in (map shape lua_prods) in change (map shape lua_prods) with l.
  repeat apply Forall_cons; try apply Forall_nil; intros w H;
    lazy beta iota zeta delta [fst snd map expr nth nonterms terms N.to_nat Pos.to_nat Pos.iter_op Nat.add all_of] in H |- *;
    unfold item, elif, suffixes, more_targets in *;
    repeat match goal with
      | H : exists _, _ |- _ => destruct H
      | H : _ /\ _ |- _ => destruct H
      | E : ?w = _ |- _ => is_var w; subst w
      end;
    try (apply any);
    try solve [ go1 | eapply exp_binop; [eassumption|eassumption|reflexivity|go1]
              | apply target_simple; assumption | apply not_operand; assumption | apply many_one; assumption
              | apply many_app; [assumption|apply many_one; assumption]
              | apply list_app; [assumption|assumption|apply list_one; assumption]
              | apply list_one; assumption | apply list_cons; assumption
              | eapply in_literal; [eassumption|intros []; (discriminate || reflexivity)]
              | apply plus_snoc; assumption | apply many_app; [assumption|go1] ].
Qed.
Lemma cfg_fits : (forall x w, cfg x w -> fits (expr x) w) /\ (forall xs w, cfgs xs w -> all_of (map expr xs) w).
Proof.
  apply cfg_both.
  - intros t. destruct t; first [apply m_word | apply m_class; reflexivity].
  - intros p w Hp _ IH. pose proof shapes_sound as S. rewrite Forall_forall in S.
    apply (S (shape p)); [apply in_map; exact Hp|exact IH].
  - reflexivity.
  - intros x xs u v _ A _ B. now apply all_cons.
Qed.
Lemma block_fits w : (w = [] \/ inn n_Block_ w) <-> fits (Rule RBlock) w.
Proof.
  split.
  - intros [->|H]; [exact no_block|]. exact (proj1 cfg_fits _ _ H).
  - intros H. exact (matches_interp luafmt den rule_case _ _ H).
Qed.
Lemma chunk_file w : inn n_Chunk_ w <-> file_of (fun w => w = [] \/ inn n_Block_ w) w.
Proof.
  split.
  - intros H. apply c_inv in H. destruct H as (rhs & I & C).
    assert (E : forall x, cfg (T t_EOF) x -> x = [EOF]).
    { intros x H. inversion H as [t Et|]. destruct t; try discriminate Et. reflexivity. }
    assert (B : forall x, inn n_SheBangLine_ x -> exists s, x = [SheBang s]).
    { intros x H. apply (proj1 cfg_fits) in H. cbn in H. inversion H as [|c t Ht| | | | | | | | |]; subst.
      destruct t; try discriminate Ht. eauto. }
    repeat match goal with H : cfgs _ _ |- _ => idtac end.
    vm_compute in I. destruct I as [<-|[<-|[<-|[<-|[]]]]];
      repeat match goal with
        | H : cfgs (_ :: _) _ |- _ => inversion H; subst; clear H
        | H : cfgs [] _ |- _ => inversion H; subst; clear H
        | H : cfg (T 61) _ |- _ => apply E in H; subst
        | H : cfg (NT 2) _ |- _ => apply B in H; destruct H as [? ->]
        end; rewrite ?app_nil_r.
    + apply (file_plain _ []). now left.
    + apply (file_shebang _ x []). now left.
    + apply file_plain. now right.
    + apply file_shebang. now right.
  - intros [x Hx|s x Hx].
    + destruct Hx as [->|Hx]; [change ([] ++ [EOF]) with [EOF]|]; by_prod.
    + assert (B : inn n_SheBangLine_ [SheBang s]) by by_prod. change (SheBang s :: x ++ [EOF]) with ([SheBang s] ++ x ++ [EOF]).
      destruct Hx as [->|Hx]; by_prod.
Qed.
Lemma file_mono (P Q : list token -> Prop) w : (forall x, P x -> Q x) -> file_of P w -> file_of Q w.
Proof. intros H [x Hx|s x Hx]; [apply file_plain|apply file_shebang]; auto. Qed.
Lemma root_node ts v : sentence lua_grammar ts v -> exists n, v = VNode n.
Proof.
  intros (l & r & D). apply (proj1 LayoutProofs.shapes) in D. change (g_start lua_grammar) with n_Chunk_ in D.
  destruct D as (_ & (m & -> & _) & _). eauto.
Qed.
Lemma accepted_chunk src : (exists n, parse_lua src = Parsed n) <-> exists ts, tokenization 0 src ts /\ inn n_Chunk_ (bare ts).
Proof.
  split.
  - intros [n H]. unfold parse_lua in H. destruct (lex src) as [ts| |] eqn:L; try discriminate.
    exists ts. split; [now apply lex_correct|]. apply sentence_cfg.
    destruct (parse_tokens ts) as [v| |] eqn:P; try discriminate. exists v. now apply parse_tokens_correct.
  - intros (ts & L & C). apply lex_correct in L. apply sentence_cfg in C. destruct C as [v C].
    destruct (root_node ts v C) as [n ->]. exists n. unfold parse_lua. rewrite L. apply parse_tokens_correct in C. now rewrite C.
Qed.
Theorem accepted_ebnf src : (exists n, parse_lua src = Parsed n) <-> program luafmt src.
Proof.
  rewrite accepted_chunk. split; intros (ts & L & C); exists ts; (split; [exact L|]).
  - apply chunk_file in C. revert C. apply file_mono. intros x. apply block_fits.
  - apply chunk_file. revert C. apply file_mono. intros x. apply block_fits.
Qed.
