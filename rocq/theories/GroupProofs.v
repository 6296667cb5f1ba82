(** The trees of the parser are grouped by precedence, to the left. *)
From Verif Require Import Base Lib LuaLexer Ast LR LRSpec LuaGrammar LuaParser ParserProofs LayoutSpec LayoutProofs.
From Verif Require Import GroupSpec.

(** ** a grouped tree is determined by its words *)
Definition lower (t : tree) (p : nat) : bool :=
  match t with
  | Atom _ => false
  | Unary _ _ => Nat.ltb unary_precedence p
  | Binary op _ _ => match precedence op with Some q => Nat.ltb q p | None => false end
  end.
(** the operator [op] and its right operand [b] after the tree [t] *)
Fixpoint add (p : nat) (op : str) (b : tree) (t : tree) : tree :=
  if lower t p then
    match t with
    | Atom _ => Binary op t b
    | Unary o a => Unary o (add p op b a)
    | Binary o a c => Binary o a (add p op b c)
    end
  else Binary op t b.
Inductive mode := Start (k : tree -> tree) | Go (t : tree).
Definition prec (op : str) : nat := match precedence op with Some p => p | None => 0 end.
Fixpoint run (m : mode) (ws : list word) : tree :=
  match ws with
  | [] => match m with Start k => k (Atom dummy_node) | Go t => t end
  | Operand n :: r => match m with Start k => run (Go (k (Atom n))) r | Go t => t end
  | Operator op :: r =>
      match m with
      | Start k => run (Start (fun x => k (Unary op x))) r
      | Go t => run (Start (fun x => add (prec op) op x t)) r
      end
  end.
Lemma run_ext ws : forall k k', (forall x, k x = k' x) -> run (Start k) ws = run (Start k') ws.
Proof.
  induction ws as [|[n|op] ws IH]; intros k k' H; cbn [run]; [apply H|now rewrite H|]. apply IH. intros x. apply H.
Qed.
(** operators of a higher precedence than [q] go through [k] *)
Definition through (q : nat) (k : tree -> tree) : Prop := forall p op b x, q < p -> add p op b (k x) = k (add p op b x).
Definition fit (q : nat) (t : tree) : Prop :=
  match t with Atom _ => True | Unary _ _ => q <= unary_precedence | Binary op _ _ => q < prec op end.
Lemma add_here p op b t : binds p t -> add p op b t = Binary op t b.
Proof.
  intros H. destruct t as [n|o a|o a c]; cbn [add lower]; [reflexivity| |]; cbn [binds] in H.
  - replace (unary_precedence <? p) with false; [reflexivity|]. symmetry. apply Nat.ltb_ge. exact H.
  - destruct (precedence o) as [q|]; [|contradiction]. replace (q <? p) with false; [reflexivity|]. symmetry. now apply Nat.ltb_ge.
Qed.
Lemma add_binary p op b o a c q : precedence o = Some q -> q < p -> add p op b (Binary o a c) = Binary o a (add p op b c).
Proof. intros E H. cbn [add lower]. rewrite E. apply Nat.ltb_lt in H. now rewrite H. Qed.
Lemma add_unary p op b o a : unary_precedence < p -> add p op b (Unary o a) = Unary o (add p op b a).
Proof. intros H. cbn [add lower]. apply Nat.ltb_lt in H. now rewrite H. Qed.
Lemma binds_fit p q t : binds p t -> q < p -> fit q t.
Proof.
  destruct t as [n|o a|o a c]; cbn [binds fit]; [auto|lia|]. unfold prec. destruct (precedence o); [lia|contradiction].
Qed.
Lemma binds_unary_fit q t : binds unary_precedence t -> q <= unary_precedence -> fit (Nat.max q unary_precedence) t.
Proof.
  intros H Hq. replace (Nat.max q unary_precedence) with unary_precedence by lia. destruct t as [n|o a|o a c]; cbn [binds fit] in *; [auto|lia|].
  unfold prec. destruct (precedence o) as [p|] eqn:E; [|contradiction].
  assert (N : p <> unary_precedence).
  { intros ->. unfold precedence, table in E. cbn [row] in E.
    repeat match type of E with context [if ?b then _ else _] => destruct b eqn:?; [discriminate|] end. discriminate. }
  lia.
Qed.
Lemma run_words t : grouped all_left t -> forall q k ws, through q k -> fit q t ->
  run (Start k) (words t ++ ws) = run (Go (k t)) ws.
Proof.
  induction t as [n|o a IH|o a IHa b IHb]; intros G q k ws T F; cbn [words grouped] in *.
  - reflexivity.
  - destruct G as (_ & B & G). cbn [app run]. cbn [fit] in F.
    refine (IH G (Nat.max q unary_precedence) (fun x => k (Unary o x)) ws _ _).
    + intros p op y x Hp. rewrite T by lia. now rewrite add_unary by lia.
    + now apply binds_unary_fit.
  - destruct (precedence o) as [p|] eqn:E; [|contradiction]. cbn [all_left] in G. destruct G as ((Ba & Bb) & Ga & Gb).
    cbn [fit] in F. assert (Ep : prec o = p) by (unfold prec; now rewrite E). rewrite <- app_assoc.
    rewrite (IHa Ga q k); [|exact T|eapply binds_fit; [exact Ba|lia]]. cbn [app run]. rewrite Ep.
    rewrite (run_ext _ _ (fun x => k (Binary o a x))).
    + refine (IHb Gb p (fun x => k (Binary o a x)) ws _ _).
      * intros p' op y x Hp. rewrite T by lia. now rewrite (add_binary _ _ _ _ _ _ p).
      * eapply binds_fit; [exact Bb|lia].
    + intros x. rewrite T by lia. now rewrite add_here.
Qed.
Lemma precedence_pos op p : precedence op = Some p -> 0 < p.
Proof.
  assert (H : forall rows i, row i rows op = Some p -> i <= p).
  { induction rows as [|r rows IH]; intros i; cbn [row]; [discriminate|]. destruct (existsb _ r); [intros [= ->]; lia|].
    intros E. apply IH in E. lia. }
  intros E. apply H in E. lia.
Qed.
Theorem grouped_unique t t' : grouped all_left t -> grouped all_left t' -> words t = words t' -> t = t'.
Proof.
  assert (R : forall t, grouped all_left t -> t = run (Start (fun x => x)) (words t)).
  { clear. intros t G. rewrite <- (app_nil_r (words t)). rewrite (run_words t G 0 (fun x => x) []); [reflexivity|now intros ? ? ? ?|].
    destruct t as [n|o a|o a b]; cbn [fit grouped] in *; [auto|lia|]. unfold prec.
    destruct (precedence o) as [p|] eqn:E; [|contradiction]. now apply precedence_pos in E. }
  intros G G' E. rewrite (R t G), (R t' G'). now rewrite E.
Qed.

(** ** the trees of the parser *)
Definition good (n : node) : Prop :=
  match n with
  | Nd KBinaryOp _ _ op _ ks _ _ _ =>
      match ks with
      | [a; b] => exists p, precedence op = Some p /\ binds p (operators a) /\ binds (S p) (operators b)
      | _ => False
      end
  | Nd KUnaryOp _ _ op _ ks _ _ _ => match ks with [a] => is_unary op = true /\ binds unary_precedence (operators a) | _ => False end
  | Nd KUnaryNot _ _ _ _ ks _ _ _ => match ks with [a] => binds unary_precedence (operators a) | _ => False end
  | _ => True
  end.
Inductive deep : node -> Prop := deep_intro : forall n, good n -> Forall deep (children n) -> deep n.
Definition floor (n : N) : option nat :=
  if existsb (N.eqb n) [n_Exp_; n_Name_; n_StringLiteral_; n_FunctionDef_; n_PrefixMayStartsMayEndsPar_; n_VarMayExp_; n_TableConstructor_]
  then Some 13
  else if N.leb n_Op0_ n && N.leb n n_Op11_ then Some (S (N.to_nat (n - n_Op0_))) else None.
Definition above (x : sym) (v : val) : Prop :=
  match x with
  | NT n => match floor n with Some p => exists m, v = VNode m /\ binds p (operators m) | None => True end
  | T _ => True
  end.
Definition vok (x : sym) (lv : located val) : Prop := Forall deep (vnodes (snd (fst lv))) /\ above x (snd (fst lv)).

Lemma deep_node n ns : children n = ns -> good n -> Forall deep ns -> deep n.
Proof. intros <- G H. now constructor. Qed.
Lemma binds_le p q t : p <= q -> binds q t -> binds p t.
Proof. intros H. destruct t; cbn [binds]; [auto|lia|]. destruct (precedence op); [lia|auto]. Qed.

Inductive voks : list sym -> list (located val) -> Prop :=
| voks_nil : voks [] []
| voks_cons : forall x xs v vs, vok x v -> voks xs vs -> voks (x :: xs) (v :: vs).
Lemma voks_deep xs vs : voks xs vs -> Forall deep (flat_map (fun x => vnodes (snd (fst x))) vs).
Proof. induction 1 as [|x xs v vs [H _] _ IH]; cbn [flat_map]; [constructor|]. now apply Forall_app. Qed.

Ltac use_floor :=
  repeat match goal with
    | H : context [floor ?n] |- _ => let k := eval vm_compute in (floor n) in change (floor n) with k in H
    | |- context [floor ?n] => let k := eval vm_compute in (floor n) in change (floor n) with k
    end; cbv iota beta in *;
  repeat match goal with
    | H : exists m, VNode ?x = VNode m /\ binds ?p (operators m) |- _ =>
        let m := fresh "m" in let E := fresh "E" in destruct H as (m & E & H); injection E as <-
    end.
Ltac now_prec :=
  match goal with |- context [precedence ?o] => let k := eval vm_compute in (precedence o) in change (precedence o) with k end;
  cbv iota; lia.
Ltac good_op :=
  cbn [good arg_node arg_val map fst snd nth];
  first [ eexists; split; [vm_compute; reflexivity|]; split; eapply binds_le; [|eassumption|..|eassumption]; lia
        | split; [reflexivity|]; eapply binds_le; [|eassumption]; unfold unary_precedence; lia
        | eapply binds_le; [|eassumption]; unfold unary_precedence; lia ].
Lemma prod_deep p w args : In p lua_prods -> vals_ok (p_rhs p) w args -> voks (p_rhs p) args ->
  vok (NT (p_lhs p)) (a_start args, p_act p args, a_end args).
Proof.
  intros Hp H G. pose proof (voks_deep _ _ G) as V. unfold lua_prods in Hp.
  repeat (destruct Hp as [<-|Hp]; [cbn [p_rhs p_lhs p_act] in *; repeat match goal with
    | H : vals_ok (_ :: _) _ _ |- _ => inv H
    | H : vals_ok [] _ _ |- _ => inv H
    | H : voks (_ :: _) _ |- _ => inv H
    | H : voks [] _ |- _ => inv H
    | v : located val |- _ => destruct v as [[? ?] ?]
    | H : val_ok _ _ _ |- _ => destruct H as ([? _] & ? & _)
    | H : vok _ _ |- _ => destruct H as [_ ?]
    end; unfold shape in *; use_class; use_parts; use_term; cbn [fst snd] in *;
    unfold vok; cbn [fst snd] |]); [.. |destruct Hp].
  all: split; [|try exact Logic.I; try assumption].
  all: try exact V.
  all: try (constructor; [|constructor]; refine (deep_node _ _ _ _ V); [reflexivity|exact Logic.I]).
  all: unfold above in *; use_floor.
  all: try (eexists; split; [reflexivity|]; cbn; exact Logic.I).
  all: try (eexists; split; [reflexivity|]; eapply binds_le; [|eassumption]; lia).
  all: try (eexists; split; [reflexivity|]; cbn [operators binds arg_node arg_val]; now_prec).
  all: try (eexists; split; [reflexivity|]; cbn; unfold unary_precedence; lia).
  all: try (constructor; [|constructor]; refine (deep_node _ _ _ _ V); [reflexivity|]; good_op).
  { constructor; [|constructor]. apply (deep_node _ [nlist KStatementList (n, n) []]); [reflexivity|exact Logic.I|].
    constructor; [|constructor]. apply (deep_node _ []); [reflexivity|exact Logic.I|constructor]. }
  all: cbn [flat_map vnodes fst snd] in V; rewrite app_nil_r in V.
  all: try exact V.
  all: try (constructor; [|constructor]; refine (deep_node _ _ _ _ V); [reflexivity|exact Logic.I]).
  all: match type of V with Forall deep (map snd ?x ++ [?n]) => match goal with
       | |- context [(?a, VNode n, ?b)] => match goal with |- context [(_, _, ?e) :: [(a, VNode n, b)]] =>
         change (Forall deep (map snd (x ++ [((e, a), n)]))) end end end; rewrite map_app; exact V.
Qed.
Lemma group_shapes : (forall x w v, derives lua_grammar x w v -> val_ok x w v /\ vok x v) /\
  (forall xs w vs, derives_list lua_grammar xs w vs -> vals_ok xs w vs /\ voks xs vs).
Proof.
  apply (derives_both _ _ lua_grammar (fun x w v _ => val_ok x w v /\ vok x v) (fun xs w vs _ => vals_ok xs w vs /\ voks xs vs)).
  - intros l t r. split; [exact (proj1 shapes _ _ _ (d_tok lua_grammar l t r))|]. split; [constructor|exact Logic.I].
  - intros p w args Hp D [IH1 IH2]. split; [exact (proj1 shapes _ _ _ (d_prod lua_grammar p w args Hp D))|].
    exact (prod_deep p w args Hp IH1 IH2).
  - split; constructor.
  - intros x xs w1 w2 v vs _ [A1 A2] _ [B1 B2]. split; now constructor.
Qed.
Lemma parsed_deep src n : parse_lua src = Parsed n -> deep n.
Proof.
  unfold parse_lua. destruct (lex src) as [ts|e|] eqn:L; try discriminate.
  destruct (parse_tokens ts) as [v| |] eqn:P; try discriminate. destruct v as [| n' | | |] eqn:Ev; try discriminate.
  intros [= <-]. apply parse_tokens_correct in P as (l & r & D). apply (proj1 group_shapes) in D. destruct D as [_ [D _]].
  cbn in D. inversion D. assumption.
Qed.
Lemma deep_within m n : within m n -> deep n -> deep m.
Proof.
  induction 1 as [|c n I W IH]; [auto|]. intros D. apply IH. inversion D as [? _ F]; subst. rewrite Forall_forall in F. now apply F.
Qed.
(** induction over the operators of a node *)
Lemma operators_cases n :
  operators n = Atom n
  \/ (exists s l t lv a is ss o, n = Nd KUnaryOp s l t lv [a] is ss o)
  \/ (exists s l t lv a is ss o, n = Nd KUnaryNot s l t lv [a] is ss o)
  \/ (exists s l t lv a b is ss o, n = Nd KBinaryOp s l t lv [a; b] is ss o).
Proof.
  destruct n as [k s l t lv ks is ss o]. destruct k; try (left; reflexivity).
  - destruct ks as [|a [|b [|]]]; try (left; reflexivity). do 3 right. eexists _, _, _, _, _, _, _, _, _. reflexivity.
  - destruct ks as [|a [|]]; try (left; reflexivity). right. left. eexists _, _, _, _, _, _, _, _. reflexivity.
  - destruct ks as [|a [|]]; try (left; reflexivity). do 2 right. left. eexists _, _, _, _, _, _, _, _. reflexivity.
Qed.
Lemma deep_grouped t : forall n, operators n = t -> deep n -> grouped all_left t.
Proof.
  induction t as [m|op a IH|op a IHa b IHb]; intros n E D; [exact Logic.I| |];
    destruct (operators_cases n) as [H|[(s & l & t & lv & x & is & ss & o & ->)|[(s & l & t & lv & x & is & ss & o & ->)|(s & l & t & lv & x & y & is & ss & o & ->)]]];
    try (rewrite H in E; discriminate); cbn [operators] in E; try discriminate E.
  - injection E as <- E. inversion D as [? G F]; subst. cbn [good] in G. destruct G as [G1 G2]. cbn [grouped].
    split; [exact G1|]. split; [exact G2|]. apply (IH x); [reflexivity|]. rewrite Forall_forall in F. apply F.
    unfold children. apply in_or_app. right. apply in_or_app. left. now left.
  - injection E as <- E. inversion D as [? G F]; subst. cbn [good] in G. cbn [grouped].
    split; [reflexivity|]. split; [exact G|]. apply (IH x); [reflexivity|]. rewrite Forall_forall in F. apply F.
    unfold children. apply in_or_app. right. apply in_or_app. left. now left.
  - injection E as <- E1 E2. inversion D as [? G F]; subst. cbn [good] in G. destruct G as (p & Ep & A & B). cbn [grouped]. rewrite Ep.
    cbn [all_left]. split; [now split|]. rewrite Forall_forall in F. split; [apply (IHa x)|apply (IHb y)]; try reflexivity; apply F;
    unfold children; apply in_or_app; right; apply in_or_app; left; [now left|now right; left].
Qed.
Theorem parsed_grouped src n m : parse_lua src = Parsed n -> within m n ->
  grouped all_left (operators m) /\ forall t, grouped all_left t -> words t = words (operators m) -> t = operators m.
Proof.
  intros P W. pose proof (deep_within _ _ W (parsed_deep _ _ P)) as D. pose proof (deep_grouped _ m eq_refl D) as G.
  split; [exact G|]. intros t Gt E. now apply grouped_unique.
Qed.

(** ** the associativity of the manual *)
Lemma manual_right_cases op : manual_right op = true -> op = s2l ".." \/ op = s2l "^".
Proof. unfold manual_right. rewrite orb_true_iff, !Lib.str_eqb_true. tauto. Qed.
(** no other operator has the precedence of a right associative one *)
Lemma level_alone op op' p : manual_right op = true -> precedence op = Some p -> precedence op' = Some p -> op' = op.
Proof.
  intros R E E'. apply manual_right_cases in R. unfold precedence, table in E'. cbn [row existsb] in E'.
  destruct R as [->| ->]; vm_compute in E; injection E as <-;
    repeat match type of E' with (if ?b then _ else _) = _ => let B := fresh "B" in destruct b eqn:B; try discriminate E' end;
    rewrite orb_false_r in *; symmetry; now apply Lib.str_eqb_true.
Qed.
Lemma binds_next op p a : precedence op = Some p -> manual_right op = true -> binds p a ->
  (binds (S p) a <-> ~ match a with Binary op' _ _ => op' = op | _ => False end).
Proof.
  intros E R B. destruct a as [n|o x|o x y]; cbn [binds] in *; [tauto| |].
  - split; [tauto|]. intros _. apply manual_right_cases in R. destruct R as [->| ->]; vm_compute in E; injection E as <-; unfold unary_precedence in *; lia.
  - destruct (precedence o) as [q|] eqn:Eq; [|contradiction]. split.
    + intros H ->. rewrite E in Eq. injection Eq as ->. lia.
    + intros H. destruct (Nat.eq_dec p q) as [->|]; [|lia]. exfalso. apply H. exact (level_alone _ _ _ R E Eq).
Qed.
Lemma manual_grouped t : grouped all_left t -> (grouped manual_right t <-> ~ left_chain t).
Proof.
  induction t as [n|o a IH|o a IHa b IHb]; cbn [grouped left_chain]; [tauto| |].
  - intros (U & B & G). specialize (IH G). tauto.
  - destruct (precedence o) as [p|] eqn:E; [|contradiction]. cbn [all_left]. intros ((Ba & Bb) & Ga & Gb).
    specialize (IHa Ga). specialize (IHb Gb). destruct (manual_right o) eqn:R.
    + pose proof (binds_next o p a E R Ba) as N. pose proof (binds_le p (S p) b ltac:(lia) Bb). tauto.
    + intuition congruence.
Qed.
Theorem parsed_manual src n m : parse_lua src = Parsed n -> within m n ->
  (grouped manual_right (operators m) <-> ~ left_chain (operators m)).
Proof. intros P W. apply manual_grouped. exact (proj1 (parsed_grouped _ _ _ P W)). Qed.
