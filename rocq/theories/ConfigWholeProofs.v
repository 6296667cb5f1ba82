(** What an arbitrary configuration file sets. *)
From Verif Require Import Base LuaLexer Ast LR LRSpec LuaGrammar LuaParser ParserProofs LayoutProofs Config ConfigSpec CliProofs ConfigFileSpec ConfigFileProofs ConfigWholeSpec.

Notation g := lua_grammar.

(** ** expressions that are literals, phrases that do not start with a name *)
Definition literal_kinds : list kind := [KNumeral; KNormalStringLiteral; KCharStringLiteral; KTrue; KFalse].
Definition expression (w : list (located token)) (m : node) : Prop :=
  (exists l t r s, w = [(l, t, r)] /\ literal_text t s /\ n_kind m = literal_kind t /\
     (literal_kind t <> KTrue -> literal_kind t <> KFalse -> n_text m = s))
  \/ ((forall l t r s, literal_text t s -> w <> [(l, t, r)]) /\ ~ In (n_kind m) literal_kinds).
Definition fact2 (n : N) (w : list (located token)) (v : val) : Prop :=
  if among n [n_Exp_; n_StringLiteral_; n_FunctionDef_; n_PrefixMayStartsMayEndsPar_; n_VarMayExp_; n_TableConstructor_; n_OpExp_;
              n_Op0_; n_Op1_; n_Op2_; n_Op3_; n_Op4_; n_Op5_; n_Op6_; n_Op7_; n_Op8_; n_Op9_; n_Op10_; n_Op11_]
  then exists m, v = VNode m /\ expression w m
  else if N.eqb n n_Name_ then exists l x r m, w = [(l, Variable_ x, r)] /\ v = VNode m /\ n_kind m = KName /\ n_text m = x
  else if among n [n_StatNoPar_; n_Label_; n_StatStartsMayEndsPar_; n_VarListStartsPar_; n_VarExp_; n_FunctionCallStartsMayEndsPar_]
  then exists l t r w', w = (l, t, r) :: w' /\ forall x, t <> Variable_ x
  else True.
Definition vfact2 (x : sym) (w : list (located token)) (v : located val) : Prop :=
  match x with
  | T a => exists l t r, w = [(l, t, r)] /\ a = g_term g t /\ snd (fst v) = VTok t
  | NT n => fact2 n w (snd (fst v))
  end.
Inductive vfacts2 : list sym -> list (located token) -> list (located val) -> Prop :=
| vf2_nil : vfacts2 [] [] []
| vf2_cons : forall x xs w1 w2 v vs, vfact2 x w1 v -> vfacts2 xs w2 vs -> vfacts2 (x :: xs) (w1 ++ w2) (v :: vs).

Lemma app_tok w1 (x y : located token) w2 : w1 ++ x :: w2 = [y] -> x = y.
Proof. destruct w1 as [|a [|b w1]]; cbn; intros H; congruence. Qed.
Lemma expression_not w m : (forall l t r s, literal_text t s -> w <> [(l, t, r)]) -> ~ In (n_kind m) literal_kinds -> expression w m.
Proof. right. auto. Qed.
Definition plain_token (t : token) : bool :=
  match t with Numeral _ | NormalStringLiteral _ | CharStringLiteral _ | True_ | False_ => false | _ => true end.
Lemma not_literal (w1 : list (located token)) (l : nat) (t : token) (r : nat) (w2 : list (located token)) : plain_token t = true ->
  forall l' t' r' s, literal_text t' s -> w1 ++ (l, t, r) :: w2 <> [(l', t', r')].
Proof. intros H l' t' r' s L E. apply app_tok in E. injection E as -> -> ->. destruct L; discriminate H. Qed.

Ltac tokens := repeat match goal with
  | H : exists l t r, _ = [_] /\ _ |- _ => let l := fresh "l" in let t := fresh "t" in let r := fresh "r" in let E := fresh "E" in
      destruct H as (l & t & r & -> & E & ->); destruct t; try discriminate E; clear E
  end.
Ltac no_literal := match goal with
  | |- expression (_ ++ (_, _, _) :: _) _ => idtac
  | |- expression (?x :: ?w) _ => change (x :: w) with ([] ++ x :: w)
  end; apply expression_not; [now apply not_literal|cbn; intuition discriminate].
Lemma prod_fact2 p w args : In p lua_prods -> vfacts2 (p_rhs p) w args -> fact2 (p_lhs p) w (p_act p args).
Proof.
  intros Hp H. unfold lua_prods in Hp.
  repeat (destruct Hp as [<-|Hp]; [try exact Logic.I; cbn [p_rhs p_lhs p_act] in *; repeat match goal with
    | H : vfacts2 (_ :: _) _ _ |- _ => inv H
    | H : vfacts2 [] _ _ |- _ => inv H
    | v : located val |- _ => destruct v as [[? ?] ?]
    end; cbn [vfact2 fst snd] in *; rewrite ?app_nil_r |]); [.. |destruct Hp].
  all: unfold fact2 in *; cbn in *.
  all: try assumption.
  all: tokens; cbn.
  all: try (do 4 eexists; split; [reflexivity|discriminate]).
  all: try (destruct H2 as (? & ? & ? & ? & -> & ?); cbn; do 4 eexists; split; [reflexivity|assumption]).
  all: try (eexists; split; [reflexivity|]; no_literal).
  all: try (eexists; split; [reflexivity|]; left; do 4 eexists; split; [reflexivity|]; split; [constructor|]; split; [reflexivity|cbn; congruence]).
  - destruct H2 as (l & x & r & m & -> & -> & K & _). exists m. split; [reflexivity|].
    apply expression_not; [exact (not_literal [] l (Variable_ x) r [] eq_refl)|]. rewrite K. cbn. intuition discriminate.
  - destruct H2 as (l & x & r & m & -> & -> & K & _). eexists. split; [reflexivity|]. cbn [app]. no_literal.
  - do 4 eexists. split; [reflexivity|]. split; [reflexivity|]. split; reflexivity.
Qed.
Lemma derives_fact2 : (forall x w v, derives g x w v -> vfact2 x w v) /\ (forall xs w vs, derives_list g xs w vs -> vfacts2 xs w vs).
Proof.
  apply (derives_both _ _ g (fun x w v _ => vfact2 x w v) (fun xs w vs _ => vfacts2 xs w vs)).
  - intros l t r. cbn [vfact2]. eauto 6.
  - intros p w args Hp _ IH. now apply prod_fact2.
  - constructor.
  - intros. now constructor.
Qed.

(** ** inversion of derivations *)
Lemma derives_inv n w v : derives g (NT n) w v -> exists p args, In p lua_prods /\ p_lhs p = n /\ derives_list g (p_rhs p) w args /\
  v = (a_start args, p_act p args, a_end args).
Proof. intros D. inv D. do 2 eexists. repeat split; eauto. Qed.
Lemma derives_tok a w v : derives g (T a) w v -> exists l t r, w = [(l, t, r)] /\ a = g_term g t /\ v = (l, VTok t, r).
Proof. intros D. inv D. do 3 eexists. repeat split. Qed.
Ltac der n D := match goal with H : derives g (NT n) ?w0 ?v0 |- _ => rename H into D end.
Ltac dval D := match type of D with derives _ _ _ ?v => destruct v as [[? ?] ?] end.
Ltac dtoks := repeat match goal with H : derives g (T _) _ _ |- _ => let E := fresh "E" in let t := fresh "t" in
  apply derives_tok in H; destruct H as (? & t & ? & -> & E & ->); destruct t; try discriminate E; clear E end.
Ltac invert D := let p := fresh "p" in let args := fresh "args" in let Hp := fresh "Hp" in let E := fresh "E" in let DL := fresh "DL" in
  apply derives_inv in D; destruct D as (p & args & Hp & E & DL & ->); unfold lua_prods in Hp;
  repeat (destruct Hp as [<-|Hp]; [try (vm_compute in E; discriminate E); cbn [p_rhs p_act] in *; clear E; repeat match goal with
    | H : derives_list _ (_ :: _) _ _ |- _ => inv H
    | H : derives_list _ [] _ _ |- _ => inv H
    end; rewrite ?app_nil_r in * |]); [.. |destruct Hp].
Lemma nonempty_both : (forall x w v, derives g x w v -> w <> []) /\ (forall xs w vs, derives_list g xs w vs -> xs <> [] -> w <> []).
Proof.
  apply (derives_both _ _ g (fun x w v _ => w <> []) (fun xs w vs _ => xs <> [] -> w <> [])).
  - discriminate.
  - intros p w args Hp D IH. apply IH. now apply rhs_nonempty.
  - congruence.
  - intros x xs w1 w2 v vs D IH1 D' IH2 H E. apply app_eq_nil in E. now apply IH1.
Qed.

(** ** first tokens *)
Lemma name_first w v : derives g (NT n_Name_) w v -> starts_with_name w.
Proof. intros D. invert D. dtoks. do 4 eexists. reflexivity. Qed.
Lemma name_before w1 w2 : starts_with_name w1 -> starts_with_name (w1 ++ w2).
Proof. intros (l & n & r & w' & ->). do 4 eexists. reflexivity. Qed.
Lemma parenthesis_before w1 w2 : starts_with_parenthesis w1 -> starts_with_parenthesis (w1 ++ w2).
Proof. intros (l & r & w' & ->). do 3 eexists. reflexivity. Qed.
Lemma name_no_parenthesis w : starts_with_name w -> ~ starts_with_parenthesis w.
Proof. intros (l & n & r & w' & ->) (l' & r' & w2 & E). discriminate E. Qed.
Lemma before_parenthesis w1 w2 : w1 <> [] -> starts_with_parenthesis (w1 ++ w2) -> starts_with_parenthesis w1.
Proof. destruct w1 as [|x w1]; [congruence|]. intros _ (l & r & w' & E). cbn in E. injection E as -> _. do 3 eexists. reflexivity. Qed.
Lemma call_first w : call_statement w -> starts_with_name w.
Proof. intros [v D]. invert D. apply name_before. der n_Name_ D. exact (name_first _ _ D). Qed.
Lemma variable_first w v : derives g (NT n_VarNoExp_) w v -> starts_with_name w.
Proof. intros D. invert D; der n_Name_ D1; [exact (name_first _ _ D1)|apply name_before; exact (name_first _ _ D1)]. Qed.
Lemma variables_first v1 vs : variables v1 vs -> starts_with_name vs.
Proof. intros [[v D] [->|(l & r & w2 & -> & _)]]; [|apply name_before]; exact (variable_first _ _ D). Qed.
Lemma varlist_first w v : derives g (NT n_VarListNoStartPar_) w v -> starts_with_name w.
Proof. intros D. invert D; der n_VarNoExp_ D1; [exact (variable_first _ _ D1)|apply name_before; exact (variable_first _ _ D1)]. Qed.
Lemma nopar_first w v : derives g (NT n_StatNoPar_) w v -> ~ starts_with_parenthesis w.
Proof.
  intros D. invert D; dtoks; try (intros (l' & r' & w' & Q); discriminate Q).
  der n_Label_ D. invert D. dtoks. intros (l' & r' & w' & Q). discriminate Q.
Qed.
Lemma maypar_first w v : derives g (NT n_StatMayEndsPar_) w v -> ~ starts_with_parenthesis w.
Proof.
  intros D. invert D; dtoks; try (intros (l' & r' & w' & E); discriminate E).
  - der n_FunctionCallNoStartsMayEndsPar_ D. apply name_no_parenthesis, call_first. eexists. exact D.
  - der n_VarListNoStartPar_ D. apply name_no_parenthesis, name_before. exact (varlist_first _ _ D).
Qed.
Lemma starts_first w v : derives g (NT n_StatStartsMayEndsPar_) w v -> starts_with_parenthesis w.
Proof.
  intros D. invert D.
  - der n_VarListStartsPar_ D. apply parenthesis_before. invert D; der n_VarExp_ D1; invert D1; dtoks; do 3 eexists; reflexivity.
  - der n_FunctionCallStartsMayEndsPar_ D. invert D; dtoks; do 3 eexists; reflexivity.
Qed.

(** ** the first expression and the first variable of an assignment *)
Lemma opexp_value w v : derives g (NT n_OpExp_) w v -> exists l m r, v = (l, VNode m, r) /\ expression w m.
Proof.
  intros D. pose proof (proj1 derives_fact2 _ _ _ D) as F. destruct v as [[l v] r]. cbn in F. destruct F as (m & -> & F). eauto.
Qed.
Lemma explist_value w v : derives g (NT n_ExpList_) w v -> exists l m r e1 p x q s rest, v = (l, VNode m, r) /\ n_kind m = KExpList /\
  n_seps m = (p, x, q, s) :: rest /\ expressions e1 w /\ expression e1 x.
Proof.
  intros D. invert D. der n_TSepList_OpExp_ D. invert D.
  - der n_OpExp_ D. destruct (opexp_value _ _ D) as (l & m & r & -> & F). cbn. do 9 eexists. repeat split; [|now left|exact F]. eexists. exact D.
  - der n_OpExp_ D. der n_TSepList_OpExp_ D2. destruct (opexp_value _ _ D) as (l & m & r & -> & F). dtoks. cbn.
    do 9 eexists. repeat split; [|right; do 3 eexists; split; [reflexivity|eexists; exact D2]|exact F]. eexists. exact D.
Qed.
Lemma seps_value n w v : In n [n_TSepList_OpExp_; n_TSepList_VarMayExp_] -> derives g (NT n) w v -> exists a its b, v = (a, VSeps its, b).
Proof.
  intros [<-|[<-|[]]] D; invert D.
  all: repeat match goal with v : located val |- _ => destruct v as [[? ?] ?] end; do 3 eexists; reflexivity.
Qed.
Lemma expressions_derive e1 es : expressions e1 es -> exists l m r p x q s rest, derives g (NT n_ExpList_) es (l, VNode m, r) /\ n_kind m = KExpList /\
  n_seps m = (p, x, q, s) :: rest /\ expression e1 x.
Proof.
  intros [[v D] H]. destruct (opexp_value _ _ D) as (l & m & r & -> & F). destruct H as [->|(lc & rc & w2 & -> & [v2 D2])].
  - pose proof (use 165 _ _ _ _ eq_refl (one _ _ _ D) eq_refl) as D4. pose proof (use 81 _ _ _ _ eq_refl (one _ _ _ D4) eq_refl) as D5.
    do 8 eexists. split; [exact D5|]. cbn. repeat split. exact F.
  - destruct (seps_value _ _ _ (or_introl eq_refl) D2) as (a & its & b & ->).
    pose proof (use 166 _ _ _ _ eq_refl (dl_cons g _ _ _ _ _ _ D (dl_cons g _ _ [_] _ _ _ (d_tok g lc Comma rc) (one _ _ _ D2))) eq_refl) as D4.
    pose proof (use 81 _ _ _ _ eq_refl (one _ _ _ D4) eq_refl) as D5. do 8 eexists. split; [exact D5|]. cbn. repeat split. exact F.
Qed.
Definition variable (w : list (located token)) (m : node) : Prop :=
  (exists n, is_name w n /\ n_kind m = KName /\ n_text m = n) \/ ((forall n, ~ is_name w n) /\ n_kind m <> KName).
Lemma name_value w v : derives g (NT n_Name_) w v -> exists l m r n, v = (l, VNode m, r) /\ is_name w n /\ n_kind m = KName /\ n_text m = n.
Proof.
  intros D. pose proof (proj1 derives_fact2 _ _ _ D) as F. destruct v as [[l v] r]. cbn in F.
  destruct F as (l1 & x & r1 & m & -> & -> & K & X). exists l, m, r, x. repeat split; auto. exists l1, r1. reflexivity.
Qed.
Lemma var_value w v : derives g (NT n_VarNoExp_) w v -> exists l m r, v = (l, VNode m, r) /\ variable w m.
Proof.
  intros D. invert D.
  - der n_Name_ D. destruct (name_value _ _ D) as (l & m & r & n & -> & H & K & X). exists l, m, r. split; [reflexivity|]. left. eauto.
  - der n_Name_ D. destruct (name_value _ _ D) as (l & m & r & n & -> & (l1 & r1 & ->) & K & X). der n_VarSuffixList_ D2. pose proof (proj1 nonempty_both _ _ _ D2) as Hn.
    dval D2. do 3 eexists. split; [reflexivity|]. right. split; [|cbn; discriminate]. intros n' (l' & r' & E). cbn in E. injection E as _ _ _ E. auto.
Qed.
Lemma varlist_value w v : derives g (NT n_VarListNoStartPar_) w v -> exists l m r v1 p x q s rest, v = (l, VNode m, r) /\ n_kind m = KVarList /\
  n_seps m = (p, x, q, s) :: rest /\ variables v1 w /\ variable v1 x.
Proof.
  intros D. invert D.
  - der n_VarNoExp_ D. destruct (var_value _ _ D) as (l & m & r & -> & F). cbn. do 9 eexists. repeat split; [|now left|exact F]. eexists. exact D.
  - der n_VarNoExp_ D. der n_TSepList_VarMayExp_ D2. destruct (var_value _ _ D) as (l & m & r & -> & F). dtoks. cbn.
    do 9 eexists. repeat split; [|right; do 3 eexists; split; [reflexivity|eexists; exact D2]|exact F]. eexists. exact D.
Qed.
Lemma variables_derive v1 vs : variables v1 vs -> exists l m r p x q s rest, derives g (NT n_VarListNoStartPar_) vs (l, VNode m, r) /\ n_kind m = KVarList /\
  n_seps m = (p, x, q, s) :: rest /\ variable v1 x.
Proof.
  intros [[v D] H]. destruct (var_value _ _ D) as (l & m & r & -> & F). destruct H as [->|(lc & rc & w2 & -> & [v2 D2])].
  - pose proof (use 62 _ _ _ _ eq_refl (one _ _ _ D) eq_refl) as D5. do 8 eexists. split; [exact D5|]. cbn. repeat split. exact F.
  - destruct (seps_value _ _ _ (or_intror (or_introl eq_refl)) D2) as (a & its & b & ->).
    pose proof (use 63 _ _ _ _ eq_refl (dl_cons g _ _ _ _ _ _ D (dl_cons g _ _ [_] _ _ _ (d_tok g lc Comma rc) (one _ _ _ D2))) eq_refl) as D5.
    do 8 eexists. split; [exact D5|]. cbn. repeat split. exact F.
Qed.
Lemma assignment_meaning m m2 p x q s rest p2 x2 q2 s2 rest2 v1 e1 : n_kind m = KVarList -> n_seps m = (p, x, q, s) :: rest -> variable v1 x ->
  n_kind m2 = KExpList -> n_seps m2 = (p2, x2, q2, s2) :: rest2 -> expression e1 x2 ->
  (exists n y, is_name v1 n /\ is_literal e1 y /\ forall sp gs c, load_options (nd KVarsExprs sp gs [m; m2]) c = apply_settings [(n, y)] c)
  \/ (((forall n, ~ is_name v1 n) \/ (forall y, ~ is_literal e1 y)) /\ forall sp gs c, load_options (nd KVarsExprs sp gs [m; m2]) c = c).
Proof.
  intros K S V K2 S2 X.
  assert (A : forall sp gs c, load_options (nd KVarsExprs sp gs [m; m2]) c =
    match n_kind x, n_kind x2 with
    | KName, KNumeral | KName, KNormalStringLiteral | KName, KCharStringLiteral => set_option (n_text x) (n_text x2) c
    | KName, KTrue => set_option (n_text x) (s2l "true") c
    | KName, KFalse => set_option (n_text x) (s2l "false") c
    | _, _ => c
    end).
  { intros sp gs c. cbn -[set_option]. rewrite K, K2, S, S2. reflexivity. }
  destruct V as [(n & V & VK & VX)|[V VK]].
  - destruct X as [(l3 & t & r3 & y & -> & Y & YK & YX)|[X XK]].
    + left. exists n, y. split; [exact V|]. split; [exists l3, t, r3; auto|].
      intros sp gs c. etransitivity; [apply A|]. rewrite VK, YK, VX. cbn [apply_settings fold_left].
      destruct Y; cbn in YK, YX |- *; try reflexivity; now rewrite YX by discriminate.
    + right. split; [right; intros y (l3 & t & r3 & -> & Y); exact (X l3 t r3 y Y eq_refl)|].
      intros sp gs c. etransitivity; [apply A|]. rewrite VK. destruct (n_kind x2); try reflexivity; cbn in XK; tauto.
  - right. split; [now left|]. intros sp gs c. etransitivity; [apply A|]. destruct (n_kind x); try reflexivity. congruence.
Qed.
Lemma literal_same w s s' : is_literal w s -> is_literal w s' -> s = s'.
Proof. intros (l & t & r & -> & H) (l' & t' & r' & E & H'). injection E as _ <- _. destruct H; inv H'; reflexivity. Qed.
Lemma name_same w n n' : is_name w n -> is_name w n' -> n = n'.
Proof. intros (l & r & ->) (l' & r' & E). now injection E. Qed.

(** ** statements *)
Definition loads (w : list (located token)) (v : val) : Prop :=
  exists m ws ls, v = VNode m /\ w = List.concat ws /\ Forall2 statement_sets ws ls /\ separated ws /\
    forall c, load_options m c = apply_settings (List.concat ls) c.
Lemma separated_one w : separated [w].
Proof. intros ws1 w1 w2 ws2 E. destruct ws1 as [|? [|? ?]]; discriminate E. Qed.
Lemma separated_two w w' : phrase n_StatNoPar_ w -> separated [w; w'].
Proof. intros P ws1 w1 w2 ws2 E _. destruct ws1 as [|? [|? [|? ?]]]; try discriminate E. now injection E as <- _ _. Qed.
Lemma separated_tail x ws : separated (x :: ws) -> separated ws.
Proof. intros S ws1 w1 w2 ws2 E. apply (S (x :: ws1) w1 w2 ws2). now rewrite E. Qed.
Lemma separated_app ws ws' : separated ws -> separated ws' -> ~ starts_with_parenthesis (List.concat ws') -> separated (ws ++ ws').
Proof.
  intros S S' Hn. induction ws as [|x ws IH]; [exact S'|]. specialize (IH (separated_tail _ _ S)).
  intros ws1 w1 w2 ws2 E P. destruct ws1 as [|y ws1]; cbn in E.
  - injection E as <- E. destruct ws as [|z ws]; cbn in E.
    + exfalso. apply Hn. rewrite E. cbn. now apply parenthesis_before.
    + injection E as <- _. exact (S [] x z ws eq_refl P).
  - injection E as _ E. exact (IH ws1 w1 w2 ws2 E P).
Qed.
Lemma loads_one w v l m : statement_sets w l -> v = VNode m -> (forall c, load_options m c = apply_settings l c) -> loads w v.
Proof.
  intros S -> L. exists m, [w], [l]. cbn. rewrite !app_nil_r. repeat split; auto. apply separated_one.
Qed.
Lemma no_name l t r w : (forall x, t <> Variable_ x) -> ~ starts_with_name ((l, t, r) :: w).
Proof. intros H (l' & n & r' & w' & E). injection E as _ E _ _. now apply (H n). Qed.

Definition sets_nothing (w : list (located token)) (v : val) : Prop :=
  exists m, v = VNode m /\ statement_sets w [] /\ forall c, load_options m c = c.
Lemma nothing_loads w v : sets_nothing w v -> loads w v.
Proof. intros (m & -> & S & L). eapply loads_one; [exact S|reflexivity|exact L]. Qed.
Lemma nopar_nothing w v : derives g (NT n_StatNoPar_) w v -> sets_nothing w (snd (fst v)).
Proof.
  intros D. pose proof (proj1 derives_fact _ _ _ D) as F. pose proof (proj1 derives_fact2 _ _ _ D) as F2. destruct v as [[a v] b]. cbn in F, F2 |- *.
  destruct F as (m & -> & L), F2 as (l & t & r & w' & -> & Ht). exists m. split; [reflexivity|]. split; [|exact L].
  apply ss_no_name; [left; eexists; exact D|now apply no_name].
Qed.
Lemma starts_nothing w v : derives g (NT n_StatStartsMayEndsPar_) w v -> sets_nothing w (snd (fst v)).
Proof.
  intros D. pose proof (proj1 derives_fact _ _ _ D) as F. pose proof (proj1 derives_fact2 _ _ _ D) as F2. destruct v as [[a v] b]. cbn in F, F2 |- *.
  destruct F as (m & -> & L), F2 as (l & t & r & w' & -> & Ht). exists m. split; [reflexivity|]. split; [|exact L].
  apply ss_no_name; [right; right; eexists; exact D|now apply no_name].
Qed.
Lemma maypar_loads w v : derives g (NT n_StatMayEndsPar_) w v -> exists m l, snd (fst v) = VNode m /\ statement_sets w l /\ forall c, load_options m c = apply_settings l c.
Proof.
  intros D. pose proof D as D0. invert D.
  - der n_FunctionCallNoStartsMayEndsPar_ D. pose proof (proj1 derives_fact _ _ _ D) as F. dval D. cbn in F |- *. destruct F as (m & -> & L).
    exists m, []. split; [reflexivity|]. split; [|exact L]. apply ss_call. eexists. exact D.
  - der n_VarListNoStartPar_ D1. der n_ExpList_ D2. destruct (varlist_value _ _ D1) as (l & m & r & v1' & p & x & q & s & rest & -> & K & S & L & V).
    dtoks. destruct (explist_value _ _ D2) as (l2 & m2 & r2 & e1 & p2 & x2 & q2 & s2 & rest2 & -> & K2 & S2 & L2 & X).
    destruct (assignment_meaning _ _ _ _ _ _ _ _ _ _ _ _ _ _ K S V K2 S2 X) as [(n & y & Hn & Hy & A)|[H A]].
    + eexists _, [(n, y)]. split; [reflexivity|]. split; [eapply ss_assignment; eauto|]. intros c. apply A.
    + eexists _, []. split; [reflexivity|]. split; [eapply ss_other; eauto|]. intros c. apply A.
  - dtoks. eexists _, []. split; [reflexivity|]. split; [|reflexivity]. apply ss_no_name; [right; left; eexists; exact D0|apply no_name; discriminate].
  - dtoks. eexists _, []. split; [reflexivity|]. split; [|reflexivity]. apply ss_no_name; [right; left; eexists; exact D0|apply no_name; discriminate].
  - dtoks. eexists _, []. split; [reflexivity|]. split; [|reflexivity]. apply ss_no_name; [right; left; eexists; exact D0|apply no_name; discriminate].
Qed.
Lemma stat_loads w v : derives g (NT n_Stat_) w v -> loads w (snd (fst v)).
Proof.
  intros D. invert D.
  - der n_StatNoPar_ D. dval D. apply nopar_nothing, nothing_loads in D. exact D.
  - der n_StatMayEndsPar_ D. dval D. apply maypar_loads in D. destruct D as (m & l & E & S & L). exact (loads_one _ _ _ _ S E L).
  - der n_StatNoPar_ D. der n_StatStartsMayEndsPar_ D'. pose proof D as D0. dval D. dval D'. apply nopar_nothing in D. apply starts_nothing in D'. cbn in D, D' |- *.
    destruct D as (m & -> & S & L), D' as (m' & -> & S' & L').
    eexists _, [_; _], [[]; []]. split; [reflexivity|]. cbn [List.concat app]. rewrite app_nil_r. split; [reflexivity|].
    split; [constructor; [exact S|constructor; [exact S'|constructor]]|]. split; [apply separated_two; eexists; exact D0|].
    intros c. change (load_options m' (load_options m c) = c). now rewrite L, L'.
Qed.
Lemma stat_first w v : derives g (NT n_Stat_) w v -> ~ starts_with_parenthesis w.
Proof.
  intros D. invert D.
  - der n_StatNoPar_ D. exact (nopar_first _ _ D).
  - der n_StatMayEndsPar_ D. exact (maypar_first _ _ D).
  - der n_StatNoPar_ D. intros P. apply before_parenthesis in P; [exact (nopar_first _ _ D P)|exact (proj1 nonempty_both _ _ _ D)].
Qed.
Definition loads_items (w : list (located token)) (its : list (loc * node)) : Prop :=
  exists ws ls, w = List.concat ws /\ Forall2 statement_sets ws ls /\ separated ws /\ forall c, load_items its c = apply_settings (List.concat ls) c.
Lemma loads_items_app w1 w2 i1 i2 : loads_items w1 i1 -> loads_items w2 i2 -> ~ starts_with_parenthesis w2 -> loads_items (w1 ++ w2) (i1 ++ i2).
Proof.
  intros (ws & ls & -> & S & P & L) (ws' & ls' & -> & S' & P' & L') Hn. exists (ws ++ ws'), (ls ++ ls'). rewrite !concat_app. split; [reflexivity|].
  split; [now apply Forall2_app|]. split; [now apply separated_app|]. intros c. now rewrite load_items_app, apply_settings_app, L, L'.
Qed.
Lemma loads_item w m p : loads w (VNode m) -> loads_items w [(p, m)].
Proof. intros (m' & ws & ls & E & -> & S & P & L). injection E as <-. exists ws, ls. repeat split; auto. Qed.
Lemma tlist_loads k : forall w v, List.length w <= k -> derives g (NT n_TList_Stat_) w v -> exists a its b, v = (a, VItems its, b) /\ loads_items w its /\
  ~ starts_with_parenthesis w.
Proof.
  induction k as [|k IH]; intros w v Hk D; pose proof (proj1 nonempty_both _ _ _ D) as Hn.
  - destruct w; [congruence|cbn in Hk; lia].
  - invert D.
    + der n_Stat_ D. pose proof (stat_first _ _ D) as Q. dval D. apply stat_loads in D. cbn in D. pose proof D as (m & _ & _ & -> & _).
      do 3 eexists. split; [reflexivity|]. split; [now apply loads_item|exact Q].
    + der n_Stat_ D. der n_TList_Stat_ D'. pose proof (proj1 nonempty_both _ _ _ D) as Hn'. pose proof (proj1 nonempty_both _ _ _ D') as Hn2. pose proof (stat_first _ _ D) as Q.
      match type of D' with derives _ _ ?u ?y => destruct (IH u y) as (a & its & b & -> & L & Q') end;
        [rewrite app_length in Hk; match type of D with derives _ _ ?u _ => destruct u end; [congruence|cbn in Hk; lia]|exact D'|].
      dval D. apply stat_loads in D. cbn in D. pose proof D as (m & _ & _ & -> & _).
      do 3 eexists. split; [reflexivity|]. split.
      * cbn. apply loads_items_app; [exact L|now apply loads_item|exact Q].
      * intros P. apply before_parenthesis in P; auto.
Qed.
Lemma set_first_load p its c : load_items (set_first p its) c = load_items its c.
Proof. now destruct its as [|[? ?] ?]. Qed.
Lemma stats_loads w v : derives g (NT n_Stats_) w v -> loads w (snd (fst v)).
Proof.
  assert (X : forall w s its, loads_items w its -> loads w (VNode (nlist KStatementList s its)))
    by (intros w0 s its (ws & ls & -> & S & P & L); eexists _, ws, ls; repeat split; auto).
  intros D. invert D.
  - der n_StatStartsMayEndsPar_ D. dval D. apply starts_nothing, nothing_loads in D. cbn in D. pose proof D as (m & _ & _ & -> & _). apply X. now apply loads_item.
  - der n_StatStartsMayEndsPar_ D. der n_TList_Stat_ D'. dval D. apply starts_nothing, nothing_loads in D. cbn in D. pose proof D as (m & _ & _ & -> & _).
    destruct (tlist_loads _ _ _ (le_n _) D') as (a1 & its & b1 & -> & L & Q). apply X. cbn.
    match goal with |- loads_items _ (?x :: ?y) => change (x :: y) with ([x] ++ y) end. apply loads_items_app; [now apply loads_item| |exact Q].
    destruct L as (ws & ls & -> & S & P & L). exists ws, ls. repeat split; auto. intros c. rewrite set_first_load. apply L.
  - der n_TList_Stat_ D. destruct (tlist_loads _ _ _ (le_n _) D) as (a1 & its & b1 & -> & L & Q). apply X. exact L.
Qed.

(** ** files *)
Definition effect (ls : list settings) (rt : list (located token)) (c c' : config) : Prop :=
  rt = [] /\ c' = apply_settings (List.concat ls) c \/ phrase n_RetStat_ rt /\ c' = c.
Lemma block_loads w v : derives g (NT n_Block_) w v -> exists a m b ws ls rt, v = (a, VNode m, b) /\ w = List.concat ws ++ rt /\ Forall2 statement_sets ws ls /\
  separated ws /\ (rt = [] /\ (forall c, load_options m c = apply_settings (List.concat ls) c) \/ phrase n_RetStat_ rt /\ forall c, load_options m c = c).
Proof.
  intros D. invert D.
  - der n_Stats_ D. dval D. apply stats_loads in D. cbn in D. destruct D as (m & ws & ls & -> & -> & S & P & L).
    eexists _, m, _, ws, ls, []. split; [reflexivity|]. rewrite app_nil_r. repeat split; auto.
  - der n_RetStat_ D. pose proof D as D0. invert D; dtoks.
    all: eexists _, _, _, [], [], _; split; [reflexivity|]; split; [reflexivity|]; split; [constructor|];
      split; [intros [|? ?] ? ? ?; discriminate|]; right; (split; [eexists; exact D0|reflexivity]).
  - der n_Stats_ D. der n_RetStat_ D'. dval D. apply stats_loads in D. cbn in D. destruct D as (m & ws & ls & -> & -> & S & P & L).
    eexists _, _, _, ws, ls, _. split; [reflexivity|]. split; [reflexivity|]. split; [exact S|]. split; [exact P|]. right. split; [eexists; exact D'|reflexivity].
Qed.
Lemma any_file_only t c c' : reload_format t c = Some c' -> exists sb ws rt p q ls, lex t = LexOk (sb ++ List.concat ws ++ rt ++ [(p, EOF, q)]) /\ shebang sb /\
  Forall2 statement_sets ws ls /\ separated ws /\ effect ls rt c c'.
Proof.
  assert (NS : separated []) by (intros [|? ?] ? ? ?; discriminate).
  unfold reload_format, parse_lua. destruct (lex t) as [toks| |] eqn:HL; try discriminate.
  destruct (parse_tokens toks) as [v| |] eqn:HP; try discriminate. apply parse_tokens_correct in HP. destruct HP as (a & b & D). change (g_start g) with n_Chunk_ in D.
  destruct v as [|m| | |]; try discriminate. remember (a, VNode m, b) as y eqn:Y.
  invert D; dtoks; injection Y as _ <- _; cbn [n_kind kid nd act_chunk act_chunk_empty act_shebang_chunk].
  - cbn. intros [= <-]. exists [], [], [], x, x0, []. repeat split; [constructor|constructor|exact NS|now left].
  - der n_SheBangLine_ D. invert D. dtoks. cbn. intros [= <-]. eexists [_], [], [], _, _, []. repeat split; [constructor|constructor|exact NS|now left].
  - der n_Block_ D. apply block_loads in D. destruct D as (a1 & m & b1 & ws & ls & rt & -> & -> & S & P & L). cbn -[load_options]. intros [= <-].
    eexists [], ws, rt, _, _, ls. rewrite <- app_assoc. repeat split; [constructor|exact S|exact P|]. destruct L as [[-> L]|[R L]]; [left|right]; rewrite L; auto.
  - der n_SheBangLine_ D. der n_Block_ D'. invert D. dtoks. apply block_loads in D'. destruct D' as (a1 & m & b1 & ws & ls & rt & -> & -> & S & P & L). cbn -[load_options]. intros [= <-].
    eexists [_], ws, rt, _, _, ls. cbn [app]. rewrite <- app_assoc. repeat split; [constructor|exact S|exact P|]. destruct L as [[-> L]|[R L]]; [left|right]; rewrite L; auto.
Qed.

(** ** every file of this form loads *)
Lemma statement_node w l : statement_sets w l -> exists a m b,
  (derives g (NT n_StatNoPar_) w (a, VNode m, b) \/ derives g (NT n_StatMayEndsPar_) w (a, VNode m, b) \/ derives g (NT n_StatStartsMayEndsPar_) w (a, VNode m, b))
  /\ forall c, load_options m c = apply_settings l c.
Proof.
  assert (A : forall v1 vs l r e1 es, variables v1 vs -> expressions e1 es -> exists a m b,
    derives g (NT n_StatMayEndsPar_) (vs ++ (l, EqualsSign, r) :: es) (a, VNode m, b) /\
    ((exists n y, is_name v1 n /\ is_literal e1 y /\ forall c, load_options m c = apply_settings [(n, y)] c)
     \/ (((forall n, ~ is_name v1 n) \/ (forall y, ~ is_literal e1 y)) /\ forall c, load_options m c = c))).
  { intros v1 vs l0 r e1 es HV HE. destruct (variables_derive _ _ HV) as (a & m & b & p & x & q & s & rest & D1 & K & S & V).
    destruct (expressions_derive _ _ HE) as (a2 & m2 & b2 & p2 & x2 & q2 & s2 & rest2 & D2 & K2 & S2 & X).
    pose proof (use 17 _ _ _ _ eq_refl (dl_cons g _ _ _ _ _ _ D1 (dl_cons g _ _ [_] _ _ _ (d_tok g l0 EqualsSign r) (one _ _ _ D2))) eq_refl) as D.
    do 3 eexists. split; [exact D|].
    destruct (assignment_meaning _ _ _ _ _ _ _ _ _ _ _ _ _ _ K S V K2 S2 X) as [(n & y & Hn & Hy & A)|[H A]].
    - left. exists n, y. split; [exact Hn|]. split; [exact Hy|]. intros c. apply A.
    - right. split; [exact H|]. intros c. apply A. }
  intros H. destruct H as [v1 vs l r e1 es n s HV HE Hn Hs|v1 vs l r e1 es HV HE H|w C|w P N].
  - destruct (A v1 vs l r e1 es HV HE) as (a & m & b & D & [(n' & y & Hn' & Hy & L)|[[H|H] _]]); [|now apply H in Hn|now apply H in Hs].
    rewrite (name_same _ _ _ Hn Hn'), (literal_same _ _ _ Hs Hy). eauto 8.
  - destruct (A v1 vs l r e1 es HV HE) as (a & m & b & D & [(n' & y & Hn' & Hy & L)|[_ L]]); [exfalso; destruct H as [H|H]; [now apply H in Hn'|now apply H in Hy]|].
    eauto 8.
  - destruct C as [v D]. pose proof (proj1 derives_fact _ _ _ D) as F. cbn in F. destruct v as [[a v] b]. destruct F as (m & E & F). cbn in E. subst v.
    exists a, m, b. split; [right; left; up 16; exact D|exact F].
  - destruct P as [[v D]|[[v D]|[v D]]]; pose proof (proj1 derives_fact _ _ _ D) as F; cbn in F; destruct v as [[a v] b].
    + destruct F as (m & E & F). cbn in E. subst v. exists a, m, b. auto.
    + destruct F as [F|(m & E & F)]; [now apply N in F|]. cbn in E. subst v. exists a, m, b. auto.
    + destruct F as (m & E & F). cbn in E. subst v. exists a, m, b. auto.
Qed.
(** a statement without a parenthesis at its start, or two of which the second has one, is a [Stat] *)
Lemma stat_alone w l : statement_sets w l -> ~ starts_with_parenthesis w -> exists a m b,
  derives g (NT n_Stat_) w (a, VNode m, b) /\ forall c, load_options m c = apply_settings l c.
Proof.
  intros H Hn. destruct (statement_node w l H) as (a & m & b & [D|[D|D]] & L).
  - exists a, m, b. split; [up 11; exact D|exact L].
  - exists a, m, b. split; [up 12; exact D|exact L].
  - now apply starts_first in D.
Qed.
Lemma starts_alone w l : statement_sets w l -> starts_with_parenthesis w -> exists a m b,
  derives g (NT n_StatStartsMayEndsPar_) w (a, VNode m, b) /\ forall c, load_options m c = apply_settings l c.
Proof.
  intros H Hp. destruct (statement_node w l H) as (a & m & b & [D|[D|D]] & L); [now apply nopar_first in D|now apply maypar_first in D|eauto 6].
Qed.
Lemma nopar_sets w l : statement_sets w l -> phrase n_StatNoPar_ w -> l = [].
Proof.
  intros H [v D]. pose proof (proj1 derives_fact2 _ _ _ D) as F2. destruct v as [[a v] b]. cbn in F2. destruct F2 as (x & t & y & w' & -> & Ht).
  remember ((x, t, y) :: w') as w eqn:E. destruct H as [v1 vs l r e1 es n s HV| | |]; try reflexivity.
  apply variables_first in HV. apply (name_before _ ((l, EqualsSign, r) :: es)) in HV. rewrite E in HV. now apply no_name in HV.
Qed.
Lemma stat_pair w l w' l' : statement_sets w l -> phrase n_StatNoPar_ w -> statement_sets w' l' -> starts_with_parenthesis w' -> exists a m b,
  derives g (NT n_Stat_) (w ++ w') (a, VNode m, b) /\ forall c, load_options m c = apply_settings (l ++ l') c.
Proof.
  intros H P H' P'. rewrite (nopar_sets _ _ H P). destruct (starts_alone _ _ H' P') as (a' & m' & b' & D' & L').
  destruct P as [v D]. pose proof (nopar_nothing _ _ D) as (m & E & _ & L). destruct v as [[a v] b]. cbn in E. subst v.
  pose proof (use 13 _ _ _ _ eq_refl (dl_cons g _ _ _ _ _ _ D (one _ _ _ D')) eq_refl) as D1.
  do 3 eexists. split; [exact D1|]. intros c. change (load_options m' (load_options m c) = apply_settings l' c). now rewrite L, L'.
Qed.
Lemma separated_front ws ws' : separated (ws ++ ws') -> separated ws.
Proof. intros S ws1 w1 w2 ws2 E. apply (S ws1 w1 w2 (ws2 ++ ws')). rewrite E, <- app_assoc. reflexivity. Qed.
Lemma forall2_snoc {A B} (R : A -> B -> Prop) xs x ls : Forall2 R (xs ++ [x]) ls -> exists l' l, ls = l' ++ [l] /\ Forall2 R xs l' /\ R x l.
Proof.
  intros H. apply Forall2_app_inv_l in H. destruct H as (l1 & l2 & H1 & H2 & ->). inversion H2 as [|? ? ? ? R1 R2]; subst. inversion R2; subst. eauto 6.
Qed.
Lemma parenthesis_dec w : starts_with_parenthesis w \/ ~ starts_with_parenthesis w.
Proof.
  destruct w as [|[[l t] r] w]; [right; intros (? & ? & ? & E); discriminate E|].
  destruct t; try (right; intros (? & ? & ? & E); discriminate E). left. do 3 eexists. reflexivity.
Qed.
(** statements of which the first does not start with a parenthesis *)
Lemma tlist_derives k : forall ws ls, List.length ws <= k -> ws <> [] -> Forall2 statement_sets ws ls -> separated ws -> ~ starts_with_parenthesis (hd [] ws) ->
  exists a its b, derives g (NT n_TList_Stat_) (List.concat ws) (a, VItems its, b) /\ forall c, load_items its c = apply_settings (List.concat ls) c.
Proof.
  assert (X : forall w0 l0 w l, (w0 = [] /\ l0 = [] \/ exists a its b, derives g (NT n_TList_Stat_) w0 (a, VItems its, b) /\ forall c, load_items its c = apply_settings l0 c) ->
    (exists a m b, derives g (NT n_Stat_) w (a, VNode m, b) /\ forall c, load_options m c = apply_settings l c) ->
    exists a its b, derives g (NT n_TList_Stat_) (w0 ++ w) (a, VItems its, b) /\ forall c, load_items its c = apply_settings (l0 ++ l) c).
  { intros w0 l0 w l H0 (a' & m & b' & D' & L'). destruct H0 as [[-> ->]|(a & its & b & D & L)].
    - do 3 eexists. split; [exact (use 153 _ _ _ _ eq_refl (one _ _ _ D') eq_refl)|]. intros c. cbn [load_items]. apply L'.
    - do 3 eexists. split; [refine (use 154 _ _ _ _ eq_refl _ eq_refl); constructor; [exact D|]; apply one; exact D'|].
      intros c. change (load_items (its ++ [((b, a'), m)]) c = apply_settings (l0 ++ l) c).
      rewrite load_items_app, L. cbn [load_items]. rewrite L'. now rewrite apply_settings_app. }
  induction k as [|k IH]; intros ws ls Hk Hn H S Hp; [destruct ws; [congruence|cbn in Hk; lia]|].
  destruct (exists_last Hn) as (ws' & w & ->). destruct (forall2_snoc _ _ _ _ H) as (ls' & l & -> & H1 & Hw).
  rewrite app_length in Hk. cbn in Hk.
  assert (Y : forall us us' vs, ws' = us ++ us' -> Forall2 statement_sets us vs -> List.concat us = [] /\ List.concat vs = [] \/ exists a its b,
    derives g (NT n_TList_Stat_) (List.concat us) (a, VItems its, b) /\ forall c, load_items its c = apply_settings (List.concat vs) c).
  { intros us us' vs -> Hu. destruct us as [|u us]; [inv Hu; now left|]. right. apply IH; [rewrite app_length in Hk; lia|discriminate|exact Hu| |exact Hp].
    rewrite <- app_assoc in S. exact (separated_front _ _ S). }
  destruct (parenthesis_dec w) as [P|P].
  - destruct ws' as [|x y] eqn:E; [now apply Hp in P|]. rewrite <- E in *. assert (E2 : ws' <> []) by (rewrite E; discriminate). clear E x y.
    destruct (exists_last E2) as (us & u & ->). destruct (forall2_snoc _ _ _ _ H1) as (vs & v & -> & H2 & Hu).
    rewrite <- !app_assoc. cbn [app]. rewrite !concat_app. cbn [List.concat]. rewrite !app_nil_r. apply X; [exact (Y us [u] vs eq_refl H2)|].
    apply stat_pair; auto. apply (S us u w []); [|exact P]. rewrite <- app_assoc. reflexivity.
  - rewrite !concat_app. cbn [List.concat]. rewrite !app_nil_r. apply X; [apply (Y ws' [] ls'); [now rewrite app_nil_r|exact H1]|].
    now apply stat_alone.
Qed.
Lemma stats_derives ws ls : ws <> [] -> Forall2 statement_sets ws ls -> separated ws ->
  exists a m b, derives g (NT n_Stats_) (List.concat ws) (a, VNode m, b) /\ forall c, load_options m c = apply_settings (List.concat ls) c.
Proof.
  intros Hn H S. destruct ws as [|w ws]; [congruence|]. destruct (parenthesis_dec w) as [P|P].
  - inv H. destruct (starts_alone _ _ H2 P) as (a & m & b & D & L). destruct ws as [|w' ws].
    + inv H4. cbn [List.concat]. rewrite !app_nil_r. do 3 eexists. split; [exact (use 8 _ _ _ _ eq_refl (one _ _ _ D) eq_refl)|]. intros c. apply L.
    + assert (P' : ~ starts_with_parenthesis (hd [] (w' :: ws))).
      { cbn. intros P'. destruct (S [] w w' ws eq_refl P') as [v D']. exact (nopar_first _ _ D' P). }
      destruct (tlist_derives _ (w' :: ws) _ (le_n _) (fun E => nil_cons (eq_sym E)) H4 (separated_tail _ _ S) P') as (a' & its & b' & D' & L').
      do 3 eexists. split; [exact (use 9 _ _ _ _ eq_refl (dl_cons g _ _ _ _ _ _ D (one _ _ _ D')) eq_refl)|].
      intros c. cbn [List.concat]. rewrite apply_settings_app, <- L, <- L'. symmetry. etransitivity; [symmetry; apply (set_first_load (b, a'))|]. reflexivity.
  - destruct (tlist_derives _ _ _ (le_n _) Hn H S P) as (a' & its & b' & D' & L').
    do 3 eexists. split; [exact (use 10 _ _ _ _ eq_refl (one _ _ _ D') eq_refl)|]. exact L'.
Qed.
Lemma ret_value w v : derives g (NT n_RetStat_) w v -> exists a m b, v = (a, VNode m, b) /\ forall c, load_options m c = c.
Proof. intros D. invert D; dtoks; do 3 eexists; split; reflexivity. Qed.
Lemma block_derives ws ls rt c c' : Forall2 statement_sets ws ls -> separated ws -> effect ls rt c c' ->
  List.concat ws ++ rt = [] /\ c' = c \/ exists a m b, derives g (NT n_Block_) (List.concat ws ++ rt) (a, VNode m, b) /\ load_options m c = c'.
Proof.
  intros H S E. destruct ws as [|w ws].
  - inv H. cbn. destruct E as [[-> ->]|[[v D] ->]]; [now left|]. right. destruct (ret_value _ _ D) as (a & m & b & -> & L).
    exists a, m, b. split; [up 5; exact D|apply L].
  - right. destruct (stats_derives (w :: ws) ls (fun E => nil_cons (eq_sym E)) H S) as (a & m & b & D & L).
    destruct E as [[-> ->]|[[v D'] ->]].
    + rewrite app_nil_r. exists a, m, b. split; [up 4; exact D|apply L].
    + destruct (ret_value _ _ D') as (a' & m' & b' & -> & _).
      do 3 eexists. split; [exact (use 6 _ _ _ _ eq_refl (dl_cons g _ _ _ _ _ _ D (one _ _ _ D')) eq_refl)|]. reflexivity.
Qed.
Lemma any_file_if t c c' sb ws rt p q ls : lex t = LexOk (sb ++ List.concat ws ++ rt ++ [(p, EOF, q)]) -> shebang sb ->
  Forall2 statement_sets ws ls -> separated ws -> effect ls rt c c' -> reload_format t c = Some c'.
Proof.
  intros HL HS H S E. unfold reload_format, parse_lua. rewrite HL. rewrite (app_assoc (List.concat ws)).
  pose proof (d_tok g p EOF q) as DE.
  assert (DS : forall l s r, derives g (NT n_SheBangLine_) [(l, SheBang s, r)] (l, VNode (leaf KSheBang (l, r) s), r))
    by (intros l s r; refine (use 7 _ _ _ _ eq_refl (one _ _ _ (d_tok g l (SheBang s) r)) eq_refl)).
  assert (P : exists k (m : node) i, sentence g (sb ++ (List.concat ws ++ rt) ++ [(p, EOF, q)]) (VNode m) /\ n_kind m = k /\
    ((k = KChunk /\ i = 0) \/ (k = KSheBangChunk /\ i = 1)) /\ load_options (kid m i) c = c').
  { destruct (block_derives _ _ _ _ _ H S E) as [[E0 ->]|(a & m & b & D2 & L)].
    - match goal with |- context [sb ++ ?u ++ _] => replace u with (@nil (located token)) by (symmetry; exact E0) end. destruct HS as [|l s r]; cbn [List.concat app].
      + do 3 eexists. split; [eexists _, _; exact (use 0 _ _ _ _ eq_refl (one _ _ _ DE) eq_refl)|]. split; [reflexivity|]. split; [now left|]. reflexivity.
      + do 3 eexists. split; [eexists _, _; refine (use 1 _ _ _ _ eq_refl (dl_cons g _ _ [_] _ _ _ (DS l s r) (one _ _ _ DE)) eq_refl)|].
        split; [reflexivity|]. split; [now left|]. reflexivity.
    - destruct HS as [|l s r]; cbn [app].
      + do 3 eexists. split; [eexists _, _; refine (use 2 _ _ _ _ eq_refl (dl_cons g _ _ _ _ _ _ D2 (one _ _ _ DE)) eq_refl)|].
        split; [reflexivity|]. split; [now left|]. exact L.
      + do 3 eexists. split.
        * eexists _, _. refine (use 3 _ _ _ _ eq_refl (dl_cons g _ _ [_] _ _ _ (DS l s r) (dl_cons g _ _ _ _ _ _ D2 (one _ _ _ DE))) eq_refl).
        * split; [reflexivity|]. split; [now right|]. exact L. }
  destruct P as (k & m & i & SN & K & Hi & L). apply parse_tokens_correct in SN. rewrite SN, K.
  destruct Hi as [[-> ->]|[-> ->]]; now rewrite L.
Qed.
Theorem any_file t c c' : reload_format t c = Some c' <-> exists sb ws rt p q ls, lex t = LexOk (sb ++ List.concat ws ++ rt ++ [(p, EOF, q)]) /\ shebang sb /\
  Forall2 statement_sets ws ls /\ separated ws /\ (rt = [] /\ c' = apply_settings (List.concat ls) c \/ phrase n_RetStat_ rt /\ c' = c).
Proof.
  split; [apply any_file_only|]. intros (sb & ws & rt & p & q & ls & HL & HS & H & S & E). exact (any_file_if _ _ _ _ _ _ _ _ _ HL HS H S E).
Qed.
