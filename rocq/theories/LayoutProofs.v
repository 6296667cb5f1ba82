(** The tree of a text, read from left to right, is its tokens and the holes between them. *)
From Verif Require Import Base LuaLexer Ast LR LRSpec LuaGrammar LuaParser ParserProofs LexSpec LexLoop LayoutSpec.

Definition items_slots (l : list (loc * node)) := map (fun x => (fst x, layout (snd x))) l.
Definition seps_slots (l : list sitem) : list sslots :=
  map (fun x => (fst (fst (fst x)), layout (snd (fst (fst x))), snd (fst x), snd x)) l.

(** ** runs of tokens *)
Definition wspan (l : nat) (w : list ptok) (r : nat) : Prop :=
  begins w l /\ exists w' l' t, w = w' ++ [(l', t, r)].
Fixpoint sorted (w : list ptok) : Prop :=
  match w with
  | [] => True
  | (l, _, r) :: rest => l <= r /\ match rest with (l', _, _) :: _ => r <= l' | [] => True end /\ sorted rest
  end.
Lemma begins_app w1 w2 l : begins w1 l -> begins (w1 ++ w2) l.
Proof. intros (t & r & w' & ->). cbn. unfold begins. eauto. Qed.
Lemma wspan_one l t r : wspan l [(l, t, r)] r.
Proof. split; [unfold begins; eauto|]. exists [], l, t. reflexivity. Qed.
Lemma wspan_app l w1 r l' w2 r' : wspan l w1 r -> wspan l' w2 r' -> wspan l (w1 ++ w2) r'.
Proof.
  intros [B _] [_ (w' & x & t & ->)]. split; [now apply begins_app|]. exists (w1 ++ w'), x, t. now rewrite app_assoc.
Qed.
Lemma sorted_app w1 w2 : sorted (w1 ++ w2) -> sorted w1 /\ sorted w2.
Proof.
  induction w1 as [|[[l t] r] w1 IH]; cbn [app sorted]; [auto|]. intros (H1 & H2 & H3).
  destruct (IH H3) as [S1 S2]. repeat split; auto. destruct w1 as [|[[? ?] ?] ?]; auto.
Qed.
Lemma sorted_between w1 w2 l r l' r' : sorted (w1 ++ w2) -> wspan l w1 r -> wspan l' w2 r' -> r <= l'.
Proof.
  intros S [_ (w & x & t & ->)] [(t' & y & w' & ->) _]. rewrite <- app_assoc in S. apply sorted_app in S as [_ S].
  cbn in S. tauto.
Qed.
Lemma sorted_span w l r : sorted w -> wspan l w r -> l <= r.
Proof.
  intros S [B (w' & x & t & ->)]. revert l B S. induction w' as [|[[a b] c] w' IH]; intros l (t' & y & w0 & E) S.
  - cbn in E. injection E as -> _ _ _. cbn in S. tauto.
  - cbn in E. injection E as -> _ _ _. cbn [app sorted] in S. destruct S as (S1 & S2 & S3).
    assert (B : exists z, begins (w' ++ [(x, t, r)]) z) by (destruct w' as [|[[? ?] ?] ?]; cbn; unfold begins; eauto).
    destruct B as [z B]. pose proof (IH z B S3). destruct B as (? & ? & ? & E). rewrite E in S2. lia.
Qed.

(** ** layouts *)
Lemma lay_app p ss e w : lay p ss e w -> forall ss2 e2 w2, lay e ss2 e2 w2 -> lay p (ss ++ ss2) e2 (w ++ w2).
Proof.
  induction 1; intros ss2 e2 w2 L; cbn [app]; auto; try (econstructor; eauto; fail).
  apply ly_gap; [|auto]. destruct H as [->|B]; [now left|right; now apply begins_app].
Qed.
Lemma lay_next a b ss e w : begins w b -> lay b ss e w -> lay a (SGap (a, b) :: ss) e w.
Proof. intros. apply ly_gap; auto. Qed.
Lemma lay_here a ss e w : lay a ss e w -> lay a (SGap (a, a) :: ss) e w.
Proof. intros. apply ly_gap; auto. Qed.

(** ** ordered spans *)
Lemma ordered_le a b l : ordered a b l -> a <= b.
Proof.
  revert a; induction l as [|[x y] l IH]; intros a; cbn; [auto|]. intros (H1 & H2 & H3). apply IH in H3. lia.
Qed.
Lemma ordered_app a b c d l1 l2 : ordered a b l1 -> b <= c -> ordered c d l2 -> ordered a d (l1 ++ l2).
Proof.
  intros H Hb H2. revert a H. induction l1 as [|[x y] l1 IH]; intros a; cbn.
  - intros H. destruct l2 as [|[x y] l2]; cbn in *; [lia|]. intuition lia.
  - intros (H1 & H3 & H4). auto.
Qed.

Definition vnodes (v : val) : list node :=
  match v with VNode n => [n] | VItems l => map snd l | VSeps l => map si_node l | _ => [] end.
Definition nests (l r : nat) (ns : list node) : Prop := ordered l r (map n_span ns) /\ Forall nested ns.

(** ** what the values of the symbols look like *)
Inductive nclass := QNode | QItems | QCommas (t : token) | QFields | QSep | QChunk.
Definition nclass_of (n : N) : nclass :=
  if N.eqb n n_Chunk_ then QChunk
  else if N.eqb n n_FieldSep_ then QSep
  else if N.ltb n n_TList_Stat_ then QNode
  else if N.ltb n n_TSepList_Name_dot_ then QItems
  else if N.eqb n n_TSepList_Name_dot_ then QCommas Period
  else if N.eqb n n_TSepEndList_Field_ then QFields
  else QCommas Comma.

Definition shape (x : sym) (w : list ptok) (l : nat) (v : val) (r : nat) : Prop :=
  match x with
  | T k => exists t, w = [(l, t, r)] /\ v = VTok t /\ term_of t = k
  | NT n =>
      match nclass_of n with
      | QNode => exists n, v = VNode n /\ n_span n = (l, r) /\ lay l (layout n) r w
      | QItems => exists n its, v = VItems (((l, l), n) :: its) /\ lay l (listed (items_slots (((l, l), n) :: its))) r w
      | QCommas t => exists n q z ss, v = VSeps (((l, l), n, q, z) :: ss)
                     /\ lay l (commas t (seps_slots (((l, l), n, q, z) :: ss))) r w
      | QFields => exists n q z ss, v = VSeps (((l, l), n, q, z) :: ss)
                     /\ lay l (fields (seps_slots (((l, l), n, q, z) :: ss))) r w
      | QSep => exists t, w = [(l, t, r)] /\ v = VTok t /\ (t = Comma \/ t = Semicolon)
      | QChunk => exists n, v = VNode n /\ lay 0 (layout n) r w
      end
  end.
Definition nest_ok (x : sym) (w : list ptok) (l : nat) (v : val) (r : nat) : Prop :=
  match x with
  | NT n => if N.eqb n n_Chunk_ then forall n, v = VNode n -> nests 0 r (children n) else nests l r (vnodes v)
  | T _ => nests l r (vnodes v)
  end.
Definition val_ok (x : sym) (w : list ptok) (lv : located val) : Prop :=
  let '(l, v, r) := lv in wspan l w r /\ shape x w l v r /\ (sorted w -> nest_ok x w l v r).
Inductive vals_ok : list sym -> list ptok -> list (located val) -> Prop :=
| vs_nil : vals_ok [] [] []
| vs_cons : forall x xs w1 w2 v vs, val_ok x w1 v -> vals_ok xs w2 vs -> vals_ok (x :: xs) (w1 ++ w2) (v :: vs).

Ltac inv H := inversion H; subst; clear H.

(** ** spans of the arguments *)
Definition has_chunk (xs : list sym) : bool := existsb (fun x => match x with NT n => N.eqb n n_Chunk_ | T _ => false end) xs.
Lemma vals_span xs w vs : vals_ok xs w vs -> vs <> [] -> wspan (a_start vs) w (a_end vs).
Proof.
  induction 1 as [|x xs w1 w2 [[l v] r] vs Hv H IH]; intros Hn; [congruence|]. destruct Hv as (Hs & _ & _).
  destruct vs as [|v2 vs].
  - inv H. rewrite app_nil_r. exact Hs.
  - assert (E : wspan (a_start (v2 :: vs)) w2 (a_end (v2 :: vs))) by (apply IH; discriminate).
    change (a_end ((l, v, r) :: v2 :: vs)) with (a_end (v2 :: vs)). cbn [a_start]. eapply wspan_app; eauto.
Qed.
Lemma vals_nest xs w vs : vals_ok xs w vs -> vs <> [] -> has_chunk xs = false -> sorted w ->
  nests (a_start vs) (a_end vs) (flat_map (fun x => vnodes (snd (fst x))) vs).
Proof.
  induction 1 as [|x xs w1 w2 [[l v] r] vs Hv H IH]; intros Hn Hc S; [congruence|]. destruct Hv as (Hs & _ & Hne).
  cbn [has_chunk existsb] in Hc. apply Bool.orb_false_iff in Hc as [Hc1 Hc2].
  pose proof (sorted_app _ _ S) as [S1 S2]. specialize (Hne S1).
  assert (Hl : nests l r (vnodes v)) by (destruct x as [k|n]; [exact Hne|]; cbn in Hne; rewrite Hc1 in Hne; exact Hne).
  destruct vs as [|v2 vs].
  - cbn. rewrite app_nil_r. exact Hl.
  - assert (E : wspan (a_start (v2 :: vs)) w2 (a_end (v2 :: vs))) by (eapply vals_span; eauto; discriminate).
    specialize (IH ltac:(discriminate) Hc2 S2).
    change (a_end ((l, v, r) :: v2 :: vs)) with (a_end (v2 :: vs)). cbn [a_start]. 
    change (flat_map (fun x => vnodes (snd (fst x))) ((l, v, r) :: v2 :: vs))
      with (vnodes v ++ flat_map (fun x => vnodes (snd (fst x))) (v2 :: vs)).
    destruct Hl as [L1 L2], IH as [I1 I2]. split; [|now apply Forall_app].
    rewrite map_app. refine (ordered_app _ _ _ _ _ _ L1 _ I1). eapply sorted_between; eauto.
Qed.

(** ** terminals *)
Definition term_inv (k : N) (t : token) : Prop :=
  nth (N.to_nat k) [t = OpExponentiation; t = OpLogicalNot; t = OpLength; t = OpMultiplication; t = OpDivision; t = OpFloorDivision;
    t = OpModulo; t = OpAddition; t = Minus; t = OpConcatenation; t = OpLeftShift; t = OpRightShift; t = OpBitwiseAnd;
    t = Tilde; t = OpBitwiseOr; t = OpEquality; t = OpInequality; t = OpLessThan; t = OpGreaterThan; t = OpLessOrEqual;
    t = OpGreaterOrEqual; t = OpLogicalAnd; t = OpLogicalOr; t = Semicolon; t = Comma; t = Colon; t = Label;
    t = OpenRoundBracket; t = CloseRoundBracket; t = OpenSquareBracket; t = CloseSquareBracket; t = OpenCurlyBracket;
    t = CloseCurlyBracket; t = EqualsSign; t = Period; t = VarArg; t = Break; t = Do; t = Else; t = ElseIf; t = End;
    t = False_; t = For; t = Function_; t = GoTo; t = If_; t = In_; t = Local_; t = Nil; t = Repeat; t = Return; t = Then;
    t = True_; t = Until; t = While; (exists s, t = Variable_ s); (exists s, t = Numeral s);
    (exists s, t = NormalStringLiteral s); (exists s, t = CharStringLiteral s);
    (exists lv s, t = MultiLineStringLiteral lv s); (exists s, t = SheBang s); t = EOF] True.
Lemma term_inv_ok t k : term_of t = k -> term_inv k t.
Proof. intros <-. destruct t; cbn; try reflexivity; repeat eexists. Qed.

Lemma set_first_nodes g l : map snd (set_first g l) = map snd l.
Proof. destruct l as [|[? ?] ?]; reflexivity. Qed.
Lemma sset_first_nodes g l : map si_node (sset_first g l) = map si_node l.
Proof. destruct l as [|[[[? ?] ?] ?] ?]; reflexivity. Qed.

Lemma nests_weaken a a' b ns : a' <= a -> nests a b ns -> nests a' b ns.
Proof.
  intros H [H1 H2]. split; [|exact H2]. destruct (map n_span ns) as [|[x y] l]; cbn in *; [lia|]. intuition lia.
Qed.
Lemma nests_node l r n ns : n_span n = (l, r) -> children n = ns -> nests l r ns -> nests l r [n].
Proof.
  intros Hs Hc [H1 H2]. split.
  - cbn. rewrite Hs. pose proof (ordered_le _ _ _ H1). auto.
  - constructor; [|constructor]. constructor; [now rewrite Hs, Hc|]. rewrite Hc. now apply Forall_forall.
Qed.

Ltac use_class := repeat match goal with
    | H : context [nclass_of ?n] |- _ => let k := eval vm_compute in (nclass_of n) in change (nclass_of n) with k in H
    | |- context [nclass_of ?n] => let k := eval vm_compute in (nclass_of n) in change (nclass_of n) with k
    end; cbv iota beta in *.
Ltac use_parts := repeat match goal with
    | H : _ /\ _ |- _ => destruct H
    | H : exists _, _ |- _ => destruct H
    end; subst.
Ltac use_term := repeat match goal with
    | H : term_of ?t = ?k |- _ => apply term_inv_ok in H; vm_compute in H; use_parts
    end.
Ltac lay_step := first
  [ apply ly_nil
  | apply ly_void
  | apply ly_tok
  | apply ly_trail0
  | apply lay_here
  | apply lay_next; [now repeat first [apply begins_app | assumption | (eexists; eexists; eexists; reflexivity)]|]
  | eassumption
  | eapply lay_app; [eassumption|] ].

(** lists *)
Lemma lay_gap_inv a b ss e w : lay a (SGap (a, b) :: ss) e w -> lay b ss e w.
Proof. intros H. inversion H; subst. assumption. Qed.
Lemma lay_listed_one l x r w : lay l x r w -> lay l (listed [((l, l), x)]) r w.
Proof. intros H. cbn. rewrite app_nil_r. now apply lay_here. Qed.
Lemma lay_listed_cons l x r w1 l2 y I e w2 : lay l x r w1 -> begins w2 l2 ->
  lay l2 (listed (((l2, l2), y) :: I)) e w2 -> lay l (listed (((l, l), x) :: ((r, l2), y) :: I)) e (w1 ++ w2).
Proof.
  intros H B H2. cbn in *. apply lay_gap_inv in H2. apply lay_here. eapply lay_app; [exact H|]. now apply lay_next.
Qed.
Lemma lay_listed_snoc l I r w1 l2 y e w2 : lay l (listed I) r w1 -> begins w2 l2 -> lay l2 y e w2 ->
  lay l (listed (I ++ [((r, l2), y)])) e (w1 ++ w2).
Proof.
  intros H B H2. unfold listed. rewrite flat_map_app. eapply lay_app; [exact H|]. cbn. rewrite app_nil_r. now apply lay_next.
Qed.
Lemma lay_commas_one t l x r z w : lay l x r w -> lay l (commas t [((l, l), x, (r, r), z)]) r w.
Proof.
  intros H. cbn. apply lay_here. rewrite <- (app_nil_r w). eapply lay_app; [exact H|]. apply lay_here. apply ly_nil.
Qed.
Lemma lay_commas_cons t l x r z w1 l1 r1 l2 y q z2 S e w2 : lay l x r w1 -> begins w2 l2 ->
  lay l2 (commas t (((l2, l2), y, q, z2) :: S)) e w2 ->
  lay l (commas t (((l, l), x, (r, l1), z) :: ((r1, l2), y, q, z2) :: S)) e (w1 ++ [(l1, t, r1)] ++ w2).
Proof.
  intros H B H2. cbn [commas] in *. apply lay_gap_inv in H2. apply lay_here. eapply lay_app; [exact H|].
  apply lay_next; [unfold begins; cbn; eauto|]. cbn [app]. apply ly_tok. now apply lay_next.
Qed.
Lemma lay_fields_one l x r w : lay l x r w -> lay l (fields [((l, l), x, (r, r), [])]) r w.
Proof.
  intros H. cbn. apply lay_here. rewrite <- (app_nil_r w). eapply lay_app; [exact H|]. apply lay_here.
  apply ly_trail0, ly_nil.
Qed.
Lemma lay_fields_end l x r w l1 t r1 : lay l x r w -> t = Comma \/ t = Semicolon ->
  lay l (fields [((l, l), x, (r, l1), sep_string (VTok t))]) r1 (w ++ [(l1, t, r1)]).
Proof.
  intros H Ht. cbn [fields]. apply lay_here. eapply lay_app; [exact H|]. apply lay_next; [unfold begins; eauto|].
  apply ly_trail; [|apply ly_nil]. split; [exact Ht|]. now destruct Ht as [-> | ->].
Qed.
Lemma lay_fields_cons l x r w1 l1 t r1 l2 y q z2 S e w2 : lay l x r w1 -> t = Comma \/ t = Semicolon -> begins w2 l2 ->
  lay l2 (fields (((l2, l2), y, q, z2) :: S)) e w2 ->
  lay l (fields (((l, l), x, (r, l1), sep_string (VTok t)) :: ((r1, l2), y, q, z2) :: S)) e (w1 ++ [(l1, t, r1)] ++ w2).
Proof.
  intros H Ht B H2. cbn [fields] in *. apply lay_gap_inv in H2. apply lay_here. eapply lay_app; [exact H|].
  apply lay_next; [unfold begins; cbn; eauto|]. cbn [app]. eapply ly_sep; [|now apply lay_next].
  split; [exact Ht|]. now destruct Ht as [-> | ->].
Qed.
Lemma items_slots_app a b : items_slots (a ++ b) = items_slots a ++ items_slots b.
Proof. apply map_app. Qed.
Lemma prod_shape p w args : In p lua_prods -> vals_ok (p_rhs p) w args ->
  shape (NT (p_lhs p)) w (a_start args) (p_act p args) (a_end args).
Proof.
  intros Hp H. unfold lua_prods in Hp.
  repeat (destruct Hp as [<-|Hp]; [cbn [p_rhs p_lhs p_act] in *; repeat match goal with
    | H : vals_ok (_ :: _) _ _ |- _ => inv H
    | H : vals_ok [] _ _ |- _ => inv H
    | v : located val |- _ => destruct v as [[? ?] ?]
    | H : val_ok _ _ _ |- _ => destruct H as ([? _] & ? & _)
    end; rewrite ?app_nil_r; unfold shape in *; use_class; use_parts; use_term |]); [.. |destruct Hp].
  all: try (eexists; split; [reflexivity|]).
  all: try match goal with |- _ /\ _ => split; [first [reflexivity|assumption]|] end.
  all: try assumption.
  all: try (cbn [a_start a_end]; cbn; rewrite ?app_nil_r; now (repeat lay_step)).
  all: try (now left); try (now right).
  (* lists *)
  all: try (refine (lay_listed_cons _ _ _ _ _ _ _ _ _ _ _ _); eassumption).
  all: try (refine (lay_commas_cons _ _ _ _ _ _ _ _ _ _ _ _ _ _ _ _ _ _); eassumption).
  all: try (refine (lay_commas_one _ _ _ _ _ _ _); eassumption).
  { (* KFuncNameSelf *)
    match goal with H : lay _ (commas _ _) _ _ |- _ => refine (lay_app _ _ _ _ H _ _ _ _) end.
    cbn. repeat lay_step. }
  all: try (do 4 eexists; split; [reflexivity|]).
  all: try (do 2 eexists; split; [reflexivity|]).
  all: try (refine (lay_listed_one _ _ _ _ _); eassumption).
  all: try (refine (lay_commas_cons _ _ _ _ _ _ _ _ _ _ _ _ _ _ _ _ _ _); eassumption).
  all: try (refine (lay_commas_one _ _ _ _ _ _ _); eassumption).
  all: try (refine (lay_fields_one _ _ _ _ _); eassumption).
  all: try (refine (lay_fields_end _ _ _ _ _ _ _ _ _); eassumption).
  all: try (refine (lay_fields_cons _ _ _ _ _ _ _ _ _ _ _ _ _ _ _ _ _ _); eassumption).
  all: match goal with
    | H : lay ?p (listed (items_slots (?y :: ?its))) ?q ?w1, H2 : lay ?a (layout ?x) ?e ?w2 |- _ =>
        change (lay p (listed (items_slots ((y :: its) ++ [((q, a), x)]))) e (w1 ++ w2))
    end; rewrite items_slots_app; apply lay_listed_snoc; assumption.
Qed.

Lemma rhs_nonempty p : In p lua_prods -> p_rhs p <> [].
Proof.
  assert (G : forallb (fun p => match p_rhs p with [] => false | _ => true end) lua_prods = true) by (vm_compute; reflexivity).
  intros Hp. rewrite forallb_forall in G. apply G in Hp. destruct (p_rhs p); [discriminate|congruence].
Qed.
Lemma prod_nest p w args : In p lua_prods -> vals_ok (p_rhs p) w args -> sorted w ->
  nest_ok (NT (p_lhs p)) w (a_start args) (p_act p args) (a_end args).
Proof.
  intros Hp H S.
  assert (Hn : args <> []).
  { pose proof (rhs_nonempty p Hp). destruct (p_rhs p); [congruence|]. intros ->. inversion H. }
  assert (Hc : has_chunk (p_rhs p) = false).
  { assert (G : forallb (fun p => negb (has_chunk (p_rhs p))) lua_prods = true) by (vm_compute; reflexivity).
    rewrite forallb_forall in G. apply G in Hp. now apply Bool.negb_true_iff. }
  pose proof (vals_nest _ _ _ H Hn Hc S) as V. clear Hn Hc.
  unfold lua_prods in Hp.
  repeat (destruct Hp as [<-|Hp]; [cbn [p_rhs p_lhs p_act] in *; repeat match goal with
    | H : vals_ok (_ :: _) _ _ |- _ => inv H
    | H : vals_ok [] _ _ |- _ => inv H
    | v : located val |- _ => destruct v as [[? ?] ?]
    | H : val_ok _ _ _ |- _ => destruct H as ([? _] & ? & _)
    end; rewrite ?app_nil_r; unfold shape in *; use_class; use_parts; use_term |]); [.. |destruct Hp].
  all: try (cbn [nest_ok N.eqb]; assumption).
  all: try (refine (nests_node _ _ _ _ _ _ V); [reflexivity|]; reflexivity).
  { cbn [nest_ok N.eqb]. intros n1 [= <-]. destruct V as [V _]. cbn in V |- *. split; [cbn; lia|]. constructor; [|constructor].
    constructor; [cbn; lia|]. intros x []. }
  { cbn [nest_ok N.eqb]. intros n3 [= <-]. apply (nests_weaken n1); [lia|exact V]. }
  { cbn [nest_ok N.eqb]. intros n3 [= <-]. apply (nests_weaken n1); [lia|exact V]. }
  { cbn [nest_ok N.eqb]. intros n5 [= <-]. apply (nests_weaken n3); [lia|exact V]. }
  all: cbn [flat_map vnodes fst snd] in V; rewrite app_nil_r in V.
  all: try (refine (nests_node _ _ _ _ _ _ V); [reflexivity|]; reflexivity).
  all: try exact V.
  all: match type of V with nests ?l ?r (map snd ?x ++ [?n]) => match goal with
       | |- context [(?a, VNode n, ?b)] => match goal with |- context [(_, _, ?e) :: [(a, VNode n, b)]] =>
         change (nests l r (map snd (x ++ [((e, a), n)]))) end end end; rewrite map_app; exact V.
Qed.

Lemma shapes : (forall x w v, derives lua_grammar x w v -> val_ok x w v) /\
  (forall xs w vs, derives_list lua_grammar xs w vs -> vals_ok xs w vs).
Proof.
  apply (derives_both _ _ lua_grammar (fun x w v _ => val_ok x w v) (fun xs w vs _ => vals_ok xs w vs)).
  - intros l t r. split; [apply wspan_one|]. split; [cbn; eauto|]. cbn. intros (H & _). split; [exact H|constructor].
  - intros p w args Hp D IH. change (In p lua_prods) in Hp. split; [|split].
    + apply (vals_span _ _ _ IH). pose proof (rhs_nonempty p Hp). destruct (p_rhs p); [congruence|]. intros ->. inversion IH.
    + now apply prod_shape.
    + intros S. now apply prod_nest.
  - constructor.
  - intros. now constructor.
Qed.

(** ** the tokens of a text *)
Lemma tiles_sorted src ts : forall p, tiles src p ts -> sorted ts.
Proof.
  induction ts as [|[[l t] r] ts IH]; intros p; cbn [tiles sorted]; [auto|]. destruct ts as [|[[l' t'] r'] ts].
  - intros (_ & _ & -> & _). cbn. auto.
  - intros (_ & H1 & _ & _ & _ & _ & T). split; [lia|]. split; [|eapply IH; eauto]. clear IH. cbn [tiles] in T.
    destruct ts; tauto.
Qed.
Lemma tiles_end src ts : forall p l r, tiles src p ts -> wspan l ts r -> r = List.length src.
Proof.
  induction ts as [|[[l t] r] ts IH]; intros p l0 r0; cbn [tiles]; [now intros []|]. destruct ts as [|x ts].
  - intros (_ & _ & _ & E & _) [_ (w' & ? & ? & E')]. destruct w' as [|? [|]]; cbn in E'; try discriminate. congruence.
  - intros (_ & _ & _ & _ & _ & _ & T) [_ (w' & y & z & E')]. destruct x as [[a b] c]. apply (IH r a r0 T).
    split; [unfold begins; eauto|]. destruct w' as [|? w']; [discriminate|]. injection E' as _ E'. eauto.
Qed.

Theorem parse_lua_layout src n : parse_lua src = Parsed n -> exists ts, lex src = LexOk ts /\
  lay 0 (layout n) (List.length src) ts /\ nests 0 (List.length src) (children n).
Proof.
  unfold parse_lua. destruct (lex src) as [ts|e|] eqn:L; try discriminate.
  destruct (parse_tokens ts) as [v| |] eqn:P; try discriminate. destruct v as [| n' | | |] eqn:Ev; try discriminate.
  intros [= <-]. exists ts. split; [reflexivity|]. apply parse_tokens_correct in P as (l & r & D).
  apply (proj1 shapes) in D. change (g_start lua_grammar) with n_Chunk_ in D. destruct D as (Hs & Hsh & Hn).
  apply lex_tiles in L. pose proof (tiles_end _ _ _ _ _ L Hs) as ->. destruct Hsh as (m & [= <-] & Hl).
  split; [exact Hl|]. exact (Hn (tiles_sorted _ _ _ L) n' eq_refl).
Qed.
Theorem parse_lua_total src : parse_lua src <> ParseInternal.
Proof.
  unfold parse_lua. destruct (lex src) as [ts|e|] eqn:L; [|discriminate|now elim (lex_total src)].
  destruct (parse_tokens ts) as [v| |] eqn:P; [|discriminate|now elim (parse_tokens_total ts)].
  apply parse_tokens_correct in P as (l & r & D). apply (proj1 shapes) in D. change (g_start lua_grammar) with n_Chunk_ in D.
  destruct D as (_ & (m & -> & _) & _). discriminate.
Qed.
