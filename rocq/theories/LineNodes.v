(** The nodes of the parser: where their pieces start and end. *)
From Coq Require Import Lia.
From Verif Require Import Base Lib Config State LuaLexer Ast LR LRSpec LuaGrammar LuaParser ParserProofs LexSpec LayoutSpec LayoutProofs SafeSpec PrettySpec SettleSpec SettleWalk SettleProds LineSpec LineProofs LineTree.

Section Tree.
  Variable c : config.
  Hypothesis Br : breaking c.

  Ltac is_true := repeat match goal with |- context [nis c ?k 1] => rewrite (br_nis c Br k) by (cbn; auto 10) end; rewrite ?(br_stat c Br).
  Lemma body_glue k t : In (S t) (bodies k) -> S t < List.length (template k) /\ nth (S t) (template k) (TT Nil) = TK /\ nth t (glues c k) tight = open true.
  Proof. destruct k; cbn [bodies In]; intros H; decompose [or] H; try contradiction; match goal with E : _ = S t |- _ => injection E as <- end; cbn [glues]; is_true; cbn; (split; [lia|auto]). Qed.
  Lemma branch_glue k t : In (S t) (branches k) -> S t < List.length (template k) /\ nth (S t) (template k) (TT Nil) = TK /\ nth t (glues c k) tight = line true.
  Proof. destruct k; cbn [branches In]; intros H; decompose [or] H; try contradiction; match goal with E : _ = S t |- _ => injection E as <- end; cbn [glues]; is_true; cbn; (split; [lia|auto]). Qed.
  Lemma after_glue k t : In t (bodies k ++ branches k) -> S t < List.length (template k) ->
    nth t (glues c k) tight = line true /\ (nth (S t) (template k) (TT Nil) = TK -> In (S t) (branches k)).
  Proof.
    destruct k; cbn [bodies branches app In]; intros H L; decompose [or] H; try contradiction; subst t; cbn [template List.length] in L; try (exfalso; lia);
      cbn [glues]; is_true; (split; [reflexivity|]); cbn [template nth]; try discriminate; cbn; auto.
  Qed.
  Lemma no_zero k : ~ In 0 (bodies k ++ branches k).
  Proof. destruct k; cbn; intros H; decompose [or] H; try contradiction; discriminate. Qed.
  Lemma not_chunk k t : In t (bodies k ++ branches k ++ others k) -> is_chunk k = false.
  Proof. destruct k; try reflexivity; intros []. Qed.
  Lemma in_not_nil {A} (x : A) l : In x l -> l <> []. Proof. now destruct l. Qed.

  Lemma opens_in m e q d : opens_line m e q d -> good c m -> forall op, line_in (pieces c m e op) q d.
  Proof.
    intros O G op. destruct O as [a l x b K E N|K|t I|t I|t I L].
    - assert (is_list (n_kind m) = true) by (destruct K as [-> | ->]; reflexivity). eapply item_line; eauto.
    - assert (R : regular c m) by (apply regular_kind; rewrite K; discriminate).
      refine (regular_line c m 0 Here space e op R G _ _ _ _); rewrite K; [reflexivity|cbn; lia|cbn [glues]; rewrite (br_stat c Br); reflexivity|].
      intros _ x P. destruct G as (_ & G & _). apply (G 1); [rewrite K; cbn; auto|exact P].
    - destruct (body_glue _ _ I) as (L & T & Gl). assert (I' : In (S t) (bodies (n_kind m) ++ branches (n_kind m) ++ others (n_kind m))) by (apply in_or_app; auto).
      refine (regular_line c m t Deeper space e op (regular_kind c m (in_not_nil _ _ I')) G (not_chunk _ _ I') L Gl _).
      intros _ x P. destruct G as (_ & G & _). apply (G (S t)); [unfold plain_parts; apply in_or_app; auto|exact P].
    - destruct (branch_glue _ _ I) as (L & T & Gl). assert (I' : In (S t) (bodies (n_kind m) ++ branches (n_kind m) ++ others (n_kind m))) by (apply in_or_app; right; apply in_or_app; auto).
      refine (regular_line c m t Here space e op (regular_kind c m (in_not_nil _ _ I')) G (not_chunk _ _ I') L Gl _).
      intros _ x P. destruct G as (_ & G & _). apply (G (S t)); [unfold plain_parts; apply in_or_app; right; apply in_or_app; auto|exact P].
    - destruct (after_glue _ _ I L) as (Gl & T). assert (I' : In t (bodies (n_kind m) ++ branches (n_kind m) ++ others (n_kind m))) by (rewrite app_assoc; apply in_or_app; auto).
      refine (regular_line c m t Here space e op (regular_kind c m (in_not_nil _ _ I')) G (not_chunk _ _ I') L Gl _).
      intros E x P. destruct G as (_ & G & _). apply (G (S t)); [unfold plain_parts; apply in_or_app; right; apply in_or_app; auto|exact P].
  Qed.

  Lemma part_child n t x : part_at n t = Some x -> In x (children n).
  Proof. intros P. apply nth_error_In in P. unfold children. apply in_or_app. right. apply in_or_app. now left. Qed.
  Lemma fine_child n x : fine c n -> In x (children n) -> fine c x.
  Proof. intros F I. inversion F as [? _ H]; subst. rewrite Forall_forall in H. auto. Qed.
  Lemma chunk_in n x d op : is_chunk (n_kind n) = true -> chunk_shape n -> In x (n_kids n) -> exists X Y, pieces c n d op = X ++ pieces c x d op ++ Y.
  Proof.
    destruct n as [k s l t lv ks is ss o]. unfold chunk_shape. cbn [n_kind n_kids]. intros K Sh I. destruct k; try discriminate.
    - destruct ks as [|a [|b ks]]; try discriminate. destruct I as [<-|[]]. cbn [pieces map nth].
      match goal with |- exists X Y, ?g :: ?r = _ => exists [g] end. eexists. reflexivity.
    - destruct ks as [|a [|b [|ks]]]; try discriminate. destruct I as [<-|[<-|[]]]; cbn [pieces map nth].
      + match goal with |- exists X Y, ?g :: ?r = _ => exists [g] end. eexists. reflexivity.
      + match goal with |- exists X Y, ?g :: ?r ++ ?h :: ?z = _ => exists (g :: r ++ [h]) end. eexists. cbn [app]. rewrite <- app_assoc. reflexivity.
  Qed.
  Lemma deeper_entry k t hung d op : In t (bodies k ++ parameters k) -> t < List.length (template k) /\ nth t (template k) (TT Nil) = TK /\ entry hung d op (d, op) (glues c k) t = (S d, None).
  Proof.
    intros I. apply in_app_or in I as [I|I].
    - destruct t as [|t]; [elim (no_zero k); apply in_or_app; auto|]. destruct (body_glue _ _ I) as (A & B & E). cbn [entry]. rewrite E. auto.
    - destruct k; cbn [parameters In] in I; decompose [or] I; try contradiction; subst t; cbn; (split; [lia|auto]).
  Qed.
  Definition shown (n : node) (t : nat) : nat := List.length (filter is_kid (firstn t (template (n_kind n)))).
  Lemma hanging_entry n t x d op : In t (hanging (n_kind n)) -> part_at n t = Some x ->
    t < List.length (template (n_kind n)) /\ nth t (template (n_kind n)) (TT Nil) = TK
    /\ entry (fun j => hangs c (nth j (n_kids n) dummy_node)) d op (d, op) (glues c (n_kind n)) t = (if hangs c x then (S d, None) else (d, op)).
  Proof.
    unfold part_at. destruct n as [k s l tx lv ks is ss o]. cbn [n_kind n_kids].
    intros I P. destruct k; cbn [hanging In] in I; decompose [or] I; try contradiction; subst t; cbn [template firstn filter is_kid List.length] in *;
      (split; [lia|]); (split; [reflexivity|]); cbn [entry glues nth there]; unfold hang; cbn [there nth];
      apply (nth_error_nth _ _ dummy_node) in P; rewrite P; destruct (hangs c x); reflexivity.
  Qed.
  Lemma same_entry k t hung d op : nth_error (template k) t = Some TK -> k <> KTableConstructor -> ~ In t (bodies k ++ parameters k) -> ~ In t (hanging k) ->
    entry hung d op (d, op) (glues c k) t = (d, op).
  Proof.
    intros T N B H. destruct k; try (now elim N); cbn [template] in T;
      do 12 (destruct t as [|t]; [cbn [nth_error] in T; try discriminate; try reflexivity; exfalso; first [apply B; cbn; tauto|apply H; cbn; tauto]|]); cbn in T; destruct t; discriminate.
  Qed.
  Lemma part_regular n t : nth_error (template (n_kind n)) t = Some TK -> n_kind n <> KTableConstructor -> regular c n.
  Proof. destruct n as [k s l tx lv ks is ss o]. cbn [n_kind]. intros T N d op. destruct k; try (now elim N); try (destruct t as [|[|[|t]]]; discriminate T); try reflexivity. Qed.
  Lemma seps_in k d op h sep trail l x : In x l -> forall first, exists X Y,
    seps_from c k first d op h sep trail (map (fun x : loc * node * loc * str => (x, pieces c (snd (fst (fst x))))) l) = X ++ pieces c (snd (fst (fst x))) d op ++ Y.
  Proof.
    induction l as [|[[[p y] q] z] l IH]; intros I first; [destruct I|]. cbn [map seps_from fst snd]. destruct I as [<-|I].
    - cbn [fst snd]. match goal with |- exists X Y, ?g :: _ = _ => exists [g] end. eexists. reflexivity.
    - destruct (IH I false) as (X & Y & E). rewrite E. do 2 eexists.
      match goal with |- ?g :: ?a ++ ?u :: ?v :: X ++ ?z = _ => transitivity ((g :: a ++ u :: v :: X) ++ z) end; [|reflexivity]. cbn [app]. f_equal. rewrite <- app_assoc. reflexivity.
  Qed.
  Lemma element_in n l x r z d op : In (n_kind n) [KExpList; KVarList; KFields] -> In (l, x, r, z) (n_seps n) -> exists X Y, pieces c n d op = X ++ pieces c x d op ++ Y.
  Proof.
    destruct n as [k s ls tx lv ks is ss o]. cbn [n_kind n_seps]. intros K I. cbn [In] in K. decompose [or] K; try contradiction; subst k; cbn [pieces];
      (edestruct (seps_in) as (X & Y & E); [exact I|rewrite E; eauto]).
  Qed.
  Lemma item_any n l x d op : In (n_kind n) [KStatementList; KElseIfThenVec; KVarSuffixList] -> In (l, x) (n_items n) -> exists X Y, pieces c n d op = X ++ pieces c x d op ++ Y.
  Proof.
    intros K I. cbn [In] in K. assert (D : n_kind n = KVarSuffixList \/ is_list (n_kind n) = true) by (decompose [or] K; try contradiction; match goal with H : _ = n_kind n |- _ => rewrite <- H end; auto).
    destruct D as [D|D]; [|now apply (item_in c n l)].
    assert (P : pieces c n d op = items_from c KVarSuffixList true d op (printed_items c (n_items n))) by (destruct n; cbn [n_kind] in D; subst; reflexivity).
    rewrite P. apply in_split in I as (a & b & E). rewrite E, items_app. cbn [printed_items map items_from snd].
    do 2 eexists. match goal with |- ?a ++ ?g :: ?r = _ => change (a ++ g :: r) with (a ++ [g] ++ r) end. rewrite app_assoc. reflexivity.
  Qed.
  Lemma kid_child n i x : nth_error (n_kids n) i = Some x -> In x (children n).
  Proof. intros P. apply nth_error_In in P. unfold children. apply in_or_app. right. apply in_or_app. now left. Qed.
  Lemma irregular_in n i x d op : nth_error (n_kids n) i = Some x ->
    (n_kind n = KBinaryOp -> i < 2 -> exists X Y, pieces c n d op = X ++ pieces c x (match op with Some o => if str_eqb o (n_text n) then d else S d | None => S d end) (Some (n_text n)) ++ Y)
    /\ (n_kind n = KUnaryOp -> i = 0 -> exists X Y, pieces c n d op = X ++ pieces c x d op ++ Y)
    /\ (n_kind n = KTableConstructor -> i = 0 -> exists X Y, pieces c n d op = X ++ pieces c x (S d) None ++ Y).
  Proof.
    destruct n as [k s ls tx lv ks is ss o]. cbn [n_kind n_kids n_text]. intros P.
    assert (Q : nth i (map (pieces c) ks) no_printer = pieces c x) by now rewrite nth_pieces, P.
    split; [|split]; intros -> I; cbn [pieces].
    - destruct i as [|[|i]]; [| |lia]; rewrite Q; [exists []; eexists; reflexivity|].
      do 2 eexists. rewrite app_assoc. match goal with |- _ ++ ?p = _ => rewrite <- (app_nil_r p) at 1 end. reflexivity.
    - subst i. rewrite Q. match goal with |- exists X Y, ?g ++ ?p = _ => exists g, [] end. now rewrite app_nil_r.
    - subst i. rewrite Q. match goal with |- exists X Y, ?g ++ ?p ++ ?z = _ => exists g, z end. reflexivity.
  Qed.
  Lemma within_in n d op m e op' : within c n d op m e op' -> fine c n -> fine c m /\ exists X Y, pieces c n d op = X ++ pieces c m e op' ++ Y.
  Proof.
    assert (J : forall n d op x m d1 o1 e op', In x (children n) -> fine c n -> (exists X Y, pieces c n d op = X ++ pieces c x d1 o1 ++ Y) ->
      (fine c x -> fine c m /\ exists X Y, pieces c x d1 o1 = X ++ pieces c m e op' ++ Y) -> fine c m /\ exists X Y, pieces c n d op = X ++ pieces c m e op' ++ Y).
    { intros n0 d0 op0 x m0 d1 o1 e0 op1 Ix F (X & Y & E) IH. destruct IH as [Fm (X' & Y' & E')]; [now apply (fine_child n0)|]. split; [exact Fm|].
      exists (X ++ X'), (Y' ++ Y). rewrite E, E'. now rewrite <- !app_assoc. }
    induction 1 as [n d op|n d op t x m e op' I P _ IH|n d op t x m e op' I P Hh _ IH|n d op t x m e op' T N B H P _ IH|n d op i x m e op' K I P _ IH|n d op x m e op' K P _ IH
                   |n d op x m e op' K P _ IH|n d op x m e op' K I _ IH|n d op l x m e op' K I _ IH|n d op l x r z m e op' K I _ IH]; intros F.
    - split; [exact F|]. exists [], []. now rewrite app_nil_r.
    - refine (J _ _ _ _ _ _ _ _ _ (part_child n t x P) F _ IH). destruct (deeper_entry _ _ (fun j => hangs c (nth j (n_kids n) dummy_node)) d op I) as (L & T & En).
      assert (R : regular c n).
      { apply (part_regular n t); [|intros K; rewrite K in I; destruct I]. rewrite (nth_error_nth' _ (TT Nil)) by exact L. now rewrite T. }
      destruct (part_in c n t x d op R L T P) as (X & Y & E). rewrite En in E. eauto.
    - refine (J _ _ _ _ _ _ _ _ _ (part_child n t x P) F _ IH). destruct (hanging_entry n t x d op I P) as (L & T & En). rewrite Hh in En.
      assert (R : regular c n).
      { apply (part_regular n t); [|intros K; rewrite K in I; destruct I]. rewrite (nth_error_nth' _ (TT Nil)) by exact L. now rewrite T. }
      destruct (part_in c n t x d op R L T P) as (X & Y & E). rewrite En in E. eauto.
    - refine (J _ _ _ _ _ _ _ _ _ (part_child n t x P) F _ IH). pose proof (part_regular n t T N) as R.
      assert (L : t < List.length (template (n_kind n))) by (apply nth_error_Some; congruence).
      assert (T' : nth t (template (n_kind n)) (TT Nil) = TK) by now apply nth_error_nth.
      destruct (part_in c n t x d op R L T' P) as (X & Y & E).
      destruct (in_dec Nat.eq_dec t (hanging (n_kind n))) as [Ih|Ih].
      + destruct (hanging_entry n t x d op Ih P) as (_ & _ & En). rewrite (H Ih) in En. rewrite En in E. eauto.
      + rewrite same_entry in E by assumption. eauto.
    - refine (J _ _ _ _ _ _ _ _ _ (kid_child n i x P) F _ IH). now apply (irregular_in n i).
    - refine (J _ _ _ _ _ _ _ _ _ (kid_child n 0 x P) F _ IH). now apply (irregular_in n 0).
    - refine (J _ _ _ _ _ _ _ _ _ (kid_child n 0 x P) F _ IH). now apply (irregular_in n 0).
    - assert (Ix : In x (children n)) by (unfold children; apply in_or_app; right; apply in_or_app; auto).
      refine (J _ _ _ _ _ _ _ _ _ Ix F _ IH). apply chunk_in; [destruct K as [-> | ->]; reflexivity| |exact I]. inversion F as [? Gd _]; subst. apply Gd.
    - assert (Ix : In x (children n)) by (unfold children; apply in_or_app; right; apply in_or_app; right; apply in_map_iff; exists (l, x); auto).
      refine (J _ _ _ _ _ _ _ _ _ Ix F _ IH). now apply (item_any n l).
    - assert (Ix : In x (children n)) by (unfold children; apply in_or_app; left; apply in_map_iff; exists (l, x, r, z); auto).
      refine (J _ _ _ _ _ _ _ _ _ Ix F _ IH). now apply (element_in n l x r z).
  Qed.
End Tree.
