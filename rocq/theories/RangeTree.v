(** The tree that is written when only some lines are formatted. *)
From Verif Require Import Base Lib Config State Ast LuaLexer CommentLexer LuaParser Recon WriterBase LuaWriter Formatter RefuteSpec LexSpec LexLoop CommentSpec CommentProofs
  LayoutSpec LayoutProofs LayoutText UtilSpec UtilProofs RenderSpec FormatSpec RangeKeepSpec WriterFrame GapProofs RenderProofs RenderGeneral
  ReconProofs HintProofs ReconRange SpanProofs RangeProofs RangeGap FormatProofs RangeRender.

(** ** the text of a node, slot by slot *)
Definition slot_src (src : str) (s : slot) (x : str) : Prop :=
  match s with
  | STok t => token_ok t /\ inner t = true /\ x = spelling t
  | SGap (a, b) => x = text_at src a b
  | SSep z => x = z /\ comma_or_semicolon z
  | STrail z => x = z /\ (z = [] \/ comma_or_semicolon z)
  | SVoid => x = []
  end.
Lemma is_sep_text t z : is_sep t z -> comma_or_semicolon z.
Proof. intros [[-> | ->] ->]; [left|right]; reflexivity. Qed.
Lemma lay_segment src p ss e w w2 : lay p ss e w -> at_tokens src p (w ++ w2) -> clean w -> p <= List.length src ->
  exists xs, Forall2 (slot_src src) ss xs /\ List.concat xs = text_at src p e /\ p <= e /\ e <= List.length src.
Proof.
  assert (Step : forall l t r w, at_tokens src l ((l, t, r) :: w) -> inner t = true -> l <= r /\ r <= List.length src /\ token_ok t
    /\ text_at src l r = spelling t /\ at_tokens src r w).
  { clear. intros l t r w [[D _]|(q & T & Hq)] Hi; [discriminate|]. apply tiles_head in T as (H1 & H2 & H3 & H4 & _ & H5 & H6).
    repeat split; auto; [destruct H4 as [| ->]; [assumption|discriminate]|eapply inner_written; eauto|]. destruct H6 as [H6|H6]; [now left|right; eauto]. }
  assert (Put : forall l r e x xs (ss : list slot), l <= r -> x = text_at src l r -> List.concat xs = text_at src r e -> r <= e ->
    List.concat (x :: xs) = text_at src l e).
  { intros l r e0 x xs _ H1 -> H2 H3. cbn [List.concat]. rewrite H2. now apply text_at_join. }
  induction 1 as [p|a b ss e w Hb L IH|l t r ss e w L IH|l t z r ss e w Hz L IH|l t z r ss e w Hz L IH|p ss e w L IH|p ss e w L IH];
    intros A C Hp.
  - exists []. rewrite text_at_empty. repeat split; auto.
  - assert (a <= b /\ b <= List.length src /\ at_tokens src b (w ++ w2)) as (H1 & H2 & H3).
    { destruct Hb as [-> | B]; [auto|]. destruct B as (t & r & w' & ->). cbn [app] in *. destruct A as [[D _]|(q & T & Hq)]; [discriminate|].
      pose proof (tiles_head _ _ _ _ _ _ T) as (H1 & H2 & H3 & _ & H5 & _).
      destruct Hq as [-> |[(? & ? & ? & E) Hq]].
      - repeat split; auto; [lia|]. right. exists q. split; [exact T|]. right. split; [unfold LayoutSpec.begins; eauto|lia].
      - injection E as <- <- <- <-. split; [lia|split; [lia|]]. right. exists q. split; [exact T|]. right. split; [unfold LayoutSpec.begins; eauto|lia]. }
    destruct (IH H3 C H2) as (xs & F & Ex & H4 & H5). exists (text_at src a b :: xs). repeat split; [constructor; [reflexivity|exact F]|eapply Put; eauto|lia|lia].
  - inversion C as [|? ? Ht C']; subst. destruct (Step _ _ _ _ A Ht) as (H1 & H2 & H3 & H4 & H5). destruct (IH H5 C' H2) as (xs & F & Ex & H6 & H7).
    exists (spelling t :: xs). repeat split; [constructor; [cbn; auto|exact F]|eapply Put; eauto|lia|lia].
  - inversion C as [|? ? Ht C']; subst. destruct (Step _ _ _ _ A Ht) as (H1 & H2 & H3 & H4 & H5). destruct (IH H5 C' H2) as (xs & F & Ex & H6 & H7).
    exists (z :: xs). repeat split; [constructor; [cbn; eauto using is_sep_text|exact F]|eapply Put; eauto|lia|lia].
    rewrite H4. destruct Hz as [[-> | ->] ->]; reflexivity.
  - inversion C as [|? ? Ht C']; subst. destruct (Step _ _ _ _ A Ht) as (H1 & H2 & H3 & H4 & H5). destruct (IH H5 C' H2) as (xs & F & Ex & H6 & H7).
    exists (z :: xs). repeat split; [constructor; [cbn; eauto using is_sep_text|exact F]|eapply Put; eauto|lia|lia].
    rewrite H4. destruct Hz as [[-> | ->] ->]; reflexivity.
  - destruct (IH A C Hp) as (xs & F & Ex & H6 & H7). exists ([] :: xs). repeat split; auto. constructor; [cbn; auto|exact F].
  - destruct (IH A C Hp) as (xs & F & Ex & H6 & H7). exists ([] :: xs). repeat split; auto. constructor; [cbn; auto|exact F].
Qed.
Lemma tiles_suffix src w1 : forall p v, tiles src p (w1 ++ v) -> v <> [] -> exists q, tiles src q v.
Proof.
  induction w1 as [|[[l t] r] w1 IH]; intros p v T Hv; [eauto|]. cbn [app] in T. apply tiles_head in T as (_ & _ & _ & _ & _ & _ & [[T _]|T]); [|eauto].
  apply app_eq_nil in T as [_ T]. contradiction.
Qed.
Lemma node_segment src ts n : tiles src 0 ts -> placed ts n -> shebang_kind (n_kind n) = false ->
  exists xs, Forall2 (slot_src src) (layout n) xs /\ List.concat xs = text_at src (fst (n_span n)) (snd (n_span n))
    /\ fst (n_span n) <= snd (n_span n) /\ snd (n_span n) <= List.length src.
Proof.
  intros T P K. destruct (place src ts T n P K) as (H1 & H2 & _). inversion P as [m (w1 & w & w2 & E & Hw & Hc & Ly) _ _]. subst m. destruct Hc as [Hc|Hc]; [|congruence].
  apply lay_segment with (w := w) (w2 := w2); auto; [|lia]. right. subst ts. destruct Hw as [(t & r & w' & ->) _].
  destruct (tiles_suffix _ _ _ _ T) as [q Tq]; [discriminate|]. exists q. split; [exact Tq|]. right. cbn [app] in *.
  apply tiles_head in Tq as (Hq & _). split; [unfold LayoutSpec.begins; eauto|exact Hq].
Qed.

(** ** the marks of strings *)
Definition string_literal (t : token) : bool := match t with NormalStringLiteral _ | CharStringLiteral _ => true | _ => false end.
Definition mark_ok (r : rs) : Prop :=
  match fst r with
  | STok t => (snd r = [] /\ (forall s, t <> CharStringLiteral s)) \/ (snd r = spelling t /\ string_literal t = true)
  | _ => True
  end.
Definition strings_marked (src : str) (n : node) : Prop := forall x, within n x ->
  match n_kind x with
  | KNormalStringLiteral => text_at src (fst (n_span x)) (snd (n_span x)) = spelling (NormalStringLiteral (n_text x))
  | KCharStringLiteral => text_at src (fst (n_span x)) (snd (n_span x)) = spelling (CharStringLiteral (n_text x))
  | _ => True
  end.
Lemma marked_child src n x : strings_marked src n -> In x (children n) -> strings_marked src x.
Proof. intros H Hx y Hy. apply H. eapply wi_part; eauto. Qed.
Lemma placed_marked src ts n : tiles src 0 ts -> placed ts n -> strings_marked src n.
Proof.
  intros T P x Hx. assert (Px : placed ts x) by (induction Hx as [n|n m x Hm Hx IH]; [exact P|apply IH; inversion P; auto]).
  destruct x as [k sp ls t lv ks is ss o]. destruct k; try exact Logic.I.
  - exact (one_token src ts T _ (NormalStringLiteral t) Px eq_refl eq_refl).
  - exact (one_token src ts T _ (CharStringLiteral t) Px eq_refl eq_refl).
Qed.
Lemma ht_marked t : (forall s, t <> CharStringLiteral s) -> mark_ok (ht t). Proof. intros H. left. auto. Qed.
Lemma hg_marked l h : mark_ok (hg l h). Proof. exact Logic.I. Qed.
Lemma op_marked t : mark_ok (ht (op_token t)).
Proof.
  apply ht_marked. unfold op_token. destruct (find _ _) as [u|] eqn:E; [|discriminate]. apply find_some in E as [E _]. cbn in E.
  decompose [or] E; try contradiction; subst u; discriminate.
Qed.
Lemma nil_marked : Forall mark_ok nil_h. Proof. constructor; [apply ht_marked; discriminate|constructor]. Qed.
Lemma hfill_marked h ls K ps : Forall (fun p => match p with TT (CharStringLiteral _) => False | _ => True end) ps ->
  Forall (Forall mark_ok) K -> forall i j, Forall mark_ok (hfill h ls K i j ps).
Proof.
  intros Hp HK. induction Hp as [|p ps Hp H IH]; intros i j; [constructor|]. cbn [hfill]. apply Forall_app. split.
  - destruct p as [t|]; [constructor; [|constructor]; apply ht_marked; intros s ->; exact Hp|]. destruct (nth_in_or_default j K nil_h) as [Hj|Hj]; [|rewrite Hj; exact nil_marked].
    rewrite Forall_forall in HK. now apply HK.
  - destruct ps; constructor; auto using hg_marked.
Qed.
Lemma list_marked (f : node -> list rs) hh l : Forall (fun x => Forall mark_ok (f (snd x))) l -> Forall mark_ok (list_slots hh hg f l).
Proof.
  intros H. destruct H as [|[p x] l Hx H]; [constructor|]. cbn [list_slots snd] in *. constructor; [exact Logic.I|]. apply Forall_app. split; [exact Hx|].
  unfold rest_slots. induction H as [|[q y] l Hy H IH]; [constructor|]. cbn [flat_map fst snd] in *. constructor; [exact Logic.I|]. apply Forall_app. auto.
Qed.
Lemma seps_marked (f : node -> list rs) eh sps tr l : (forall z, Forall mark_ok (sps z)) -> (forall z, Forall mark_ok (tr z)) ->
  Forall (fun x => Forall mark_ok (f (snd (fst (fst x))))) l -> Forall mark_ok (seps_slots hg f eh sps tr l).
Proof.
  intros Hs Ht H. destruct H as [|[[[p x] q] z] l Hx H]; [constructor|]. cbn [seps_slots fst snd] in *.
  assert (R : forall z, Forall mark_ok (rest_sslots hg f eh sps tr z l)).
  { clear Hx. induction H as [|[[[p' x'] q'] z'] l Hx H IH]; intros w; cbn [rest_sslots fst snd] in *; [apply Ht|].
    repeat first [apply Forall_app; split | apply Forall_cons; [exact Logic.I|]]; auto. }
  repeat first [apply Forall_app; split | apply Forall_cons; [exact Logic.I|]]; auto.
Qed.
Lemma hlayout_marked src th n : strings_marked src n -> Forall mark_ok (hlayout (mk src) th n).
Proof.
  induction n as [k sp ls t lv ks is ss o Hk Hi Hs] using node_rect'. intros M.
  assert (C : forall x, In x (children (Nd k sp ls t lv ks is ss o)) -> strings_marked src x) by (intros x; apply marked_child; exact M).
  unfold children in C. cbn [n_seps n_kids n_items] in C. setoid_rewrite in_app_iff in C. setoid_rewrite in_app_iff in C.
  assert (FK : Forall (Forall mark_ok) (map (hlayout (mk src) th) ks)).
  { apply Forall_forall. intros y Hy. apply in_map_iff in Hy as (x & <- & Hx). rewrite Forall_forall in Hk. apply Hk; auto. }
  assert (FI : Forall (fun x => Forall mark_ok (hlayout (mk src) th (snd x))) is).
  { rewrite Forall_forall in *. intros x Hx. apply Hi; auto. apply C. right; right. now apply in_map. }
  assert (FS : Forall (fun x => Forall mark_ok (hlayout (mk src) th (snd (fst (fst x))))) ss).
  { rewrite Forall_forall in *. intros x Hx. apply Hs; auto. apply C. left. now apply (in_map si_node). }
  assert (FN : forall i, Forall mark_ok (nth i (map (hlayout (mk src) th) ks) nil_h)).
  { intros i. destruct (nth_in_or_default i (map (hlayout (mk src) th) ks) nil_h) as [Hj|Hj]; [|rewrite Hj; exact nil_marked]. rewrite Forall_forall in FK. now apply FK. }
  clear Hk Hi Hs C. specialize (M _ (wi_here _)). cbn [n_kind n_span n_text] in M.
  assert (S1 : forall t h, (forall s, t <> CharStringLiteral s) -> Forall mark_ok (seps_slots hg (hlayout (mk src) th) h (fun _ => [ht t]) (fun _ => []) ss)).
  { intros u h Hu. apply seps_marked; auto. intros _. constructor; [now apply ht_marked|constructor]. }
  destruct k; cbn [hlayout];
    repeat first [apply FN | apply list_marked; exact FI | apply S1; discriminate | apply hfill_marked; [apply template_plain|exact FK]
      | apply Forall_app; split | apply Forall_cons; [first [exact Logic.I | apply op_marked | apply ht_marked; discriminate | right; split; [exact M|reflexivity]]|] | apply Forall_nil].
  - apply seps_marked; auto; intros z; repeat constructor.
Qed.

(** ** nodes that may be copied *)
Lemma tok_spelling t : inner t = true -> tok_text t = spelling t. Proof. destruct t; auto; discriminate. Qed.
Lemma slots_copied c src rs xs : Forall2 (slot_src src) (map fst rs) xs -> Forall mark_ok rs -> Forall2 (rL c src) (map (hconv c) rs) xs.
Proof.
  revert xs. induction rs as [|[s h] rs IH]; intros xs F M; inversion F as [|? x ? xs' Hx F']; subst; [constructor|]. inversion M as [|? ? Hm M']; subst.
  cbn [map]. constructor; [|now apply IH]. unfold hconv, rL. cbn [fst snd] in *. destruct s as [t|[a b]|z|z|]; cbn [slot_src] in Hx.
  - destruct Hx as (Ht & Hi & ->). destruct (conv_token c t) as (t' & Et & Ht'). rewrite Et. split; [auto|].
    unfold mark_ok in Hm. cbn [fst snd] in Hm. destruct Hm as [[-> Hm]|[-> Hm]].
    + left. assert (t' = t) by (destruct t; cbn in Et; try (now injection Et); now elim (Hm s)). subst t'. symmetry. now apply tok_spelling.
    + right. split; [reflexivity|]. exists t. split; [exact Ht|]. symmetry. now apply tok_spelling.
  - subst x. intros gs _ ->. apply kept_verbatim.
  - destruct Hx as [-> Hz]. right. auto.
  - destruct Hx as [-> Hz]. right. auto.
  - subst x. apply white_nil.
Qed.
Lemma renders_all {A} (R L : A -> str -> Prop) nlc rs xs : Forall2 R rs xs -> WriterFrame.renders R L nlc rs (List.concat xs).
Proof.
  unfold WriterFrame.renders. generalize (@nil char) at 1 as pre. intros pre H. revert pre. induction H as [|r x rs xs Hx H IH]; intros pre; cbn [List.concat]; constructor; auto. now left.
Qed.
Lemma set_single_h mk th b n : hlayout mk th (set_single b n) = hlayout mk th n.
Proof. destruct n as [k sp ls t lv ks is ss o]. destruct k; reflexivity. Qed.
Lemma vb_single c src pr b n : vb c src pr n -> vb c src pr (set_single b n).
Proof.
  intros H. inversion H as [m H1 H2 H3]. subst m.
  assert (E : n_kind (set_single b n) = n_kind n /\ n_span (set_single b n) = n_span n /\ children (set_single b n) = children n)
    by (destruct n as [k sp ls t lv ks is ss o]; destruct k; repeat split).
  destruct E as (E1 & E2 & E3). constructor.
  - rewrite E1. intros K. specialize (H1 K). unfold copied in *. now rewrite E2, set_single_h.
  - now rewrite E1, E2.
  - now rewrite E3.
Qed.

(** the parts of the tree that is written *)
Section Kids.
  Variable c : config.
  Definition made (x y : node) : Prop := exists sc s, y = fst (recon c sc x s) \/ exists b, y = set_single b (fst (recon c sc x s)).
  Lemma rkids_made l : forall sc s y, In y (fst (rkids c sc l s)) -> exists x, In x l /\ exists sc s, y = fst (recon c sc x s).
  Proof.
    induction l as [|x l IH]; intros sc s y; [intros []|]. cbn [rkids]. destruct (recon c sc x s) as [x' s1] eqn:E. specialize (IH sc s1 y).
    destruct (rkids c sc l s1). cbn [fst] in *. intros [<-|Hy].
    - exists x. split; [now left|]. exists sc, s. now rewrite E.
    - destruct (IH Hy) as (z & Hz & K). exists z. split; [now right|exact K].
  Qed.
  Lemma ritems_made l : forall s y, In y (map snd (fst (ritems c l s))) -> exists x, In x (map snd l) /\ exists sc s, y = fst (recon c sc x s).
  Proof.
    induction l as [|[p x] l IH]; intros s y; [intros []|]. cbn [ritems]. destruct (recon c None x s) as [x' s1] eqn:E. specialize (IH s1 y).
    destruct (ritems c l s1). cbn [fst map snd] in *. intros [<-|Hy].
    - exists x. split; [now left|]. exists None, s. now rewrite E.
    - destruct (IH Hy) as (z & Hz & K). exists z. split; [now right|exact K].
  Qed.
  Lemma rseps_made l : forall sc s y, In y (map si_node (fst (rseps c sc l s))) -> exists x, In x (map si_node l) /\ exists sc s, y = fst (recon c sc x s).
  Proof.
    induction l as [|[[[p x] q] z] l IH]; intros sc s y; [intros []|]. cbn [rseps]. destruct (recon c sc x s) as [x' s1] eqn:E. specialize (IH sc s1 y).
    destruct (rseps c sc l s1). cbn [fst map snd si_node] in *. intros [<-|Hy].
    - exists x. split; [now left|]. exists sc, s. now rewrite E.
    - destruct (IH Hy) as (w & Hw & K). exists w. split; [now right|exact K].
  Qed.
  (* the children that are not reconstructed stay as they are *)
  Lemma recon_children n sc s y : In y (children (fst (recon c sc n s))) -> exists x, In x (children n) /\ (made x y \/ y = x).
  Proof.
    assert (W : forall l (x : node), (In x l /\ exists sc s, y = fst (recon c sc x s)) -> In x l /\ (made x y \/ y = x)).
    { intros l x [H (sc' & s' & E)]. split; [exact H|]. left. exists sc', s'. auto. }
    destruct n as [k sp ls t lv ks is ss o].
    assert (A : In y (children (fst (let '(ks', s1) := rkids c (match k with KFieldSequential => sc | _ => None end) ks (update_pos_range sp s) in
        let '(is', s2) := ritems c is s1 in
        let '(ss', s3) := rseps c None ss s2 in
        (Nd k sp ls t lv ks' is' ss' o, s3)))) -> exists x, In x (children (Nd k sp ls t lv ks is ss o)) /\ (made x y \/ y = x)).
    { pose proof (rkids_made ks (match k with KFieldSequential => sc | _ => None end) (update_pos_range sp s) y) as A1. destruct (rkids _ _ _ _) as [ks' s1].
      pose proof (ritems_made is s1 y) as A2. destruct (ritems _ _ _) as [is' s2].
      pose proof (rseps_made ss None s2 y) as A3. destruct (rseps _ _ _ _) as [ss' s3]. cbn [fst] in *.
      unfold children. cbn [n_seps n_kids n_items]. rewrite !in_app_iff. intros [H|[H|H]]; [apply A3 in H|apply A1 in H|apply A2 in H];
        destruct H as (x & Hx); apply W in Hx as [Hx1 Hx2]; exists x; rewrite !in_app_iff; auto. }
    rewrite recon_eq. destruct k; try exact A; clear A.
    - destruct (on c _); cbn [fst]; intros H; exists y; auto.
    - pose proof (rkids_made ks None (update_pos_range sp s)) as A. destruct (rkids _ _ _ _) as [ks' s1]. cbn [fst] in *.
      unfold children. cbn [n_seps n_kids n_items]. rewrite !in_app_iff. intros [H|[H|H]]; [exists y; rewrite !in_app_iff; auto| |exists y; rewrite !in_app_iff; auto].
      apply in_map_iff in H as (z & <- & Hz). destruct (A z Hz) as (x & Hx & sc' & s' & ->). exists x. rewrite !in_app_iff. split; [auto|]. left. exists sc', s'. right. eauto.
    - pose proof (rseps_made ss (Some (List.length ss =? 1)) s y) as A. destruct (rseps _ _ _ _) as [ss' s1]. cbn [fst] in *.
      unfold children. cbn [n_seps n_kids n_items]. rewrite !in_app_iff. intros [H|[H|H]]; [|exists y; rewrite !in_app_iff; auto|exists y; rewrite !in_app_iff; auto].
      apply A in H as (x & Hx). apply W in Hx as [Hx1 Hx2]. exists x. rewrite !in_app_iff. auto.
    - pose proof (rseps_made ss None (update_pos_range sp s) y) as A. destruct (rseps _ _ _ _) as [ss' s1].
      pose proof (rkids_made ks None s1 y) as B. destruct (rkids _ _ _ _) as [ks' s2]. cbn [fst] in *.
      unfold children. cbn [n_seps n_kids n_items]. rewrite !in_app_iff. intros [H|[H|H]]; [apply A in H|apply B in H|exists y; rewrite !in_app_iff; auto];
        destruct H as (x & Hx); apply W in Hx as [Hx1 Hx2]; exists x; rewrite !in_app_iff; auto.
    - pose proof (ritems_made is ((fst s + 1)%Z, snd s) y) as A. destruct (ritems _ _ _) as [is' s1]. cbn [fst] in *.
      unfold children. cbn [n_seps n_kids n_items]. rewrite !in_app_iff. intros [H|[H|H]]; [exists y; rewrite !in_app_iff; auto|exists y; rewrite !in_app_iff; auto|].
      apply A in H as (x & Hx). apply W in Hx as [Hx1 Hx2]. exists x. rewrite !in_app_iff. auto.
  Qed.
End Kids.

Lemma slots_raw c src rs xs : Forall2 (slot_src src) (map fst rs) xs -> Forall2 (rL c src) rs xs.
Proof.
  revert xs. induction rs as [|[s h] rs IH]; intros xs F; inversion F as [|? x ? xs' Hx F']; subst; constructor; [|now apply IH].
  unfold rL. cbn [fst snd] in *. destruct s as [t|[a b]|z|z|]; cbn [slot_src] in Hx.
  - destruct Hx as (Ht & Hi & ->). split; [auto|]. left. symmetry. now apply tok_spelling.
  - subst x. intros gs _ ->. apply kept_verbatim.
  - destruct Hx as [-> Hz]. right. auto.
  - destruct Hx as [-> Hz]. right. auto.
  - subst x. apply white_nil.
Qed.
Definition rounds_ok (pr : option loc) (n : node) : Prop :=
  forall x, within n x -> n_kind x = KVarRoundSuffix -> test_not_completely_contained pr (n_span x) = false.
Lemma rounds_child pr n x : rounds_ok pr n -> In x (children n) -> rounds_ok pr x.
Proof. intros H Hx y Hy. apply H. eapply wi_part; eauto. Qed.
Lemma range_not_shebang k : range_kind k = true -> shebang_kind k = false. Proof. destruct k; auto. Qed.
Theorem placed_vb src ts c pr n : tiles src 0 ts -> placed ts n -> rounds_ok pr n ->
  vb c src pr n /\ forall sc s, vb c src pr (fst (recon c sc n s)).
Proof.
  intros T P. induction P as [n Hw Hl Hc IH]. intros Hr.
  assert (Pn : placed ts n) by (constructor; auto).
  assert (Seg : shebang_kind (n_kind n) = false -> exists xs, Forall2 (slot_src src) (map fst (hlayout (mk src) (table_hint c) n)) xs
    /\ List.concat xs = text_at src (fst (n_span n)) (snd (n_span n)) /\ fst (n_span n) <= snd (n_span n) /\ snd (n_span n) <= List.length src).
  { rewrite hlayout_fst. now apply node_segment with (ts := ts). }
  split; [constructor|intros sc s; constructor].
  - intros K. destruct (Seg (range_not_shebang _ K)) as (xs & F & E & H1 & H2). repeat split; auto. rewrite <- E. apply renders_all. now apply slots_raw.
  - intros K. apply Hr; [apply wi_here|exact K].
  - intros x Hx. apply IH; [exact Hx|]. eapply rounds_child; eauto.
  - intros K. destruct (recon_alike c sc n s) as (E1 & _ & E2). unfold copied. rewrite E1.
    assert (K' : shebang_kind (n_kind n) = false) by (destruct E2 as [E2|E2]; [rewrite <- E2; now apply range_not_shebang|now rewrite E2]).
    destruct (Seg K') as (xs & F & E & H1 & H2). repeat split; auto. rewrite <- E, (proj1 (recon_hlayout c (mk src) (table_hint c) n sc s)).
    apply renders_all, slots_copied; [exact F|]. apply hlayout_marked. eapply placed_marked; eauto.
  - intros K. destruct (recon_alike c sc n s) as (E1 & _ & E2). rewrite E1. apply Hr; [apply wi_here|]. destruct E2 as [E2|E2]; [congruence|].
    exfalso. clear -K E2. destruct n as [k sp ls t lv ks is ss o]. cbn in E2. subst k. rewrite recon_eq in K. destruct (on c _) in K; discriminate.
  - intros y Hy. apply recon_children in Hy as (x & Hx & [(sc' & s' & [-> |(b & ->)])| ->]); [| apply vb_single |];
      apply IH; auto; eapply rounds_child; eauto.
Qed.

(** ** where the range ends *)
Section Update.
  Variables (Inv : prange -> Prop) (good : loc -> Prop) (c : config).
  Hypothesis good_update : forall sp s, good sp -> Inv (snd s) -> Inv (snd (update_pos_range sp s)).
  Definition lams (n : node) : Prop := forall y, within n y -> good (n_span y).
  Definition ap (n : node) : Prop := lams n -> forall sc s, Inv (snd s) -> Inv (snd (snd (recon c sc n s))).
  Lemma rkids_ap' l : Forall ap l -> Forall lams l -> forall sc s, Inv (snd s) -> Inv (snd (snd (rkids c sc l s))).
  Proof.
    induction 1 as [|x l Hx Hl IH]; intros M sc s A; [exact A|]. inversion M; subst. cbn [rkids]. specialize (Hx H1 sc s A).
    destruct (recon c sc x s) as [x' s1]. specialize (IH H2 sc s1 Hx). destruct (rkids c sc l s1). exact IH.
  Qed.
  Lemma ritems_ap' l : Forall (fun x => ap (snd x)) l -> Forall (fun x => lams (snd x)) l -> forall s, Inv (snd s) -> Inv (snd (snd (ritems c l s))).
  Proof.
    induction 1 as [|[p x] l Hx Hl IH]; intros M s A; [exact A|]. inversion M; subst. cbn [ritems]. cbn in *. specialize (Hx H1 None s A).
    destruct (recon c None x s) as [x' s1]. specialize (IH H2 s1 Hx). destruct (ritems c l s1). exact IH.
  Qed.
  Lemma rseps_ap' l : Forall (fun x => ap (snd (fst (fst x)))) l -> Forall (fun x => lams (snd (fst (fst x)))) l ->
    forall sc s, Inv (snd s) -> Inv (snd (snd (rseps c sc l s))).
  Proof.
    induction 1 as [|[[[p x] q] z] l Hx Hl IH]; intros M sc s A; [exact A|]. inversion M; subst. cbn [rseps]. cbn in *. specialize (Hx H1 sc s A).
    destruct (recon c sc x s) as [x' s1]. specialize (IH H2 sc s1 Hx). destruct (rseps c sc l s1). exact IH.
  Qed.
  Theorem recon_inv n : ap n.
  Proof.
    induction n as [k sp ls t lv ks is ss o Hk Hi Hs] using node_rect'. intros M sc s A0.
    assert (P : forall x, In x (children (Nd k sp ls t lv ks is ss o)) -> lams x) by (intros x Hx y Hy; apply M; eapply wi_part; eauto).
    pose proof (good_update sp s (M _ (wi_here _)) A0) as U. clear M.
    unfold children in P. cbn [n_seps n_kids n_items] in P. setoid_rewrite in_app_iff in P. setoid_rewrite in_app_iff in P.
    assert (Fs : Forall (fun x => lams (snd (fst (fst x)))) ss) by (apply Forall_forall; intros x Hx; apply P; left; now apply (in_map si_node)).
    assert (Fk : Forall lams ks) by (apply Forall_forall; intros x Hx; apply P; auto).
    assert (Fi : Forall (fun x => lams (snd x)) is) by (apply Forall_forall; intros x Hx; apply P; right; right; now apply in_map).
    clear P.
    assert (A : Inv (snd (snd (let '(ks', s1) := rkids c (match k with KFieldSequential => sc | _ => None end) ks (update_pos_range sp s) in
        let '(is', s2) := ritems c is s1 in
        let '(ss', s3) := rseps c None ss s2 in
        (Nd k sp ls t lv ks' is' ss' o, s3))))).
    { pose proof (rkids_ap' _ Hk Fk (match k with KFieldSequential => sc | _ => None end) _ U) as A1. destruct (rkids _ _ _ _) as [ks' s1].
      pose proof (ritems_ap' _ Hi Fi s1 A1) as A2. destruct (ritems _ _ _) as [is' s2].
      pose proof (rseps_ap' _ Hs Fs None s2 A2) as A3. destruct (rseps _ _ _ _) as [ss' s3]. exact A3. }
    rewrite recon_eq. destruct k; try exact A; clear A.
    - destruct (on c _); exact U.
    - pose proof (rkids_ap' _ Hk Fk None _ U) as A. destruct (rkids _ _ _ _). exact A.
    - pose proof (rseps_ap' _ Hs Fs (Some (List.length ss =? 1)) s A0) as A. destruct (rseps _ _ _ _). exact A.
    - pose proof (rseps_ap' _ Hs Fs None _ U) as A. destruct (rseps _ _ _ _) as [ss' s1].
      pose proof (rkids_ap' _ Hk Fk None s1 A) as B. destruct (rkids _ _ _ _). exact B.
    - pose proof (ritems_ap' _ Hi Fi ((fst s + 1)%Z, snd s) A0) as A. destruct (ritems _ _ _). exact A.
  Qed.
  Lemma rkids_inv l : Forall lams l -> forall sc s, Inv (snd s) -> Inv (snd (snd (rkids c sc l s))).
  Proof. apply rkids_ap'. apply Forall_forall. intros x _. apply recon_inv. Qed.
  Lemma ritems_inv l : Forall (fun x => lams (snd x)) l -> forall s, Inv (snd s) -> Inv (snd (snd (ritems c l s))).
  Proof. apply ritems_ap'. apply Forall_forall. intros x _. apply recon_inv. Qed.
End Update.
Definition laminar (x y : loc) : Prop :=
  snd y <= fst x \/ snd x <= fst y \/ (fst x <= fst y /\ snd y <= snd x) \/ (fst y <= fst x /\ snd x <= snd y).
(** the range does not end in [x] *)
Definition apart (x : loc) (pr : prange) : Prop :=
  match pr with Some (l, r) => ~ (fst x < l < snd x) /\ ~ (fst x < r < snd x) | None => True end.
Lemma apart_contained x pr : apart x pr -> test_not_completely_contained pr x = false.
Proof.
  destruct pr as [[l r]|]; [|reflexivity]. unfold test_not_completely_contained, apart. intros [H1 H2]. apply orb_false_iff.
  split; apply not_true_is_false; rewrite andb_true_iff, !Nat.ltb_lt; lia.
Qed.
Lemma apart_update x sp s : laminar x sp -> apart x (snd s) -> apart x (snd (update_pos_range sp s)).
Proof.
  intros La. destruct s as [lv [[l e]|]]; cbn [update_pos_range snd]; [|destruct (Z.eqb lv 1); auto].
  destruct (Z.eqb lv 1); [|auto]. destruct ((_ <? _) && (_ <? _)) eqn:E; [|auto].
  apply andb_true_iff in E as [E1 E2]. apply Nat.ltb_lt in E1, E2. unfold laminar in La. cbn in *. lia.
Qed.
(** [y] is in the range or outside of it *)
Definition decided (y : loc) (pr : prange) : Prop :=
  match pr with Some (l, r) => l <= r /\ (snd y <= l \/ r <= fst y \/ (l <= fst y /\ snd y <= r)) | None => True end.
Definition rising (pr : prange) : Prop := match pr with Some (l, r) => l <= r | None => True end.
Lemma rising_update sp s : True -> rising (snd s) -> rising (snd (update_pos_range sp s)).
Proof.
  intros _. destruct s as [lv [[l e]|]]; cbn [update_pos_range snd]; [|destruct (Z.eqb lv 1); auto].
  destruct (Z.eqb lv 1); [|auto]. destruct ((_ <? _) && (_ <? _)); [|auto]. cbn. lia.
Qed.
Lemma recon_rising c n sc s : rising (snd s) -> rising (snd (snd (recon c sc n s))).
Proof. apply (recon_inv rising (fun _ => True) c rising_update). intros ? ?. exact Logic.I. Qed.
Lemma decided_update y sp s : fst y <= snd y /\ laminar y sp -> decided y (snd s) -> decided y (snd (update_pos_range sp s)).
Proof.
  intros La. destruct s as [lv [[l e]|]]; cbn [update_pos_range snd]; [|destruct (Z.eqb lv 1); auto].
  destruct (Z.eqb lv 1); [|auto]. destruct ((_ <? _) && (_ <? _)) eqn:E; [|auto].
  apply andb_true_iff in E as [E1 E2]. apply Nat.ltb_lt in E1, E2. unfold laminar in La. cbn in *. lia.
Qed.
Lemma decided_apart y pr x : decided y pr -> fst y <= fst x -> snd x <= snd y -> apart x pr.
Proof. destruct pr as [[l r]|]; cbn; [lia|auto]. Qed.
Lemma update_decides sp s : fst s = 1%Z -> rising (snd s) -> decided sp (snd (update_pos_range sp s)).
Proof.
  destruct s as [lv [[l e]|]]; cbn [update_pos_range fst snd]; intros -> Hr; cbn [Z.eqb Pos.eqb]; [|exact Logic.I].
  cbn [rising] in Hr. destruct ((_ <? _) && (_ <? _)) eqn:E; cbn [decided snd]; [lia|]. apply andb_false_iff in E as [E|E]; apply Nat.ltb_ge in E; lia.
Qed.
Lemma update_twice sp s : update_pos_range sp (update_pos_range sp s) = update_pos_range sp s.
Proof.
  destruct s as [lv [[l e]|]]; unfold update_pos_range; destruct (Z.eqb lv 1) eqn:Z; rewrite ?Z; auto.
  destruct ((_ <? _) && (_ <? _)) eqn:E; rewrite ?Z, ?E; [|reflexivity].
  destruct ((fst sp <? Nat.max _ _) && _); [|reflexivity]. f_equal. f_equal. f_equal; lia.
Qed.
Lemma recon_updated c sc n s : n_kind n <> KStatementList -> n_kind n <> KFields -> recon c sc n s = recon c sc n (update_pos_range (n_span n) s).
Proof.
  destruct n as [k sp ls t lv ks is ss o]. cbn [n_kind n_span]. intros H1 H2. rewrite !recon_eq. rewrite update_twice. destruct k; try reflexivity; congruence.
Qed.
Lemma laminar_sym x y : laminar x y -> laminar y x.
Proof. unfold laminar. lia. Qed.
Lemma within_inside n x : nested n -> within n x -> fst (n_span n) <= fst (n_span x) /\ snd (n_span x) <= snd (n_span n).
Proof.
  intros N W. induction W as [n|n m x Hm W IH]; [lia|]. inversion N as [n' O C E]; subst. destruct (IH (C m Hm)) as [I1 I2].
  apply ordered_inside in O. rewrite Forall_forall in O. destruct (O (n_span m)) as [J1 J2]; [now apply in_map|]. lia.
Qed.
Lemma ordered_two l : forall a b (x y : node), ordered a b (map n_span l) -> In x l -> In y l ->
  x = y \/ snd (n_span x) <= fst (n_span y) \/ snd (n_span y) <= fst (n_span x).
Proof.
  induction l as [|z l IH]; intros a b x y O; [intros []|]. cbn [map] in O. apply ordered_cons in O as (O1 & O2 & O3).
  pose proof (ordered_inside _ _ _ O3) as F. rewrite Forall_forall in F.
  intros [<-|Hx] [<-|Hy]; [now left| | |eapply IH; eauto].
  - right; left. apply (F (n_span y)). now apply in_map.
  - right; right. apply (F (n_span x)). now apply in_map.
Qed.
Lemma list_laminar l a b : ordered a b (map n_span l) -> Forall nested l -> (forall m x y, In m l -> within m x -> within m y -> laminar (n_span x) (n_span y)) ->
  forall m m' x y, In m l -> In m' l -> within m x -> within m' y -> laminar (n_span x) (n_span y).
Proof.
  intros O N Same m m' x y Hm Hm' Hx Hy. rewrite Forall_forall in N.
  destruct (ordered_two _ _ _ _ _ O Hm Hm') as [-> |[E|E]]; [eapply Same; eauto| |];
    pose proof (within_inside _ _ (N _ Hm) Hx); pose proof (within_inside _ _ (N _ Hm') Hy); unfold laminar; lia.
Qed.
Lemma nested_laminar n : nested n -> forall x y, within n x -> within n y -> laminar (n_span x) (n_span y).
Proof.
  induction 1 as [n O C IH]. assert (Nn : nested n) by (constructor; auto). intros x y Hx Hy.
  pose proof (within_inside _ _ Nn Hx) as Ix. pose proof (within_inside _ _ Nn Hy) as Iy.
  inversion Hx as [|? m ? Hm Wx]; subst; [unfold laminar; lia|]. inversion Hy as [|? m' ? Hm' Wy]; subst; [unfold laminar; lia|].
  assert (Fn : Forall nested (children n)) by (apply Forall_forall; exact C).
  exact (list_laminar (children n) _ _ O Fn (fun m x y H => IH m H x y) m m' x y Hm Hm' Wx Wy).
Qed.

Lemma text_in (src : str) a b k z : a <= k -> k < b -> nth_error src k = Some z -> In z (text_at src a b).
Proof.
  intros H1 H2 E. assert (L : k < List.length src) by (apply nth_error_Some; congruence).
  replace (text_at src a b) with (text_at src a k ++ [z] ++ text_at src (S k) b); [apply in_or_app; right; now left|].
  replace [z] with (text_at src k (S k)).
  - rewrite !text_at_join; [reflexivity|lia..].
  - apply nth_error_split in E as (u & v & -> & <-). unfold text_at. rewrite skipn_app, skipn_all, Nat.sub_diag. replace (S (List.length u) - List.length u) with 1 by lia. reflexivity.
Qed.

Definition one_line (src : str) (x : loc) : Prop := ~ In 10%N (text_at src (fst x) (snd x)).
Lemma line_range_apart src lr x : one_line src x -> snd x <= List.length src -> apart x (line_range_to_pos_range src lr).
Proof.
  intros H Hx. destruct lr as [[L R]|]; [|exact Logic.I]. destruct (line_range_spec src L R) as (a & b & -> & _ & A1 & A2 & B1 & B2).
  assert (E : forall k e, line_end src k e -> ~ (fst x < e < snd x)).
  { intros k e (_ & _ & [E|E]) He; [lia|]. apply H. eapply text_in; [| |exact E]; lia. }
  assert (DA : ((1 < L <= R /\ L <= N.of_nat (lines src)) \/ ~ (1 < L <= R /\ L <= N.of_nat (lines src)))%N) by lia.
  assert (DB : ((1 <= R /\ L <= R /\ R <= N.of_nat (lines src)) \/ ~ (1 <= R /\ L <= R /\ R <= N.of_nat (lines src)))%N) by lia.
  split; [destruct DA as [D|D]; [eauto|rewrite (A2 D); lia]|destruct DB as [D|D]; [eauto|rewrite (B2 D); lia]].
Qed.

(** ** the whole tree *)
Lemma dummy_list e : forall x, within (nlist KStatementList (e, e) []) x -> x = nlist KStatementList (e, e) [].
Proof. intros x W. inversion W as [|? m ? Hm _]; subst; [reflexivity|]. destruct Hm. Qed.
Lemma ritems_decided c y its : forall s, fst s = 1%Z -> rising (snd s) -> Forall (fun x => lams (fun z => fst y <= snd y /\ laminar y z) (snd x)) its ->
  (exists m, In m (map snd its) /\ n_span m = y /\ n_kind m <> KStatementList /\ n_kind m <> KFields) ->
  decided y (snd (snd (ritems c its s))).
Proof.
  induction its as [|[p x] its IH]; intros s Hs Hr La (m & Hm & E & K1 & K2); [destruct Hm|]. inversion La as [|? ? L1 L2]; subst. cbn [map snd] in Hm. cbn [ritems].
  destruct Hm as [->|Hm].
  - assert (D : decided (n_span m) (snd (snd (recon c None m s)))).
    { rewrite (recon_updated c None m s K1 K2). apply (recon_inv (decided (n_span m)) _ c (decided_update (n_span m)) m L1). now apply update_decides. }
    destruct (recon c None m s) as [x' s1]. cbn [snd] in D. pose proof (ritems_inv (decided (n_span m)) _ c (decided_update (n_span m)) its L2 s1 D) as R.
    destruct (ritems c its s1). exact R.
  - pose proof (recon_lvl c x None s) as Lv. pose proof (recon_rising c x None s Hr) as Hr1. destruct (recon c None x s) as [x' s1]. cbn [fst snd] in Lv, Hr1.
    assert (R : decided (n_span m) (snd (snd (ritems c its s1)))) by (apply IH; [exact (eq_trans Lv Hs)|exact Hr1|exact L2|eauto]). destruct (ritems c its s1). exact R.
Qed.
Lemma list_statement c a y s : n_kind a = KStatementList -> fst s = 0%Z -> rising (snd s) -> In y (list_statements a) ->
  forallb (fun x => stat_kind (n_kind (snd x))) (n_items a) = true -> lams (fun z => fst (n_span y) <= snd (n_span y) /\ laminar (n_span y) z) a ->
  decided (n_span y) (snd (snd (recon c None a s))).
Proof.
  intros Ka Hs Hr Hy Hk La. unfold list_statements in Hy. apply filter_In in Hy as [Hy K]. rewrite forallb_forall in Hk.
  destruct a as [k sp ls t lv ks is ss o]. cbn [n_kind n_items] in *. subst k. rewrite recon_eq.
  assert (D : decided (n_span y) (snd (snd (ritems c is ((fst s + 1)%Z, snd s))))).
  { apply ritems_decided.
    - cbn. now rewrite Hs.
    - exact Hr.
    - apply Forall_forall. intros x Hx z Hz. apply La. eapply wi_part; [|exact Hz]. unfold children. cbn [n_seps n_kids n_items]. rewrite !in_app_iff. right; right. now apply in_map.
    - exists y. repeat split; [exact Hy|intros E; now rewrite E in K|]. apply in_map_iff in Hy as (x & <- & Hx). specialize (Hk _ Hx). intros E. rewrite E in Hk. discriminate. }
  destruct (ritems c is _). exact D.
Qed.
Lemma block_statement c ts b y s : placed ts b -> fst s = 0%Z -> rising (snd s) -> In y (block_statements b) ->
  lams (fun z => fst (n_span y) <= snd (n_span y) /\ laminar (n_span y) z) b -> decided (n_span y) (snd (snd (recon c None b s))).
Proof.
  intros P Hs Hr Hy La. inversion P as [m _ Lo Pc]. subst m. unfold block_statements in Hy. destruct (n_kind b) eqn:Kb; try (now destruct Hy).
  - unfold local in Lo. rewrite Kb in Lo. apply list_statement; auto. apply Lo.
  - unfold local in Lo. rewrite Kb in Lo. destruct Lo as (a & r & Ek & _ & _ & Ka & _ & Ei & Es). rewrite Ek in Hy.
    assert (Pa : placed ts a) by (apply Pc; unfold children; rewrite Ek, !in_app_iff; right; left; now left).
    assert (Ka' : n_kind a = KStatementList) by (destruct (n_kind a); congruence || discriminate).
    assert (Cs : forall m, In m [a; r] -> In m (children b)) by (intros m Hm; unfold children; rewrite Ek, !in_app_iff; auto).
    assert (D : decided (n_span y) (snd (snd (recon c None a s)))).
    { inversion Pa as [m _ La' _]. subst m. unfold local in La'. rewrite Ka' in La'. apply list_statement; auto; [apply La'|].
      intros z Hz. apply La. eapply wi_part; [apply Cs; now left|exact Hz]. }
    assert (Lr : lams (fun z => fst (n_span y) <= snd (n_span y) /\ laminar (n_span y) z) r) by (intros z Hz; apply La; eapply wi_part; [apply Cs; right; now left|exact Hz]).
    destruct b as [k sp ls t lv ks is ss o]. cbn [n_kind n_kids n_items n_seps] in *. subst k ks is ss. rewrite recon_eq.
    destruct s as [l0 pr]. cbn [fst] in Hs. subst l0. cbn [update_pos_range Z.eqb rkids ritems rseps].
    destruct (recon c None a (0%Z, pr)) as [a' s1]. cbn [snd] in D.
    pose proof (recon_inv (decided (n_span y)) _ c (decided_update (n_span y)) r Lr None s1 D) as R. destruct (recon c None r s1). exact R.
Qed.
Lemma nested_le n : nested n -> fst (n_span n) <= snd (n_span n).
Proof. intros N. inversion N as [m O _]. subst m. now apply ordered_le in O. Qed.
Lemma nested_within n x : nested n -> within n x -> nested x.
Proof. intros N W. induction W as [n|n m x Hm W IH]; [exact N|]. inversion N; subst; auto. Qed.
Theorem written_vb src c n lr : parse_lua src = Parsed n -> prefixes_kept src n ->
  forall n' s', recon c None n (0%Z, line_range_to_pos_range src lr) = (n', s') ->
  vb c src (snd s') n' /\ strings_marked src n.
Proof.
  intros Hp One n' s' Er.
  destruct (tree_placed src n Hp) as (ts & Lx & C). destruct (parse_lua_layout src n Hp) as (ts' & Lx' & _ & [No Nc]).
  assert (ts' = ts) by congruence. subst ts'. pose proof (lex_tiles src ts Lx) as T.
  (* the children of the root *)
  assert (Kids : (exists e, n_kids n = [nlist KStatementList (e, e) []]) \/ Forall (placed ts) (n_kids n)).
  { destruct C as [_ [(_ & e & E)|[(_ & b & q & r & E & _ & _ & _ & P)|(_ & a & b & q & r & E & _ & _ & _ & _ & Pa & Pb)]]]; [left; eauto|right; rewrite E; auto..]. }
  destruct C as [[Ei Es] C].
  assert (Kn : n_kind n = KChunk \/ n_kind n = KSheBangChunk) by (destruct C as [[-> _]|[[-> _]|[-> _]]]; auto). clear C.
  assert (Ec : children n = n_kids n) by (unfold children; now rewrite Es, Ei, app_nil_r). rewrite Ec in No, Nc.
  assert (Mk : strings_marked src n).
  { intros x W. inversion W as [|? m ? Hm Wx]; subst; [now destruct Kn as [-> | ->]|]. rewrite Ec in Hm. destruct Kids as [(e & E)|F].
    - rewrite E in Hm. destruct Hm as [<-|[]]. apply dummy_list in Wx. subst x. exact Logic.I.
    - rewrite Forall_forall in F. exact (placed_marked src ts m T (F m Hm) x Wx). }
  split; [|exact Mk].
  assert (Hr0 : rising (line_range_to_pos_range src lr)).
  { destruct lr as [[L R]|]; [|exact Logic.I]. destruct (line_range_spec src L R) as (a & b & -> & H & _). cbn. lia. }
  (* the range does not end in such an expression *)
  assert (La : forall m x, In m (n_kids n) -> within m x -> Forall (lams (laminar (n_span x))) (n_kids n)).
  { intros m x Hm Wx. apply Forall_forall. intros m' Hm' y Wy. refine (list_laminar (n_kids n) _ _ No Nc _ m m' x y Hm Hm' Wx Wy).
    intros m0 x0 y0 H0. apply nested_laminar. rewrite Forall_forall in Nc. now apply Nc. }
  assert (Rd : forall m, In m (n_kids n) -> rounds_ok (snd s') m).
  { intros m Hm x Wx Kx. apply apart_contained.
    assert (Wn : within n x) by (eapply wi_part; [rewrite Ec; exact Hm|exact Wx]).
    destruct (One x Wn Kx) as [One' |(y & Hy & Wy)].
    - assert (Bx : snd (n_span x) <= List.length src).
      { rewrite Forall_forall in Nc. pose proof (within_inside _ _ (Nc _ Hm) Wx). apply ordered_inside in No. rewrite Forall_forall in No.
        destruct (No (n_span m)) as [_ H1]; [now apply in_map|]. lia. }
      pose proof (line_range_apart src lr (n_span x) One' Bx) as A0. specialize (La m x Hm Wx).
      destruct n as [k sp ls t lv ks is ss o]. cbn [n_kind n_kids n_items n_seps] in *. subst is ss. rewrite recon_eq in Er.
      destruct Kn as [-> | ->]; cbn [update_pos_range Z.eqb] in Er;
        pose proof (rkids_inv (apart (n_span x)) _ c (apart_update (n_span x)) ks La None (0%Z, line_range_to_pos_range src lr) A0) as A;
        destruct (rkids c None ks _) as [ks' s1]; cbn [ritems rseps] in Er; injection Er as <- <-; exact A.
    - assert (Sub : forall b, In y (block_statements b) -> within b y).
      { intros b Hb. unfold block_statements, list_statements in Hb. destruct (n_kind b); try (now destruct Hb).
        - apply filter_In in Hb as [Hb _]. apply (wi_part _ y); [|apply wi_here]. unfold children. rewrite !in_app_iff. auto.
        - destruct (n_kids b) as [|a [|r [|]]] eqn:Ek; try (now destruct Hb). apply filter_In in Hb as [Hb _].
          apply (wi_part _ a); [unfold children; rewrite Ek, !in_app_iff; right; left; now left|]. apply (wi_part _ y); [|apply wi_here].
          unfold children. rewrite !in_app_iff. auto. }
      assert (Top : exists b, In b (n_kids n) /\ In y (block_statements b) /\ (n_kids n = [b] \/ exists a, n_kids n = [a; b])).
      { unfold top_statements in Hy. destruct (n_kind n); try (now destruct Hy); destruct (n_kids n) as [|b1 [|b2 [|]]]; try (now destruct Hy).
        - exists b1. repeat split; auto. now left.
        - exists b2. repeat split; eauto. right; now left. }
      destruct Top as (b & Hb & Hyb & Ekids). pose proof (Sub b Hyb) as Wby. rewrite Forall_forall in Nc.
      pose proof (nested_within b y (Nc b Hb) Wby) as Ny. pose proof (nested_le y Ny) as Ly.
      assert (La' : Forall (lams (fun z => fst (n_span y) <= snd (n_span y) /\ laminar (n_span y) z)) (n_kids n)).
      { eapply Forall_impl; [|exact (La b y Hb Wby)]. intros m' H z Hz. split; [exact Ly|]. now apply H. }
      assert (D : decided (n_span y) (snd s')).
      { destruct Kids as [(e & E)|F].
        { rewrite E in Hb. destruct Hb as [<-|[]]. destruct Hyb. }
        assert (Lb : lams (fun z => fst (n_span y) <= snd (n_span y) /\ laminar (n_span y) z) b) by (rewrite Forall_forall in La'; now apply La').
        assert (Pb : placed ts b) by (rewrite Forall_forall in F; now apply F).
        destruct n as [k sp ls t lv ks is ss o]. cbn [n_kind n_kids n_items n_seps] in *. subst is ss. rewrite recon_eq in Er.
        assert (Er' : (let '(ks', s1) := rkids c None ks (0%Z, line_range_to_pos_range src lr) in (Nd k sp ls t lv ks' [] [] o, s1)) = (n', s'))
          by (destruct Kn as [-> | ->]; cbn [update_pos_range Z.eqb ritems rseps] in Er; destruct (rkids _ _ _ _); exact Er).
        clear Er. destruct Ekids as [-> |(a & ->)]; cbn [rkids] in Er'.
        - pose proof (block_statement c ts b y (0%Z, line_range_to_pos_range src lr) Pb eq_refl Hr0 Hyb Lb) as D.
          destruct (recon c None b _) as [b' s1]. injection Er' as _ <-. exact D.
        - pose proof (recon_lvl c a None (0%Z, line_range_to_pos_range src lr)) as Lv. pose proof (recon_rising c a None (0%Z, line_range_to_pos_range src lr) Hr0) as Hr1.
          destruct (recon c None a _) as [a' s1]. cbn [fst snd] in Lv, Hr1.
          pose proof (block_statement c ts b y s1 Pb Lv Hr1 Hyb Lb) as D. destruct (recon c None b s1) as [b' s2]. injection Er' as _ <-. exact D. }
      pose proof (within_inside y x Ny Wy). eapply decided_apart; [exact D|lia|lia]. }
  pose proof (recon_children c n None (0%Z, line_range_to_pos_range src lr)) as Ch. pose proof (recon_alike c None n (0%Z, line_range_to_pos_range src lr)) as (_ & _ & Al).
  rewrite Er in Ch, Al. cbn [fst] in Ch, Al.
  assert (Kn' : n_kind n' = KChunk \/ n_kind n' = KSheBangChunk) by (destruct Al as [Al|Al]; [now rewrite Al|destruct Kn; congruence]).
  constructor; [destruct Kn' as [-> | ->]; discriminate..|].
  intros y Hy. destruct (Ch y Hy) as (x & Hx & K). rewrite Ec in Hx. destruct Kids as [(e & E)|F].
  - rewrite E in Hx. destruct Hx as [<-|[]].
    assert (V : forall m, m = nlist KStatementList (e, e) [] -> vb c src (snd s') m).
    { intros m ->. constructor; [|discriminate|intros z []]. intros _. split; [apply le_n|]. split; [now right|]. cbn [n_span fst snd nlist]. rewrite text_at_empty. constructor. }
    destruct K as [(sc & s & [-> |(b & ->)])| ->]; apply V; reflexivity.
  - rewrite Forall_forall in F. destruct (placed_vb src ts c (snd s') x T (F x Hx) (Rd x Hx)) as [V1 V2].
    destruct K as [(sc & s & [-> |(b & ->)])| ->]; [apply V2|apply vb_single, V2|exact V1].
Qed.

Lemma tok_nonempty t : token_ok t -> tok_text t <> [].
Proof.
  destruct t; cbn; try discriminate; intros H E.
  - now subst.
  - subst. destruct H as (st & [= <-] & H). discriminate.
  - apply app_eq_nil in E as [_ E]. discriminate.
  - exact H.
Qed.

Theorem range_kept src c o : ascii src -> (forall n, parse_lua src = Parsed n -> prefixes_kept src n) ->
  process_buffer src c = Formatted o -> output_kept c src o.
Proof.
  intros Ha One E. unfold process_buffer in E. destruct (parse_lua src) as [n| |] eqn:P; try discriminate.
  unfold reconstruct in E. destruct (recon c None n (0%Z, line_range_to_pos_range src (line_range c))) as [n' s'] eqn:Er.
  destruct (written_vb src c n _ P (One n eq_refl) n' s' Er) as [V M].
  destruct (write _ _ _ _ _) as [[[]| | |] w] eqn:W; try discriminate. injection E as <-.
  assert (El : layout n' = map (conv c) (layout n)) by (pose proof (recon_layout c n None (0%Z, line_range_to_pos_range src (line_range c))) as A; now rewrite Er in A).
  pose proof (recon_hlayout c (mk src) (table_hint c) n None (0%Z, line_range_to_pos_range src (line_range c))) as [Eh _]. rewrite Er in Eh. cbn [fst] in Eh.
  pose proof (proj2 (tree_reads src n P)) as Ok.
  assert (HG : gG src (layout n')) by (rewrite El; now apply conv_ok).
  apply (ranged_wr c src (snd s') Ha _ c n' (kin_self c) (or_introl V) HG) in W; [|split; reflexivity]. destruct W as [_ W]. apply adds_from_nil in W.
  destruct (rn_loose _ _ _ (rRL c src) _ _ _ _ W) as (xs & F & ->). exists n, xs. repeat split; auto.
  rewrite Eh in F. apply hlayout_marked with (th := table_hint c) in M. rewrite <- (hlayout_fst (mk src) (table_hint c) n) in *. clear - F M Ok.
  revert xs F. induction (hlayout (mk src) (table_hint c) n) as [|[s h] rs IH]; intros xs F; inversion F as [|? x ? xs' Hx F']; subst; cbn [map]; constructor.
  - inversion M as [|? ? Hm _]; subst. inversion Ok as [|? ? Ho _]; subst. unfold rL, hconv in Hx. cbn [fst snd] in *. unfold mark_ok in Hm. cbn [fst snd] in Hm.
    destruct s as [t|[a b]|z|z|]; cbn [conv] in Hx.
    + destruct (conv_token c t) as (t' & Et & Ht'). cbn [conv] in Et. rewrite Et in Hx. destruct Hx as [Hok Hx]. cbn [slot_kept].
      assert (Out : forall u, tok_text u = token_out u) by (intros u; now destruct u).
      destruct Hx as [-> |(-> & t0 & H0 & E0)].
      * exists t'. rewrite <- Out. split; [right|reflexivity]. now apply conv_becomes.
      * exists t. rewrite <- Out. split; [now left|]. destruct Hm as [[-> _]|[-> Hl]]; [exfalso; eapply tok_nonempty; eauto|]. symmetry. apply tok_spelling. now destruct t.
    + destruct Ho as (_ & _ & gs & Hg & Et). exists gs. repeat split; auto. exact (Hx gs (gap_at_last _ _ _ Hg) Et).
    + cbn. tauto.
    + cbn. tauto.
    + exact Hx.
  - inversion M; inversion Ok; subst. apply IH; auto.
Qed.

(** a text without a last [return] and without packed statements is always kept *)
Lemma plain_kept src n b : n_kind n = KChunk -> n_kids n = [b] -> children n = [b] -> n_kind b = KStatementList -> children b = list_statements b ->
  prefixes_kept src n.
Proof.
  intros K1 K2 K3 K4 K5 x W K. inversion W as [|? m ? Hm Wm]; subst; [congruence|]. rewrite K3 in Hm. destruct Hm as [<-|[]].
  inversion Wm as [|? y ? Hy Wy]; subst; [congruence|]. right. exists y. split; [|exact Wy]. rewrite K5 in Hy. unfold top_statements, block_statements. now rewrite K1, K2, K4.
Qed.
