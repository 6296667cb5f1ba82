(** Trees of the same program have the same pieces, at other places. *)
From Verif Require Import Base Config State LuaLexer Ast LexSpec LayoutSpec LayoutProofs RenderProofs FormatSpec SafeSpec PrettySpec PrettyProofs CanonFrame ReparseFrame.

Definition same_kind (a b : piece) : Prop :=
  match a, b with
  | PTok w, PTok w' => w = w'
  | PGap _ d h, PGap _ d' h' => d = d' /\ h = h'
  | PLine _ d, PLine _ d' => d = d'
  | PFull _ d h, PFull _ d' h' => d = d' /\ h = h'
  | PEmpty _ d h, PEmpty _ d' h' => d = d' /\ h = h'
  | _, _ => False
  end.
Notation same_kinds := (Forall2 same_kind).
Lemma same_refl a : same_kind a a. Proof. destruct a; cbn; auto. Qed.
Lemma sames_refl l : same_kinds l l. Proof. induction l; constructor; auto using same_refl. Qed.
Lemma same_glue b p p' d h : same_kind (gap_or_line b p d h) (gap_or_line b p' d h). Proof. now destruct b; cbn. Qed.

Section Tree.
  Variable c : config.
  Definition akin (n n' : node) : Prop := n_kind n' = n_kind n \/ (n_kind n = KCharStringLiteral /\ n_kind n' = KNormalStringLiteral).
  Lemma twin_akin n n' : alike c n n' -> akin n n'.
  Proof. intros H. inversion H; subst; [now left|now right]. Qed.
  Lemma akin_line k first x x' : akin x x' -> starts_line c k first x' = starts_line c k first x.
  Proof. intros H. destruct k; try reflexivity; cbn [starts_line]; destruct H as [-> | [-> ->]]; reflexivity. Qed.
  Lemma akin_hint x x' : akin x x' -> item_hint x' = item_hint x.
  Proof. unfold item_hint. now intros [-> | [-> ->]]. Qed.
  Lemma akin_any k l l' : Forall2 akin l l' -> forall first, any_line c k first l' = any_line c k first l.
  Proof. induction 1 as [|x x' l l' H F IH]; intros first; [reflexivity|]. cbn [any_line]. now rewrite IH, (akin_line _ _ _ _ H). Qed.
  Lemma twin_hangs n n' : alike c n n' -> hangs c n' = hangs c n.
  Proof.
    intros H. inversion H as [k sp sp' ls ls' t lv ks ks' is is' ss ss' o _ _ Fi Fs _ _ E1 E2|]; subst; [|reflexivity].
    assert (Ai : Forall2 akin (map snd is) (map snd is')) by (clear - Fi; induction Fi as [|x y l l' [_ Hx]]; constructor; auto using twin_akin).
    assert (As : Forall2 akin (map si_node ss) (map si_node ss')) by (clear - Fs; induction Fs as [|x y l l' (_ & Hx & _)]; constructor; auto using twin_akin).
    destruct k; try reflexivity; cbn [hangs n_kind n_items n_seps].
    all: try now rewrite (akin_any _ _ _ As).
    - inversion Fs; subst; [reflexivity|]. now rewrite (akin_any _ _ _ As).
    - inversion Fi; subst; [reflexivity|]. now rewrite (akin_any _ _ _ Ai).
  Qed.

  Definition sameP (P P' : printer) : Prop := forall d op, same_kinds (P d op) (P' d op).
  Lemma nth_same K K' : Forall2 sameP K K' -> forall j, sameP (nth j K no_printer) (nth j K' no_printer).
  Proof. induction 1; intros [|j] d op; cbn; auto using sames_refl. all: try apply H. now apply IHForall2. Qed.
  Lemma weave_same K K' h h' ls ls' d op : Forall2 sameP K K' -> (forall j, h' j = h j) ->
    forall ps gl i j at_, same_kinds (weave K h ls d op i j at_ gl ps) (weave K' h' ls' d op i j at_ gl ps).
  Proof.
    intros HK Hh. induction ps as [|p ps IH]; intros gl i j at_; cbn [weave]; [constructor|]. apply Forall2_app.
    - destruct p; [repeat constructor|now apply nth_same].
    - destruct ps as [|q ps]; [constructor|]. destruct (hd tight gl) as [[w b] x]. destruct w as [| |y]; [| |rewrite Hh]; (constructor; [apply same_glue|apply IH]).
  Qed.
  Lemma items_same k d op l l' : Forall2 (fun x y => akin (snd (fst x)) (snd (fst y)) /\ sameP (snd x) (snd y)) l l' ->
    forall first, same_kinds (items_from c k first d op l) (items_from c k first d op l').
  Proof.
    induction 1 as [|[[p x] P] [[p' x'] P'] l l' [H HP] F IH]; intros first; [constructor|]. cbn [items_from fst snd] in *.
    rewrite (akin_line _ _ _ _ H), (akin_hint _ _ H). constructor; [apply same_glue|]. apply Forall2_app; [apply HP|apply IH].
  Qed.
  Fixpoint seps_same (sep trail : str -> str) (l l' : list str) : Prop :=
    match l, l' with
    | [], [] => True
    | z :: r, z' :: r' => match r, r' with [], [] => trail z = trail z' | _, _ => sep z = sep z' /\ seps_same sep trail r r' end
    | _, _ => False
    end.
  Lemma commas_same k d op h sep trail (l l' : list (loc * node * loc * str * printer)) :
    Forall2 (fun x y => akin (si_node (fst x)) (si_node (fst y)) /\ sameP (snd x) (snd y)) l l' -> seps_same sep trail (map (fun x => si_sep (fst x)) l) (map (fun x => si_sep (fst x)) l') ->
    forall first, same_kinds (seps_from c k first d op h sep trail l) (seps_from c k first d op h sep trail l').
  Proof.
    induction 1 as [|[[[[p x] q] z] P] [[[[p' x'] q'] z'] P'] l l' [H HP] F IH]; intros S first; [constructor|]. cbn [seps_from fst snd si_node si_sep map] in *.
    rewrite (akin_line _ _ _ _ H). constructor; [apply same_glue|]. apply Forall2_app; [apply HP|]. constructor; [now cbn|].
    destruct F as [|y y' l l' Hy F]; cbn [map] in *; cbn [seps_same] in S.
    - constructor; [exact S|constructor].
    - destruct S as [S1 S2]. constructor; [exact S1|]. now apply IH.
  Qed.
  Lemma plain_seps s (l l' : list (sitem * printer)) : List.length l = List.length l' ->
    seps_same (fun _ => s) (fun _ => []) (map (fun x => si_sep (fst x)) l) (map (fun x => si_sep (fst x)) l').
  Proof.
    revert l'. induction l as [|x l IH]; intros [|y l'] H; try discriminate; [exact Logic.I|]. cbn [map]. injection H as H. specialize (IH l' H). cbn [seps_same].
    destruct l, l'; try discriminate; cbn [map] in *; auto.
  Qed.
  Lemma last_same z : last_out c z = last_separator c z.
  Proof. unfold last_out, last_separator. destruct (cb c _) as [[]|]; try reflexivity. now destruct z. Qed.
  Lemma alike_seps l : forall l', seps_alike c l l' -> seps_same (field_separator c) (last_separator c) l l'.
  Proof.
    induction l as [|z l IH]; intros [|z' l'] H; try contradiction; [exact Logic.I|]. cbn [seps_alike] in H. cbn [seps_same].
    destruct l as [|y l], l' as [|y' l'].
    - rewrite <- !last_same. exact H.
    - destruct H as [_ []].
    - destruct H as [_ []].
    - destruct H as [H1 H2]. split; [exact H1|]. now apply (IH (y' :: l')).
  Qed.
  Hypothesis NF : on c B_force_single_line_table = false.
  Theorem pieces_same n : forall n', alike c n n' -> sameP (pieces c n) (pieces c n').
  Proof.
    induction n as [k sp ls t lv ks is ss o Hk Hi Hs] using node_rect'. intros n' T.
    inversion T as [? ? sp' ? ls' ? ? ? ks' ? is' ? ss' ? Fl Fk Fi Fs Hz Hv|? sp' ? ? Ht Hu]; subst.
    2:{ intros d op. cbn [pieces]. rewrite Ht. rewrite requote_eq. apply sames_refl. }
    assert (Kd : Forall2 sameP (map (pieces c) ks) (map (pieces c) ks')).
    { clear - Hk Fk. induction Fk; inversion Hk; subst; constructor; auto. }
    assert (Hh : forall j, hangs c (nth j ks' dummy_node) = hangs c (nth j ks dummy_node)).
    { clear - Fk. induction Fk as [|x y l l' H F IH]; intros [|j]; cbn; auto using twin_hangs. }
    assert (Ki : Forall2 (fun x y : loc * node * printer => akin (snd (fst x)) (snd (fst y)) /\ sameP (snd x) (snd y)) (map (fun x => (x, pieces c (snd x))) is) (map (fun x => (x, pieces c (snd x))) is')).
    { clear - Hi Fi. induction Fi as [|x y l l' [_ H] F IH]; inversion Hi; subst; constructor; auto. cbn [fst snd]. split; [now apply twin_akin|auto]. }
    assert (Ks : Forall2 (fun x y : sitem * printer => akin (si_node (fst x)) (si_node (fst y)) /\ sameP (snd x) (snd y))
       (map (fun x : sitem => (x, pieces c (snd (fst (fst x))))) ss) (map (fun x : sitem => (x, pieces c (snd (fst (fst x))))) ss')).
    { clear - Hs Fs. induction Fs as [|[[[p x] q] z] [[[p' y] q'] z'] l l' (_ & H & _) F IH]; inversion Hs; subst; constructor; auto. cbn [fst snd si_node] in *.
      split; [now apply twin_akin|auto]. }
    assert (Len : List.length (map (fun x : sitem => (x, pieces c (snd (fst (fst x))))) ss) = List.length (map (fun x : sitem => (x, pieces c (snd (fst (fst x))))) ss'))
      by (rewrite !map_length; clear - Fs; induction Fs; cbn; auto).
    assert (Cm : forall h s d op, same_kinds (seps_from c k true d op h (fun _ => s) (fun _ => []) (map (fun x : sitem => (x, pieces c (snd (fst (fst x))))) ss))
        (seps_from c k true d op h (fun _ => s) (fun _ => []) (map (fun x : sitem => (x, pieces c (snd (fst (fst x))))) ss'))).
    { intros h s d op. apply commas_same; [exact Ks|now apply plain_seps]. }
    pose proof (nth_same _ _ Kd) as N.
    intros d op. destruct k; cbn [pieces].
    all: try (apply weave_same; assumption).
    all: try (now apply items_same).
    all: try apply Cm.
    all: try apply sames_refl.
    all: repeat first [apply N | apply Forall2_app; [first [apply N|apply Cm]|] | apply Forall2_cons; [first [apply same_glue|cbn; auto; fail]|] | apply Forall2_nil | progress cbn [app]].
    - destruct (nis c N_newline_format_table_constructor 1); repeat constructor.
    - apply commas_same; [exact Ks|]. rewrite !map_map. cbn [fst]. apply alike_seps. now apply Hz.
  Qed.
End Tree.
