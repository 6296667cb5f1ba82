(** Blanks in the source do not matter. *)
From Coq Require Import Lia.
From Verif Require Import Base Config State LuaLexer CommentLexer Ast LexSpec LexLoop LayoutSpec CommentSpec CommentProofs RenderSpec RenderProofs LayoutProofs LayoutText
  UtilProofs FormatSpec SafeSpec PrettySpec PrettyGap PrettyUnique Recon ReconProofs WriterBase LuaWriter GapProofs LuaParser ParserProofs Formatter Shipped
  CanonSpec CanonFrame CanonTree LR LRSpec LuaGrammar.

(** ** gaps *)
Lemma comments_from_tokens c d (R : on c B_remove_spaces_between_tokens = true) us : forall us' f prev, map snd us = map snd us' ->
  comments_from c d f prev us = comments_from c d f prev us'.
Proof.
  induction us as [|[b t] us IH]; intros [|[b' t'] us'] f prev E; try discriminate; [reflexivity|]. cbn [map snd] in E. injection E as <- E.
  cbn [comments_from]. unfold kept_blanks. rewrite R. rewrite (IH us' _ _ E). reflexivity.
Qed.
Definition marks_text (c : config) (d : nat) (x : char) (m : list ctoken) : str :=
  tl (match m with
      | [CNewLine] => if on c B_remove_single_newlines then [x] else comments_from c d [x] None [([], CNewLine)]
      | _ => comments_from c d [x] None (map (fun t => ([], t)) m)
      end).
Lemma block_marks c d x g : on c B_remove_spaces_between_tokens = true -> block c d x g = marks_text c d x (comments g).
Proof.
  intros R. unfold block. pose proof (units_tokens g []) as E. change (gap_tokens g) with (comments g) in E. rewrite <- E. clear E.
  destruct (units [] g) as [us e]. cbn [fst]. unfold kept_blanks at 2. rewrite R, app_nil_r. unfold marks_text. f_equal.
  destruct us as [|[b t] us]; [reflexivity|]. cbn [map snd].
  assert (A : comments_from c d [x] None ((b, t) :: us) = comments_from c d [x] None (map (fun t => ([], t)) (t :: map snd us))).
  { apply comments_from_tokens; [exact R|]. cbn [map snd]. rewrite map_map. cbn [snd]. now rewrite map_id. }
  destruct us as [|u us]; [|destruct t; exact A]. destruct t; try exact A. unfold kept_blanks. rewrite R, app_nil_r.
  destruct (on c B_remove_single_newlines); [reflexivity|exact A].
Qed.
Lemma marks_line_feeds c d x m : on c B_remove_all_newlines = true -> line_feeds m -> marks_text c d x m = [].
Proof.
  intros R H.
  assert (A : forall m f prev, line_feeds m -> comments_from c d f prev (map (fun t => ([], t)) m) = f).
  { clear - R. intros m f prev H. revert f prev. induction H as [|t m -> H IH]; intros f prev; [reflexivity|]. cbn [map comments_from own_line comment_text]. unfold line_feed.
    rewrite R, IH, app_nil_r. destruct prev as [q|].
    - cbn [is_newline]. rewrite Bool.orb_true_r. destruct (on c B_remove_spaces_between_tokens); apply app_nil_r.
    - unfold kept_blanks. destruct (on c B_remove_spaces_between_tokens); apply app_nil_r. }
  unfold marks_text. destruct H as [|t m -> H]; [reflexivity|]. destruct m as [|t' m].
  - destruct (on c B_remove_single_newlines); [reflexivity|]. change [([], CNewLine)] with (map (fun t : ctoken => ([] : str, t)) [CNewLine]).
    rewrite A; [reflexivity|]. constructor; [reflexivity|constructor].
  - rewrite A; [reflexivity|]. constructor; [reflexivity|exact H].
Qed.
Lemma same_marks_text c d x m m' : same_marks c m m' -> marks_text c d x m = marks_text c d x m'.
Proof.
  intros [->|[(R & H & H')|(R & H & H')]]; [reflexivity|now rewrite !marks_line_feeds|].
  assert (A : forall m, m = [] \/ m = [CNewLine] -> marks_text c d x m = []) by (intros k [->| ->]; unfold marks_text; [reflexivity|now rewrite R]).
  now rewrite !A.
Qed.

Section Pair.
  Variables (c : config) (src src' : str).
  Definition SG (p p' : loc) : Prop :=
    exists g g', gap_text_at src p g /\ gap_text_at src' p' g' /\ forall d x, block c d x g = block c d x g'.
  Lemma gap_empty s x : x <= List.length s -> gap_text_at s (x, x) [].
  Proof. intros H. split; [reflexivity|]. split; [exact H|]. split; [left; constructor|]. cbn [fst snd]. unfold text_at. now rewrite Nat.sub_diag. Qed.
  Lemma SG_empty x y : x <= List.length src -> y <= List.length src' -> SG (x, x) (y, y).
  Proof. intros A B. exists [], []. split; [now apply gap_empty|]. split; [now apply gap_empty|]. reflexivity. Qed.
  Lemma SG_hint l l' h : SG l l' -> sim src src' (comment_hint c src l h) (comment_hint c src' l' h).
  Proof.
    intros (g & g' & A & A' & E) w w' W. pose proof W as [Ef I1 I2 Ei Es En Eo].
    pose proof (comment_hint_value c src l h g _ w A I1 eq_refl) as [w2 V].
    pose proof (comment_hint_value c src' l' h g' _ w' A' I2 eq_refl) as [w2' V']. rewrite V, V'. clear V V'.
    rewrite <- Ef, <- Ei. rewrite <- !E. destruct (bslice _ _ _) as [z|]; [|exact Logic.I].
    unfold put_gap. rewrite <- E. split; [reflexivity|]. destruct I1, I2. constructor; cbn; auto; split; cbn; auto.
  Qed.
End Pair.

(** ** positions of the tokens *)
Definition ends_of (ts : list ptok) : list nat := flat_map (fun x => match x with (l, _, r) => [l; r] end) ts.
Definition posns (ts : list ptok) (x : nat) : nat := nth x (0 :: ends_of ts) 0.
Lemma posns_tokens ts : map (rtok (posns ts)) (symbolic 0 (tokens_of ts)) = ts.
Proof.
  unfold posns. assert (G : forall ts pre i, List.length pre = 2 * i + 1 ->
    map (rtok (fun x => nth x (pre ++ ends_of ts) 0)) (symbolic i (tokens_of ts)) = ts).
  { clear ts. induction ts as [|[[l t] r] ts IH]; intros pre i Hp; [reflexivity|].
    cbn [tokens_of map symbolic fst snd ends_of flat_map app rtok]. f_equal.
    - rewrite !app_nth2 by lia. replace (2 * i + 1 - List.length pre) with 0 by lia. replace (2 * i + 2 - List.length pre) with 1 by lia. reflexivity.
    - specialize (IH (pre ++ [l; r]) (S i)). rewrite app_length in IH. cbn [List.length] in IH. specialize (IH ltac:(lia)). etransitivity; [|exact IH].
      apply map_ext. intros [[a b] e]. cbn [rtok]. rewrite <- app_assoc. reflexivity. }
  exact (G ts [0] 0 eq_refl).
Qed.
Lemma posns_bound src ts : forall p, p <= List.length src -> tiles src p ts -> forall x, nth x (p :: ends_of ts) 0 <= List.length src.
Proof.
  induction ts as [|[[l t] r] ts IH]; intros p Hp H x; [contradiction|]. destruct x as [|x]; [exact Hp|]. cbn [nth ends_of flat_map app].
  destruct ts as [|u ts].
  - cbn in H. destruct H as (_ & A & <- & -> & _). destruct x as [|[|[|x]]]; cbn; lia.
  - change (match u :: ts with [] => False | _ => p <= l /\ l < r /\ r <= List.length src /\ token_ok t /\ (exists g, LexSpec.gap g /\ text_at src p l = gap_text g)
      /\ written t (text_at src l r) (skipn r src) /\ tiles src r (u :: ts) end) in H. destruct H as (A & B & C & _ & _ & _ & D).
    destruct x as [|x]; [cbn; lia|]. exact (IH r C D x).
Qed.
Lemma hole_nth src ts : forall p i, tiles src p ts -> p <= List.length src -> i < List.length ts ->
  exists g, nth_error (holes src p ts) i = Some (gap_text g) /\ gap_text_at src (nth (2 * i) (p :: ends_of ts) 0, nth (2 * i + 1) (p :: ends_of ts) 0) g.
Proof.
  induction ts as [|[[l t] r] ts IH]; intros p i H Hp Hi; [cbn in Hi; lia|]. destruct ts as [|u ts].
  - cbn in H. destruct H as (_ & A & <- & -> & g & Hg & Et). destruct i as [|i]; [|cbn in Hi; lia]. exists g. cbn [Nat.mul Nat.add nth holes nth_error ends_of flat_map app].
    rewrite Et. split; [reflexivity|]. split; [exact A|]. split; [reflexivity|]. split; [right; auto|exact Et].
  - change (match u :: ts with [] => False | _ => p <= l /\ l < r /\ r <= List.length src /\ token_ok t /\ (exists g, LexSpec.gap g /\ text_at src p l = gap_text g)
      /\ written t (text_at src l r) (skipn r src) /\ tiles src r (u :: ts) end) in H. destruct H as (A & B & C & _ & (g & Hg & Et) & _ & D).
    destruct i as [|i].
    + exists g. cbn [Nat.mul Nat.add nth holes nth_error ends_of flat_map app]. rewrite Et. split; [reflexivity|]. split; [exact A|]. split; [cbn [snd]; lia|]. split; [now left|exact Et].
    + destruct (IH r i D C ltac:(cbn [List.length] in *; lia)) as (g' & E1 & E2). exists g'. split; [exact E1|].
      replace (2 * S i) with (S (S (2 * i))) by lia. replace (S (S (2 * i)) + 1) with (S (S (2 * i + 1))) by lia. exact E2.
Qed.
Lemma holes_SG c src src' ts ts' k : on c B_remove_spaces_between_tokens = true -> lex src = LexOk ts -> lex src' = LexOk ts' ->
  List.length ts = k -> List.length ts' = k -> Forall2 (same_hole c) (holes src 0 ts) (holes src' 0 ts') ->
  forall p, hole k p -> SG c src src' (rl (posns ts) p) (rl (posns ts') p).
Proof.
  intros R L L' <- E F [x y] [Hp|(i & Hi & Hp)].
  - cbn in Hp. subst y. apply SG_empty; [exact (posns_bound src ts 0 (Nat.le_0_l _) (lex_tiles _ _ L) x)|exact (posns_bound src' ts' 0 (Nat.le_0_l _) (lex_tiles _ _ L') x)].
  - injection Hp as -> ->. destruct (hole_nth src ts 0 i (lex_tiles _ _ L) (Nat.le_0_l _) Hi) as (g & A & B).
    destruct (hole_nth src' ts' 0 i (lex_tiles _ _ L') (Nat.le_0_l _) (eq_ind_r (fun k => i < k) Hi E)) as (g' & A' & B').
    exists g, g'. split; [exact B|]. split; [exact B'|]. intros d z. rewrite !block_marks by exact R. apply same_marks_text.
    assert (S : same_hole c (gap_text g) (gap_text g')).
    { clear - F A A'. revert i A A'. induction F as [|x y l l' H F IH]; intros [|i] A A'; try discriminate; cbn in A, A'; [congruence|eauto]. }
    destruct S as (m & m' & (g1 & K1 & E1 & ->) & (g2 & K2 & E2 & ->) & S).
    assert (U : forall g g1 s p, gap_text_at s p g -> last_gap g1 -> gap_text g = gap_text g1 -> g = g1).
    { clear. intros g g1 s p (_ & _ & A & _) K Eq. apply lgap_unique; [apply last_lgap; now apply gap_at_last in A|now apply last_lgap|exact Eq]. }
    rewrite (U g g1 _ _ B K1 E1), (U g' g2 _ _ B' K2 E2). exact S.
Qed.

(** ** trees *)
Section Trees.
  Variables (c : config) (cv : str -> str) (G : loc -> loc -> Prop).
  Lemma seps_alike_refl l : seps_alike c l l.
  Proof. induction l as [|z l IH]; [exact Logic.I|]. destruct l; cbn in *; auto. Qed.
  Lemma relabel_twin (Q : loc -> Prop) f f' : (forall p, Q p -> G (rl f p) (rl f' p)) ->
    forall n, nall Q n -> twin c false cv G (relabel f n) (relabel f' n).
  Proof.
    intros HQ. induction n as [k sp ls t lv ks is ss o Hk Hi Hs] using node_rect'. intros H. inversion H as [? ? ? ? ? ? ? ? ? Hl Hks His Hss]; subst. clear H.
    cbn [relabel]. constructor.
    - clear - Hl HQ. induction Hl; cbn [map]; constructor; auto.
    - clear - Hk Hks. induction Hks as [|x l Hx Hl IH]; cbn [map]; [constructor|]. inversion Hk; subst. constructor; auto.
    - clear - Hi His HQ. induction His as [|x l [Hp Hx] Hl IH]; cbn [map]; [constructor|]. inversion Hi; subst. constructor; cbn [fst snd]; auto.
    - clear - Hs Hss HQ. induction Hss as [|[[[p y] q] z] l (Hp & Hy & Hq) Hl IH]; cbn [map]; [constructor|]. inversion Hs; subst. cbn in *. constructor; cbn; auto.
    - intros _ _. assert (E : forall f, map si_sep (map (fun x : sitem => match x with (p, y, q, z) => (rl f p, relabel f y, rl f q, z) end) ss) = map si_sep ss).
      { intros f1. rewrite map_map. apply map_ext. now intros [[[p y] q] z]. }
      exact (eq_ind_r (fun l => seps_alike c l _) (eq_ind_r (fun l => seps_alike c _ l) (seps_alike_refl _) (E f')) (E f)).
    - discriminate.
  Qed.
  Lemma twin_height st n : forall n', twin c st cv G n n' -> height n = height n'.
  Proof.
    induction n as [k sp ls t lv ks is ss o Hk Hi Hs] using node_rect'. intros n' T. inversion T as [? ? ? ? ? ? ? ? ? ? ? ? ? ? Fl Fk Fi Fs Hz Hv|]; subst; [|reflexivity].
    cbn [height]. do 2 f_equal; [|f_equal].
    - clear - Hk Fk. induction Fk; inversion Hk; subst; cbn [map fold_right]; auto.
    - clear - Hi Fi. induction Fi as [|x y l l' [_ A] F IH]; inversion Hi; subst; cbn [map fold_right]; auto.
    - clear - Hs Fs. induction Fs as [|x y l l' (_ & A & _) F IH]; inversion Hs; subst; cbn [map fold_right]; auto.
  Qed.
End Trees.

Section ReconTwin.
  Variables (c : config) (G : loc -> loc -> Prop) (st : bool).
  Hypothesis Hst : st = true -> on c B_convert_charstring_to_normalstring = true.
  Notation tw := (twin c st charstring_to_normalstring G).
  Notation tw' := (twin c false charstring_to_normalstring G).
  Definition rtw (n : node) : Prop := forall n' sc s s', tw n n' -> tw' (fst (recon c sc n s)) (fst (recon c sc n' s')).
  Lemma rkids_tw l : Forall rtw l -> forall l' sc s s', Forall2 tw l l' -> Forall2 tw' (fst (rkids c sc l s)) (fst (rkids c sc l' s')).
  Proof.
    induction 1 as [|x l Hx Hl IH]; intros l' sc s s' F; inversion F as [|? y ? l2 Hy F2]; subst; [constructor|]. cbn [rkids].
    specialize (Hx y sc s s' Hy). destruct (recon c sc x s) as [x' s1], (recon c sc y s') as [y' s1'].
    specialize (IH l2 sc s1 s1' F2). destruct (rkids c sc l s1), (rkids c sc l2 s1'). cbn in *. now constructor.
  Qed.
  Lemma ritems_tw l : Forall (fun x => rtw (snd x)) l -> forall l' s s', Forall2 (fun x y => G (fst x) (fst y) /\ tw (snd x) (snd y)) l l' ->
    Forall2 (fun x y => G (fst x) (fst y) /\ tw' (snd x) (snd y)) (fst (ritems c l s)) (fst (ritems c l' s')).
  Proof.
    induction 1 as [|[p x] l Hx Hl IH]; intros l' s s' F; inversion F as [|? [q y] ? l2 [Hp Hy] F2]; subst; [constructor|]. cbn [ritems]. cbn in Hx, Hp, Hy.
    specialize (Hx y None s s' Hy). destruct (recon c None x s) as [x' s1], (recon c None y s') as [y' s1'].
    specialize (IH l2 s1 s1' F2). destruct (ritems c l s1), (ritems c l2 s1'). cbn in *. constructor; auto.
  Qed.
  Lemma rseps_tw l : Forall (fun x => rtw (snd (fst (fst x)))) l -> forall l' sc s s',
    Forall2 (fun x y => G (si_loc x) (si_loc y) /\ tw (si_node x) (si_node y) /\ G (si_loc2 x) (si_loc2 y)) l l' ->
    Forall2 (fun x y => G (si_loc x) (si_loc y) /\ tw' (si_node x) (si_node y) /\ G (si_loc2 x) (si_loc2 y)) (fst (rseps c sc l s)) (fst (rseps c sc l' s')).
  Proof.
    induction 1 as [|[[[p x] q] z] l Hx Hl IH]; intros l' sc s s' F; inversion F as [|? [[[p2 y] q2] z2] ? l2 (Hp & Hy & Hq) F2]; subst; [constructor|]. cbn [rseps]. cbn in Hx, Hp, Hy, Hq.
    specialize (Hx y sc s s' Hy). destruct (recon c sc x s) as [x' s1], (recon c sc y s') as [y' s1'].
    specialize (IH l2 sc s1 s1' F2). destruct (rseps c sc l s1), (rseps c sc l2 s1'). cbn in *. constructor; cbn; auto.
  Qed.
  Lemma rseps_seps l : forall sc s, map si_sep (fst (rseps c sc l s)) = map si_sep l.
  Proof.
    induction l as [|[[[p x] q] z] l IH]; intros sc s; [reflexivity|]. cbn [rseps]. destruct (recon c sc x s) as [x' s1]. specialize (IH sc s1).
    destruct (rseps c sc l s1). cbn in *. now rewrite IH.
  Qed.
  Lemma single_tw v n n' : tw' n n' -> tw' (set_single v n) (set_single v n').
  Proof. intros T. inversion T as [k ? ? ? ? ? ? ? ? ? ? ? ? ? ? ? ? ? ?|]; subst; [|discriminate]. destruct k; cbn [set_single]; try exact T. constructor; auto. Qed.
  Lemma twin_kind n n' : tw' n n' -> n_kind n = n_kind n' /\ n_opts n = n_opts n'.
  Proof. intros T. inversion T; subst; [auto|discriminate]. Qed.
  Theorem recon_twin n : rtw n.
  Proof.
    induction n as [k sp ls t lv ks is ss o Hk Hi Hs] using node_rect'. intros n' sc s s' T.
    inversion T as [? ? sp' ? ls' ? ? ? ks' ? is' ? ss' ? Fl Fk Fi Fs Hz Hv|? sp' ? ? Ht Hu]; subst.
    2:{ rewrite !recon_eq. rewrite (Hst Ht). cbn [fst rkids ritems rseps].
        constructor; try constructor; try discriminate.  }
    assert (A : k <> KFields -> tw'
      (fst (let '(ks1, s1) := rkids c (match k with KFieldSequential => sc | _ => None end) ks (update_pos_range sp s) in
        let '(is1, s2) := ritems c is s1 in let '(ss1, s3) := rseps c None ss s2 in (Nd k sp ls t lv ks1 is1 ss1 o, s3)))
      (fst (let '(ks1, s1) := rkids c (match k with KFieldSequential => sc | _ => None end) ks' (update_pos_range sp' s') in
        let '(is1, s2) := ritems c is' s1 in let '(ss1, s3) := rseps c None ss' s2 in (Nd k sp' ls' t lv ks1 is1 ss1 o, s3)))).
    { intros Hf.
      pose proof (rkids_tw ks Hk ks' (match k with KFieldSequential => sc | _ => None end) (update_pos_range sp s) (update_pos_range sp' s') Fk) as A1.
      destruct (rkids c _ ks _) as [k1 s1], (rkids c _ ks' _) as [k1' s1'].
      pose proof (ritems_tw is Hi is' s1 s1' Fi) as A2. destruct (ritems c is _) as [i1 s2], (ritems c is' _) as [i1' s2'].
      pose proof (rseps_tw ss Hs ss' None s2 s2' Fs) as A3. destruct (rseps c _ ss _) as [e1 s3], (rseps c _ ss' _) as [e1' s3'].
      cbn [fst] in *. constructor; auto; [contradiction|discriminate]. }
    assert (Nk : ks = [] -> Forall2 tw' ks ks') by (intros ->; inversion Fk; constructor).
    assert (Ni : is = [] -> Forall2 (fun x y => G (fst x) (fst y) /\ tw' (snd x) (snd y)) is is') by (intros ->; inversion Fi; constructor).
    assert (Ns : ss = [] -> Forall2 (fun x y => G (si_loc x) (si_loc y) /\ tw' (si_node x) (si_node y) /\ G (si_loc2 x) (si_loc2 y)) ss ss') by (intros ->; inversion Fs; constructor).
    assert (Mk : st = false -> Forall2 tw' ks ks') by (intros E; clear - E Fk; subst st; exact Fk).
    assert (Mi : st = false -> Forall2 (fun x y => G (fst x) (fst y) /\ tw' (snd x) (snd y)) is is') by (intros E; clear - E Fi; subst st; exact Fi).
    assert (Ms : st = false -> Forall2 (fun x y => G (si_loc x) (si_loc y) /\ tw' (si_node x) (si_node y) /\ G (si_loc2 x) (si_loc2 y)) ss ss') by (intros E; clear - E Fs; subst st; exact Fs).
    assert (Vk : (st = true -> ks = []) -> Forall2 tw' ks ks') by (destruct st; auto).
    assert (Vi : (st = true -> is = []) -> Forall2 (fun x y => G (fst x) (fst y) /\ tw' (snd x) (snd y)) is is') by (destruct st; auto).
    assert (Vs : (st = true -> ss = []) -> Forall2 (fun x y => G (si_loc x) (si_loc y) /\ tw' (si_node x) (si_node y) /\ G (si_loc2 x) (si_loc2 y)) ss ss') by (destruct st; auto).
    clear Nk Ni Ns Mk Mi Ms.
    rewrite !recon_eq. destruct k; try (apply A; discriminate); clear A; cbn [visited] in Hv.
    - assert (Q : Forall2 tw' ks ks' /\ Forall2 (fun x y => G (fst x) (fst y) /\ tw' (snd x) (snd y)) is is' /\
        Forall2 (fun x y => G (si_loc x) (si_loc y) /\ tw' (si_node x) (si_node y) /\ G (si_loc2 x) (si_loc2 y)) ss ss') by (split; [|split]; [apply Vk|apply Vi|apply Vs]; intros E; apply Hv, E).
      destruct Q as (Q1 & Q2 & Q3). destruct (on c _); cbn [fst]; constructor; auto; discriminate.
    - pose proof (rkids_tw ks Hk ks' None (update_pos_range sp s) (update_pos_range sp' s') Fk) as A1.
      destruct (rkids c _ ks _) as [k1 s1], (rkids c _ ks' _) as [k1' s1']. cbn [fst] in *.
      assert (Eo : match k1 with [f] => if kind_beq (n_kind f) KFields then o_iv (n_opts f) else o_iv o | _ => o_iv o end
                 = match k1' with [f] => if kind_beq (n_kind f) KFields then o_iv (n_opts f) else o_iv o | _ => o_iv o end).
      { destruct A1 as [|x y l l' Hx A1]; [reflexivity|]. destruct A1; [|reflexivity]. apply twin_kind in Hx. destruct Hx as [-> ->]. reflexivity. }
      rewrite Eo. apply tw_node; try assumption; try discriminate; [|apply Vi|apply Vs]; try (intros E; apply Hv, E).
      clear - A1. induction A1; cbn [map]; constructor; auto. now apply single_tw.
    - assert (El : List.length ss = List.length ss') by (clear - Fs; induction Fs; cbn; congruence). unfold sitem in *. rewrite <- El.
      pose proof (rseps_tw ss Hs ss' (Some (Nat.eqb (List.length ss) 1)) s s' Fs) as A1.
      pose proof (rseps_seps ss (Some (Nat.eqb (List.length ss) 1)) s) as B1. pose proof (rseps_seps ss' (Some (Nat.eqb (List.length ss) 1)) s') as B2.
      destruct (rseps c _ ss _) as [k1 s1], (rseps c _ ss' _) as [k1' s1']. cbn [fst] in *.
      assert (Eo : forallb (fun i => is_field_sequential (si_node i)) ss = forallb (fun i => is_field_sequential (si_node i)) ss').
      { clear - Fs. induction Fs as [|x y l l' (_ & Hx & _) F IH]; [reflexivity|]. cbn [forallb]. rewrite IH. f_equal. unfold is_field_sequential.
        inversion Hx as [? ? ? ? ? ? ? ? ? ? ? ? ? ? ? ? ? ? ? ? E1 E2|? ? ? ? ? E1 E2]; reflexivity. }
      unfold sitem in *. rewrite Eo. apply tw_node; try assumption; try discriminate; [apply Vk|apply Vi|]; try (intros E; apply Hv, E). intros _ Hft.
      exact (eq_ind_r (fun l => seps_alike c l _) (eq_ind_r (fun l => seps_alike c _ l) (Hz eq_refl Hft) B2) B1).
    - pose proof (rseps_tw ss Hs ss' None (update_pos_range sp s) (update_pos_range sp' s') Fs) as A1.
      destruct (rseps c _ ss _) as [k1 s1], (rseps c _ ss' _) as [k1' s1']. cbn [fst] in *.
      pose proof (rkids_tw ks Hk ks' None s1 s1' Fk) as A2. destruct (rkids c _ ks _) as [k2 s2], (rkids c _ ks' _) as [k2' s2']. cbn [fst] in *.
      apply tw_node; try assumption; try discriminate. apply Vi. exact Hv.
    - pose proof (ritems_tw is Hi is' ((fst s + 1)%Z, snd s) ((fst s' + 1)%Z, snd s') Fi) as A1.
      destruct (ritems c is _) as [k1 s1], (ritems c is' _) as [k1' s1']. cbn [fst] in *.
      apply tw_node; try assumption; try discriminate; [apply Vk|apply Vs]; intros E; apply Hv, E.
  Qed.
End ReconTwin.

(** ** the theorem *)
Theorem twins_outcome c src src' n n' st : no_size_tests c -> line_range c = None -> (st = true -> on c B_convert_charstring_to_normalstring = true) ->
  parse_lua src = Parsed n -> parse_lua src' = Parsed n' -> twin c st charstring_to_normalstring (SG c src src') n n' ->
  process_buffer src c = process_buffer src' c.
Proof.
  intros NS Hr Hst P P' T. unfold process_buffer. rewrite P, P', Hr. cbn [line_range_to_pos_range]. unfold reconstruct.
  pose proof (recon_twin c (SG c src src') st Hst _ _ None (0%Z, None) (0%Z, None) T) as T'.
  pose proof (recon_pos c n None (0%Z, None) eq_refl) as B1. pose proof (recon_pos c n' None (0%Z, None) eq_refl) as B2.
  destruct (recon c None n _) as [n1 s1], (recon c None n' _) as [n2 s2]. cbn [fst snd] in *. rewrite B1, B2.
  unfold write_fuel. rewrite <- (twin_height _ _ _ _ _ _ T').
  pose proof (write_sim c src src' NS _ (SG c src src') (SG_hint c src src') (SG_empty c src src' 0 0 (Nat.le_0_l _) (Nat.le_0_l _)) (height n1 + 4) _ _ T') as W.
  specialize (W (mk_world [] (start_state src None) [] []) (mk_world [] (start_state src' None) [] [])).
  assert (E0 : weq src src' (mk_world [] (start_state src None) [] []) (mk_world [] (start_state src' None) [] [])) by (constructor; cbn; auto; split; reflexivity).
  specialize (W E0). unfold rel in W.
  destruct (write _ src c n1 _) as [[a| | |] w], (write _ src' c n2 _) as [[a'| | |] w']; cbn [fst snd] in W; try contradiction; try reflexivity.
  destruct W as [_ W]. now rewrite (we_f _ _ _ _ W).
Qed.
Theorem format_blanks c src src' : no_size_tests c -> line_range c = None -> on c B_remove_spaces_between_tokens = true ->
  same_but_blanks c src src' -> process_buffer src c = process_buffer src' c.
Proof.
  intros NS Hr R (ts & ts' & L & L' & Et & F). unfold process_buffer, parse_lua. rewrite L, L'.
  assert (Hl : List.length ts = List.length (tokens_of ts)) by (symmetry; apply map_length).
  assert (Hl' : List.length ts' = List.length (tokens_of ts)) by (rewrite Et; symmetry; apply map_length).
  pose proof (holes_SG c src src' ts ts' _ R L L' Hl Hl' F) as H.
  destruct (parse_tokens ts) as [v| |] eqn:P.
  - apply parse_tokens_correct in P. destruct P as (l & r & D).
    destruct (proj1 derives_tokens _ _ _ D (symbolic 0 (tokens_of ts)) (symbolic_tokens _ _)) as ([[l0 v0] r0] & D0).
    pose proof (proj1 (symbolic_holes _) _ _ _ D0 0 _ eq_refl (Nat.le_refl _) (fun _ => eq_refl)) as V0. cbn [fst snd] in V0.
    pose proof (proj1 (derives_relabel (posns ts) eq_refl) _ _ _ D0) as D1. rewrite posns_tokens in D1. cbn [rarg] in D1.
    pose proof (proj1 (derives_relabel (posns ts') eq_refl) _ _ _ D0) as D2. rewrite Et, posns_tokens in D2. cbn [rarg] in D2.
    assert (v = rval (posns ts) v0) as -> by (eapply lua_unambiguous; [exists l, r; exact D|eexists; eexists; exact D1]).
    assert (P0 : parse_tokens ts = POk (rval (posns ts) v0)) by (apply parse_tokens_correct; eexists; eexists; exact D1).
    assert (P' : parse_tokens ts' = POk (rval (posns ts') v0)) by (apply parse_tokens_correct; eexists; eexists; exact D2).
    rewrite P'. destruct v0 as [t|n0| | |]; cbn [rval]; try reflexivity. cbn [vall] in V0.
    pose proof (relabel_twin c charstring_to_normalstring (SG c src src') (hole (List.length (tokens_of ts))) (posns ts) (posns ts') H n0 V0) as T.
    pose proof (twins_outcome c src src' (relabel (posns ts) n0) (relabel (posns ts') n0) false NS Hr ltac:(discriminate)) as Z.
    unfold process_buffer, parse_lua in Z. rewrite L, L', P' in Z. rewrite P0 in Z. exact (Z eq_refl eq_refl T).
  - destruct (parse_tokens ts') as [v'| |] eqn:P'; try reflexivity; [|now elim (parse_tokens_total ts')].
    apply parse_tokens_correct in P'. destruct P' as (l & r & D).
    destruct (proj1 derives_tokens _ _ _ D ts Et) as ([[l0 v0] r0] & D0).
    assert (Q : parse_tokens ts = POk v0) by (apply parse_tokens_correct; eexists; eexists; exact D0). congruence.
  - now elim (parse_tokens_total ts).
Qed.

(** ** where blanks do matter *)
Lemma blanks_gap k : LexSpec.gap (repeat (GBlank 32%N) k).
Proof. induction k; constructor; auto. split; [now left|reflexivity]. Qed.
Lemma blanks_hole c k k' : same_hole c (repeat 32%N k) (repeat 32%N k').
Proof.
  assert (A : forall k, marked (repeat 32%N k) []).
  { intros j. exists (repeat (GBlank 32%N) j). split; [|split].
    - exists (repeat (GBlank 32%N) j), []. rewrite app_nil_r. split; [reflexivity|]. split; [apply blanks_gap|now left].
    - induction j; cbn; [reflexivity|]. now rewrite IHj at 1.
    - induction j; cbn; auto. }
  exists [], []. split; [apply A|]. split; [apply A|now left].
Qed.
Theorem size_matters : exists src src', line_range shipped = None /\ on shipped B_remove_spaces_between_tokens = true
  /\ same_but_blanks shipped src src' /\ process_buffer src shipped <> process_buffer src' shipped.
Proof.
  exists (s2l "if a then b() end"), (s2l "if a then" ++ repeat 32%N 220 ++ s2l "b() end").
  split; [reflexivity|]. split; [reflexivity|]. split; [|vm_compute; discriminate].
  eexists. eexists. split; [vm_compute; reflexivity|]. split; [vm_compute; reflexivity|]. split; [reflexivity|].
  apply Forall2_cons; [exact (blanks_hole _ 0 0)|]. apply Forall2_cons; [exact (blanks_hole _ 1 1)|]. apply Forall2_cons; [exact (blanks_hole _ 1 1)|].
  apply Forall2_cons; [exact (blanks_hole _ 1 220)|]. apply Forall2_cons; [exact (blanks_hole _ 0 0)|]. apply Forall2_cons; [exact (blanks_hole _ 0 0)|].
  apply Forall2_cons; [exact (blanks_hole _ 1 1)|]. apply Forall2_cons; [exact (blanks_hole _ 0 0)|]. constructor.
Qed.
