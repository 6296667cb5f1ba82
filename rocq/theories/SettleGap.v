(** The text written between two tokens, written again. *)
From Coq Require Import Lia.
From Verif Require Import Base Config State CommentLexer LexSpec CommentSpec RenderSpec FormatSpec FormatProofs SafeSpec RelexProofs PrettySpec PrettyGap PrettyUnique CanonProofs SettleSpec.

(** ** ends of texts *)
Lemma ends_app f x : ends_line (f ++ x) = match x with [] => ends_line f | _ => ends_line x end.
Proof.
  destruct x as [|a x]; [now rewrite app_nil_r|]. unfold ends_line. rewrite rev_app_distr. destruct (rev (a :: x)) as [|y r] eqn:E; [|reflexivity].
  apply (f_equal (@List.length _)) in E. rewrite rev_length in E. discriminate.
Qed.
Lemma ends_snoc f x : ends_line (f ++ [x]) = N.eqb x 10. Proof. now rewrite ends_app. Qed.
(** the text does not end in a blank that could be taken away *)
Definition firm (f : str) : Prop := without_last_blank f = f.
Lemma firm_one x : firm [x]. Proof. reflexivity. Qed.
Lemma firm_nil : firm []. Proof. reflexivity. Qed.
Lemma firm_snoc f x : sp_tab x = false -> firm (f ++ [x]).
Proof.
  intros H. unfold firm, without_last_blank. rewrite rev_app_distr. cbn [rev app]. rewrite H. now destruct (rev f).
Qed.
Lemma drop_last f x : f <> [] -> sp_tab x = true -> without_last_blank (f ++ [x]) = f.
Proof.
  intros Hf H. unfold without_last_blank. rewrite rev_app_distr. cbn [rev app]. destruct (rev f) as [|y r] eqn:E.
  - elim Hf. rewrite <- (rev_involutive f), E. reflexivity.
  - rewrite H. change (rev (y :: r) = f). rewrite <- E. apply rev_involutive.
Qed.
Lemma end_blanks_nil : without_end_blanks [] = []. Proof. reflexivity. Qed.
Lemma drop_blanks_app b s : Forall (fun x => sp_tab x = true) b -> drop_blanks (b ++ s) = drop_blanks s.
Proof. induction 1 as [|x b Hx H IH]; [reflexivity|]. cbn [app drop_blanks]. now rewrite Hx. Qed.
Lemma end_blanks_app f x b : sp_tab x = false -> blanks b -> without_end_blanks (f ++ x :: b) = f ++ [x].
Proof.
  intros Hx Hb. unfold without_end_blanks. rewrite rev_app_distr. cbn [rev]. rewrite <- app_assoc, drop_blanks_app.
  - cbn [app drop_blanks]. rewrite Hx. cbn [rev]. now rewrite rev_involutive.
  - apply Forall_rev. eapply Forall_impl; [|exact Hb]. intros a [-> | ->]; reflexivity.
Qed.
Lemma end_blanks_blanks b : blanks b -> without_end_blanks b = [].
Proof.
  intros Hb. unfold without_end_blanks. rewrite <- (app_nil_r (rev b)), drop_blanks_app; [reflexivity|].
  apply Forall_rev. eapply Forall_impl; [|exact Hb]. intros a [-> | ->]; reflexivity.
Qed.

(** ** comments written again *)
Lemma drop_space_app (f : char -> bool) a b : forallb f a = true -> drop_while f (a ++ b) = drop_while f b.
Proof. induction a as [|x a IH]; [reflexivity|]. cbn [forallb app drop_while]. intros H. apply andb_prop in H as [-> H]. auto. Qed.
Lemma drop_again (f : char -> bool) a b : drop_while f a <> [] -> drop_while f (drop_while f a ++ b) = drop_while f a ++ b.
Proof.
  intros H. induction a as [|x a IH]; [now elim H|]. cbn [drop_while] in *. destruct (f x) eqn:E; [now apply IH|]. cbn [app drop_while]. now rewrite E.
Qed.
Lemma blanks_space b : blanks b -> forallb is_whitespace b = true.
Proof. intros H. apply forallb_forall. intros x Hx. apply (proj1 (Forall_forall _ _) H) in Hx. destruct Hx as [-> | ->]; reflexivity. Qed.
Lemma drop_all (f : char -> bool) a : forallb f a = true -> drop_while f a = [].
Proof. intros H. rewrite <- (app_nil_r a). now rewrite drop_space_app. Qed.
Lemma trim_start_app p s : blanks p -> trim_start (p ++ s) = trim_start s.
Proof. intros H. apply drop_space_app. now apply blanks_space. Qed.
Lemma trim_end_app s q : blanks q -> trim_end (s ++ q) = trim_end s.
Proof. intros H. unfold trim_end. rewrite rev_app_distr, drop_space_app; [reflexivity|]. apply blanks_space. now apply Forall_rev. Qed.
Lemma trim_end_again s : trim_end (trim_end s) = trim_end s.
Proof.
  unfold trim_end. rewrite rev_involutive. destruct (drop_while is_whitespace (rev s)) as [|x l] eqn:E; [reflexivity|].
  rewrite <- E. f_equal. pose proof (drop_again is_whitespace (rev s) []) as A. rewrite !app_nil_r in A. apply A. now rewrite E.
Qed.
Lemma trim_start_again s r : trim_start s <> [] -> trim_start (trim_start s ++ r) = trim_start s ++ r.
Proof. apply drop_again. Qed.
Lemma text_again lead trail s : (forall p, lead = Some p -> blanks p) -> (forall q, trail = Some q -> blanks q) ->
  text_with lead trail (text_with lead trail s) = text_with lead trail s.
Proof.
  intros Hp Hq. unfold text_with. destruct lead as [p|], trail as [q|]; try specialize (Hp p eq_refl); try specialize (Hq q eq_refl).
  - rewrite trim_start_app by exact Hp. f_equal. f_equal.
    destruct (trim_end (trim_start s)) as [|x y] eqn:E.
    + cbn [app]. unfold trim_start at 1. rewrite drop_all by now apply blanks_space. reflexivity.
    + assert (A : trim_start ((x :: y) ++ q) = (x :: y) ++ q).
      { destruct (trim_end_split (trim_start s)) as (b & Eb & _). rewrite E in Eb. cbn [app] in Eb |- *.
        assert (is_whitespace x = false) as Hx.
        { pose proof (trim_start_again s []) as G. rewrite !app_nil_r in G. rewrite Eb in G. specialize (G ltac:(discriminate)).
          unfold trim_start in G. cbn [drop_while] in G. destruct (is_whitespace x) eqn:Ex; [|reflexivity]. exfalso.
          apply (f_equal (@List.length _)) in G. cbn [List.length] in G.
          assert (L : forall l, List.length (drop_while is_whitespace l) <= List.length l).
          { induction l as [|z l IH]; [apply Nat.le_refl|]. cbn [drop_while]. destruct (is_whitespace z); cbn [List.length]; lia. }
          specialize (L (y ++ b)). lia. }
        unfold trim_start. cbn [drop_while]. now rewrite Hx. }
      rewrite A, trim_end_app, <- E by exact Hq. apply trim_end_again.
  - rewrite !app_nil_r, trim_start_app by exact Hp. f_equal. destruct (trim_start s) as [|x y] eqn:E; [reflexivity|]. rewrite <- E.
    pose proof (trim_start_again s []) as A. rewrite !app_nil_r in A. apply A. now rewrite E.
  - cbn [app]. rewrite trim_end_app by exact Hq. now rewrite trim_end_again.
  - cbn [app]. now rewrite !app_nil_r.
Qed.

Definition sound (t : ctoken) : Prop := t <> CEOF /\ comment_ok t.
Lemma comments_sound g : last_gap g -> Forall sound (comments g).
Proof.
  intros H. apply comments_ok in H. apply Forall_forall. intros t Ht. split; [|exact (proj1 (Forall_forall _ _) H t Ht)]. intros ->.
  apply in_flat_map in Ht as (i & _ & Hi). destruct i; cbn in Hi; tauto || (destruct Hi as [Hi|[]]; discriminate).
Qed.

Section Gap.
  Variable c : config.
  Hypothesis C : calm c.
  Let T : tidy c. Proof. apply C. Qed.
  Let R : on c B_remove_spaces_between_tokens = true. Proof. apply C. Qed.
  Let RC : on c B_remove_comments = false. Proof. apply C. Qed.
  Let Z : on c B_replace_zero_spaces_with_hint = true. Proof. apply T. Qed.
  Let SL : steady_lines c. Proof. apply C. Qed.

  Definition hbc : str := text (cs c S_hint_before_comment).
  Definition ham : str := text (cs c S_hint_after_multiline_comment).
  Lemma hbc_ok : hbc <> [] /\ blanks hbc.
  Proof. unfold hbc. destruct (T) as (_ & (h & -> & Hn & Hb) & _). auto. Qed.
  Lemma ham_blanks : blanks ham.
  Proof. unfold ham. destruct (T) as (_ & _ & H & _). destruct (cs c S_hint_after_multiline_comment) as [s|] eqn:E; [|constructor]. refine (H _ s _ E). cbn; auto. Qed.
  Lemma ham_short : List.length ham <= 1.
  Proof. unfold ham. destruct C as (_ & _ & _ & _ & _ & _ & _ & H & _). destruct (cs c S_hint_after_multiline_comment) as [s|] eqn:E; [|apply Nat.le_0_l]. refine (H _ s _ E). cbn; auto. Qed.
  Lemma ind_blanks d : blanks (indentation c d).
  Proof.
    unfold indentation. destruct (T) as (_ & _ & H & _). destruct (cs c S_indentation_string) as [s|] eqn:E; [|constructor].
    assert (Hs : blanks s) by (refine (H _ s _ E); cbn; auto). induction d as [|d IH]; [constructor|]. cbn [repeat List.concat]. now apply Forall_app.
  Qed.

  Definition body1 (s : str) : str :=
    match cs c S_hint_before_oneline_comment_text with
    | Some p => if forallb is_whitespace s then [] else text_with (Some p) None s
    | None => s
    end.
  Definition bodyl (s : str) : str := text_with (cs c S_hint_before_multiline_comment_text) (cs c S_hint_after_multiline_comment_text) s.
  Definition norm (t : ctoken) : ctoken := match t with COneLine s => COneLine (body1 s) | CMultiLine lv s => CMultiLine lv (bodyl s) | t => t end.
  Lemma body1_again s : body1 (body1 s) = body1 s.
  Proof.
    unfold body1. destruct (cs c S_hint_before_oneline_comment_text) as [p|] eqn:E; [|reflexivity]. destruct (forallb is_whitespace s) eqn:W; [reflexivity|].
    assert (Hp : blanks p) by (destruct (T) as (_ & _ & _ & H & _); refine (proj2 (H _ p _ E)); cbn; auto).
    assert (Hn : forallb is_whitespace (text_with (Some p) None s) = false).
    { unfold text_with. rewrite app_nil_r, forallb_app, blanks_space by exact Hp. cbn [andb]. clear - W. unfold trim_start. induction s as [|x s IH]; [discriminate|].
      cbn [forallb drop_while] in *. destruct (is_whitespace x) eqn:E; cbn [andb] in *; [auto|]. cbn [forallb]. now rewrite E. }
    rewrite Hn. apply text_again; intros q [= <-]. exact Hp.
  Qed.
  Lemma bodyl_again s : bodyl (bodyl s) = bodyl s.
  Proof.
    apply text_again; intros q E; destruct (T) as (_ & _ & H2 & H3 & _); [refine (H2 _ q _ E); cbn; auto|refine (proj2 (H3 _ q _ E)); cbn; auto].
  Qed.

  Definition bl (s : str) : list gitem := map GBlank s.
  Lemma bl_text s : gap_text (bl s) = s.
  Proof. unfold gap_text, bl. induction s as [|x s IH]; [reflexivity|]. cbn [map flat_map gitem_text app]. now rewrite IH. Qed.
  Lemma bl_comments s : comments (bl s) = [].
  Proof. unfold comments, bl. induction s as [|x s IH]; [reflexivity|]. exact IH. Qed.
  Lemma bl_gap s : blanks s -> gap (bl s).
  Proof. unfold gap, bl. induction 1 as [|x s Hx H IH]; [constructor|]. cbn [map]. constructor; [|exact IH]. split; [|reflexivity]. cbn. destruct Hx as [-> | ->]; auto. Qed.
  Lemma gap_text_app a b : gap_text (a ++ b) = gap_text a ++ gap_text b. Proof. apply flat_map_app. Qed.
  Lemma comments_app a b : comments (a ++ b) = comments a ++ comments b. Proof. apply flat_map_app. Qed.
  Lemma gap_join a b : gap a -> gap b -> gap (a ++ b). Proof. intros. now apply Forall_app. Qed.

  Let RA : bool := on c B_remove_all_newlines.
  Definition item (t : ctoken) : list gitem :=
    match t with
    | COneLine s => [GLine (body1 s)]
    | CMultiLine lv s => [GLong lv (bodyl s)]
    | CNewLine => if RA then [] else [GNewline]
    | CEOF => []
    end.
  Lemma item_text t : gap_text (item t) = comment_text c t.
  Proof.
    destruct t as [s|lv s| |]; cbn [item comment_text]; rewrite ?RC; unfold gap_text; cbn [flat_map gitem_text]; rewrite ?app_nil_r; try reflexivity.
    unfold line_feed. fold RA. now destruct RA.
  Qed.
  Lemma item_gap t : comment_ok t -> gap (item t).
  Proof.
    intros H. destruct (comment_gap c T t H) as (gs & Hg & E).
    destruct t as [s|lv s| |]; cbn [item].
    - cbn [comment_text] in E. rewrite RC in E.
      destruct (T) as (_ & _ & _ & H3 & _). constructor; [|constructor]. split; [|reflexivity]. cbn [comment_ok] in H. cbn [gitem_ok]. unfold body1.
      destruct (cs c S_hint_before_oneline_comment_text) as [p|] eqn:E1; [|exact H].
      destruct (forallb is_whitespace s); [split; [intros []|reflexivity]|].
      destruct (H3 _ p (or_introl eq_refl) E1) as [Hp Hb]. unfold text_with. rewrite app_nil_r. split.
      + intros X. apply in_app_or in X as [X|X].
        * unfold blanks in Hb. rewrite Forall_forall in Hb. apply Hb in X as [X|X]; discriminate.
        * destruct (drop_while_split is_whitespace s) as (a & Ea & _). apply (proj1 H). rewrite Ea. apply in_or_app. right. exact X.
      + destruct Hb as [|a p Ha Hb]; [contradiction|]. cbn. destruct Ha as [-> | ->]; reflexivity.
    - destruct (T) as (_ & _ & H2 & H3 & _). constructor; [|constructor]. split; [|reflexivity]. cbn [gitem_ok]. apply long_text; [| |exact H].
      + intros p Hp. eapply H2; [|exact Hp]. cbn; auto.
      + intros q Hq. eapply H3; [|exact Hq]. cbn; auto.
    - destruct RA; [constructor|]. constructor; [|constructor]. split; [exact Logic.I|reflexivity].
    - constructor.
  Qed.

  Definition nl_unless (e : bool) : list gitem := if e then [] else [GNewline].
  Definition lead_items (d : nat) (e : bool) (prev : option ctoken) (t : ctoken) : list gitem :=
    match prev with
    | None => if own_line c true t then nl_unless e ++ bl (indentation c d) else []
    | Some p => if own_line c false t then nl_unless e ++ bl (indentation c d)
                else if is_newline p || is_newline t then [] else bl hbc
    end.
  Definition after (e : bool) (t : ctoken) : bool := match t with COneLine _ => true | CMultiLine _ _ => false | CNewLine => if RA then e else true | CEOF => e end.
  Fixpoint run (d : nat) (e : bool) (prev : option ctoken) (l : list ctoken) : list gitem :=
    match l with
    | [] => []
    | t :: r => lead_items d e prev t ++ item t ++ run d (after e t) (Some t) r
    end.

  Lemma own_newline b : own_line c b CNewLine = false. Proof. reflexivity. Qed.
  Lemma long_ends lv s : exists x, long lv s = x ++ [93%N].
  Proof. unfold long, closing, brackets. exists (opening lv ++ s ++ [93%N] ++ repeat 61%N lv). now rewrite <- !app_assoc. Qed.
  Lemma text_ends f t : sound t -> firm f -> firm (f ++ comment_text c t) /\ ends_line (f ++ comment_text c t) = after (ends_line f) t.
  Proof.
    intros [_ H] F. destruct t as [s|lv s| |]; cbn [comment_text after comment_ok] in *; rewrite ?RC.
    - rewrite !app_assoc. split; [now apply firm_snoc|now rewrite ends_snoc].
    - destruct (long_ends lv (bodyl s)) as (x & E). fold (bodyl s). rewrite E, !app_assoc. split; [now apply firm_snoc|now rewrite ends_snoc].
    - unfold line_feed. fold RA. destruct RA; [now rewrite app_nil_r|]. split; [now apply firm_snoc|apply ends_snoc].
    - now rewrite app_nil_r.
  Qed.
  Lemma break_firm d f : firm f -> break_line c d f [] = f ++ gap_text (nl_unless (ends_line f) ++ bl (indentation c d)).
  Proof.
    intros F. unfold break_line. rewrite end_blanks_nil. cbv beta zeta iota. rewrite F, gap_text_app, bl_text, <- app_assoc. f_equal. f_equal. now destruct (ends_line f).
  Qed.
  Lemma comments_run d l : Forall sound l -> forall f prev, firm f ->
    comments_from c d f prev (map (fun t => ([], t)) l) = f ++ gap_text (run d (ends_line f) prev l).
  Proof.
    induction 1 as [|t l Ht Hl IH]; intros f prev F; [cbn; now rewrite app_nil_r|]. cbn [map comments_from run]. unfold kept_blanks. rewrite R, !app_nil_r.
    rewrite !gap_text_app, item_text.
    assert (A : forall p x, f ++ x = match prev with
        | None => if own_line c true t then break_line c d f [] else f
        | Some p => if own_line c false t then break_line c d f [] else f ++ (if is_newline p || is_newline t then [] else text (cs c S_hint_before_comment)) end ->
        p = f ++ x -> (firm p \/ is_newline t = false) -> x = gap_text (lead_items d (ends_line f) prev t) ->
        comments_from c d (p ++ comment_text c t) (Some t) (map (fun t => ([], t)) l) = p ++ comment_text c t ++ gap_text (run d (after (ends_line f) t) (Some t) l)).
    { intros p x E -> Hf Ex. destruct Hf as [Hf|Hn].
      - destruct (text_ends (f ++ x) t Ht Hf) as [B1 B2]. rewrite IH by exact B1. rewrite B2, <- app_assoc. do 3 f_equal.
        destruct t as [s|lv s| |]; try reflexivity.
        + unfold after. cbn [lead_items] in Ex. destruct RA; [|reflexivity]. assert (x = []) as -> by (rewrite Ex; unfold lead_items; destruct prev as [q|]; cbn [own_line is_newline]; rewrite ?Bool.orb_true_r; reflexivity).
          now rewrite app_nil_r.
        + now elim (proj1 Ht).
      - assert (firm ((f ++ x) ++ comment_text c t) /\ ends_line ((f ++ x) ++ comment_text c t) = after (ends_line f) t) as [B1 B2].
        { destruct t as [s|lv s| |]; cbn [comment_text after comment_ok is_newline] in *; rewrite ?RC; try discriminate; try (now elim (proj1 Ht)).
          - rewrite !app_assoc. split; [now apply firm_snoc|now rewrite ends_snoc].
          - destruct (long_ends lv (bodyl s)) as (u & Eu). fold (bodyl s). rewrite Eu, !app_assoc. split; [now apply firm_snoc|now rewrite ends_snoc]. }
        rewrite IH by exact B1. now rewrite B2, <- app_assoc. }
    assert (B : forall p x, p = f ++ x -> x = gap_text (lead_items d (ends_line f) prev t) -> (firm p \/ is_newline t = false) ->
        comments_from c d (p ++ comment_text c t) (Some t) (map (fun t => ([], t)) l) = f ++ x ++ comment_text c t ++ gap_text (run d (after (ends_line f) t) (Some t) l)).
    { intros p x Ep Ex Hf. rewrite (A p x); [now rewrite Ep, <- app_assoc| |exact Ep|exact Hf|exact Ex]. rewrite Ex. unfold lead_items.
      destruct prev as [q|]; [destruct (own_line c false t)|destruct (own_line c true t)]; rewrite ?break_firm by exact F; try reflexivity.
      - destruct (is_newline q || is_newline t); [reflexivity|]. now rewrite bl_text.
      - apply app_nil_r. }
    unfold lead_items in *. destruct prev as [q|].
    - destruct (own_line c false t) eqn:O.
      + rewrite break_firm by exact F. apply B; [reflexivity|reflexivity|]. right. destruct t; try reflexivity. discriminate.
      + apply B; [|reflexivity|].
        * f_equal. destruct (is_newline q || is_newline t); [reflexivity|now rewrite bl_text].
        * destruct (is_newline t) eqn:En; [left|now right]. now rewrite Bool.orb_true_r, app_nil_r.
    - destruct (own_line c true t) eqn:O.
      + rewrite break_firm by exact F. apply B; [reflexivity|reflexivity|]. right. destruct t; try reflexivity. discriminate.
      + apply (B f []); [now rewrite app_nil_r|reflexivity|now left].
  Qed.

  (** *** the comments of what is written *)
  Lemma norm_own b t : own_line c b (norm t) = own_line c b t. Proof. now destruct t. Qed.
  Lemma norm_newline t : is_newline (norm t) = is_newline t. Proof. now destruct t. Qed.
  Lemma norm_item t : item (norm t) = item t.
  Proof. destruct t; cbn [norm item]; rewrite ?body1_again, ?bodyl_again; reflexivity. Qed.
  Lemma norm_after e t : after e (norm t) = after e t. Proof. now destruct t. Qed.
  Lemma item_comments t : is_newline t = false -> sound t -> comments (item t) = [norm t].
  Proof. intros E [H _]. destruct t; try reflexivity; try discriminate; now elim H. Qed.
  Lemma own_later t : own_line c true t = true -> own_line c false t = true.
  Proof. destruct (SL) as (A & B & _). destruct t; cbn [own_line]; auto. Qed.
  Lemma own_always t : RA = true -> is_newline t = false -> sound t -> own_line c false t = true.
  Proof. intros E En [H _]. destruct (SL) as (_ & _ & A). destruct (A E) as [A1 A2]. destruct t; cbn [own_line]; auto; try discriminate; now elim H. Qed.
  Lemma lead_newline d e prev : lead_items d e prev CNewLine = [].
  Proof. unfold lead_items. destruct prev as [p|]; cbn [own_line is_newline]; [now rewrite Bool.orb_true_r|reflexivity]. Qed.
  Lemma lead_norm d e prev t : lead_items d e prev (norm t) = lead_items d e prev t.
  Proof. unfold lead_items. destruct prev; now rewrite norm_own, ?norm_newline. Qed.
  Lemma lead_comments d e prev t : comments (lead_items d e prev t)
    = if (match prev with None => own_line c true t | Some _ => own_line c false t end) && negb e then [CNewLine] else [].
  Proof.
    unfold lead_items. destruct prev as [p|].
    - destruct (own_line c false t); [|destruct (_ || _); [reflexivity|apply bl_comments]]. rewrite comments_app, bl_comments. now destruct e.
    - destruct (own_line c true t); [|reflexivity]. rewrite comments_app, bl_comments. now destruct e.
  Qed.
  Definition linked (d : nat) (e : bool) (prev prev' : option ctoken) : Prop :=
    match prev, prev' with
    | None, None => True
    | Some p, Some p' => RA = true \/ is_newline p = is_newline p'
    | Some _, None => RA = true
    | None, Some _ => False
    end.
  Lemma run_again d l : Forall sound l -> forall e prev prev', linked d e prev prev' -> (prev' = None -> e = true -> indentation c d = []) ->
    run d e prev' (comments (run d e prev l)) = run d e prev l.
  Proof.
    induction 1 as [|t l Ht Hl IH]; intros e prev prev' L I; [reflexivity|]. cbn [run]. rewrite !comments_app, lead_comments.
    destruct (is_newline t) eqn:En.
    - destruct t; try discriminate. rewrite lead_newline. replace (match prev with None => _ | Some _ => _ end) with false by (now destruct prev). cbn [andb app item after].
      destruct RA eqn:Era.
      + cbn [comments flat_map app]. apply IH; [|exact I]. unfold linked. destruct prev'; [now left|exact Era].
      + cbn [comments flat_map comment_token app run]. rewrite lead_newline. cbn [app item after]. rewrite Era. cbn [app]. f_equal.
        apply IH; [now right|discriminate].
    - rewrite item_comments by assumption.
      assert (G : forall e1 prev1, lead_items d e1 prev1 t = lead_items d e prev t ->
        run d e1 prev1 (norm t :: comments (run d (after e t) (Some t) l)) = lead_items d e prev t ++ item t ++ run d (after e t) (Some t) l).
      { intros e1 prev1 El. cbn [run]. rewrite lead_norm, El, norm_item, norm_after. f_equal. f_equal.
        assert (after e1 t = after e t) as -> by (destruct t; try reflexivity; try discriminate; now elim (proj1 Ht)).
        apply IH; [right; now rewrite norm_newline|discriminate]. }
      destruct (match prev with None => own_line c true t | Some _ => own_line c false t end) eqn:O; cbn [andb].
      + assert (Ol : own_line c false t = true) by (destruct prev; [exact O|now apply own_later]).
        destruct e; cbn [negb app].
        * apply G. destruct prev as [p|], prev' as [p'|]; cbn [linked] in L; try contradiction; try reflexivity.
          -- unfold lead_items. now rewrite Ol.
          -- unfold lead_items. rewrite Ol, I by reflexivity. destruct (own_line c true t); reflexivity.
        * set (X := comments (run d (after false t) (Some t) l)) in *. cbn [run]. rewrite lead_newline. cbn [app item after].
          assert (El : lead_items d false prev t = nl_unless false ++ bl (indentation c d)) by (unfold lead_items; destruct prev; now rewrite O).
          destruct RA eqn:Era; cbn [app].
          -- change (run d false (Some CNewLine) (norm t :: X) = lead_items d false prev t ++ item t ++ run d (after false t) (Some t) l). apply G. rewrite El. unfold lead_items. now rewrite Ol.
          -- rewrite El. unfold nl_unless at 1. cbn [app]. f_equal. rewrite lead_norm, norm_item, norm_after. unfold lead_items. rewrite Ol. cbn [nl_unless app].
             f_equal. f_equal. assert (after true t = after false t) as -> by (destruct t; try reflexivity; try discriminate; now elim (proj1 Ht)).
             apply IH; [right; now rewrite norm_newline|discriminate].
      + cbn [app]. apply G. destruct prev as [p|], prev' as [p'|]; cbn [linked] in L; try contradiction; try reflexivity.
        * unfold lead_items. rewrite O. destruct L as [L|L]; [|now rewrite L]. now rewrite own_always in O.
        * now rewrite own_always in O.
  Qed.
  Lemma run_snoc d l : forall e prev, run d e prev (l ++ [CNewLine]) = run d e prev l ++ item CNewLine.
  Proof.
    induction l as [|t l IH]; intros e prev; cbn [app run].
    - rewrite lead_newline. cbn [app]. now rewrite app_nil_r.
    - now rewrite IH, <- !app_assoc.
  Qed.
  Lemma run_gap d l : Forall sound l -> forall e prev, gap (run d e prev l).
  Proof.
    induction 1 as [|t l Ht Hl IH]; intros e prev; [constructor|]. cbn [run]. apply gap_join; [|apply gap_join; [apply item_gap, Ht|apply IH]].
    assert (A : gap (nl_unless e ++ bl (indentation c d))).
    { apply gap_join; [|apply bl_gap, ind_blanks]. destruct e; [constructor|]. constructor; [|constructor]. split; [exact Logic.I|reflexivity]. }
    unfold lead_items. destruct prev as [p|]; [destruct (own_line c false t)|destruct (own_line c true t)]; try exact A; try constructor.
    destruct (_ || _); [constructor|]. apply bl_gap, hbc_ok.
  Qed.

  (** *** how it begins and ends *)
  Definition is_blank (i : gitem) : bool := match i with GBlank _ => true | _ => false end.
  Definition firm_items (g : list gitem) : Prop := g = [] \/ ((exists i r, g = i :: r /\ is_blank i = false) /\ exists a j, g = a ++ [j] /\ is_blank j = false).
  Lemma item_nil t : sound t -> item t = [] -> t = CNewLine.
  Proof. intros [H _]. destruct t; cbn [item]; try discriminate; try reflexivity; now elim H. Qed.
  Lemma item_last t : item t = [] \/ exists j, item t = [j] /\ is_blank j = false.
  Proof. destruct t; cbn [item]; eauto. destruct RA; eauto. Qed.
  Lemma run_last d l : Forall sound l -> forall e prev, run d e prev l = [] \/ exists a j, run d e prev l = a ++ [j] /\ is_blank j = false.
  Proof.
    induction 1 as [|t l Ht Hl IH]; intros e prev; [now left|]. cbn [run]. destruct (IH (after e t) (Some t)) as [->|(a & j & -> & Hj)].
    - rewrite app_nil_r. destruct (item_last t) as [E|(j & -> & Hj)]; [|right; eauto]. apply item_nil in E as Et; [|exact Ht]. subst t. rewrite lead_newline, E. now left.
    - right. exists (lead_items d e prev t ++ item t ++ a), j. now rewrite <- !app_assoc.
  Qed.
  Lemma run_first d l : Forall sound l -> forall e prev, prev = None \/ (RA = true /\ prev = Some CNewLine) -> (e = true -> indentation c d = []) ->
    run d e prev l = [] \/ exists i r, run d e prev l = i :: r /\ is_blank i = false.
  Proof.
    induction 1 as [|t l Ht Hl IH]; intros e prev P I; [now left|]. cbn [run].
    assert (A : lead_items d e prev t = [] \/ exists i r, lead_items d e prev t = i :: r /\ is_blank i = false).
    { assert (B : nl_unless e ++ bl (indentation c d) = [] \/ exists i r, nl_unless e ++ bl (indentation c d) = i :: r /\ is_blank i = false).
      { destruct e; [rewrite I by reflexivity; now left|]. right. cbn [nl_unless app]. eauto. }
      unfold lead_items. destruct P as [->|[_ ->]]; [destruct (own_line c true t)|destruct (own_line c false t)]; auto. }
    destruct A as [->|(i & r & -> & Hi)]; [|right; cbn [app]; eauto]. cbn [app].
    destruct (item_last t) as [E|(j & -> & Hj)]; [|right; cbn [app]; eauto]. rewrite E. apply item_nil in E as Et; [|exact Ht]. subst t. cbn [app].
    cbn [item] in E. destruct RA eqn:Era; [|discriminate]. cbn [after]. rewrite Era. apply IH; [right; auto|exact I].
  Qed.

  (** *** the whole block *)
  Definition brun (d : nat) (e : bool) (l : list ctoken) : list gitem :=
    match l with
    | [CNewLine] => if on c B_remove_single_newlines then [] else run d e None l
    | _ => run d e None l
    end.
  Lemma brun_cases d e l : (brun d e l = [] /\ l = [CNewLine] /\ on c B_remove_single_newlines = true) \/ (brun d e l = run d e None l /\ (l = [CNewLine] -> on c B_remove_single_newlines = false)).
  Proof.
    unfold brun. destruct l as [|t [|u l]]; [right; split; [reflexivity|discriminate]| |].
    - destruct t; try (right; split; [reflexivity|discriminate]). destruct (on c B_remove_single_newlines); auto.
    - right. split; [now destruct t|]. discriminate.
  Qed.
  Lemma block_items d x g : last_gap g -> block c d x g = gap_text (brun d (N.eqb x 10) (comments g)).
  Proof.
    intros Hg. rewrite block_marks by exact R. apply comments_sound in Hg. set (l := comments g) in *. clearbody l. clear g.
    assert (A : tl (comments_from c d [x] None (map (fun t => ([], t)) l)) = gap_text (run d (N.eqb x 10) None l)).
    { rewrite comments_run; [reflexivity|exact Hg|apply firm_one]. }
    unfold marks_text, brun. destruct l as [|t [|u l]]; try exact A; destruct t; try exact A. destruct (on c B_remove_single_newlines); [reflexivity|exact A].
  Qed.
  Lemma run_lines d l : forall e prev, Forall (fun t => t = CNewLine) l -> comments (run d e prev l) = if RA then [] else l.
  Proof.
    induction l as [|t l IH]; intros e prev H; [now destruct RA|]. inversion H; subst. cbn [run]. rewrite lead_newline. cbn [app item].
    rewrite comments_app, IH by assumption. destruct RA; reflexivity.
  Qed.
  Lemma run_mentions d l : Forall sound l -> forall e prev t, In t l -> t <> CNewLine -> In (norm t) (comments (run d e prev l)).
  Proof.
    induction 1 as [|u l Hu Hl IH]; intros e prev t Hi Ht; [destruct Hi|]. cbn [run]. rewrite !comments_app. apply in_or_app. right. apply in_or_app.
    destruct Hi as [->|Hi]; [left|right; now apply IH]. rewrite item_comments; [now left| |exact Hu]. destruct t; try reflexivity. now elim Ht.
  Qed.
  Lemma run_single d l e : Forall sound l -> comments (run d e None l) = [CNewLine] -> l = [CNewLine].
  Proof.
    intros H E. assert (A : Forall (fun t => t = CNewLine) l).
    { apply Forall_forall. intros t Ht. assert (D : t = CNewLine \/ t <> CNewLine) by (destruct t; auto; right; discriminate). destruct D as [D|D]; [exact D|].
      exfalso. pose proof (run_mentions d l H e None t Ht D) as M. rewrite E in M. destruct M as [M|[]]. destruct t; try discriminate. now apply D. }
    rewrite run_lines in E by exact A. destruct RA; [discriminate|exact E].
  Qed.
  Lemma brun_again d e l : Forall sound l -> (e = true -> indentation c d = []) -> brun d e (comments (brun d e l)) = brun d e l.
  Proof.
    intros H I. destruct (brun_cases d e l) as [(-> & _)|[E Es]]; [reflexivity|]. rewrite E.
    assert (A : run d e None (comments (run d e None l)) = run d e None l) by (apply run_again; [exact H|exact Logic.I|auto]).
    destruct (brun_cases d e (comments (run d e None l))) as [(_ & E1 & E2)|[E1 _]]; [|now rewrite E1].
    apply run_single in E1; [|exact H]. rewrite (Es E1) in E2. discriminate.
  Qed.
  Lemma brun_gap d e l : Forall sound l -> gap (brun d e l).
  Proof. intros H. destruct (brun_cases d e l) as [(-> & _)|[-> _]]; [constructor|now apply run_gap]. Qed.
  Lemma brun_firm d e l : Forall sound l -> (e = true -> indentation c d = []) -> firm_items (brun d e l).
  Proof.
    intros H I. destruct (brun_cases d e l) as [(-> & _)|[-> _]]; [now left|].
    destruct (run_first d l H e None (or_introl eq_refl) I) as [->|A]; [now left|]. destruct (run_last d l H e None) as [->|B]; [now left|]. right. auto.
  Qed.

  (** *** hints and line breaks around it *)
  Definition ends_long (g : list gitem) : bool := match rev g with GLong _ _ :: _ => true | _ => false end.
  Definition before (g : list gitem) : list gitem := match g with GLine _ :: _ | GLong _ _ :: _ => bl hbc | _ => [] end.
  Definition with_hints (h : str) (g : list gitem) : list gitem :=
    match g with [] => bl h | _ => before g ++ g ++ (if ends_long g then bl ham else []) end.
  Definition with_line (d : nat) (e : bool) (g : list gitem) : list gitem :=
    match g with [] => nl_unless e | _ => before g ++ g ++ nl_unless (negb (ends_long g)) end ++ bl (indentation c d).
  Lemma long_snoc a j : ends_long (a ++ [j]) = match j with GLong _ _ => true | _ => false end.
  Proof. unfold ends_long. rewrite rev_app_distr. reflexivity. Qed.
  Lemma item_ends a j : is_blank j = false -> is_last j = false -> exists x, gap_text (a ++ [j]) = x ++ [if ends_long (a ++ [j]) then 93%N else 10%N].
  Proof.
    intros Hb Hl. rewrite long_snoc, gap_text_app. unfold gap_text at 2. cbn [flat_map]. rewrite app_nil_r. destruct j as [b| |s|lv s|s]; try discriminate; cbn [gitem_text].
    - eauto.
    - exists (gap_text a ++ [45; 45]%N ++ s). now rewrite <- !app_assoc.
    - destruct (long_ends lv s) as (x & ->). exists (gap_text a ++ [45; 45]%N ++ x). now rewrite <- !app_assoc.
  Qed.
  Lemma first_char i r : is_blank i = false -> is_last i = false -> exists x t, gap_text (i :: r) = x :: t /\ (if N.eqb x 45 then hbc else []) = gap_text (before (i :: r)).
  Proof. intros Hb Hl. destruct i as [b| |s|lv s|s]; try discriminate; cbn -[hbc long]; do 2 eexists; (split; [reflexivity|]); rewrite ?bl_text; reflexivity. Qed.
  Lemma gap_not_last g i : gap g -> In i g -> is_last i = false.
  Proof. intros H Hi. exact (proj2 (proj1 (Forall_forall _ _) H i Hi)). Qed.
  Lemma dressed_items h g : gap g -> firm_items g -> dressed c h (gap_text g) = gap_text (with_hints h g).
  Proof.
    intros Hg [->|[(i & r & E & Hi) (a & j & E' & Hj)]].
    - cbn [gap_text flat_map dressed with_hints]. now rewrite Z, bl_text.
    - assert (Li : is_last i = false) by (apply (gap_not_last g); [exact Hg|rewrite E; now left]).
      assert (Lj : is_last j = false) by (apply (gap_not_last g); [exact Hg|rewrite E'; apply in_or_app; right; now left]).
      destruct (first_char i r Hi Li) as (x & t & Ex & Eb). destruct (item_ends a j Hj Lj) as (y & Ey). rewrite <- E in Ex, Eb. rewrite <- E' in Ey.
      assert (W : with_hints h g = before g ++ g ++ (if ends_long g then bl ham else [])) by (rewrite E; reflexivity). rewrite W, !gap_text_app, <- Eb.
      rewrite Ex at 1. unfold dressed. fold hbc ham. f_equal. rewrite <- Ex. f_equal. rewrite Ey, rev_app_distr. cbn [rev app].
      destruct (ends_long g); cbn [N.eqb]; [now rewrite bl_text|reflexivity].
  Qed.
  Lemma before_comments g : comments (before g) = [].
  Proof. destruct g as [|[] g]; try reflexivity; apply bl_comments. Qed.
  Lemma hints_comments h g : comments (with_hints h g) = comments g.
  Proof.
    destruct g as [|i g]; [apply bl_comments|]. unfold with_hints. rewrite !comments_app, before_comments. destruct (ends_long _); rewrite ?bl_comments; cbn [app comments flat_map]; now rewrite ?app_nil_r.
  Qed.
  Lemma before_gap g : gap (before g). Proof. destruct g as [|[] g]; try constructor; apply bl_gap, hbc_ok. Qed.
  Lemma hints_gap h g : blanks h -> gap g -> gap (with_hints h g).
  Proof.
    intros Hh Hg. destruct g as [|i g]; [now apply bl_gap|]. unfold with_hints. apply gap_join; [apply before_gap|]. apply gap_join; [exact Hg|].
    destruct (ends_long _); [apply bl_gap, ham_blanks|constructor].
  Qed.
  Lemma nl_gap e : gap (nl_unless e).
  Proof. destruct e; [constructor|]. constructor; [|constructor]. split; [exact Logic.I|reflexivity]. Qed.
  Lemma line_gap d e g : gap g -> gap (with_line d e g).
  Proof.
    intros Hg. unfold with_line. apply gap_join; [|apply bl_gap, ind_blanks]. destruct g as [|i g]; [apply nl_gap|].
    apply gap_join; [apply before_gap|]. apply gap_join; [exact Hg|apply nl_gap].
  Qed.
  Lemma line_comments d e g : comments (with_line d e g) = match g with [] => if e then [] else [CNewLine] | _ => comments g ++ if ends_long g then [CNewLine] else [] end.
  Proof.
    unfold with_line. rewrite comments_app, bl_comments, app_nil_r. destruct g as [|i g]; [now destruct e|]. rewrite !comments_app, before_comments. cbn [app].
    f_equal. now destruct (ends_long _).
  Qed.
  Lemma long_last_comment g : ends_long g = true -> exists a lv s, comments g = a ++ [CMultiLine lv s].
  Proof.
    destruct g as [|i g] using rev_ind; [discriminate|]. rewrite long_snoc. destruct i; try discriminate. intros _. rewrite comments_app. cbn. eauto.
  Qed.
  Lemma before_snoc g j : g <> [] -> before (g ++ [j]) = before g. Proof. destruct g as [|i g]; [easy|]. reflexivity. Qed.
  Lemma line_again d d1 e e1 l : Forall sound l -> (e = true -> indentation c d = []) ->
    with_line d1 e1 (brun d e (comments (with_line d1 e1 (brun d e l)))) = with_line d1 e1 (brun d e l).
  Proof.
    intros H I. pose proof (brun_again d e l H I) as A. rewrite line_comments. set (g := brun d e l) in *. clearbody g.
    destruct g as [|i g].
    - destruct e1; [reflexivity|]. unfold brun. destruct (on c B_remove_single_newlines); [reflexivity|]. cbn [run]. rewrite lead_newline. cbn [app item].
      destruct RA; [reflexivity|]. cbn [app]. unfold with_line. cbn [before nl_unless]. reflexivity.
    - destruct (ends_long (i :: g)) eqn:El; [|now rewrite app_nil_r, A]. apply long_last_comment in El as Ec. destruct Ec as (a & lv & s & Ec).
      assert (E : brun d e (comments (i :: g) ++ [CNewLine]) = (i :: g) ++ item CNewLine).
      { destruct (brun_cases d e (comments (i :: g) ++ [CNewLine])) as [(_ & X & _)|[-> _]].
        - apply (app_inj_tail _ []) in X. destruct X as [X _]. rewrite X in Ec. destruct a; discriminate.
        - rewrite run_snoc. f_equal. destruct (brun_cases d e (comments (i :: g))) as [(_ & X & _)|[<- _]]; [|exact A].
          rewrite Ec in X. apply (app_inj_tail _ []) in X. destruct X as [_ X]. discriminate. }
      rewrite E. cbn [item]. destruct RA; [now rewrite app_nil_r|]. unfold with_line.
      destruct ((i :: g) ++ [GNewline]) as [|i' g'] eqn:Eg; [discriminate|]. rewrite <- Eg, before_snoc by discriminate. rewrite long_snoc, El. cbn [negb nl_unless].
      now rewrite app_nil_r, <- !app_assoc.
  Qed.

  (** *** gaps and line breaks in the output *)
  Lemma last_char_line f : N.eqb (last_char f) 10 = ends_line f.
  Proof. unfold last_char, ends_line. now destruct (rev f). Qed.
  Lemma with_hints_cons h i g : with_hints h (i :: g) = before (i :: g) ++ (i :: g) ++ (if ends_long (i :: g) then bl ham else []).
  Proof. reflexivity. Qed.
  Lemma items_end g : gap g -> firm_items g -> g <> [] -> exists x, gap_text g = x ++ [if ends_long g then 93%N else 10%N].
  Proof.
    intros Hg [->|[_ (a & j & -> & Hj)]] Hn; [now elim Hn|]. apply item_ends; [exact Hj|]. apply (gap_not_last _ _ Hg), in_or_app. right. now left.
  Qed.
  Lemma break_items d f g : gap g -> firm_items g -> firm f -> break_line c d f (gap_text (with_hints [] g)) = f ++ gap_text (with_line d (ends_line f) g).
  Proof.
    intros Hg Hf F. destruct g as [|i g]; [cbn [with_hints bl map gap_text flat_map]; now apply break_firm|].
    destruct (items_end (i :: g) Hg Hf ltac:(discriminate)) as (x & Ex). rewrite with_hints_cons. unfold with_line. rewrite !gap_text_app, Ex.
    set (p := gap_text (before (i :: g))). assert (Hb : blanks (gap_text (if ends_long (i :: g) then bl ham else []))).
    { destruct (ends_long _); [rewrite bl_text; apply ham_blanks|constructor]. }
    set (b := gap_text (if ends_long (i :: g) then bl ham else [])) in *.
    assert (Hs : sp_tab (if ends_long (i :: g) then 93%N else 10%N) = false) by (now destruct (ends_long _)).
    unfold break_line. replace (p ++ (x ++ [if ends_long (i :: g) then 93%N else 10%N]) ++ b) with ((p ++ x) ++ (if ends_long (i :: g) then 93%N else 10%N) :: b) by (rewrite <- !app_assoc; reflexivity).
    rewrite end_blanks_app by assumption. destruct ((p ++ x) ++ [if ends_long (i :: g) then 93%N else 10%N]) as [|y r] eqn:E; [now destruct (p ++ x)|]. rewrite <- E, ends_snoc, bl_text, <- !app_assoc.
    f_equal. f_equal. f_equal. f_equal. now destruct (ends_long _).
  Qed.
  Lemma put_gap_items d h f g : last_gap g -> (ends_line f = true -> indentation c d = []) ->
    put_gap c d h f g = f ++ gap_text (with_hints h (brun d (ends_line f) (comments g))).
  Proof.
    intros Hg I. unfold put_gap. f_equal. rewrite block_items, last_char_line by exact Hg. apply comments_sound in Hg. apply dressed_items; [now apply brun_gap|now apply brun_firm].
  Qed.
  Lemma put_line_items d f g : last_gap g -> firm f -> put_line c d f g = f ++ gap_text (with_line d (ends_line f) (brun d false (comments g))).
  Proof.
    intros Hg F. unfold put_line. rewrite block_items by exact Hg. apply comments_sound in Hg. change (N.eqb 32 10) with false.
    assert (A : firm_items (brun d false (comments g))) by (now apply brun_firm). assert (B : gap (brun d false (comments g))) by (now apply brun_gap).
    rewrite dressed_items by assumption. now apply break_items.
  Qed.
  Lemma firm_short f h : firm f -> blanks h -> List.length h <= 1 -> (h = [] \/ f <> []) -> without_last_blank (f ++ h) = f.
  Proof.
    intros F B L H. destruct h as [|x [|y h]]; [now rewrite app_nil_r| |cbn in L; lia]. apply drop_last; [destruct H; [discriminate|assumption]|].
    inversion B as [|? ? Hx _]; subst. unfold sp_tab. destruct Hx as [-> | ->]; reflexivity.
  Qed.
  Lemma put_break d1 d h f g : last_gap g -> firm f -> blanks h -> List.length h <= 1 -> (h = [] \/ f <> []) -> (ends_line f = true -> indentation c d = []) ->
    break_line c d1 (put_gap c d h f g) [] = f ++ gap_text (with_line d1 (ends_line f) (brun d (ends_line f) (comments g))).
  Proof.
    intros Hg F B L H I. rewrite put_gap_items by assumption. apply comments_sound in Hg.
    assert (Hf : firm_items (brun d (ends_line f) (comments g))) by (now apply brun_firm). assert (Hgp : gap (brun d (ends_line f) (comments g))) by (now apply brun_gap).
    set (k := brun d (ends_line f) (comments g)) in *. clearbody k. unfold break_line. rewrite end_blanks_nil.
    destruct k as [|i k].
    - cbn [with_hints]. rewrite bl_text, firm_short by assumption. unfold with_line. rewrite gap_text_app, bl_text, <- app_assoc. destruct (ends_line f); reflexivity.
    - destruct (items_end (i :: k) Hgp Hf ltac:(discriminate)) as (x & Ex). rewrite with_hints_cons. unfold with_line. rewrite !gap_text_app, bl_text. rewrite Ex.
      set (p := gap_text (before (i :: k))). destruct (ends_long (i :: k)).
      + assert (E : without_last_blank (f ++ p ++ (x ++ [93%N]) ++ gap_text (bl ham)) = (f ++ p ++ x) ++ [93%N]).
        { rewrite bl_text. replace (f ++ p ++ (x ++ [93%N]) ++ ham) with (((f ++ p ++ x) ++ [93%N]) ++ ham) by (rewrite <- !app_assoc; reflexivity).
          apply firm_short; [now apply firm_snoc|apply ham_blanks|apply ham_short|]. right. destruct (f ++ p ++ x); discriminate. }
        rewrite E, ends_snoc. cbn [N.eqb Pos.eqb negb nl_unless gap_text flat_map gitem_text app]. rewrite <- !app_assoc. reflexivity.
      + assert (E : without_last_blank (f ++ p ++ (x ++ [10%N]) ++ gap_text []) = (f ++ p ++ x) ++ [10%N]).
        { cbn [gap_text flat_map]. rewrite app_nil_r. replace (f ++ p ++ x ++ [10%N]) with ((f ++ p ++ x) ++ [10%N]) by (rewrite <- !app_assoc; reflexivity). now apply firm_snoc. }
        rewrite E, ends_snoc. cbn [N.eqb Pos.eqb negb nl_unless gap_text flat_map gitem_text app]. rewrite <- !app_assoc. reflexivity.
  Qed.

  (** *** between two tokens *)
  Inductive hole_kind := HGap (d : nat) (h : str) | HLine (d : nat) | HFull (d : nat) (h : str) | HEmpty (d : nat) (h : str) | HBreak (d : nat) (h : str) (d1 : nat).
  Definition hole_put (k : hole_kind) (f : str) (g : list gitem) : str :=
    match k with
    | HGap d h => put_gap c d h f g
    | HLine d => put_line c d f g
    | HFull d h => put_full c d h f g
    | HEmpty d h => put_empty c d h f g
    | HBreak d h d1 => break_line c d1 (put_gap c d h f g) []
    end.
  Definition hole_fits (k : hole_kind) (f : str) : Prop :=
    match k with
    | HGap d h => blanks h /\ (ends_line f = true -> indentation c d = [])
    | HLine d => True
    | HFull d h | HEmpty d h => blanks h /\ ends_line f = false
    | HBreak d h d1 => blanks h /\ List.length h <= 1 /\ (h = [] \/ f <> []) /\ (ends_line f = true -> indentation c d = [])
    end.
  Definition hole_parts (k : hole_kind) : Prop := match k with HGap _ h => h <> [] | HLine _ | HBreak _ _ _ => True | _ => False end.
  Definition not_comment (g : list gitem) : Prop := match g with GLine _ :: _ | GLong _ _ :: _ | GLast _ :: _ => False | _ => True end.
  Lemma bl_first h : not_comment (bl h). Proof. now destruct h. Qed.
  Lemma before_first_item i g r : is_last i = false -> not_comment (before (i :: g) ++ (i :: g) ++ r).
  Proof.
    intros Hl. pose proof (proj1 hbc_ok) as Hn. destruct i; cbn [before app not_comment]; try exact Logic.I; try discriminate; destruct hbc; try (now elim Hn); exact Logic.I.
  Qed.
  Lemma hints_first h g : gap g -> not_comment (with_hints h g).
  Proof. intros Hg. destruct g as [|i g]; [apply bl_first|]. apply before_first_item. inversion Hg; subst. tauto. Qed.
  Lemma line_first d e g : gap g -> not_comment (with_line d e g).
  Proof.
    intros Hg. unfold with_line. destruct g as [|i g]; [destruct e; [apply bl_first|exact Logic.I]|]. rewrite <- app_assoc. rewrite <- app_assoc. apply before_first_item. inversion Hg; subst. tauto.
  Qed.
  Lemma hints_nil h g : h <> [] -> with_hints h g <> [].
  Proof. intros Hh. destruct g as [|i g]; [destruct h; [now elim Hh|discriminate]|]. rewrite with_hints_cons. destruct (before (i :: g)); discriminate. Qed.
  Lemma line_nil d g : with_line d false g <> [].
  Proof. unfold with_line. destruct g as [|i g]; [discriminate|]. destruct (before (i :: g)); discriminate. Qed.
  Lemma has_line g : existsb (N.eqb 10) (gap_text g) = true \/ existsb (N.eqb 10) (gap_text g) = false. Proof. destruct (existsb _ _); auto. Qed.
  Lemma existsb_text a b : existsb (N.eqb 10) (gap_text (a ++ b)) = existsb (N.eqb 10) (gap_text a) || existsb (N.eqb 10) (gap_text b).
  Proof. now rewrite gap_text_app, existsb_app. Qed.
  Lemma blanks_no_line h : blanks h -> existsb (N.eqb 10) h = false.
  Proof. induction 1 as [|x h Hx H IH]; [reflexivity|]. cbn [existsb]. rewrite IH. destruct Hx as [-> | ->]; reflexivity. Qed.

  Definition settles (k : hole_kind) (f : str) (g gx : list gitem) : Prop :=
    gap gx /\ hole_put k f g = f ++ gap_text gx /\ (forall g', last_gap g' -> comments g' = comments gx -> hole_put k f g' = f ++ gap_text gx)
    /\ not_comment gx /\ (hole_parts k -> ends_line f = false -> gx <> []).
  Lemma gap_settles d h f g : last_gap g -> blanks h -> (ends_line f = true -> indentation c d = []) -> exists gx, settles (HGap d h) f g gx.
  Proof.
    intros Hg Hh I. exists (with_hints h (brun d (ends_line f) (comments g))). pose proof (comments_sound _ Hg) as S. assert (G : gap (brun d (ends_line f) (comments g))) by (now apply brun_gap).
    split; [now apply hints_gap|]. split; [now apply put_gap_items|]. split; [|split; [now apply hints_first|intros; now apply hints_nil]].
    intros g' Hg' E. cbn [hole_put]. rewrite put_gap_items by assumption. rewrite E, hints_comments, brun_again by assumption. reflexivity.
  Qed.
  Lemma line_settles d f g : last_gap g -> firm f -> exists gx, settles (HLine d) f g gx.
  Proof.
    intros Hg F. exists (with_line d (ends_line f) (brun d false (comments g))). pose proof (comments_sound _ Hg) as S. assert (G : gap (brun d false (comments g))) by (now apply brun_gap).
    split; [now apply line_gap|]. split; [now apply put_line_items|]. split; [|split; [now apply line_first|intros _ ->; apply line_nil]].
    intros g' Hg' E. cbn [hole_put]. rewrite put_line_items by assumption. rewrite E, line_again; [reflexivity|exact S|discriminate].
  Qed.
  Lemma empty_text d h g : last_gap g -> blanks h -> dressed c h (block c d 32%N g) = gap_text (with_hints h (brun d false (comments g))).
  Proof. intros Hg Hh. rewrite block_items by exact Hg. apply comments_sound in Hg. apply dressed_items; [now apply brun_gap|now apply brun_firm]. Qed.
  Lemma hint_lines h g : blanks h -> existsb (N.eqb 10) (gap_text (with_hints h g)) = existsb (N.eqb 10) (gap_text g).
  Proof.
    intros Hh. destruct g as [|i g]; [cbn [with_hints]; rewrite bl_text; now apply blanks_no_line|]. rewrite with_hints_cons, !existsb_text.
    assert (A : existsb (N.eqb 10) (gap_text (before (i :: g))) = false) by (destruct i; cbn [before]; try reflexivity; rewrite bl_text; apply blanks_no_line, hbc_ok).
    assert (B : existsb (N.eqb 10) (gap_text (if ends_long (i :: g) then bl ham else [])) = false) by (destruct (ends_long _); [rewrite bl_text; apply blanks_no_line, ham_blanks|reflexivity]).
    rewrite A, B. cbn [orb]. now rewrite Bool.orb_false_r.
  Qed.
  Lemma hole_settles k f g : firm f -> hole_fits k f -> last_gap g -> exists gx, settles k f g gx.
  Proof.
    intros F K Hg. destruct k as [d h|d|d h|d h|d h d1]; cbn [hole_fits] in K.
    - destruct K. now apply gap_settles.
    - now apply line_settles.
    - destruct K as [Hh He]. destruct (full c f) eqn:Ef.
      + destruct (line_settles d f g Hg F) as (gx & A1 & A2 & A3 & A4 & A5). exists gx. unfold settles. cbn [hole_put]. unfold put_full. rewrite Ef. repeat split; auto; easy.
      + destruct (gap_settles d h f g Hg Hh) as (gx & A1 & A2 & A3 & A4 & A5); [rewrite He; discriminate|]. exists gx. unfold settles. cbn [hole_put]. unfold put_full. rewrite Ef. repeat split; auto; easy.
    - destruct K as [Hh He]. pose proof (comments_sound _ Hg) as S. destruct (existsb (N.eqb 10) (gap_text (with_hints h (brun d false (comments g))))) eqn:Ex.
      + exists (with_line d (ends_line f) (brun d false (comments g))). assert (G : gap (brun d false (comments g))) by (now apply brun_gap).
        unfold settles. cbn [hole_put]. unfold put_empty. rewrite empty_text, Ex by assumption.
        split; [now apply line_gap|]. split; [now apply put_line_items|]. split; [|split; [now apply line_first|easy]].
        intros g' Hg' E. rewrite empty_text by assumption.
        assert (A : existsb (N.eqb 10) (gap_text (with_hints h (brun d false (comments g')))) = true).
        { rewrite hint_lines in * by exact Hh. assert (Hl : with_line d (ends_line f) (brun d false (comments g')) = with_line d (ends_line f) (brun d false (comments g))) by (rewrite E; apply line_again; [exact S|discriminate]).
          rewrite line_comments in E. destruct (brun d false (comments g)) as [|i k] eqn:Eb; [discriminate|].
          destruct (ends_long (i :: k)) eqn:El.
          - apply long_last_comment in El as Ec. destruct Ec as (a & lv & s & Ec). rewrite E. destruct (brun_cases d false (comments (i :: k) ++ [CNewLine])) as [(_ & X & _)|[-> _]].
            + apply (app_inj_tail _ []) in X. destruct X as [X _]. rewrite X in Ec. destruct a; discriminate.
            + rewrite run_snoc, existsb_text.
              assert (X : run d false None (comments (i :: k)) = i :: k).
              { rewrite <- Eb at 1. pose proof (brun_again d false (comments g) S ltac:(discriminate)) as Ba. rewrite Eb in Ba |- *. destruct (brun_cases d false (comments (i :: k))) as [(_ & X & _)|[<- _]]; [|exact Ba].
                rewrite Ec in X. apply (app_inj_tail _ []) in X. destruct X as [_ X]. discriminate. }
              now rewrite X, Ex.
          - rewrite app_nil_r in E. rewrite E. pose proof (brun_again d false (comments g) S ltac:(discriminate)) as Ba. rewrite Eb in Ba. now rewrite Ba. }
        rewrite A, put_line_items by assumption. rewrite E, line_again; [reflexivity|exact S|discriminate].
      + destruct (gap_settles d h f g Hg Hh) as (gx & A1 & A2 & A3 & A4 & A5); [rewrite He; discriminate|]. exists gx. unfold settles. cbn [hole_put]. unfold put_empty. rewrite empty_text, Ex by assumption.
        split; [exact A1|]. split; [exact A2|]. split; [|split; [exact A4|easy]].
        intros g' Hg' E. rewrite empty_text by assumption.
        assert (Eg : gx = with_hints h (brun d false (comments g))).
        { pose proof A2 as X. cbn [hole_put] in X. rewrite put_gap_items, He in X by (try assumption; rewrite He; discriminate). apply app_inv_head in X.
          apply (lgap_unique _ _); [apply last_lgap, gap_last, A1|apply last_lgap, gap_last, hints_gap; [exact Hh|now apply brun_gap]|now symmetry]. }
        rewrite E, Eg, hints_comments, brun_again by (try assumption; discriminate). rewrite Ex. rewrite <- Eg. now apply A3.
    - destruct K as (Hh & L & Hf & I). exists (with_line d1 (ends_line f) (brun d (ends_line f) (comments g))). pose proof (comments_sound _ Hg) as S.
      assert (G : gap (brun d (ends_line f) (comments g))) by (now apply brun_gap).
      split; [now apply line_gap|]. split; [now apply put_break|]. split; [|split; [now apply line_first|intros _ ->; apply line_nil]].
      intros g' Hg' E. cbn [hole_put]. rewrite put_break by assumption. rewrite E, line_again by assumption. reflexivity.
  Qed.
End Gap.
