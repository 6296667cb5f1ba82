(** The text at a position is the text of one gap only, so the pieces of a tree print as one text only. *)
From Verif Require Import Base Lib Config State Ast LuaLexer LexSpec LexProofs LayoutSpec LayoutText CommentSpec RenderSpec PrettySpec.

Lemma eqs_same n m (a b : str) : repeat 61%N n ++ 91%N :: a = repeat 61%N m ++ 91%N :: b -> n = m /\ a = b.
Proof.
  revert m. induction n as [|n IH]; intros [|m] E; cbn in E; try discriminate; injection E; auto.
  intros E'. apply IH in E' as [-> ->]. auto.
Qed.
Lemma opening_same n m a b : opening n ++ a = opening m ++ b -> n = m /\ a = b.
Proof.
  unfold opening, brackets. cbn. rewrite <- !app_assoc. cbn. intros E. injection E as E. now apply eqs_same in E.
Qed.
Lemma line_same s s' r r' : no_newline s -> no_newline s' -> s ++ 10%N :: r = s' ++ 10%N :: r' -> s = s' /\ r = r'.
Proof.
  unfold no_newline. revert s'. induction s as [|x s IH]; intros [|y s'] H H' E; cbn in E; injection E; auto.
  - intros _ <-. elim H'. now left.
  - intros _ ->. elim H. now left.
  - intros E' ->. apply IH in E' as [-> ->]; auto; intros Hn; [apply H|apply H']; now right.
Qed.
Lemma long_same lv lv' s s' r r' : long_body lv s -> long_body lv' s' -> long lv s ++ r = long lv' s' ++ r' -> lv = lv' /\ s = s' /\ r = r'.
Proof.
  unfold long, long_body. rewrite <- !app_assoc. intros H H' E. apply opening_same in E as [-> E]. split; [reflexivity|].
  pose proof (proj2 (long_end_sound _ _ _ _ _ H) r) as A. pose proof (proj2 (long_end_sound _ _ _ _ _ H') r') as B.
  rewrite E, B in A. injection A as -> ->. auto.
Qed.
Lemma long_opens lv s r : opens_long (long lv s ++ r) = true.
Proof. apply opens_long_iff. unfold long. rewrite <- app_assoc. eauto. Qed.

(** [last_gap] from the left *)
Inductive lgap : list gitem -> Prop :=
| lg_nil : lgap []
| lg_last : forall s, gitem_ok (GLast s) -> lgap [GLast s]
| lg_cons : forall g l, gitem_ok g -> is_last g = false -> lgap l -> lgap (g :: l).
Lemma last_lgap l : last_gap l -> lgap l.
Proof.
  intros (l0 & l1 & -> & H0 & H1). induction H0 as [|g l [Hg Hl] H IH]; cbn; [|now apply lg_cons].
  destruct H1 as [->|(s & -> & Hs)]; [apply lg_nil|now apply lg_last].
Qed.
Lemma lgap_unique l l' : lgap l -> lgap l' -> gap_text l = gap_text l' -> l = l'.
Proof.
  intros H. revert l'. induction H as [|s Hs|g l Hg Hl H IH]; intros l' H' E.
  - destruct H' as [|s' Hs'|g' l' Hg' Hl' H']; [reflexivity|discriminate|destruct g'; discriminate].
  - destruct H' as [|s' Hs'|g' l' Hg' Hl' H']; [discriminate| |].
    + cbn in E. rewrite !app_nil_r in E. injection E as ->. reflexivity.
    + exfalso. cbn in E. rewrite app_nil_r in E. destruct Hs as [Hs1 Hs2]. destruct g' as [x| |s'|lv s'|s']; cbn -[long] in Hg', E; try discriminate.
      * injection E as <- E. decompose [or] Hg'; try discriminate; try contradiction.
      * injection E as ->. rewrite <- app_assoc in Hs1. apply Hs1. apply in_or_app. right. left. reflexivity.
      * injection E as ->. discriminate (eq_trans (eq_sym Hs2) (long_opens lv s' _)).
  - destruct H' as [|s' Hs'|g' l' Hg' Hl' H'].
    + destruct g; discriminate.
    + exfalso. cbn in E. rewrite app_nil_r in E. destruct Hs' as [Hs1 Hs2]. destruct g as [x| |s|lv s|s]; cbn -[long] in Hg, E; try discriminate.
      * injection E as -> E. decompose [or] Hg; try discriminate; try contradiction.
      * injection E as <-. rewrite <- app_assoc in Hs1. apply Hs1. apply in_or_app. right. left. reflexivity.
      * injection E as <-. discriminate (eq_trans (eq_sym Hs2) (long_opens lv s _)).
    + unfold gap_text in E. cbn [flat_map] in E. fold (gap_text l) (gap_text l') in E.
      enough (g = g' /\ gap_text l = gap_text l') as [-> E'] by (f_equal; now apply IH).
      destruct g as [x| |s|lv s|s], g' as [x'| |s'|lv' s'|s']; cbn [is_last] in *; try discriminate; cbn [gitem_text app] in E; cbn [gitem_ok] in *.
      * injection E as -> ->. auto.
      * injection E as -> E. exfalso. cbn in Hg. decompose [or] Hg; try discriminate; contradiction.
      * injection E as -> E. exfalso. cbn in Hg. decompose [or] Hg; try discriminate; contradiction.
      * injection E as -> E. exfalso. cbn in Hg. decompose [or] Hg; try discriminate; contradiction.
      * injection E as <- E. exfalso. cbn in Hg'. decompose [or] Hg'; try discriminate; contradiction.
      * injection E as ->. auto.
      * injection E as <- E. exfalso. cbn in Hg'. decompose [or] Hg'; try discriminate; contradiction.
      * injection E as E. rewrite <- !app_assoc in E. destruct Hg as [Hg _], Hg' as [Hg' _]. cbn [app] in E. apply line_same in E as [-> ->]; auto.
      * exfalso. injection E as E. rewrite <- app_assoc in E. cbn [app] in E. pose proof (opens_long_app s 10 (gap_text l) (proj2 Hg) ltac:(discriminate) ltac:(discriminate)) as A.
        rewrite E in A. discriminate (eq_trans (eq_sym A) (long_opens lv' s' _)).
      * injection E as <- E. exfalso. cbn in Hg'. decompose [or] Hg'; try discriminate; contradiction.
      * exfalso. injection E as E. rewrite <- (app_assoc s') in E. cbn [app] in E. pose proof (opens_long_app s' 10 (gap_text l') (proj2 Hg') ltac:(discriminate) ltac:(discriminate)) as A.
        rewrite <- E in A. discriminate (eq_trans (eq_sym A) (long_opens lv s _)).
      * assert (E' : long lv s ++ gap_text l = long lv' s' ++ gap_text l') by (injection E as E; exact (f_equal (cons 91%N) E)).
        apply long_same in E' as (-> & -> & ->); auto.
Qed.
Lemma gap_text_unique src p g g' : gap_text_at src p g -> gap_text_at src p g' -> g = g'.
Proof.
  intros (_ & _ & A & B) (_ & _ & A' & B'). apply gap_at_last, last_lgap in A. apply gap_at_last, last_lgap in A'.
  apply lgap_unique; congruence.
Qed.
Theorem prints_unique c src f ps o : prints c src f ps o -> forall o', prints c src f ps o' -> o = o'.
Proof.
  induction 1; intros o' H'; inversion H'; subst; auto; apply IHprints;
    match goal with A : gap_text_at src ?p ?g, B : gap_text_at src ?p ?g' |- _ => now rewrite (gap_text_unique src p g g' A B) end.
Qed.
