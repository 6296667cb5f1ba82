(** The line breaks of a formatted text, found in its own tree. *)
From Coq Require Import Lia.
From Verif Require Import Base Lib Config State LuaLexer Ast LuaParser Formatter LexSpec LexProofs LexLoop LayoutSpec LayoutProofs LayoutText CommentSpec RenderSpec SafeSpec CanonSpec PrettySpec PrettyUnique PrettyProofs CanonProofs RelexProofs ReparseFrame ReparseProofs IdemProofs TotalSpec TotalResults IdemSpec SettleSpec SettleGap SettleWalk SettleProds SettleTree SettleAlign SettleHole SettleProofs LineSpec.

Definition after_tok (A : list piece) : Prop := A = [] \/ exists A0 w, A = A0 ++ [PTok w].
Definition free_gap (p : piece) : Prop := exists l d, p = PGap l d [].
Lemma after_cons a A : after_tok (a :: A) -> A <> [] -> after_tok A.
Proof.
  intros [E|(A0 & w & E)] N; [discriminate|]. destruct A0 as [|b A0]; cbn [app] in E; injection E as -> E; [congruence|]. right. eauto.
Qed.
Lemma after_single a : after_tok [a] -> exists w, a = PTok w.
Proof. intros [E|(A0 & w & E)]; [discriminate|]. destruct A0 as [|b [|]]; try discriminate. injection E as ->. eauto. Qed.
Lemma split_after xs w R1 p d B : Forall no_tok xs -> forall A, xs ++ PTok w :: R1 = A ++ PLine p d :: B -> after_tok A ->
  (A = [] /\ exists xs', xs = PLine p d :: xs' /\ B = xs' ++ PTok w :: R1)
  \/ exists A', R1 = A' ++ PLine p d :: B /\ after_tok A'.
Proof.
  induction 1 as [|x xs Hx H IH]; intros A E T; destruct A as [|a A]; cbn [app] in E.
  - discriminate.
  - injection E as <- E. right. exists A. split; [exact E|]. destruct A as [|b A]; [now left|]. eapply after_cons; [exact T|discriminate].
  - injection E as -> <-. left. eauto.
  - injection E as <- E. assert (N : A <> []) by (intros ->; apply after_single in T as (w0 & ->); exact Hx).
    destruct (IH A E (after_cons _ _ T N)) as [[-> _]|K]; [congruence|]. now right.
Qed.
Lemma no_tok_end xs p d G w R : Forall no_tok xs -> forall A, xs = A ++ PLine p d :: G ++ PTok w :: R -> False.
Proof.
  intros H A ->. apply Forall_app in H as [_ H]. inversion H as [|? ? _ H']; subst. apply Forall_app in H' as [_ H'].
  inversion H' as [|? ? X _]; subst. exact X.
Qed.
Lemma free_split G xs w w' R R' : Forall free_gap G -> Forall no_tok xs -> xs ++ PTok w :: R = G ++ PTok w' :: R' -> xs = G.
Proof.
  intros HG. revert xs. induction HG as [|g G (l & d & ->) HG IH]; intros [|x xs] Hx E; cbn [app] in E.
  - reflexivity.
  - injection E as -> _. inversion Hx; subst. contradiction.
  - discriminate.
  - injection E as -> E. inversion Hx; subst. f_equal. now apply IH.
Qed.
Lemma nulls_free e ts k xs k' th : nulls e ts k xs k' th -> Forall free_gap xs -> k' = k /\ th = [].
Proof.
  induction 1 as [k|k x d r k' th Hx H IH|k x d th Hx|d h d1 x r k' th Hx H IH]; intros F.
  - auto.
  - inversion F; subst. now apply IH.
  - inversion F as [|? ? (l & d' & E) _]; subst. injection E as _ _ ->. auto.
  - inversion F as [|? ? (l & d' & E) _]; subst. discriminate.
Qed.
Lemma line_written c d f g : exists y, put_line c d f g = y ++ [10%N] ++ indentation c d.
Proof.
  unfold put_line, break_line. generalize (dressed c [] (block c d 32%N g)) as b. intros b.
  assert (K : forall x, exists y, x ++ (if ends_line x then [] else [10%N]) = y ++ [10%N]).
  { intros x. destruct (ends_line x) eqn:E; [|now exists x]. unfold ends_line in E. destruct (rev x) as [|a r] eqn:R; [discriminate|].
    apply N.eqb_eq in E. subst a. exists (rev r). rewrite app_nil_r, <- (rev_involutive x), R. reflexivity. }
  destruct (without_end_blanks b) as [|x0 b0].
  - destruct (K (without_last_blank f)) as (y & E). exists y. cbn zeta. now rewrite E, <- app_assoc.
  - destruct (K (x0 :: b0)) as (y & E). exists (f ++ y). rewrite E. now rewrite <- !app_assoc.
Qed.

Section Lines.
  Variable c : config.
  Hypothesis C : calm c.
  Lemma lines_at N : forall P s m ts fin f rem, List.length P <= N -> fin_ready fin -> (exists q2 m2 e2 l2 r2, fin = (q2, m2, e2, [(l2, EOF, r2)])) ->
    walk c (QA s, m, List.length f, ts) P fin -> so_far s f -> (m = true -> s = false) ->
    tokenization (List.length f) rem ts -> prints c (f ++ rem) f P (f ++ rem) ->
    forall A p d G w R, P = A ++ PLine p d :: G ++ PTok w :: R -> after_tok A -> Forall free_gap G -> line_at c (f ++ rem) (snd p) d.
  Proof.
    induction N as [|N IH]; intros P s m ts fin f rem HL F Fe W S Hm Z Pr A p d G wx R EP HA HG.
    { subst P. rewrite app_length in HL. cbn in HL. lia. }
    pose proof (tokens_good _ _ _ Z) as Hts.
    destruct (walk_start c s m _ ts P fin F W) as [(l & xs & R0 & q1 & m1 & k & th & Hl & E0 & H & Bl & W1 & Q1 & T & Gd & Hk)|(x & d0 & w & R0 & Hx & E0 & D)].
    - pose proof (hole_no_tok _ _ _ _ _ _ H) as NT0. destruct T as [->|(w & R1 & ->)].
      { exfalso. rewrite app_nil_r in E0. eapply no_tok_end; [exact NT0|]. rewrite <- E0. exact EP. }
      rewrite E0 in Pr, HL, EP. clear P E0 W. destruct (hole_prints c C (f ++ rem) _ ts l xs k th f _ _ H Pr) as (g & Hg & Pr').
      destruct (hole_settles c C k f g (proj1 S) (good_fits c s k f S Gd)) as (gx & Gx & Eg & Again & _); [destruct Hg as (_ & _ & X & _); now apply gap_at_last in X|].
      assert (Gz : gap (gx ++ bl th)) by (apply gap_join; [exact Gx|now apply bl_gap]).
      assert (Tz : gap_text gx ++ th = gap_text (gx ++ bl th)) by now rewrite gap_text_app, bl_text.
      assert (Pz : hole_put c k f g ++ th = f ++ gap_text (gx ++ bl th)) by now rewrite Eg, <- app_assoc, Tz.
      rewrite Pz in Pr'.
      destruct (tok_step c q1 m1 _ ts w R1 fin Q1 W1) as (l1 & t & r & ts2 & -> & Hs & Ht & Hm1 & W2). inversion Pr' as [|? ? ? ? Pr1| | | |]; subst.
      inversion Hts as [|? ? Hok Hts2]; subst. specialize (Hok Ht). cbn [fst snd] in Hok.
      assert (HL1 : List.length R1 <= N) by (revert HL; rewrite app_length; cbn; lia).
      pose proof (so_far_tok c C t (f ++ gap_text (gx ++ bl th)) w Hok Hs) as S2.
      destruct (extends c C (f ++ rem) N R1 _ _ _ _ _ _ _ HL1 F W2 S2 (minus_shebang t) Hts2 Pr1) as (z & Ez & Hz).
      inversion Z as [|? gy ? w2 rest ? Gy Hok' Hw2 Hf Z2]; subst; [now elim Ht|].
      rewrite <- !app_assoc in Ez. apply app_inv_head in Ez.
      apply align in Ez as [-> Ez]; [|exact Gy|exact Gz|now apply (stop_written t)|].
      2:{ apply (stop_shown t); [now apply (shows_first c C)|]. intros X. now apply Hz, is_minus_eq. }
      symmetry in Ez. apply (shows_read c C t w w2 z rest Hok' Hs Hw2) in Ez as [<- ->].
      destruct Hl as (t1 & r1 & u1 & E1). injection E1 as <- _ _ _.
      destruct (split_after xs w R1 p d _ NT0 A EP HA) as [[-> (xs' & -> & EB)]|(A' & ER & HA')].
      + inversion NT0 as [|? ? _ NT1]; subst. symmetry in EB. apply (free_split G xs') in EB; [|exact HG|exact NT1]. subst xs'.
        inversion H as [|? ? ? ? Nl| |]; subst. destruct (nulls_free _ _ _ _ _ _ Nl HG) as [-> ->]. cbn [snd].
        rewrite app_nil_r in Pz. cbn [hole_put] in Pz. destruct (line_written c d f g) as (y & Ey). exists y. rewrite <- Ey, Pz.
        rewrite app_assoc. replace (List.length f + _) with (List.length (f ++ gap_text (gx ++ bl [])) + 0) by (rewrite app_length; lia).
        rewrite firstn_app_2. cbn [firstn]. now rewrite app_nil_r.
      + replace (f ++ gap_text (gx ++ bl th) ++ w ++ rest) with (((f ++ gap_text (gx ++ bl th)) ++ w) ++ rest) in * by now rewrite <- !app_assoc.
        replace (List.length f + List.length (gap_text (gx ++ bl th)) + List.length w) with (List.length ((f ++ gap_text (gx ++ bl th)) ++ w)) in * by (rewrite !app_length; lia).
        eapply IH; [exact HL1|exact F|exact Fe|exact W2|exact S2|apply minus_shebang|exact Z2|exact Pr1|exact ER|exact HA'|exact HG].
    - rewrite E0 in Pr, HL. apply (null_step c C) in Pr. cbn [List.length] in HL.
      assert (X : exists A', R0 = A' ++ PLine p d :: G ++ PTok wx :: R /\ after_tok A').
      { rewrite E0 in EP. destruct (split_after [PGap (x, x) d0 []] w R0 p d _ ltac:(repeat constructor) A EP HA) as [[_ (xs' & X & _)]|X]; [discriminate|exact X]. }
      destruct X as (A' & -> & HA'). destruct D as [[-> W2]|(Hw & (l2 & r2 & ts0 & ->) & W2)].
      + rewrite app_nil_r in Pr. eapply IH; [|exact F|exact Fe|exact W2|exact S|exact Hm|exact Z|exact Pr|reflexivity|exact HA'|exact HG]. lia.
      + exfalso. destruct (extends c C _ N _ _ _ _ _ _ _ _ (le_S_n _ _ (le_S_n _ _ (le_S _ _ HL))) F W2 (so_far_sep f w Hw) ltac:(discriminate) Hts Pr) as (z & Ez & _).
        inversion Z as [|? gy ? w2 rest ? Gy Hok' Hw2 Hf Z2]; subst.
        rewrite <- !app_assoc in Ez. apply app_inv_head in Ez.
        apply (align gy [] _ (w ++ z) Gy (Forall_nil _)) in Ez as [_ Ez]; [|now apply (stop_written CloseCurlyBracket)|destruct Hw as [-> | ->]; split; reflexivity || discriminate].
        cbn [written] in Hw2. subst w2. destruct Hw as [-> | ->]; discriminate.
  Qed.
End Lines.
