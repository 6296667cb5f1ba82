(** The gaps of a formatted text. *)
From Coq Require Import Lia.
From Verif Require Import Base Lib Config State LuaLexer Ast LuaParser Formatter FormatSpec FormatProofs PrettyGap LexSpec LexProofs LexLoop LayoutSpec LayoutProofs LayoutText CommentLexer CommentSpec RenderSpec SafeSpec CanonSpec PrettySpec PrettyUnique PrettyProofs CanonProofs RelexProofs ReparseFrame ReparseProofs IdemProofs TotalSpec TotalResults IdemSpec SettleSpec SettleGap SettleWalk SettleProds SettleTree SettleAlign SettleHole SettleProofs TrailSpec.

Section Trail.
  Variable c : config.
  Hypothesis C : calm c.
  (** ** what a gap looks like; [s]: it is at the start of a line *)
  Definition shaped (s : bool) (gx : list gitem) : Prop := exists l, Forall sound l /\
    ((exists d h e, blanks h /\ (e = true -> s = true /\ indentation c d = []) /\ gx = with_hints c h (brun c d e l))
     \/ exists d d' e e', (e' = true -> s = true /\ indentation c d' = []) /\ (e = true -> s = true) /\ gx = with_line c d e (brun c d' e' l)).
  Lemma hole_shaped s k f g : so_far s f -> hole_good s k -> last_gap g -> exists gx, gap gx /\ hole_put c k f g = f ++ gap_text gx /\ shaped (ends_line f) gx.
  Proof.
    intros So Gd Hg. pose proof (good_fits c s k f So Gd) as K. pose proof (comments_sound _ Hg) as Sd. destruct So as [F So].
    assert (G : forall d h, blanks h -> (ends_line f = true -> indentation c d = []) ->
      exists gx, gap gx /\ put_gap c d h f g = f ++ gap_text gx /\ shaped (ends_line f) gx).
    { intros d h Hh Hi. eexists. split; [|split; [apply (put_gap_items c C); assumption|]]; [apply (hints_gap c C); [exact Hh|now apply (brun_gap c C)]|].
      exists (comments g). split; [exact Sd|]. left. exists d, h, (ends_line f). auto 6. }
    assert (L : forall d, exists gx, gap gx /\ put_line c d f g = f ++ gap_text gx /\ shaped (ends_line f) gx).
    { intros d. eexists. split; [|split; [apply (put_line_items c C); assumption|]]; [apply (line_gap c C), (brun_gap c C), Sd|].
      exists (comments g). split; [exact Sd|]. right. exists d, d, (ends_line f), false. repeat split; auto; discriminate. }
    destruct k as [d h|d|d h|d h|d h d1]; cbn [hole_fits hole_put] in *.
    - destruct K. now apply G.
    - apply L.
    - destruct K as [Hh He]. unfold put_full. destruct (full c f); [apply L|apply G; [exact Hh|rewrite He; discriminate]].
    - destruct K as [Hh He]. unfold put_empty. destruct (existsb _ _); [apply L|apply G; [exact Hh|rewrite He; discriminate]].
    - destruct K as (Hh & Hl & Hf & Hi). eexists. split; [|split; [apply (put_break c C); assumption|]]; [apply (line_gap c C), (brun_gap c C), Sd|].
      exists (comments g). split; [exact Sd|]. right. exists d1, d, (ends_line f), (ends_line f). auto 7.
  Qed.
  (** ** all gaps *)
  Definition fits (b : bool) (g : list gitem) : Prop := exists gx th, blanks th /\ shaped b gx /\ g = gx ++ bl th.
  Inductive each (Q : bool -> list gitem -> Prop) : bool -> nat -> str -> list ptok -> Prop :=
  | each_end : forall b n l, gap l -> Q b l -> each Q b n (gap_text l) [(n + List.length (gap_text l), EOF, n + List.length (gap_text l))]
  | each_tok : forall b n l t w rest ts, gap l -> Q b l -> each Q (is_shebang t) (n + List.length (gap_text l) + List.length w) rest ts ->
      each Q b n (gap_text l ++ w ++ rest) ((n + List.length (gap_text l), t, n + List.length (gap_text l) + List.length w) :: ts).
  Lemma gaps_fit N : forall P s m ts fin f rem, List.length P <= N -> fin_ready fin -> (exists q2 m2 e2 l2 r2, fin = (q2, m2, e2, [(l2, EOF, r2)])) ->
    walk c (QA s, m, List.length f, ts) P fin -> so_far s f -> (m = true -> s = false) ->
    tokenization (List.length f) rem ts -> prints c (f ++ rem) f P (f ++ rem) -> each fits (ends_line f) (List.length f) rem ts.
  Proof.
    induction N as [|N IH]; intros P s m ts fin f rem HL F Fe W S Hm Z Pr.
    { destruct P; [|cbn in HL; lia]. inversion W; subst. discriminate. }
    pose proof (tokens_good _ _ _ Z) as Hts.
    destruct (walk_start c s m _ ts P fin F W) as [(l & xs & R0 & q1 & m1 & k & th & Hl & E0 & H & Bl & W1 & Q1 & T & Gd & Hk)|(x & d0 & w & R0 & Hx & E0 & D)].
    - pose proof (hole_no_tok _ _ _ _ _ _ H) as NT0.
      rewrite E0 in Pr, HL. clear P E0 W. destruct (hole_prints c C (f ++ rem) _ ts l xs k th f _ _ H Pr) as (g & Hg & Pr').
      destruct (hole_shaped s k f g S Gd) as (gx & Gx & Eg & Sh); [destruct Hg as (_ & _ & X & _); now apply gap_at_last in X|].
      assert (Gz : gap (gx ++ bl th)) by (apply gap_join; [exact Gx|now apply bl_gap]).
      assert (Tz : gap_text gx ++ th = gap_text (gx ++ bl th)) by now rewrite gap_text_app, bl_text.
      assert (Pz : hole_put c k f g ++ th = f ++ gap_text (gx ++ bl th)) by now rewrite Eg, <- app_assoc, Tz.
      assert (Ft : fits (ends_line f) (gx ++ bl th)) by (exists gx, th; auto).
      rewrite Pz in Pr'. destruct T as [->|(w & R1 & ->)].
      { assert (E : f ++ gap_text (gx ++ bl th) = f ++ rem) by now inversion Pr'. apply app_inv_head in E.
        destruct Fe as (q2 & m2 & e2 & l2 & r2 & ->). assert (Et : ts = [(l2, EOF, r2)]) by now inversion W1. clear W1 Pr' H. subst ts.
        inversion Z as [? gy Gy E2|? ? ? ? ? ? ? Hok _ _ Z2]; subst; [|inversion Z2].
        assert (gy = gx ++ bl th) as -> by (apply lgap_unique; [now apply last_lgap|apply last_lgap; exists (gx ++ bl th), []; rewrite app_nil_r; auto|congruence]).
        now constructor. }
      destruct (tok_step c q1 m1 _ ts w R1 fin Q1 W1) as (l1 & t & r & ts2 & -> & Hs & Ht & Hm1 & W2). inversion Pr' as [|? ? ? ? Pr1| | | |]; subst.
      inversion Hts as [|? ? Hok Hts2]; subst. specialize (Hok Ht). cbn [fst snd] in Hok.
      assert (HL1 : List.length R1 <= N) by (revert HL; rewrite app_length; cbn; lia).
      pose proof (so_far_tok c C t (f ++ gap_text (gx ++ bl th)) w Hok Hs) as S2.
      destruct (extends c C (f ++ rem) N R1 _ _ _ _ _ _ _ HL1 F W2 S2 (minus_shebang t) Hts2 Pr1) as (z & Ez & Hz).
      inversion Z as [|? gy ? w2 rest ? Gy Hok' Hw2 Hf Z2]; subst; [now elim Ht|].
      rewrite <- !app_assoc in Ez. apply app_inv_head in Ez.
      apply align in Ez as [-> Ez]; [|exact Gy|exact Gz|now apply (stop_written t)|].
      2:{ apply (stop_shown t); [now apply (shows_first c C)|]. intros X. now apply Hz, is_minus_eq. }
      symmetry in Ez. apply (shows_read c C t w w2 z rest Hok' Hs Hw2) in Ez as [<- ->].
      apply each_tok; [exact Gy|exact Ft|].
      assert (El : ends_line ((f ++ gap_text (gx ++ bl th)) ++ w) = is_shebang t).
      { destruct (shows_last c C t w Hok Hs) as (a & x & -> & _ & Hn). now rewrite app_assoc, ends_snoc, Hn. }
      rewrite <- El.
      replace (f ++ gap_text (gx ++ bl th) ++ w ++ rest) with (((f ++ gap_text (gx ++ bl th)) ++ w) ++ rest) in * by now rewrite <- !app_assoc.
      replace (List.length f + List.length (gap_text (gx ++ bl th)) + List.length w) with (List.length ((f ++ gap_text (gx ++ bl th)) ++ w)) in * by (rewrite !app_length; lia).
      eapply IH; [exact HL1|exact F|exact Fe|exact W2|exact S2|apply minus_shebang|exact Z2|exact Pr1].
    - rewrite E0 in Pr, HL. apply (null_step c C) in Pr. cbn [List.length] in HL.
      destruct D as [[-> W2]|(Hw & (l2 & r2 & ts0 & ->) & W2)].
      + rewrite app_nil_r in Pr. eapply IH; [|exact F|exact Fe|exact W2|exact S|exact Hm|exact Z|exact Pr]. lia.
      + exfalso. destruct (extends c C _ N _ _ _ _ _ _ _ _ (le_S_n _ _ (le_S_n _ _ (le_S _ _ HL))) F W2 (so_far_sep f w Hw) ltac:(discriminate) Hts Pr) as (z & Ez & _).
        inversion Z as [|? gy ? w2 rest ? Gy Hok' Hw2 Hf Z2]; subst.
        rewrite <- !app_assoc in Ez. apply app_inv_head in Ez.
        apply (align gy [] _ (w ++ z) Gy (Forall_nil _)) in Ez as [_ Ez]; [|now apply (stop_written CloseCurlyBracket)|destruct Hw as [-> | ->]; split; reflexivity || discriminate].
        cbn [written] in Hw2. subst w2. destruct Hw as [-> | ->]; discriminate.
  Qed.
End Trail.
