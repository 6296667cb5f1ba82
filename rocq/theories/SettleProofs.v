(** C34 with comments: a formatted text is formatted to itself. *)
From Coq Require Import Lia.
From Verif Require Import Base Lib Config State LuaLexer Ast LuaParser Formatter LexSpec LexProofs LexLoop LayoutSpec LayoutProofs LayoutText CommentSpec RenderSpec SafeSpec CanonSpec PrettySpec PrettyUnique PrettyProofs CanonProofs RelexProofs ReparseFrame ReparseProofs IdemProofs TotalSpec TotalResults IdemSpec SettleSpec SettleGap SettleWalk SettleProds SettleTree SettleAlign SettleHole.

Definition tok_good (x : ptok) : Prop := snd (fst x) <> EOF -> token_ok (snd (fst x)).
Lemma tokens_good n src ts : tokenization n src ts -> Forall tok_good ts.
Proof. induction 1; constructor; auto; unfold tok_good; cbn; [congruence|auto]. Qed.
Lemma begins_bound n src ts x : tokenization n src ts -> begins ts x -> x <= n + List.length src.
Proof. intros H (t & r & w & ->). inversion H; subst; [lia|]. rewrite app_length. lia. Qed.
Lemma gap_placed f g y : gap g -> gap_text_at (f ++ gap_text g ++ y) (List.length f, List.length f + List.length (gap_text g)) g.
Proof.
  intros G. unfold gap_text_at. cbn [fst snd]. split; [lia|]. split; [rewrite !app_length; lia|]. split; [now left|].
  unfold text_at. rewrite skipn_app, skipn_all, Nat.sub_diag. cbn [app skipn]. replace (_ - _) with (List.length (gap_text g) + 0) by lia.
  rewrite firstn_app_2. cbn [firstn]. now rewrite app_nil_r.
Qed.
Lemma stop_shown t w z : first_ok t w -> (t = Minus -> hd_error z <> Some 45%N) -> stop (w ++ z).
Proof.
  intros (x & r & -> & G & A) F. cbn [app stop]. split; [exact G|]. intros ->. destruct (A eq_refl) as [-> ->]. cbn [app]. now apply F.
Qed.
Lemma stop_written t w rest : token_ok t -> written t w rest -> can_follow t (hd_error rest) = true -> stop (w ++ rest).
Proof.
  intros Ht W F. assert (M : t = Minus -> hd_error rest <> Some 45%N) by (intros ->; intros E; rewrite E in F; discriminate F).
  pose proof (spelling_first t Ht) as S. destruct t; cbn [written] in W; try (subst w; now apply (stop_shown _ _ _ S)).
  destruct W as [->|[-> ->]]; [|now apply (stop_shown _ _ _ S)]. cbn [spelling] in S. destruct S as (x & r & -> & G & A). cbn [app stop]. split; [exact G|].
  intros ->. now destruct (A eq_refl).
Qed.
Lemma blanks_first th z : blanks th -> th <> [] -> hd_error (th ++ z) <> Some 45%N.
Proof.
  intros B N. destruct th as [|x th]; [now elim N|]. apply Forall_inv in B. cbn [app hd_error]. intros E. injection E as ->. revert B. vm_compute. intuition discriminate.
Qed.

Section Settle.
  Variable c : config.
  Hypothesis C : calm c.

  Lemma tok_step q m e ts w R fin : ready q = true -> walk c (q, m, e, ts) (PTok w :: R) fin ->
    exists l t r ts2, ts = (l, t, r) :: ts2 /\ shows c t w /\ t <> EOF /\ (m = true -> is_minus t = false) /\ walk c (QA (is_shebang t), is_minus t, r, ts2) R fin.
  Proof. intros Q W. inversion W; subst; try discriminate. exists l, t, r, ts0. auto. Qed.
  Lemma null_step src x d w f R o : prints c src f (PGap (x, x) d [] :: PTok w :: R) o -> prints c src (f ++ w) R o.
  Proof.
    intros Pr. inversion Pr as [| |? ? ? ? g0 ? ? G Pr'| | |]; subst. apply empty_gap in G. subst g0. rewrite (put_gap_empty c C), app_nil_r in Pr'. now inversion Pr'.
  Qed.
  Lemma minus_shebang t : is_minus t = true -> is_shebang t = false. Proof. now destruct t. Qed.
  Lemma is_minus_eq t : t = Minus -> is_minus t = true. Proof. now intros ->. Qed.

  Lemma extends src N : forall P s m e ts fin f o, List.length P <= N -> fin_ready fin -> walk c (QA s, m, e, ts) P fin -> so_far s f -> (m = true -> s = false) ->
    Forall tok_good ts -> prints c src f P o -> exists z, o = f ++ z /\ (m = true -> hd_error z <> Some 45%N).
  Proof.
    induction N as [|N IH]; intros P s m e ts fin f o HL F W S Hm Hts Pr.
    { destruct (walk_start c s m e ts P fin F W) as [(l & xs & R & q' & m' & k & th & _ & -> & H & _)|(x & d & w & R & _ & -> & _)];
        [inversion H; subst; cbn in HL; lia|cbn in HL; lia]. }
    destruct (walk_start c s m e ts P fin F W) as [(l & xs & R & q' & m' & k & th & Hl & -> & H & Bl & W' & Q' & T & G & Hk)|(x & d & w & R & Hx & -> & D)].
    - destruct (hole_prints c C src e ts l xs k th f R o H Pr) as (g & Hg & Pr').
      destruct (hole_settles c C k f g (proj1 S) (good_fits c s k f S G)) as (gx & Gx & Eg & _ & Nx & Hx); [destruct Hg as (_ & _ & A & _); now apply gap_at_last in A|].
      rewrite Eg, <- app_assoc in Pr'. destruct T as [->|(w & R1 & ->)].
      + inversion Pr'; subst. eexists. split; [reflexivity|]. intros _. destruct gx as [|i gx]; [|now apply no_comment_first]. cbn [gap_text flat_map app].
        destruct th as [|a th]; [discriminate|]. rewrite <- (app_nil_r (a :: th)). now apply blanks_first.
      + destruct (tok_step q' m' e ts w R1 fin Q' W') as (l1 & t & r & ts2 & -> & Hs & Ht & Hm' & W1). inversion Pr' as [|? ? ? ? Pr1| | | |]; subst.
        inversion Hts as [|? ? Hok Hts2]; subst. specialize (Hok Ht). cbn [fst snd] in Hok.
        assert (HL1 : List.length R1 <= N) by (revert HL; rewrite app_length; cbn; lia).
        destruct (IH R1 _ _ _ _ _ _ _ HL1 F W1 (so_far_tok c C t _ w Hok Hs) (minus_shebang t) Hts2 Pr1) as (z & -> & _).
        rewrite <- !app_assoc. eexists. split; [reflexivity|]. intros Em.
        destruct gx as [|i gx]; [|now apply no_comment_first]. cbn [gap_text flat_map app]. destruct th as [|a th]; [|now apply blanks_first]. cbn [app].
        destruct (shows_first c C t w Hok Hs) as (y & w0 & -> & _ & A). cbn [app hd_error]. intros E. injection E as ->. destruct (A eq_refl) as [-> _].
        destruct m' eqn:Em'; [now specialize (Hm' eq_refl)|]. destruct S as [_ S]. rewrite (Hm Em) in S. now apply (Hx (Hk Em eq_refl) (proj2 S)).
    - apply null_step in Pr. cbn [List.length] in HL. destruct D as [[-> W']|(Hw & _ & W')].
      + rewrite app_nil_r in Pr. eapply IH; [|exact F|exact W'|exact S|exact Hm|exact Hts|exact Pr]. lia.
      + destruct (IH R false false e ts fin (f ++ w) o ltac:(lia) F W' (so_far_sep f w Hw) ltac:(discriminate) Hts Pr) as (z & -> & _).
        rewrite <- app_assoc. eexists. split; [reflexivity|]. intros _. destruct Hw as [-> | ->]; discriminate.
  Qed.

  (** the text read from a position on *)
  Lemma one_piece xs R x w R0 : Forall no_tok xs -> tok_next R -> xs <> [] -> no_tok x -> same_kinds (xs ++ R) (x :: PTok w :: R0) ->
    exists y R1, xs = [y] /\ R = PTok w :: R1 /\ same_kind y x /\ same_kinds R1 R0.
  Proof.
    intros Hx T Hn Hy S. destruct xs as [|y xs]; [now elim Hn|]. cbn [app] in S. inversion S as [|? ? ? ? Sy S']; subst. destruct xs as [|y' xs].
    - cbn [app] in S'. inversion S' as [|y2 ? R1 ? S2 S3]; subst. destruct y2; cbn in S2; try contradiction. subst. eauto 6.
    - exfalso. inversion S' as [|? ? ? ? S2 _]; subst. inversion Hx as [|? ? _ Hx']; subst. inversion Hx' as [|? ? A _]; subst. destruct y'; cbn in *; contradiction.
  Qed.
  Lemma kinds_sym ps ps' : same_kinds ps ps' -> same_kinds ps' ps.
  Proof.
    induction 1 as [|x y l l' H F IH]; constructor; auto. destruct x, y; cbn in *; try contradiction; intuition congruence.
  Qed.
  Lemma hole_not_nil e l ts xs k th : hole e l ts xs k th -> xs <> [].
  Proof. intros H. inversion H; discriminate. Qed.

  Lemma reads_back src N : forall P P' s m e ts fin s' m' ts' fin' f rem, List.length P <= N -> same_kinds P P' ->
    fin_ready fin -> fin_ready fin' -> (exists q2 m2 e2 l2 r2, fin' = (q2, m2, e2, [(l2, EOF, r2)])) ->
    walk c (QA s, m, e, ts) P fin -> walk c (QA s', m', List.length f, ts') P' fin' -> so_far s f -> (m = true -> s = false) ->
    Forall tok_good ts -> tokenization (List.length f) rem ts' -> prints c src f P (f ++ rem) -> prints c (f ++ rem) f P' (f ++ rem).
  Proof.
    induction N as [|N IH]; intros P P' s m e ts fin s' m' ts' fin' f rem HL K F F' Fe W W' S Hm Hts Z Pr.
    { destruct (walk_start c s m e ts P fin F W) as [(l & xs & R & q1 & m1 & k & th & _ & -> & H & _)|(x & d & w & R & _ & -> & _)];
        [inversion H; subst; cbn in HL; lia|cbn in HL; lia]. }
    assert (B : forall x, null_at x (List.length f) ts' -> x <= List.length (f ++ rem)).
    { intros x Hx. rewrite app_length. destruct Hx as [->|[->|Hx]]; [lia|lia|]. apply (begins_bound _ _ _ _ Z) in Hx. lia. }
    destruct (walk_start c s' m' _ ts' P' fin' F' W') as [(l' & xs' & R' & q1' & m1' & k' & th' & Hl' & -> & H' & _ & W1' & Q1' & T' & _)|(x' & d' & w' & R' & Hx' & -> & D')];
    destruct (walk_start c s m e ts P fin F W) as [(l & xs & R & q1 & m1 & k & th & Hl & -> & H & Bl & W1 & Q1 & T & G & Hk)|(x & d & w & R & Hx & -> & D)].
    - (* a gap between two tokens *)
      destruct (split_same xs xs' R R' (hole_no_tok _ _ _ _ _ _ H) (hole_no_tok _ _ _ _ _ _ H') T T' K) as [K1 K2].
      destruct (hole_same _ _ _ _ _ _ _ _ _ _ _ _ H H' K1) as [<- <-].
      destruct (hole_prints c C src e ts l xs k th f R _ H Pr) as (g & Hg & Pr').
      destruct (hole_settles c C k f g (proj1 S) (good_fits c s k f S G)) as (gx & Gx & Eg & Again & _); [destruct Hg as (_ & _ & A & _); now apply gap_at_last in A|].
      rewrite Eg, <- app_assoc in Pr'.
      assert (Gz : gap (gx ++ bl th)) by (apply gap_join; [exact Gx|now apply bl_gap]).
      assert (Tz : gap_text gx ++ th = gap_text (gx ++ bl th)) by now rewrite gap_text_app, bl_text.
      assert (Pz : hole_put c k f (gx ++ bl th) ++ th = f ++ gap_text (gx ++ bl th)).
      { rewrite Again; [now rewrite <- app_assoc, Tz|now apply gap_last|]. now rewrite comments_app, bl_comments, app_nil_r. }
      rewrite Tz in Pr'. destruct (next_same R R' K2 T) as [[-> ->]|(w & R1 & R1' & -> & -> & K3)].
      + (* the end *)
        assert (E : f ++ gap_text (gx ++ bl th) = f ++ rem) by (clear - Pr'; inversion Pr'; congruence). apply app_inv_head in E. clear Pr'. subst rem.
        destruct Fe as (q2 & m2 & e2 & l2 & r2 & ->). assert (E2 : ts' = [(l2, EOF, r2)]) by (clear - W1'; inversion W1'; congruence). clear W1'. subst ts'.
        inversion Z as [? gl Hgl|? ? ? ? ? ? ? Ht]; subst; [|exfalso; exact Ht].
        destruct Hl' as (t1 & r1 & u1 & E1). injection E1 as <- _ _ _. match goal with A : gap_text gl = _ |- _ => rewrite A in * end.
        eapply (hole_print c C _ _ _ B _ _ _ _ _ (gx ++ bl th)); [exact H'| |].
        * rewrite <- (app_nil_r (gap_text (gx ++ bl th))) at 1. apply gap_placed, Gz.
        * rewrite Pz. constructor.
      + destruct (tok_step q1 m1 e ts w R1 fin Q1 W1) as (l1 & t & r & ts2 & -> & Hs & Ht & Hm1 & W2). inversion Pr' as [|? ? ? ? Pr1| | | |]; subst.
        inversion Hts as [|? ? Hok Hts2]; subst. specialize (Hok Ht). cbn [fst snd] in Hok.
        assert (HL1 : List.length R1 <= N) by (pose proof (hole_not_nil _ _ _ _ _ _ H); destruct xs; [congruence|]; revert HL; cbn; rewrite app_length; cbn; lia).
        pose proof (so_far_tok c C t (f ++ gap_text (gx ++ bl th)) w Hok Hs) as S2.
        destruct (extends src N R1 _ _ _ _ _ _ _ HL1 F W2 S2 (minus_shebang t) Hts2 Pr1) as (z & Ez & Hz).
        destruct (tok_step q1' m1' _ ts' w R1' fin' Q1' W1') as (l1' & t' & r' & ts2' & -> & Hs' & Ht' & _ & W2').
        inversion Z as [|? gy ? w2 rest ? Gy Hok' Hw2 Hf Z2]; subst; [now elim Ht'|].
        rewrite <- !app_assoc in Ez. apply app_inv_head in Ez.
        apply align in Ez as [-> Ez]; [|exact Gy|exact Gz|now apply (stop_written t')|].
        2:{ apply (stop_shown t); [now apply (shows_first c C)|]. intros A. now apply Hz, is_minus_eq. }
        symmetry in Ez. apply (shows_read c C t' w w2 z rest Hok' Hs' Hw2) in Ez as [<- ->].
        destruct Hl' as (t1 & r1 & u1 & E1). injection E1 as <- _ _ _.
        eapply (hole_print c C _ _ _ B _ _ _ _ _ (gx ++ bl th)); [exact H'|apply gap_placed, Gz|]. rewrite Pz. constructor.
        replace (f ++ gap_text (gx ++ bl th) ++ w ++ rest) with (((f ++ gap_text (gx ++ bl th)) ++ w) ++ rest) in * by now rewrite <- !app_assoc.
        replace (List.length f + List.length (gap_text (gx ++ bl th)) + List.length w) with (List.length ((f ++ gap_text (gx ++ bl th)) ++ w)) in * by (rewrite !app_length; lia).
        eapply IH; [exact HL1|exact K3|exact F|exact F'|exact Fe|exact W2|exact W2'|exact S2|apply minus_shebang|exact Hts2|exact Z2|exact Pr1].
    - (* a separator was added *)
      apply kinds_sym in K. destruct (one_piece xs' R' (PGap (x, x) d []) w R (hole_no_tok _ _ _ _ _ _ H') T' (hole_not_nil _ _ _ _ _ _ H') Logic.I K) as (y & R1' & -> & -> & Ky & K3). apply kinds_sym in K3.
      destruct (tok_step q1' m1' _ ts' w R1' fin' Q1' W1') as (l1' & t' & r' & ts2' & -> & Hs' & Ht' & _ & W2').
      inversion Z as [|? gy ? w2 rest ? Gy Hok' Hw2 Hf Z2]; subst; [now elim Ht'|].
      destruct (shows_first c C t' w Hok' Hs') as (x0 & w0 & Ew & G0 & _).
      destruct D as [[-> _]|(Hw & _ & W2)]; [discriminate|]. clear x0 w0 Ew G0.
      assert (HL1 : List.length R <= N) by (cbn in HL; lia). pose proof (so_far_sep f w Hw) as S2. apply null_step in Pr.
      destruct (extends src N R _ _ _ _ _ _ _ HL1 F W2 S2 ltac:(discriminate) Hts Pr) as (z & Ez & _).
      rewrite <- !app_assoc in Ez. apply app_inv_head in Ez.
      apply (align gy [] _ (w ++ z) Gy (Forall_nil _)) in Ez as [-> Ez]; [|now apply (stop_written t')|destruct Hw as [-> | ->]; split; reflexivity || discriminate].
      symmetry in Ez. apply (shows_read c C t' w w2 z rest Hok' Hs' Hw2) in Ez as [<- ->]. cbn [gap_text flat_map app List.length] in *.
      assert (Ey : y = PGap (List.length f, List.length f) (match y with PGap _ d0 _ => d0 | _ => 0 end) []).
      { destruct Hl' as (t1 & r1 & u1 & E1). injection E1 as <- _ _ _. rewrite Nat.add_0_r in *. inversion H'; subst; cbn in Ky; try contradiction. destruct Ky as [_ ->]. reflexivity. }
      rewrite Ey. eapply pr_gap; [apply gap_empty; rewrite app_length; lia|]. rewrite (put_gap_empty c C), app_nil_r. constructor.
      rewrite app_assoc in *. rewrite Nat.add_0_r in *. replace (List.length f + List.length w) with (List.length (f ++ w)) in * by now rewrite app_length.
      eapply IH; [exact HL1|exact K3|exact F|exact F'|exact Fe|exact W2|exact W2'|exact S2|discriminate|exact Hts|exact Z2|exact Pr].
    - (* not the other way round *)
      exfalso. destruct (one_piece xs R (PGap (x', x') d' []) w' R' (hole_no_tok _ _ _ _ _ _ H) T (hole_not_nil _ _ _ _ _ _ H) Logic.I K) as (y & R1 & -> & -> & Ky & K3).
      destruct (tok_step q1 m1 e ts w' R1 fin Q1 W1) as (l1 & t & r & ts2 & -> & Hs & Ht & Hm1 & W2).
      inversion Hts as [|? ? Hok Hts2]; subst. specialize (Hok Ht). cbn [fst snd] in Hok.
      pose proof (shows_first c C t w' Hok Hs) as Fo.
      destruct D' as [[-> _]|(Hw & (l2 & r2 & ts0 & ->) & _)]; [destruct Fo as (? & ? & ? & _); discriminate|].
      inversion Z as [|? gy ? w2 rest ? Gy Hok' Hw2 Hf Z2]; subst.
      destruct (hole_prints c C src e _ l [y] k th f _ _ H Pr) as (g & Hg & Pr').
      destruct (hole_settles c C k f g (proj1 S) (good_fits c s k f S G)) as (gx & Gx & Eg & Again & _); [destruct Hg as (_ & _ & A & _); now apply gap_at_last in A|].
      rewrite Eg, <- app_assoc in Pr'. inversion Pr' as [|? ? ? ? Pr1| | | |]; subst.
      assert (HL1 : List.length R1 <= N) by (cbn in HL; lia).
      destruct (extends src N R1 _ _ _ _ _ _ _ HL1 F W2 (so_far_tok c C t _ w' Hok Hs) (minus_shebang t) Hts2 Pr1) as (z & Ez & _).
      rewrite <- !app_assoc in Ez. apply app_inv_head in Ez.
      rewrite (app_assoc (gap_text gx)) in Ez. replace (gap_text gx ++ th) with (gap_text (gx ++ bl th)) in Ez by now rewrite gap_text_app, bl_text.
      apply align in Ez as [_ Ez]; [|exact Gy|apply gap_join; [exact Gx|now apply bl_gap]|now apply (stop_written CloseCurlyBracket)|destruct Hw as [-> | ->]; split; reflexivity || discriminate].
      cbn [written] in Hw2. subst w2. destruct Hw as [-> | ->]; discriminate.
    - apply null_step in Pr. inversion K as [|? ? ? ? Kx K1]; subst. inversion K1 as [|? ? ? ? Kw K2]; subst. cbn in Kw. subst w'. cbn [List.length] in HL.
      eapply pr_gap; [apply gap_empty; now apply B|]. rewrite (put_gap_empty c C), app_nil_r. constructor.
      destruct D as [[-> W2]|(Hw & _ & W2)].
      + destruct D' as [[_ W2']|([? | ?] & _)]; try discriminate. rewrite app_nil_r in *.
        eapply IH; [|exact K2|exact F|exact F'|exact Fe|exact W2|exact W2'|exact S|exact Hm|exact Hts|exact Z|exact Pr]. lia.
      + exfalso. destruct D' as [[-> _]|(_ & (l2 & r2 & ts0 & ->) & _)]; [destruct Hw; discriminate|].
        inversion Z as [|? gy ? w2 rest ? Gy Hok' Hw2 Hf Z2]; subst.
        destruct (extends src N R _ _ _ _ _ _ _ ltac:(lia) F W2 (so_far_sep f w Hw) ltac:(discriminate) Hts Pr) as (z & Ez & _).
        rewrite <- !app_assoc in Ez. apply app_inv_head in Ez.
        apply (align gy [] _ (w ++ z) Gy (Forall_nil _)) in Ez as [_ Ez]; [|now apply (stop_written CloseCurlyBracket)|destruct Hw as [-> | ->]; split; reflexivity || discriminate].
        cbn [written] in Hw2. subst w2. destruct Hw as [-> | ->]; discriminate.
  Qed.
End Settle.

(** ** the theorem *)
Lemma tidy_plain c : tidy c -> plain_ends c.
Proof.
  intros (_ & (h0 & E0 & _ & B0) & A1 & A2 & A3) k x a E.
  assert (Q : forall b y, blanks b -> b = y ++ [a] -> (a < 128)%N).
  { intros b y Hb ->. apply Forall_app in Hb as [_ Hb]. apply Forall_inv in Hb. cbn in Hb. decompose [or] Hb; subst; try reflexivity; contradiction. }
  destruct k; try (apply (Q (x ++ [a]) x); [|reflexivity]; match type of E with cs c ?k = _ => first [exact (A1 k _ ltac:(cbn; tauto) E)|exact (proj2 (A2 k _ ltac:(cbn; tauto) E))] end).
  - rewrite E0 in E. injection E as ->. now apply (Q (x ++ [a]) x).
  - destruct (A3 _ E) as (b & Hb & B). destruct x as [|y x]; [destruct Hb as [Hb|Hb]; injection Hb as -> _; reflexivity|].
    apply (Q b x B). destruct Hb as [Hb|Hb]; injection Hb as _ Hb; now symmetry.
Qed.
Lemma no_measures c : no_forcing c -> measures c -> False.
Proof.
  intros NF M. destruct M as [X _|X _|X _|X _ _];
    match type of X with cb c ?k = _ => specialize (NF k ltac:(cbn; tauto)); unfold on in NF; rewrite X in NF; discriminate NF end.
Qed.
Theorem format_stays src c o : calm c -> readable c src -> process_buffer src c = Formatted o -> process_buffer o c = Formatted o.
Proof.
  intros C Rd E. pose proof C as (T & NF & Hl & _).
  assert (L : exists ts, lex src = LexOk ts).
  { unfold process_buffer, parse_lua in E. destruct (lex src) as [ts| |]; try discriminate. eauto. }
  destruct L as (ts & L). destruct (Rd ts L) as [B1 B2].
  destruct (format_wrote src c o ts T Hl E L B1 B2) as (n & ts' & P & L' & W & _).
  destruct (tokens_reparse c T n src ts' P W) as (n' & P' & A).
  assert (Pl : parse_lua o = Parsed n') by (unfold parse_lua; now rewrite L', P').
  destruct (format_layout src c n o NF Hl P E) as [Pr _].
  destruct (parsed_walk c C src ts n L P) as (q & m & e & l & r & Q & Wk).
  destruct (parsed_walk c C o ts' n' L' Pl) as (q' & m' & e' & l' & r' & Q' & Wk').
  apply lex_correct in L. apply lex_correct in L'.
  assert (Pr' : prints c o [] (pieces c n' 0 None) o).
  { refine (reads_back c C src _ _ _ true false 0 ts (q, m, e, [(l, EOF, r)]) true false ts' (q', m', e', [(l', EOF, r')]) [] o (le_n _) _ Q Q' _ Wk Wk' _ _ _ L' Pr).
    - apply (pieces_same c (NF _ (or_introl eq_refl)) n n' A).
    - do 5 eexists. reflexivity.
    - split; [apply firm_nil|now left].
    - discriminate.
    - exact (tokens_good _ _ _ L). }
  destruct (format_total o c (tidy_plain c T) (fun M => match no_measures c NF M with end) Hl) as [(o' & E')|E'].
  - destruct (format_layout o c n' o' NF Hl Pl E') as [_ U]. now rewrite E', (U _ Pr').
  - exfalso. unfold process_buffer in E'. rewrite Pl, Hl in E'. cbn [line_range_to_pos_range] in E'.
    repeat match type of E' with context [match ?x with _ => _ end] => destruct x end; discriminate.
Qed.
