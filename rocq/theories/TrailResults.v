(** The gaps of a formatted text have no blanks at the ends of lines, and comments are on lines of their own. *)
From Coq Require Import Lia.
From Verif Require Import Base Lib Config State LuaLexer Ast LuaParser Formatter FormatSpec FormatProofs PrettyGap LexSpec LexProofs LexLoop LayoutSpec LayoutProofs LayoutText CommentLexer CommentSpec RenderSpec SafeSpec CanonSpec PrettySpec PrettyUnique PrettyProofs CanonProofs RelexProofs IdemSpec SettleSpec SettleGap SettleWalk SettleProds SettleHole SettleProofs TrailSpec TrailProofs.

Fixpoint tidy (g : list gitem) : Prop :=
  match g with
  | [] => True
  | GBlank _ :: (GNewline :: _) => False
  | _ :: r => tidy r
  end.
Lemma tidy_cons i g : tidy g -> (is_blank i = true -> hd_error g <> Some GNewline) -> tidy (i :: g).
Proof. intros H E. destruct i; cbn [tidy]; auto. destruct g as [|[] g]; auto. now elim (E eq_refl). Qed.
Lemma tidy_tail i g : tidy (i :: g) -> tidy g /\ (is_blank i = true -> hd_error g <> Some GNewline).
Proof. destruct i; cbn [tidy is_blank]; try (split; [assumption|discriminate]). destruct g as [|[] g]; try easy; split; (assumption || discriminate). Qed.
Lemma tidy_spec g : tidy g -> no_trailing g.
Proof.
  intros H a. revert g H. induction a as [|i a IH]; intros g H x b E; subst g; cbn [app] in H; [exact H|].
  apply tidy_tail in H as [H _]. exact (IH _ H x b eq_refl).
Qed.
Lemma tidy_app a b : tidy a -> tidy b -> hd_error b <> Some GNewline -> tidy (a ++ b).
Proof.
  intros Ha Hb E. induction a as [|i a IH]; [exact Hb|]. apply tidy_tail in Ha as [Ha Hi]. cbn [app]. apply tidy_cons; [auto|].
  intros X. destruct a as [|j a]; [exact E|]. exact (Hi X).
Qed.
Lemma tidy_join a j b : tidy (a ++ [j]) -> is_blank j = false -> tidy b -> tidy ((a ++ [j]) ++ b).
Proof.
  intros Ha Hj Hb. induction a as [|i a IH]; cbn [app] in *.
  - apply tidy_cons; [exact Hb|congruence].
  - apply tidy_tail in Ha as [Ha Hi]. apply tidy_cons; [auto|]. intros X. specialize (Hi X). destruct a; exact Hi.
Qed.
Lemma tidy_bl s : tidy (bl s).
Proof. induction s as [|x s IH]; [exact I|]. apply tidy_cons; [exact IH|]. destruct s; discriminate. Qed.
Lemma bl_hd s : hd_error (bl s) <> Some GNewline. Proof. destruct s; discriminate. Qed.
Lemma tidy_nl e g : tidy g -> tidy (nl_unless e ++ g).
Proof. intros H. destruct e; exact H. Qed.

Section Shape.
  Variable c : config.
  Hypothesis C : calm c.

  Lemma tidy_lead d e prev t : tidy (lead_items c d e prev t).
  Proof.
    unfold lead_items. assert (A : tidy (nl_unless e ++ bl (indentation c d))) by (apply tidy_nl, tidy_bl).
    destruct prev as [p|]; [destruct (own_line c false t)|destruct (own_line c true t)]; try exact A; try exact I.
    destruct (_ || _); [exact I|apply tidy_bl].
  Qed.
  Lemma tidy_run d l : Forall sound l -> forall e prev, tidy (run c d e prev l).
  Proof.
    induction 1 as [|t l Ht Hl IH]; intros e prev; [exact I|]. cbn [run]. specialize (IH (after c e t) (Some t)).
    destruct t as [s|lv s| |].
    - cbn [item app]. apply tidy_app; [apply tidy_lead|exact IH|discriminate].
    - cbn [item app]. apply tidy_app; [apply tidy_lead|exact IH|discriminate].
    - rewrite lead_newline. cbn [item app]. destruct (on c _); exact IH.
    - destruct Ht as [Ht _]. now elim Ht.
  Qed.
  Lemma tidy_brun d e l : Forall sound l -> tidy (brun c d e l).
  Proof. intros H. destruct (brun_cases c d e l) as [(-> & _)|[-> _]]; [exact I|now apply tidy_run]. Qed.
  Lemma brun_last d e l : Forall sound l -> brun c d e l = [] \/ exists a j, brun c d e l = a ++ [j] /\ is_blank j = false.
  Proof. intros H. destruct (brun_cases c d e l) as [(-> & _)|[-> _]]; [now left|now apply run_last]. Qed.
  Lemma tidy_before g b : tidy (g ++ b) -> tidy (before c g ++ g ++ b).
  Proof.
    intros H. destruct g as [|[] g]; cbn [before]; try exact H; (apply tidy_app; [apply tidy_bl|exact H|discriminate]).
  Qed.
  Lemma shaped_tidy s gx th : shaped c s gx -> tidy (gx ++ bl th).
  Proof.
    intros (l & Hl & [(d & h & e & _ & _ & ->)|(d & d' & e & e' & _ & _ & ->)]).
    - pose proof (tidy_brun d e l Hl) as T. destruct (brun_last d e l Hl) as [->|(a & j & E & Hj)].
      { cbn [with_hints]. apply tidy_app; [apply tidy_bl|apply tidy_bl|apply bl_hd]. }
      assert (W : with_hints c h (brun c d e l) = before c (brun c d e l) ++ brun c d e l ++ (if ends_long (brun c d e l) then bl (ham c) else [])).
      { rewrite E. unfold with_hints. now destruct a. }
      rewrite W. rewrite <- !app_assoc. apply tidy_before. rewrite E in *. apply tidy_join; [exact T|exact Hj|]. destruct (ends_long _); cbn [app]; [|apply tidy_bl].
      apply tidy_app; [apply tidy_bl|apply tidy_bl|apply bl_hd].
    - pose proof (tidy_brun d' e' l Hl) as T. assert (B : tidy (bl (indentation c d) ++ bl th)) by (apply tidy_app; [apply tidy_bl|apply tidy_bl|apply bl_hd]).
      destruct (brun_last d' e' l Hl) as [->|(a & j & E & Hj)].
      { unfold with_line. rewrite <- app_assoc. now apply tidy_nl. }
      assert (W : with_line c d e (brun c d' e' l) = (before c (brun c d' e' l) ++ brun c d' e' l ++ nl_unless (negb (ends_long (brun c d' e' l)))) ++ bl (indentation c d)).
      { rewrite E. unfold with_line. now destruct a. }
      rewrite W. rewrite <- !app_assoc. apply tidy_before. rewrite E in *. apply tidy_join; [exact T|exact Hj|]. now apply tidy_nl.
  Qed.

  (** ** lines of their own *)
  Definition ends_nl (g : list gitem) : Prop := exists a j, g = a ++ [j] /\ (j = GNewline \/ exists s, j = GLine s).
  Lemma own_nil : own_lines c []. Proof. intros [|] i b E; discriminate. Qed.
  Lemma own_snoc g i : own_lines c g -> (on_own_line c i -> exists a0 j d, g = a0 ++ j :: map GBlank (indentation c d) /\ (j = GNewline \/ exists s, j = GLine s)) -> own_lines c (g ++ [i]).
  Proof.
    intros H Hi a k b E K. destruct b as [|x b] using rev_ind.
    - apply app_inj_tail in E as [<- <-]. now apply Hi.
    - clear IHb. change (k :: b ++ [x]) with ((k :: b) ++ [x]) in E. rewrite app_assoc in E. apply app_inj_tail in E as [-> _]. exact (H a k b eq_refl K).
  Qed.
  Lemma own_more g b : own_lines c g -> Forall (fun i => ~ on_own_line c i) b -> own_lines c (g ++ b).
  Proof.
    intros H F. revert g H. induction F as [|i b Hi F IH]; intros g H; [now rewrite app_nil_r|].
    change (i :: b) with ([i] ++ b). rewrite app_assoc. apply IH. apply own_snoc; [exact H|]. now intros.
  Qed.
  Lemma bl_plain s : Forall (fun i => ~ on_own_line c i) (bl s).
  Proof. induction s; constructor; auto. Qed.
  Lemma nl_plain e : Forall (fun i => ~ on_own_line c i) (nl_unless e).
  Proof. destruct e; repeat constructor; auto. Qed.
  Lemma own_is n : cn c n = Some 1%N -> nis c n 1 = true.
  Proof. unfold nis. now intros ->. Qed.
  Lemma own_run d l : Forall sound l -> forall e prev pre, own_lines c pre -> (e = true -> ends_nl pre) -> own_lines c (pre ++ run c d e prev l).
  Proof.
    induction 1 as [|t l Ht Hl IH]; intros e prev pre Hp He; [now rewrite app_nil_r|]. cbn [run].
    assert (A : forall first, prev = None /\ first = true \/ (exists p, prev = Some p) /\ first = false -> own_line c first t = true ->
       exists a0 j, pre ++ lead_items c d e prev t = a0 ++ j :: map GBlank (indentation c d) /\ (j = GNewline \/ exists s, j = GLine s)).
    { intros first F O. assert (E : lead_items c d e prev t = nl_unless e ++ bl (indentation c d)) by (destruct F as [[-> ->]|[[p ->] ->]]; unfold lead_items; now rewrite O).
      rewrite E. destruct e; cbn [nl_unless app].
      - destruct (He eq_refl) as (a & j & -> & Hj). exists a, j. now rewrite <- app_assoc.
      - exists pre, GNewline. auto. }
    assert (L : own_lines c (pre ++ lead_items c d e prev t)).
    { apply own_more; [exact Hp|]. unfold lead_items.
      assert (B : Forall (fun i => ~ on_own_line c i) (nl_unless e ++ bl (indentation c d))) by (apply Forall_app; split; [apply nl_plain|apply bl_plain]).
      destruct prev as [p|]; [destruct (own_line c false t)|destruct (own_line c true t)]; try exact B; try constructor.
      destruct (_ || _); [constructor|apply bl_plain]. }
    assert (P : exists first, prev = None /\ first = true \/ (exists p, prev = Some p) /\ first = false) by (destruct prev; [exists false|exists true]; eauto).
    destruct P as (first & P).
    replace (pre ++ lead_items c d e prev t ++ item c t ++ run c d (after c e t) (Some t) l) with (((pre ++ lead_items c d e prev t) ++ item c t) ++ run c d (after c e t) (Some t) l) by now rewrite <- !app_assoc.
    destruct t as [s|lv s| |].
    - apply IH; [|intros _; cbn [item]; do 2 eexists; split; [reflexivity|eauto]]. cbn [item]. apply own_snoc; [exact L|]. intros [O1 O2].
      destruct (A first P) as (a0 & j & E & Hj); [unfold own_line; destruct first; now apply own_is|]. eauto.
    - apply IH; [|discriminate]. cbn [item]. apply own_snoc; [exact L|]. intros [O1 O2].
      destruct (A first P) as (a0 & j & E & Hj); [unfold own_line; destruct first; now apply own_is|]. eauto.
    - rewrite lead_newline in *. rewrite app_nil_r in *. apply IH.
      + cbn [item]. destruct (on c _); [now rewrite app_nil_r|]. apply own_snoc; [exact Hp|intros []].
      + cbn [item after]. destruct (on c _); [now rewrite app_nil_r|]. intros _. do 2 eexists. split; [reflexivity|auto].
    - destruct Ht as [Ht _]. now elim Ht.
  Qed.
  Lemma own_brun d e l pre : Forall sound l -> own_lines c pre -> (e = true -> ends_nl pre) -> own_lines c (pre ++ brun c d e l).
  Proof. intros H Hp He. destruct (brun_cases c d e l) as [(-> & _)|[-> _]]; [now rewrite app_nil_r|now apply own_run]. Qed.
  Lemma before_plain g : Forall (fun i => ~ on_own_line c i) (before c g).
  Proof. destruct g as [|[] g]; try constructor; apply bl_plain. Qed.
  Lemma shaped_own gx th : shaped c false gx -> own_lines c (gx ++ bl th).
  Proof.
    intros (l & Hl & H). apply own_more; [|apply bl_plain].
    assert (N : forall g, own_lines c (before c g)) by (intros g; apply (own_more []); [apply own_nil|apply before_plain]).
    destruct H as [(d & h & e & _ & He & ->)|(d & d' & e & e' & He & _ & ->)].
    - assert (W : with_hints c h (brun c d e l) = bl h \/ with_hints c h (brun c d e l) = (before c (brun c d e l) ++ brun c d e l) ++ (if ends_long (brun c d e l) then bl (ham c) else [])).
      { destruct (brun c d e l); [now left|right]. rewrite <- app_assoc. reflexivity. }
      destruct W as [-> | ->]; [apply (own_more []); [apply own_nil|apply bl_plain]|].
      apply own_more; [|destruct (ends_long _); [apply bl_plain|constructor]]. apply own_brun; [exact Hl|apply N|]. intros X. destruct (He X). discriminate.
    - assert (W : with_line c d e (brun c d' e' l) = nl_unless e ++ bl (indentation c d) \/
        with_line c d e (brun c d' e' l) = (before c (brun c d' e' l) ++ brun c d' e' l) ++ nl_unless (negb (ends_long (brun c d' e' l))) ++ bl (indentation c d)).
      { destruct (brun c d' e' l); [now left|right]. unfold with_line. now rewrite <- !app_assoc. }
      destruct W as [-> | ->].
      { apply (own_more []); [apply own_nil|apply Forall_app; split; [apply nl_plain|apply bl_plain]]. }
      apply own_more; [|apply Forall_app; split; [apply nl_plain|apply bl_plain]]. apply own_brun; [exact Hl|apply N|]. intros X. destruct (He X). discriminate.
  Qed.

  Lemma each_first Q b rest ts q t r ts' : each Q b 0 rest ts -> ts = (q, t, r) :: ts' -> exists g, gap_text_at rest (0, q) g /\ Q b g.
  Proof.
    intros H ->. inversion H as [? ? g Hg HQ|? ? g ? ? rest' ? Hg HQ Z]; subst.
    - exists g. split; [|exact HQ]. pose proof (gap_placed [] g [] Hg) as P. cbn [app List.length] in P. now rewrite app_nil_r in P.
    - exists g. split; [|exact HQ]. exact (gap_placed [] g _ Hg).
  Qed.
  Lemma each_next Q b n rest ts : each Q b n rest ts -> forall pre, List.length pre = n ->
    forall a l t p q t' r' b', ts = a ++ (l, t, p) :: (q, t', r') :: b' -> exists g, gap_text_at (pre ++ rest) (p, q) g /\ Q (is_shebang t) g.
  Proof.
    induction 1 as [b n g Hg HQ|b n g t0 w rest ts Hg HQ Z IH]; intros pre Hn a l t p q t' r' b' E.
    { destruct a as [|? [|? ?]]; discriminate. }
    destruct a as [|x a].
    - injection E as _ -> <- E. clear IH. subst ts.
      assert (G : exists g1 y, gap g1 /\ Q (is_shebang t) g1 /\ rest = gap_text g1 ++ y /\ q = n + List.length (gap_text g) + List.length w + List.length (gap_text g1)).
      { inversion Z as [? ? g1 Hg1 HQ1|? ? g1 ? ? ? ? Hg1 HQ1 Z']; subst.
        - exists g1, []. rewrite app_nil_r. auto.
        - eexists g1, _. auto. }
      destruct G as (g1 & y & Hg1 & HQ1 & -> & ->). exists g1. split; [|exact HQ1].
      pose proof (gap_placed (pre ++ gap_text g ++ w) g1 y Hg1) as P. rewrite !app_length, Hn in P. rewrite <- !app_assoc in P. now rewrite Nat.add_assoc in P.
    - injection E as _ E. destruct (IH (pre ++ gap_text g ++ w) ltac:(rewrite !app_length; lia) a l t p q t' r' b' E) as (g1 & P & HQ1). rewrite <- !app_assoc in P. eauto.
  Qed.
End Shape.

Lemma all_gaps src c o ts : calm c -> readable c src -> process_buffer src c = Formatted o -> lex o = LexOk ts -> each (fits c) false 0 o ts.
Proof.
  intros C Rd E L. pose proof C as (_ & NF & Hl & _). pose proof (format_stays src c o C Rd E) as S.
  assert (P : exists n, parse_lua o = Parsed n) by (unfold process_buffer in S; destruct (parse_lua o); try discriminate; eauto).
  destruct P as (n & P). destruct (format_layout o c n o NF Hl P S) as [Pr _]. destruct (parsed_walk c C o ts n L P) as (q0 & m0 & e0 & l0 & r0 & Q & Wk).
  apply lex_correct in L.
  refine (gaps_fit c C (List.length (pieces c n 0 None)) (pieces c n 0 None) true false ts (q0, m0, e0, [(l0, EOF, r0)]) [] o (le_n _) Q _ Wk _ _ L Pr).
  - do 5 eexists. reflexivity.
  - split; [apply firm_nil|now left].
  - discriminate.
Qed.
Lemma gap_fits src c o ts p before g : calm c -> readable c src -> process_buffer src c = Formatted o -> lex o = LexOk ts ->
  between ts p before -> gap_text_at o p g -> fits c (match before with Some t => is_shebang t | None => false end) g.
Proof.
  intros C Rd E L B G. pose proof (all_gaps src c o ts C Rd E L) as A. destruct p as [p q].
  destruct B as [(t & r & ts' & Et & Hp & ->)|(a & l & t & b & t' & r' & Et & ->)]; cbn [fst snd] in *.
  - subst p. destruct (each_first _ _ _ _ _ _ _ _ A Et) as (g' & G' & F). now rewrite (gap_text_unique _ _ _ _ G G').
  - destruct (each_next _ _ _ _ _ A [] eq_refl _ _ _ _ _ _ _ _ Et) as (g' & G' & F). now rewrite (gap_text_unique _ _ _ _ G G').
Qed.
Theorem no_trailing_blanks src c o ts p before g : calm c -> readable c src -> process_buffer src c = Formatted o -> lex o = LexOk ts ->
  between ts p before -> gap_text_at o p g -> no_trailing g.
Proof.
  intros C Rd E L B G. destruct (gap_fits src c o ts p before g C Rd E L B G) as (gx & th & _ & S & ->). now apply tidy_spec, (shaped_tidy c) with (s := match before with Some t => is_shebang t | None => false end).
Qed.
Theorem comments_on_lines src c o ts p before g : calm c -> readable c src -> process_buffer src c = Formatted o -> lex o = LexOk ts ->
  between ts p before -> gap_text_at o p g -> (forall s, before <> Some (SheBang s)) -> own_lines c g.
Proof.
  intros C Rd E L B G N. destruct (gap_fits src c o ts p before g C Rd E L B G) as (gx & th & _ & S & ->). apply shaped_own.
  destruct before as [t|]; [|exact S]. replace (is_shebang t) with false in S; [exact S|]. destruct t; try reflexivity. now elim (N s).
Qed.
