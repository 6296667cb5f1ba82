(** What is printed between two tokens. *)
From Coq Require Import Lia.
From Verif Require Import Base Lib Config State LuaLexer Ast LexSpec LexProofs LayoutSpec LayoutProofs LayoutText CommentSpec RenderSpec SafeSpec PrettySpec PrettyUnique CanonProofs RelexProofs SettleSpec SettleGap SettleWalk SettleTree SettleAlign.

Inductive nulls (e : nat) (ts : list ptok) : hole_kind -> list piece -> hole_kind -> str -> Prop :=
| nl_end : forall k, nulls e ts k [] k []
| nl_skip : forall k x d r k' th, null_at x e ts -> nulls e ts k r k' th -> nulls e ts k (PGap (x, x) d [] :: r) k' th
| nl_hint : forall k x d th, null_at x e ts -> nulls e ts k [PGap (x, x) d th] k th
| nl_break : forall d h d1 x r k' th, null_at x e ts -> nulls e ts (HBreak d h d1) r k' th -> nulls e ts (HGap d h) (PLine (x, x) d1 :: r) k' th.
Inductive hole (e l : nat) (ts : list ptok) : list piece -> hole_kind -> str -> Prop :=
| ho_gap : forall d h r k th, nulls e ts (HGap d h) r k th -> hole e l ts (PGap (e, l) d h :: r) k th
| ho_line : forall d r k th, nulls e ts (HLine d) r k th -> hole e l ts (PLine (e, l) d :: r) k th
| ho_full : forall d h r k th, nulls e ts (HFull d h) r k th -> hole e l ts (PFull (e, l) d h :: r) k th
| ho_empty : forall d h r k th, nulls e ts (HEmpty d h) r k th -> hole e l ts (PEmpty (e, l) d h :: r) k th.
Definition tok_next (R : list piece) : Prop := R = [] \/ exists w R1, R = PTok w :: R1.
Definition no_tok (p : piece) : Prop := match p with PTok _ => False | _ => True end.

Lemma nulls_same e ts k xs k1 th1 : nulls e ts k xs k1 th1 -> forall e' ts' ys k2 th2, same_kinds xs ys -> nulls e' ts' k ys k2 th2 -> k1 = k2 /\ th1 = th2.
Proof.
  induction 1 as [k|k x d r k' th Hx H IH|k x d th Hx|d h d1 x r k' th Hx H IH]; intros e' ts' ys k2 th2 S H'; inversion S as [|? y ? ys' Sy S']; subst.
  - inversion H'; subst. auto.
  - inversion H'; subst; cbn in Sy; try contradiction; [eapply IH; eauto|]. destruct Sy as [_ Sy]; subst. inversion S'; subst. inversion H; subst. auto.
  - inversion S'; subst. inversion H'; subst; cbn in Sy; try contradiction; destruct Sy as [_ Sy]; subst; auto. match goal with A : nulls _ _ _ [] _ _ |- _ => inversion A; subst end. auto.
  - inversion H'; subst; cbn in Sy; try contradiction. subst. eapply IH; eauto.
Qed.
Lemma hole_same e l ts xs k1 th1 e' l' ts' ys k2 th2 : hole e l ts xs k1 th1 -> hole e' l' ts' ys k2 th2 -> same_kinds xs ys -> k1 = k2 /\ th1 = th2.
Proof.
  intros H H' S. inversion H; subst; inversion S as [|? y ? ys' Sy S']; subst; inversion H'; subst; cbn in Sy; try contradiction;
    repeat match type of Sy with _ /\ _ => let A := fresh in destruct Sy as [Sy A] end; subst; eapply nulls_same; eauto.
Qed.
Lemma nulls_no_tok e ts k xs k1 th1 : nulls e ts k xs k1 th1 -> Forall no_tok xs.
Proof. induction 1; repeat constructor; auto. Qed.
Lemma hole_no_tok e l ts xs k th : hole e l ts xs k th -> Forall no_tok xs.
Proof. intros H; inversion H; subst; constructor; try exact Logic.I; eapply nulls_no_tok; eauto. Qed.
Lemma split_same xs : forall ys R R', Forall no_tok xs -> Forall no_tok ys -> tok_next R -> tok_next R' -> same_kinds (xs ++ R) (ys ++ R') -> same_kinds xs ys /\ same_kinds R R'.
Proof.
  induction xs as [|x xs IH]; intros [|y ys] R R' Hx Hy HR HR' S; cbn [app] in S.
  - auto.
  - exfalso. inversion Hy; subst. destruct HR as [->|(w & R1 & ->)]; inversion S; subst. destruct y; cbn in *; contradiction.
  - exfalso. inversion Hx; subst. destruct HR' as [->|(w & R1 & ->)]; inversion S; subst. destruct x; cbn in *; contradiction.
  - inversion Hx; inversion Hy; inversion S; subst. match goal with A : same_kinds (xs ++ R) _ |- _ => apply IH in A as [? ?]; auto end.
Qed.
Lemma next_same R R' : same_kinds R R' -> tok_next R -> (R = [] /\ R' = []) \/ exists w R1 R1', R = PTok w :: R1 /\ R' = PTok w :: R1' /\ same_kinds R1 R1'.
Proof.
  intros S [->|(w & R1 & ->)]; inversion S as [|? y ? R1' Sy S']; subst; [auto|]. right. destruct y; cbn in Sy; try contradiction. subst. eauto 6.
Qed.

Section Hole.
  Variable c : config.
  Hypothesis C : calm c.
  Let Ti : tidy c. Proof. apply C. Qed.
  Lemma empty_block d x : block c d x [] = [].
  Proof. unfold block. cbn. unfold kept_blanks. now destruct (on c _). Qed.
  Lemma put_gap_empty d h f : put_gap c d h f [] = f ++ h.
  Proof. unfold put_gap. rewrite empty_block. cbn [dressed]. destruct (Ti) as (Z & _). now rewrite Z. Qed.
  Lemma put_line_empty d f : put_line c d f [] = break_line c d f [].
  Proof. unfold put_line. rewrite empty_block. cbn [dressed]. now destruct (on c _). Qed.
  Lemma empty_gap src x g : gap_text_at src (x, x) g -> g = [].
  Proof.
    intros (_ & _ & _ & E). unfold text_at in E. cbn [fst snd] in E. rewrite Nat.sub_diag in E. destruct g as [|i g]; [reflexivity|]. destruct i; discriminate.
  Qed.
  Section Src.
    Variables (src : str) (e : nat) (ts : list ptok).
    Lemma nulls_prints k xs k' th : nulls e ts k xs k' th -> forall f g R o, prints c src (hole_put c k f g) (xs ++ R) o -> prints c src (hole_put c k' f g ++ th) R o.
    Proof.
      induction 1 as [k|k x d r k' th Hx H IH|k x d th Hx|d h d1 x r k' th Hx H IH]; intros f g R o Pr; cbn [app] in Pr.
      - now rewrite app_nil_r.
      - inversion Pr as [| |? ? ? ? g0 ? ? G Pr'| | |]; subst. apply empty_gap in G. subst g0. rewrite put_gap_empty, app_nil_r in Pr'. now apply IH.
      - inversion Pr as [| |? ? ? ? g0 ? ? G Pr'| | |]; subst. apply empty_gap in G. subst g0. now rewrite put_gap_empty in Pr'.
      - inversion Pr as [| | |? ? ? g0 ? ? G Pr'| |]; subst. apply empty_gap in G. subst g0. rewrite put_line_empty in Pr'. now apply IH.
    Qed.
    Lemma hole_prints l xs k th f R o : hole e l ts xs k th -> prints c src f (xs ++ R) o -> exists g, gap_text_at src (e, l) g /\ prints c src (hole_put c k f g ++ th) R o.
    Proof.
      intros H Pr. inversion H; subst; cbn [app] in Pr; inversion Pr; subst; (eexists; split; [eassumption|]); (eapply nulls_prints; [eassumption|]); assumption.
    Qed.
    Hypothesis B : forall x, null_at x e ts -> x <= List.length src.
    Lemma nulls_print k xs k' th : nulls e ts k xs k' th -> forall f g R o, prints c src (hole_put c k' f g ++ th) R o -> prints c src (hole_put c k f g) (xs ++ R) o.
    Proof.
      induction 1 as [k|k x d r k' th Hx H IH|k x d th Hx|d h d1 x r k' th Hx H IH]; intros f g R o Pr; cbn [app].
      - now rewrite app_nil_r in Pr.
      - eapply pr_gap; [apply gap_empty; now apply B|]. rewrite put_gap_empty, app_nil_r. now apply IH.
      - eapply pr_gap; [apply gap_empty; now apply B|]. now rewrite put_gap_empty.
      - eapply pr_line; [apply gap_empty; now apply B|]. rewrite put_line_empty. now apply IH.
    Qed.
    Lemma hole_print l xs k th f g R o : hole e l ts xs k th -> gap_text_at src (e, l) g -> prints c src (hole_put c k f g ++ th) R o -> prints c src f (xs ++ R) o.
    Proof.
      intros H G Pr. inversion H; subst; cbn [app]; [eapply pr_gap|eapply pr_line|eapply pr_full|eapply pr_empty]; try exact G;
        match goal with A : nulls _ _ ?k _ _ _ |- prints _ _ ?x _ _ => change x with (hole_put c k f g) end; eapply nulls_print; eauto.
    Qed.
  End Src.

  (** ** the holes of a walk *)
  Definition fin_ready (fin : spot) : Prop := ready (fst (fst (fst fin))) = true.
  Lemma walk_stop q m e ts P fin : inside q = false -> ready q = true -> walk c (q, m, e, ts) P fin -> tok_next P.
  Proof. intros I Q W. inversion W; subst; try discriminate; [now left|right; eauto|congruence|congruence]. Qed.
  Lemma walk_inside P : forall q m e ts fin k, ready q = true -> fin_ready fin -> (q = QG -> exists d h, k = HGap d h) -> walk c (q, m, e, ts) P fin ->
    exists xs R q' m' k' th, P = xs ++ R /\ nulls e ts k xs k' th /\ walk c (q', m', e, ts) R fin /\ ready q' = true /\ tok_next R /\ blanks th
      /\ ((k' = k /\ m' = m) \/ (exists d h d1, k = HGap d h /\ k' = HBreak d h d1 /\ m' = false)).
  Proof.
    induction P as [|p P IH]; intros q m e ts fin k Q F K W.
    - exists [], [], q, m, k, []. split; [reflexivity|]. split; [apply nl_end|]. split; [exact W|]. split; [exact Q|]. split; [now left|]. split; [apply Forall_nil|auto].
    - inversion W; subst; try discriminate.
      + exists [], (PTok w :: P), q, m, k, []. split; [reflexivity|]. split; [apply nl_end|]. split; [exact W|]. split; [exact Q|]. split; [right; eauto|]. split; [apply Forall_nil|auto].
      + match goal with A : walk c (q, m, e, ts) P fin |- _ => destruct (IH _ _ _ _ _ k Q F K A) as (xs & R & q' & m' & k' & th & -> & N & W' & Q' & T & Bl & D) end.
        exists (PGap (x, x) d [] :: xs), R, q', m', k', th. split; [reflexivity|]. split; [now apply nl_skip|]. auto.
      + exists [PGap (x, x) d h], P, QD, m, k, h. split; [reflexivity|]. split; [now apply nl_hint|]. split; [assumption|]. split; [reflexivity|]. split; [|auto]. eapply walk_stop; [| |eassumption]; reflexivity.
      + destruct (K eq_refl) as (d0 & h & ->).
        match goal with A : walk c (QC, false, e, ts) P fin |- _ => destruct (IH QC _ _ _ _ (HBreak d0 h d) eq_refl F ltac:(discriminate) A) as (xs & R & q' & m' & k' & th & -> & N & W' & Q' & T & Bl & D) end.
        exists (PLine (x, x) d :: xs), R, q', m', k', th. split; [reflexivity|]. split; [now apply nl_break|]. do 4 (split; [assumption|]). right. destruct D as [[-> ->]|(? & ? & ? & D & _)]; [|discriminate]. eauto 6.
  Qed.
  Definition hole_good (s : bool) (k : hole_kind) : Prop :=
    match k with
    | HGap d h | HBreak d h _ => blanks h /\ List.length h <= 1 /\ (s = true -> d = 0 /\ h = [])
    | HLine _ => True
    | HFull _ h | HEmpty _ h => blanks h /\ s = false
    end.
  Lemma walk_start s m e ts P fin : fin_ready fin -> walk c (QA s, m, e, ts) P fin ->
    (exists l xs R q' m' k th, begins ts l /\ P = xs ++ R /\ hole e l ts xs k th /\ blanks th /\ walk c (q', m', e, ts) R fin /\ ready q' = true /\ tok_next R
       /\ hole_good s k /\ (m = true -> m' = false -> hole_parts k))
    \/ (exists x d w R, null_at x e ts /\ P = PGap (x, x) d [] :: PTok w :: R
       /\ ((w = [] /\ walk c (QA s, m, e, ts) R fin)
           \/ ((w = [44%N] \/ w = [59%N]) /\ (exists l r ts0, ts = (l, CloseCurlyBracket, r) :: ts0) /\ walk c (QA false, false, e, ts) R fin))).
  Proof.
    intros F W. inversion W; subst; try discriminate.
    - left. match goal with A : walk c (QG, _, _, _) _ _ |- _ => destruct (walk_inside _ QG _ _ _ _ (HGap d h) eq_refl F ltac:(eauto) A) as (xs & R & q' & m' & k' & th & -> & N & W' & Q' & T & Bl & D) end.
      exists l, (PGap (e, l) d h :: xs), R, q', m', k', th. split; [do 3 eexists; reflexivity|]. split; [reflexivity|]. split; [now constructor|]. do 4 (split; [assumption|]).
      destruct D as [[-> ->]|(d0 & h0 & d1 & [= <- <-] & -> & ->)]; cbn [hole_good hole_parts].
      + repeat split; auto; try (now match goal with A : s = true -> _ |- _ => apply A end). intros -> E. destruct h; [discriminate|]. discriminate.
      + repeat split; auto; now match goal with A : s = true -> _ |- _ => apply A end.
    - right. match goal with A : walk c (QN s, _, _, _) ?ps _ |- _ => inversion A; subst; try discriminate end.
      + exists x, d, [], ps0. split; [assumption|]. split; [reflexivity|]. left. auto.
      + exists x, d, w, ps0. split; [assumption|]. split; [reflexivity|]. right. split; [assumption|]. split; [eauto|assumption].
    - left. match goal with A : walk c (QL, _, _, _) _ _ |- _ => destruct (walk_inside _ QL _ _ _ _ (HLine d) eq_refl F ltac:(discriminate) A) as (xs & R & q' & m' & k' & th & -> & N & W' & Q' & T & Bl & D) end.
      exists l, (PLine (e, l) d :: xs), R, q', m', k', th. split; [do 3 eexists; reflexivity|]. split; [reflexivity|]. split; [now constructor|]. do 4 (split; [assumption|]).
      destruct D as [[-> ->]|(? & ? & ? & D & _)]; [|discriminate]. cbn [hole_good hole_parts]. auto.
    - left. match goal with A : walk c (QF, _, _, _) _ _ |- _ => destruct (walk_inside _ QF _ _ _ _ (HFull d h) eq_refl F ltac:(discriminate) A) as (xs & R & q' & m' & k' & th & -> & N & W' & Q' & T & Bl & D) end.
      exists l, (PFull (e, l) d h :: xs), R, q', m', k', th. split; [do 3 eexists; reflexivity|]. split; [reflexivity|]. split; [now constructor|]. do 4 (split; [assumption|]).
      destruct D as [[-> ->]|(? & ? & ? & D & _)]; [|discriminate]. cbn [hole_good hole_parts]. split; [auto|]. intros -> ?. discriminate.
    - left. match goal with A : walk c (QF, _, _, _) _ _ |- _ => destruct (walk_inside _ QF _ _ _ _ (HEmpty d h) eq_refl F ltac:(discriminate) A) as (xs & R & q' & m' & k' & th & -> & N & W' & Q' & T & Bl & D) end.
      exists l, (PEmpty (e, l) d h :: xs), R, q', m', k', th. split; [do 3 eexists; reflexivity|]. split; [reflexivity|]. split; [now constructor|]. do 4 (split; [assumption|]).
      destruct D as [[-> ->]|(? & ? & ? & D & _)]; [|discriminate]. cbn [hole_good hole_parts]. split; [auto|]. intros -> ?. discriminate.
  Qed.

  (** ** the text so far *)
  Definition so_far (s : bool) (f : str) : Prop := firm f /\ if s then f = [] \/ ends_line f = true else f <> [] /\ ends_line f = false.
  Lemma good_fits s k f : so_far s f -> hole_good s k -> hole_fits c k f.
  Proof.
    intros [F S] G. assert (I : ends_line f = true -> s = true) by (intros E; destruct s; [reflexivity|]; destruct S; congruence).
    destruct k as [d h|d|d h|d h|d h d1]; cbn [hole_good hole_fits] in *.
    - destruct G as (B & _ & A). split; [exact B|]. intros E. destruct (A (I E)) as [-> _]. unfold indentation. now destruct (cs c _).
    - exact Logic.I.
    - destruct G as [B ->]. tauto.
    - destruct G as [B ->]. tauto.
    - destruct G as (B & L & A). split; [exact B|]. split; [exact L|]. split.
      + destruct s; [left; now apply A|right; tauto].
      + intros E. destruct (A (I E)) as [-> _]. unfold indentation. now destruct (cs c _).
  Qed.
  Lemma so_far_tok t f w : token_ok t -> shows c t w -> so_far (is_shebang t) (f ++ w).
  Proof.
    intros Ht Hs. destruct (shows_last c C t w Ht Hs) as (a & x & -> & Hx & Hn). rewrite app_assoc. split; [now apply firm_snoc|]. rewrite ends_snoc, Hn.
    destruct (is_shebang t); [now right|]. split; [destruct (f ++ a); discriminate|reflexivity].
  Qed.
  Lemma so_far_sep f w : w = [44%N] \/ w = [59%N] -> so_far false (f ++ w).
  Proof. intros [-> | ->]; (split; [now apply firm_snoc|]; rewrite ends_snoc; split; [destruct f; discriminate|reflexivity]). Qed.
End Hole.
