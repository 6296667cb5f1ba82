(** A text is cut into gaps and tokens in one way only. *)
From Coq Require Import Lia.
From Verif Require Import Base Lib Config State LuaLexer Ast LexSpec LexProofs LayoutSpec CommentSpec RenderSpec SafeSpec PrettySpec PrettyUnique SettleSpec SettleGap SettleWalk.

(** ** gaps *)
Lemma item_same i j a b : gitem_ok i -> gitem_ok j -> is_last i = false -> is_last j = false -> gitem_text i ++ a = gitem_text j ++ b -> i = j /\ a = b.
Proof.
  intros Hg Hg' Hl Hl' E. destruct i as [x| |s|lv s|s], j as [x'| |s'|lv' s'|s']; cbn [is_last] in *; try discriminate; cbn [gitem_text app] in E; cbn [gitem_ok] in *.
  - injection E as -> ->. auto.
  - injection E as -> E. exfalso. cbn in Hg. decompose [or] Hg; try discriminate; contradiction.
  - injection E as -> E. exfalso. cbn in Hg. decompose [or] Hg; try discriminate; contradiction.
  - injection E as -> E. exfalso. cbn in Hg. decompose [or] Hg; try discriminate; contradiction.
  - injection E as <- E. exfalso. cbn in Hg'. decompose [or] Hg'; try discriminate; contradiction.
  - injection E as ->. auto.
  - injection E as <- E. exfalso. cbn in Hg'. decompose [or] Hg'; try discriminate; contradiction.
  - injection E as E. rewrite <- !app_assoc in E. destruct Hg as [Hg _], Hg' as [Hg' _]. cbn [app] in E. apply line_same in E as [-> ->]; auto.
  - exfalso. injection E as E. rewrite <- app_assoc in E. cbn [app] in E. pose proof (opens_long_app s 10 a (proj2 Hg) ltac:(discriminate) ltac:(discriminate)) as A.
    rewrite E in A. discriminate (eq_trans (eq_sym A) (long_opens lv' s' _)).
  - injection E as <- E. exfalso. cbn in Hg'. decompose [or] Hg'; try discriminate; contradiction.
  - exfalso. injection E as E. rewrite <- (app_assoc s') in E. cbn [app] in E. pose proof (opens_long_app s' 10 b (proj2 Hg') ltac:(discriminate) ltac:(discriminate)) as A.
    rewrite <- E in A. discriminate (eq_trans (eq_sym A) (long_opens lv s _)).
  - assert (E' : long lv s ++ a = long lv' s' ++ b) by (injection E as E; exact (f_equal (cons 91%N) E)).
    apply long_same in E' as (-> & -> & ->); auto.
Qed.
Definition gap_char (x : char) : bool := existsb (N.eqb x) [32; 13; 9; 10]%N.
(** the text does not go on as a gap *)
Definition stop (y : str) : Prop := match y with [] => True | x :: r => gap_char x = false /\ (x = 45%N -> hd_error r <> Some 45%N) end.
Lemma item_no_stop j r : gitem_ok j -> is_last j = false -> ~ stop (gitem_text j ++ r).
Proof.
  intros H L. destruct j as [x| |s|lv s|s]; cbn [gitem_text app stop]; try discriminate.
  - intros [A _]. cbn in H. decompose [or] H; subst; try discriminate; contradiction.
  - intros [A _]. discriminate.
  - intros [_ A]. now apply A.
  - intros [_ A]. now apply A.
Qed.
Lemma align gx : forall gy y y', gap gx -> gap gy -> stop y -> stop y' -> gap_text gx ++ y = gap_text gy ++ y' -> gx = gy /\ y = y'.
Proof.
  induction gx as [|i gx IH]; intros [|j gy] y y' Hx Hy S S' E.
  - auto.
  - exfalso. inversion Hy as [|? ? [Hj Lj] _]; subst. cbn [gap_text flat_map app] in E. fold (gap_text gy) in E. rewrite <- app_assoc in E. rewrite E in S. exact (item_no_stop j _ Hj Lj S).
  - exfalso. inversion Hx as [|? ? [Hi Li] _]; subst. cbn [gap_text flat_map app] in E. fold (gap_text gx) in E. rewrite <- app_assoc in E. rewrite <- E in S'. exact (item_no_stop i _ Hi Li S').
  - inversion Hy as [|? ? [Hj Lj] Hy']; subst. inversion Hx as [|? ? [Hi Li] Hx']; subst. cbn [gap_text flat_map] in E. fold (gap_text gx) (gap_text gy) in E. rewrite <- !app_assoc in E.
    apply item_same in E as [-> E]; auto. apply IH in E as [-> ->]; auto.
Qed.
Lemma no_comment_first g y : gap g -> not_comment g -> g <> [] -> hd_error (gap_text g ++ y) <> Some 45%N.
Proof.
  intros G N Hn. destruct g as [|i g]; [now elim Hn|]. inversion G as [|? ? [Hi _] _]; subst. destruct i; cbn in *; try contradiction; try discriminate.
  intros E. injection E as ->. decompose [or] Hi; try discriminate; contradiction.
Qed.

(** ** tokens *)
Lemma num_char s x s' : num_step s x = Some s' -> gap_char x = false /\ (s = NStart -> x <> 45%N).
Proof.
  intros H. split.
  - destruct (gap_char x) eqn:G; [|reflexivity]. unfold gap_char in G. cbn [existsb] in G. rewrite !orb_true_iff, !N.eqb_eq in G. exfalso.
    decompose [or] G; subst; try discriminate; destruct s; discriminate.
  - intros -> ->. discriminate.
Qed.
Lemma num_last s : forall a x st, num_run s (a ++ [x]) = Some st -> gap_char x = false.
Proof.
  intros a. revert s. induction a as [|y a IH]; intros s x st; cbn [app num_run].
  - destruct (num_step s x) eqn:E; [|discriminate]. intros _. now apply num_char in E.
  - destruct (num_step s y); [|discriminate]. apply IH.
Qed.
Lemma letter_char x : letter x || digit x = true -> gap_char x = false /\ x <> 45%N.
Proof.
  intros H. split; [|intros ->; discriminate]. destruct (gap_char x) eqn:G; [|reflexivity]. unfold gap_char in G. cbn [existsb] in G. rewrite !orb_true_iff, !N.eqb_eq in G. exfalso.
  decompose [or] G; subst; discriminate.
Qed.
Definition first_ok (t : token) (w : str) : Prop := exists x r, w = x :: r /\ gap_char x = false /\ (x = 45%N -> t = Minus /\ r = []).
Lemma spelling_first t : token_ok t -> first_ok t (spelling t).
Proof.
  intros Ht. destruct t; cbn [spelling] in *; try (eexists; eexists; split; [vm_compute; reflexivity|split; [reflexivity|discriminate || (now intros _)]]).
  - destruct s as [|x s]; [destruct Ht|]. destruct Ht as [Hx _]. exists x, s. split; [reflexivity|]. destruct (letter_char x) as [A B]; [now rewrite Hx|]. split; [exact A|]. now intros.
  - destruct Ht as (st & Hr & He). destruct s as [|x s]; [injection Hr as <-; discriminate|]. exists x, s. split; [reflexivity|]. cbn [num_run] in Hr. destruct (num_step NStart x) eqn:E; [|discriminate].
    apply num_char in E as [A B]. split; [exact A|]. intros X. now elim B.
  - destruct Ht as (r & -> & _). eexists; eexists. split; [reflexivity|]. split; [reflexivity|]. discriminate.
  - destruct Ht.
Qed.
(** the last character of a token, and whether it is a line feed *)
Definition last_fine (t : token) (w : str) : Prop := exists a x, w = a ++ [x] /\ sp_tab x = false /\ N.eqb x 10 = is_shebang t.
Lemma gap_char_last x : gap_char x = false -> sp_tab x = false /\ N.eqb x 10 = false.
Proof. unfold gap_char, sp_tab. cbn [existsb]. intros H. rewrite !orb_false_iff in H. destruct H as (-> & _ & -> & -> & _). auto. Qed.
Lemma long_last lv s : exists a, long lv s = a ++ [93%N].
Proof. exists (opening lv ++ s ++ [93%N] ++ repeat 61%N lv). unfold long, closing, brackets. now rewrite <- !app_assoc. Qed.
Section Show.
  Variable c : config.
  Hypothesis C : calm c.
  Lemma sep_text t w : is_separator t -> w = field_separator c (spelling t) -> is_shebang t = false /\ (w = [44%N] \/ w = [59%N]).
  Proof.
    intros Ht ->. split; [now destruct Ht as [-> | ->]|]. destruct (separator_ok c C (spelling t)) as [->|[->|[_ E]]]; auto; destruct Ht as [-> | ->]; auto; discriminate.
  Qed.
  Lemma shows_first t w : token_ok t -> shows c t w -> first_ok t w.
  Proof.
    intros Ht [->|[Hs E]].
    - destruct t; try (apply spelling_first; exact Ht); cbn [shown].
      + destruct (on c B_convert_charstring_to_normalstring); eexists; eexists; (split; [reflexivity|split; [reflexivity|discriminate]]).
      + destruct Ht as (r & -> & _). eexists; eexists. split; [reflexivity|]. split; [reflexivity|]. discriminate.
    - destruct (sep_text t w Hs E) as [_ [-> | ->]]; eexists; eexists; (split; [reflexivity|split; [reflexivity|discriminate]]).
  Qed.
  Lemma shows_last t w : token_ok t -> shows c t w -> last_fine t w.
  Proof.
    intros Ht [->|[Hs E]].
    - destruct t; cbn [shown spelling]; try (match goal with |- last_fine _ (s2l ?x) => let y := eval vm_compute in (s2l x) in
        let a := eval vm_compute in (removelast y) in let z := eval vm_compute in (last y 0%N) in exists a, z; split; [reflexivity|split; reflexivity] end).
      + destruct s as [|y s]; [destruct Ht|]. destruct Ht as (Hy & Hs & _). destruct (@exists_last _ (y :: s)) as (a & x & E); [discriminate|]. exists a, x. split; [exact E|]. apply gap_char_last.
        apply letter_char. destruct a as [|z a]; cbn in E; injection E as -> E; [subst s; now rewrite Hy|]. subst s. apply Forall_app in Hs as [_ Hs]. now inversion Hs.
      + destruct Ht as (st & Hr & He). destruct s as [|y s]; [injection Hr as <-; discriminate|]. destruct (@exists_last _ (y :: s)) as (a & x & E); [discriminate|]. exists a, x. split; [exact E|].
        apply gap_char_last. rewrite E in Hr. now apply num_last in Hr.
      + exists (34%N :: s), 34%N. auto.
      + destruct (on c B_convert_charstring_to_normalstring); [exists (34%N :: requote s), 34%N|exists (39%N :: s), 39%N]; auto.
      + destruct (long_last level s) as (a & ->). exists a, 93%N. auto.
      + exists s, 10%N. auto.
      + destruct Ht.
    - destruct (sep_text t w Hs E) as [E1 [-> | ->]]; [exists [], 44%N|exists [], 59%N]; rewrite E1; auto.
  Qed.
  (** what is written for a token and what the token reads agree *)
  Lemma shows_read t w w' z rest : token_ok t -> shows c t w -> written t w' rest -> w ++ z = w' ++ rest -> w = w' /\ z = rest.
  Proof.
    intros Ht Hs Hw E. assert (G : w = w' -> w = w' /\ z = rest) by (intros ->; split; [reflexivity|now apply app_inv_head in E]).
    destruct Hs as [->|[Hs Es]].
    - destruct t; cbn [written shown] in *; try (apply G; congruence).
      + subst w'. destruct (on c B_convert_charstring_to_normalstring); [discriminate|]. apply G. reflexivity.
      + destruct Hw as [->|[-> ->]]; [now apply G|]. exfalso. apply (f_equal (@List.length _)) in E. rewrite !app_length in E. cbn in E. lia.
    - destruct (sep_text t w Hs Es) as [_ Hx]. assert (Ex : w' = [44%N] \/ w' = [59%N]) by (destruct Hs as [-> | ->]; cbn in Hw; subst w'; auto).
      apply G. destruct Hx as [-> | ->], Ex as [-> | ->]; try reflexivity; discriminate.
  Qed.
End Show.
