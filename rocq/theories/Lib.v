(** Lemmas shared by the proofs: characters, texts, lists. *)
From Verif Require Import Base.
#[global] Arguments N.add : simpl never.
#[global] Arguments N.mul : simpl never.
#[global] Arguments N.sub : simpl never.
#[global] Arguments N.leb : simpl never.
#[global] Arguments N.ltb : simpl never.
#[global] Arguments N.pow : simpl never.
#[global] Arguments chr : simpl never.
#[global] Arguments ceq : simpl never.

Lemma ceq_true a b : ceq a b = true <-> a = b.
Proof. apply N.eqb_eq. Qed.
Lemma ceq_false a b : ceq a b = false <-> a <> b.
Proof. apply N.eqb_neq. Qed.
Lemma str_eqb_true a b : str_eqb a b = true <-> a = b.
Proof.
  revert b; induction a as [|x a IH]; intros [|y b]; cbn; try (split; congruence).
  rewrite andb_true_iff, ceq_true, IH. split; [intros [-> ->]; reflexivity | intros [= -> ->]; auto].
Qed.
Lemma str_eqb_refl a : str_eqb a a = true.
Proof. apply str_eqb_true; reflexivity. Qed.
Lemma str_eqb_false a b : str_eqb a b = false <-> a <> b.
Proof. rewrite <- str_eqb_true. destruct (str_eqb a b); split; congruence. Qed.

Lemma s2l_inj a b : s2l a = s2l b -> a = b.
Proof.
  revert b; induction a as [|x a IH]; intros [|y b]; cbn; try congruence.
  intros H; injection H as H1 H2. f_equal; [|auto].
  unfold chr in H1. rewrite <- (ascii_N_embedding x), <- (ascii_N_embedding y). congruence.
Qed.

Lemma is_digit_iff c : is_digit c = true <-> (48 <= c <= 57)%N.
Proof. unfold is_digit, in_range, cleb. cbn. rewrite andb_true_iff, !N.leb_le. tauto. Qed.

Fixpoint nodupb {A} (eqb : A -> A -> bool) (l : list A) : bool :=
  match l with [] => true | x :: r => negb (existsb (eqb x) r) && nodupb eqb r end.
Lemma nodupb_sound {A} (eqb : A -> A -> bool) l :
  (forall x, eqb x x = true) -> nodupb eqb l = true -> NoDup l.
Proof.
  intros R. induction l as [|x r IH]; cbn; intros E; constructor.
  - intros Hin. apply andb_true_iff in E. destruct E as [E _]. apply negb_true_iff in E.
    assert (existsb (eqb x) r = true) by (apply existsb_exists; eauto). congruence.
  - apply andb_true_iff in E. tauto.
Qed.

Lemma skipn_skipn {A} x y (l : list A) : skipn x (skipn y l) = skipn (x + y) l.
Proof.
  revert l; induction y as [|y IH]; intros l; [now rewrite Nat.add_0_r|].
  rewrite Nat.add_succ_r. destruct l; [now rewrite !skipn_nil|]. apply IH.
Qed.
