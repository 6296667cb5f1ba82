(** How the pass before writing widens the range of positions. *)
From Verif Require Import Base Lib Config State Ast Recon LayoutSpec LayoutProofs RenderProofs ReconProofs.

Definition prange := option (nat * nat).
(** the range grows at most to [(a, b)], and not at all when it does not meet [(a, b)] *)
Definition moved (a b : nat) (r r' : prange) : Prop :=
  match r, r' with
  | None, None => True
  | Some (l, e), Some (l', e') =>
      Nat.min a l <= l' /\ l' <= l /\ e <= e' /\ e' <= Nat.max b e /\ (b <= l \/ e <= a -> l' = l /\ e' = e)
  | _, _ => False
  end.
Lemma moved_refl a b r : moved a b r r.
Proof. destruct r as [[l e]|]; cbn; auto. repeat split; lia. Qed.
Lemma moved_trans a b r1 r2 r3 : moved a b r1 r2 -> moved a b r2 r3 -> moved a b r1 r3.
Proof.
  destruct r1 as [[]|], r2 as [[]|], r3 as [[]|]; cbn; auto; try tauto.
  intros (A1 & A2 & A3 & A4 & A5) (B1 & B2 & B3 & B4 & B5). repeat split; try lia; destruct (A5 H) as [-> ->]; now apply B5.
Qed.
Lemma moved_wide a b a' b' r1 r2 : a <= a' -> b' <= b -> moved a' b' r1 r2 -> moved a b r1 r2.
Proof.
  intros Ha Hb. destruct r1 as [[]|], r2 as [[]|]; cbn; auto.
  intros (A1 & A2 & A3 & A4 & A5). repeat split; try lia; apply A5; lia.
Qed.
Lemma moved_update sp s : moved (fst sp) (snd sp) (snd s) (snd (update_pos_range sp s)).
Proof.
  destruct s as [lv [[l e]|]]; cbn [update_pos_range snd]; [|destruct (Z.eqb lv 1); exact Logic.I].
  destruct (Z.eqb lv 1); [|apply moved_refl]. destruct ((_ <? _) && (_ <? _)) eqn:E; [|apply moved_refl].
  apply andb_true_iff in E as [E1 E2]. apply Nat.ltb_lt in E1, E2. cbn. repeat split; lia.
Qed.
Definition inside (a b : nat) (x : loc) : Prop := a <= fst x /\ snd x <= b.
Lemma ordered_inside l : forall a b, ordered a b l -> Forall (inside a b) l.
Proof.
  induction l as [|[x y] l IH]; intros a b; constructor.
  - destruct H as (H1 & H2 & H3). apply ordered_le in H3. split; cbn; lia.
  - destruct H as (H1 & H2 & H3). eapply Forall_impl; [|exact (IH _ _ H3)]. intros z [A B]. split; lia.
Qed.

Section Recon.
  Variable c : config.
  Definition mv (n : node) : Prop := nested n -> forall sc s, moved (fst (n_span n)) (snd (n_span n)) (snd s) (snd (snd (recon c sc n s))).
  Definition kid_in (a b : nat) (n : node) : Prop := mv n /\ nested n /\ inside a b (n_span n).
  Lemma mv_in a b n : kid_in a b n -> forall sc s, moved a b (snd s) (snd (snd (recon c sc n s))).
  Proof. intros (H1 & H2 & H3 & H4) sc s. eapply moved_wide; [exact H3|exact H4|]. now apply H1. Qed.
  Lemma rkids_mv a b l : Forall (kid_in a b) l -> forall sc s, moved a b (snd s) (snd (snd (rkids c sc l s))).
  Proof.
    induction 1 as [|x l Hx Hl IH]; intros sc s; [apply moved_refl|]. cbn [rkids]. pose proof (mv_in _ _ _ Hx sc s) as A.
    destruct (recon c sc x s) as [x' s1]. specialize (IH sc s1). destruct (rkids c sc l s1) as [l' s2]. cbn in *. eapply moved_trans; eauto.
  Qed.
  Lemma ritems_mv a b l : Forall (fun x => kid_in a b (snd x)) l -> forall s, moved a b (snd s) (snd (snd (ritems c l s))).
  Proof.
    induction 1 as [|[p x] l Hx Hl IH]; intros s; [apply moved_refl|]. cbn [ritems]. cbn in Hx. pose proof (mv_in _ _ _ Hx None s) as A.
    destruct (recon c None x s) as [x' s1]. specialize (IH s1). destruct (ritems c l s1) as [l' s2]. cbn in *. eapply moved_trans; eauto.
  Qed.
  Lemma rseps_mv a b l : Forall (fun x => kid_in a b (snd (fst (fst x)))) l -> forall sc s, moved a b (snd s) (snd (snd (rseps c sc l s))).
  Proof.
    induction 1 as [|[[[p x] q] z] l Hx Hl IH]; intros sc s; [apply moved_refl|]. cbn [rseps]. cbn in Hx. pose proof (mv_in _ _ _ Hx sc s) as A.
    destruct (recon c sc x s) as [x' s1]. specialize (IH sc s1). destruct (rseps c sc l s1) as [l' s2]. cbn in *. eapply moved_trans; eauto.
  Qed.
  Theorem recon_moved n : mv n.
  Proof.
    induction n as [k sp ls t lv ks is ss o Hk Hi Hs] using node_rect'. intros N.
    inversion N as [m O C E]. subst m. clear N. cbn [n_span] in O. apply ordered_inside in O. rewrite Forall_forall in O.
    assert (P : forall x, In x (children (Nd k sp ls t lv ks is ss o)) -> nested x /\ inside (fst sp) (snd sp) (n_span x)).
    { intros x Hx. split; [now apply C|]. apply O. now apply in_map. }
    clear O C. unfold children in P. cbn [n_seps n_kids n_items] in P.
    assert (Fs : Forall (fun x => kid_in (fst sp) (snd sp) (snd (fst (fst x)))) ss).
    { apply Forall_forall. intros x Hx. rewrite Forall_forall in Hs. split; [now apply Hs|]. apply P. apply in_or_app. left. now apply (in_map si_node). }
    assert (Fk : Forall (kid_in (fst sp) (snd sp)) ks).
    { apply Forall_forall. intros x Hx. rewrite Forall_forall in Hk. split; [now apply Hk|]. apply P. apply in_or_app. right. apply in_or_app. now left. }
    assert (Fi : Forall (fun x => kid_in (fst sp) (snd sp) (snd x)) is).
    { apply Forall_forall. intros x Hx. rewrite Forall_forall in Hi. split; [now apply Hi|]. apply P. apply in_or_app. right. apply in_or_app. right. now apply in_map. }
    clear P Hk Hi Hs. cbn [n_span]. intros sc s. pose proof (moved_update sp s) as U.
    assert (A : moved (fst sp) (snd sp) (snd s) (snd (snd (let '(ks', s1) := rkids c (match k with KFieldSequential => sc | _ => None end) ks (update_pos_range sp s) in
        let '(is', s2) := ritems c is s1 in
        let '(ss', s3) := rseps c None ss s2 in
        (Nd k sp ls t lv ks' is' ss' o, s3))))).
    { pose proof (rkids_mv _ _ _ Fk (match k with KFieldSequential => sc | _ => None end) (update_pos_range sp s)) as A1. destruct (rkids _ _ _ _) as [ks' s1].
      pose proof (ritems_mv _ _ _ Fi s1) as A2. destruct (ritems _ _ _) as [is' s2].
      pose proof (rseps_mv _ _ _ Fs None s2) as A3. destruct (rseps _ _ _ _) as [ss' s3]. cbn [snd] in *.
      eapply moved_trans; [exact U|]. eapply moved_trans; [exact A1|]. eapply moved_trans; eassumption. }
    rewrite recon_eq. destruct k; try exact A; clear A.
    - destruct (on c _); exact U.
    - pose proof (rkids_mv _ _ _ Fk None (update_pos_range sp s)) as A. destruct (rkids _ _ _ _). cbn [snd] in *. eapply moved_trans; eassumption.
    - pose proof (rseps_mv _ _ _ Fs (Some (List.length ss =? 1)) s) as A. destruct (rseps _ _ _ _). exact A.
    - pose proof (rseps_mv _ _ _ Fs None (update_pos_range sp s)) as A. destruct (rseps _ _ _ _) as [ss' s1].
      pose proof (rkids_mv _ _ _ Fk None s1) as B. destruct (rkids _ _ _ _). cbn [snd] in *.
      eapply moved_trans; [exact U|]. eapply moved_trans; eassumption.
    - pose proof (ritems_mv _ _ _ Fi ((fst s + 1)%Z, snd s)) as A. destruct (ritems _ _ _). exact A.
  Qed.

  (** ** one node after the other *)
  Inductive moves : list loc -> prange -> prange -> Prop :=
  | mvs_nil : forall r, moves [] r r
  | mvs_cons : forall x xs r r1 r', moved (fst x) (snd x) r r1 -> moves xs r1 r' -> moves (x :: xs) r r'.
  Lemma moves_app xs ys r1 r2 r3 : moves xs r1 r2 -> moves ys r2 r3 -> moves (xs ++ ys) r1 r3.
  Proof. induction 1; cbn; auto. intros. econstructor; eauto. Qed.
  Lemma moves_moved xs : forall a b r r', ordered a b xs -> moves xs r r' -> moved a b r r'.
  Proof.
    induction xs as [|[x y] xs IH]; intros a b r r' O H; inversion H; subst; [apply moved_refl|].
    destruct O as (O1 & O2 & O3). pose proof (ordered_le _ _ _ O3). eapply moved_trans.
    - eapply moved_wide; [| |eassumption]; cbn; lia.
    - eapply moved_wide; [| |eapply IH; eassumption]; lia.
  Qed.
  Lemma moves_none xs : forall r', moves xs None r' -> r' = None.
  Proof.
    intros r' H. remember None as r. induction H; [reflexivity|]. subst. destruct r1; cbn in H; [contradiction|auto].
  Qed.
  Lemma moves_some xs : forall a b l e r', ordered a b xs -> moves xs (Some (l, e)) r' ->
    exists l' e', r' = Some (l', e') /\ forall x, In x xs -> (snd x <= l -> snd x <= l') /\ (e <= fst x -> e' <= fst x).
  Proof.
    induction xs as [|[x y] xs IH]; intros a b l e r' O H; inversion H as [|? ? ? r1 ? M1 M2]; subst.
    { exists l, e. split; [reflexivity|]. intros ? []. }
    destruct O as (O1 & O2 & O3). destruct r1 as [[l1 e1]|]; [|cbn in M1; contradiction].
    destruct (IH _ _ _ _ _ O3 M2) as (l' & e' & -> & K). exists l', e'. split; [reflexivity|].
    pose proof (moves_moved _ _ _ _ _ O3 M2) as M3. cbn in M1, M3.
    destruct M1 as (A1 & A2 & A3 & A4 & A5), M3 as (B1 & B2 & B3 & B4 & B5).
    intros z [<-|Hz]; cbn [fst snd].
    - split; intros Hb.
      + lia.
      + lia.
    - pose proof (ordered_inside _ _ _ O3) as F. rewrite Forall_forall in F. destruct (F _ Hz) as [F1 F2].
      assert (F3 : fst z <= snd z).
      { clear -O3 Hz. revert y O3. induction xs as [|[u v] xs IH]; intros y O3; [destruct Hz|]. destruct O3 as (P1 & P2 & P3).
        destruct Hz as [<-|Hz]; [exact P2|]. eapply IH; eauto. }
      destruct (K z Hz) as [K1 K2]. split; intros Hb; [apply K1|apply K2]; lia.
  Qed.
  Lemma ritems_moves l : Forall (fun x => nested (snd x)) l -> forall s, moves (map (fun x => n_span (snd x)) l) (snd s) (snd (snd (ritems c l s))).
  Proof.
    induction 1 as [|[p x] l Hx Hl IH]; intros s; [constructor|]. cbn [ritems map snd]. pose proof (recon_moved x Hx None s) as A.
    destruct (recon c None x s) as [x' s1]. specialize (IH s1). destruct (ritems c l s1) as [l' s2]. cbn in *. econstructor; eauto.
  Qed.

  (** ** what stays *)
  (** the new node has the old place, and the old kind up to the quotes of a string *)
  Definition alike (n n' : node) : Prop := n_span n' = n_span n /\ n_locs n' = n_locs n
    /\ (n_kind n' = n_kind n \/ n_kind n = KCharStringLiteral).
  Lemma recon_alike sc n s : alike n (fst (recon c sc n s)).
  Proof.
    destruct n as [k sp ls t lv ks is ss o]. rewrite recon_eq.
    destruct k; cbn; repeat match goal with |- context [let '(_, _) := ?e in _] => destruct e end;
      try (destruct (on c _)); unfold alike; cbn; auto.
  Qed.
  Definition alike_items : list (loc * node) -> list (loc * node) -> Prop := Forall2 (fun x y => fst y = fst x /\ alike (snd x) (snd y)).
  Lemma ritems_alike l : forall s, alike_items l (fst (ritems c l s)).
  Proof.
    induction l as [|[p x] l IH]; intros s; [constructor|]. cbn [ritems]. pose proof (recon_alike None x s) as A.
    destruct (recon c None x s) as [x' s1]. specialize (IH s1). destruct (ritems c l s1) as [l' s2]. constructor; auto.
  Qed.
End Recon.
