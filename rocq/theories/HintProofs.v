(** The pass before writing keeps the hints of the layout. *)
From Verif Require Import Base Lib Config State Ast LuaLexer Recon LexSpec LayoutSpec LuaWriter UtilSpec WriterFrame RenderProofs ReconProofs.

Section Hints.
  Variables (c : config) (mk : loc -> str) (th : str).
  Definition hconv (r : rs) : rs := (conv c (fst r), snd r).
  Definition same_slots (x y : node) : Prop :=
    hlayout mk th y = map hconv (hlayout mk th x) /\ list_prefix_hint y = list_prefix_hint x.
  Definition same_item (x y : loc * node) : Prop := fst x = fst y /\ same_slots (snd x) (snd y).
  Definition same_sitem (x y : sitem) : Prop :=
    fst (fst (fst x)) = fst (fst (fst y)) /\ same_slots (si_node x) (si_node y) /\ snd (fst x) = snd (fst y) /\ snd x = snd y.

  Definition rslots (n : node) : Prop := forall sc s, same_slots n (fst (recon c sc n s)).
  Lemma rkids_slots l : Forall rslots l -> forall sc s, Forall2 same_slots l (fst (rkids c sc l s)).
  Proof.
    induction 1 as [|x l Hx Hl IH]; intros sc s; [constructor|]. cbn [rkids]. specialize (Hx sc s). destruct (recon c sc x s) as [x' s1].
    specialize (IH sc s1). destruct (rkids c sc l s1). cbn [fst] in *. now constructor.
  Qed.
  Lemma ritems_slots l : Forall (fun x => rslots (snd x)) l -> forall s, Forall2 same_item l (fst (ritems c l s)).
  Proof.
    induction 1 as [|[p x] l Hx Hl IH]; intros s; [constructor|]. cbn [ritems]. cbn [snd] in Hx. specialize (Hx None s). destruct (recon c None x s) as [x' s1].
    specialize (IH s1). destruct (ritems c l s1). cbn [fst] in *. constructor; [split; [reflexivity|exact Hx]|exact IH].
  Qed.
  Lemma rseps_slots l : Forall (fun x => rslots (snd (fst (fst x)))) l -> forall sc s, Forall2 same_sitem l (fst (rseps c sc l s)).
  Proof.
    induction 1 as [|[[[p x] q] z] l Hx Hl IH]; intros sc s; [constructor|]. cbn [rseps]. cbn [fst snd] in Hx. specialize (Hx sc s). destruct (recon c sc x s) as [x' s1].
    specialize (IH sc s1). destruct (rseps c sc l s1). cbn [fst] in *. constructor; [repeat split; try reflexivity; apply Hx|exact IH].
  Qed.

  Lemma list_conv l l' : Forall2 same_item l l' ->
    list_slots list_prefix_hint hg (hlayout mk th) l' = map hconv (list_slots list_prefix_hint hg (hlayout mk th) l).
  Proof.
    assert (R : forall l l', Forall2 same_item l l' ->
      rest_slots list_prefix_hint hg (hlayout mk th) l' = map hconv (rest_slots list_prefix_hint hg (hlayout mk th) l)).
    { induction 1 as [|[p x] [p' x'] l1 l2 (E1 & E2 & E3) H IH]; [reflexivity|]. unfold rest_slots in *. cbn [flat_map fst snd] in *.
      rewrite E1, E2, E3. cbn [map app]. rewrite map_app. f_equal. f_equal. exact IH. }
    intros H. destruct H as [|[p x] [p' x'] l1 l2 (E1 & E2 & E3) H]; [reflexivity|]. cbn [list_slots fst snd] in *.
    rewrite E1, E2. cbn [map]. rewrite map_app. f_equal. f_equal. now apply R.
  Qed.
  Lemma seps_conv eh (sps tr : str -> list rs) l l' : (forall z, map hconv (sps z) = sps z) -> (forall z, map hconv (tr z) = tr z) ->
    Forall2 same_sitem l l' -> seps_slots hg (hlayout mk th) eh sps tr l' = map hconv (seps_slots hg (hlayout mk th) eh sps tr l).
  Proof.
    intros Hs Ht.
    assert (R : forall l l', Forall2 same_sitem l l' ->
      forall z, rest_sslots hg (hlayout mk th) eh sps tr z l' = map hconv (rest_sslots hg (hlayout mk th) eh sps tr z l)).
    { induction 1 as [|[[[p x] q] w] [[[p' x'] q'] w'] l1 l2 (E1 & (E2 & _) & E3 & E4) H IH]; intros z; cbn [rest_sslots]; [now rewrite Ht|].
      cbn [fst snd si_node] in E1, E2, E3, E4. subst p' q' w'. rewrite E2. repeat (rewrite map_app || cbn [map]). rewrite Hs, IH. reflexivity. }
    intros H. destruct H as [|[[[p x] q] w] [[[p' x'] q'] w'] l1 l2 (E1 & (E2 & _) & E3 & E4) H]; [reflexivity|]. cbn [seps_slots].
    cbn [fst snd si_node] in E1, E2, E3, E4. subst p' q' w'. rewrite E2. repeat (rewrite map_app || cbn [map]). rewrite (R _ _ H). reflexivity.
  Qed.
  Lemma kids_conv l l' : Forall2 same_slots l l' -> map (hlayout mk th) l' = map (map hconv) (map (hlayout mk th) l).
  Proof. induction 1 as [|x y l l' [E _] H IH]; [reflexivity|]. cbn [map]. now rewrite E, IH. Qed.
  Lemma hnth_conv K i : nth i (map (map hconv) K) nil_h = map hconv (nth i K nil_h).
  Proof. change nil_h with (map hconv nil_h) at 1. apply map_nth. Qed.
  Lemma hfill_conv h ls K ps : Forall (fun p => match p with TT (CharStringLiteral _) => False | _ => True end) ps -> forall i j,
    hfill h ls (map (map hconv) K) i j ps = map hconv (hfill h ls K i j ps).
  Proof.
    induction 1 as [|p ps Hp H IH]; intros i j; [reflexivity|]. cbn [hfill]. rewrite map_app. f_equal.
    - destruct p as [t|]; [destruct t; try reflexivity; destruct Hp|apply hnth_conv].
    - destruct ps as [|q ps]; [reflexivity|]. cbn [map]. f_equal. apply IH.
  Qed.
  Lemma hop_conv t : hconv (ht (op_token t)) = ht (op_token t).
  Proof. unfold hconv, ht. cbn [fst snd]. now rewrite op_token_conv. Qed.

  Lemma hlayout_conv k sp ls t lv ks is ss o ks' is' ss' o' : k <> KCharStringLiteral ->
    Forall2 same_slots ks ks' -> Forall2 same_item is is' -> Forall2 same_sitem ss ss' ->
    hlayout mk th (Nd k sp ls t lv ks' is' ss' o') = map hconv (hlayout mk th (Nd k sp ls t lv ks is ss o)).
  Proof.
    intros Hk Ek Ei Es. apply kids_conv in Ek. apply list_conv in Ei.
    assert (C : forall t h, (forall s, t <> CharStringLiteral s) ->
      seps_slots hg (hlayout mk th) h (fun _ => [ht t]) (fun _ => []) ss' = map hconv (seps_slots hg (hlayout mk th) h (fun _ => [ht t]) (fun _ => []) ss)).
    { intros u h Hu. apply seps_conv; [|reflexivity|exact Es]. intros _. unfold hconv. cbn. destruct u; try reflexivity. congruence. }
    assert (F : seps_slots hg (hlayout mk th) LuaWriter.sp (fun z => [(SSep z, [])]) (fun z => [(STrail z, [])]) ss' =
      map hconv (seps_slots hg (hlayout mk th) LuaWriter.sp (fun z => [(SSep z, [])]) (fun z => [(STrail z, [])]) ss)).
    { apply seps_conv; try reflexivity. exact Es. }
    destruct k; try congruence; cbn [hlayout]; rewrite ?Ek;
      try (apply hfill_conv, (template_plain _)); try exact Ei; try exact F; try (apply C; discriminate); try reflexivity.
    all: rewrite ?map_app, ?hnth_conv; cbn [map app]; rewrite ?map_app; cbn [map app]; rewrite ?hop_conv; try reflexivity.
    all: f_equal; try apply hfill_conv, (template_plain KTableConstructor); try reflexivity.
    all: try (apply C; discriminate).
    all: rewrite map_app; reflexivity.
  Qed.
  Lemma recon_hlayout n : rslots n.
  Proof.
    induction n as [k sp ls t lv ks is ss o Hk Hi Hs] using node_rect'. intros sc s.
    assert (A : k <> KCharStringLiteral -> same_slots (Nd k sp ls t lv ks is ss o) (fst (let '(ks', s1) := rkids c (match k with KFieldSequential => sc | _ => None end) ks (update_pos_range sp s) in
        let '(is', s2) := ritems c is s1 in
        let '(ss', s3) := rseps c None ss s2 in
        (Nd k sp ls t lv ks' is' ss' o, s3)))).
    { intros Hc. pose proof (rkids_slots _ Hk (match k with KFieldSequential => sc | _ => None end) (update_pos_range sp s)) as A1. destruct (rkids _ _ _ _) as [ks' s1].
      pose proof (ritems_slots _ Hi s1) as A2. destruct (ritems _ _ _) as [is' s2].
      pose proof (rseps_slots _ Hs None s2) as A3. destruct (rseps _ _ _ _) as [ss' s3]. split; [now apply hlayout_conv|reflexivity]. }
    rewrite recon_eq. destruct k; try (apply A; discriminate); clear A.
    - unfold same_slots, hconv. cbn. destruct (on c _); split; reflexivity.
    - pose proof (rkids_slots _ Hk None (update_pos_range sp s)) as A. destruct (rkids _ _ _ _) as [ks' s1]. cbn [fst] in *.
      split; [|reflexivity]. cbn [hlayout map]. f_equal. rewrite map_map.
      rewrite (map_ext (fun x => hlayout mk th (set_single _ x)) (hlayout mk th)) by (intros [k ? ? ? ? ? ? ? ?]; destruct k; reflexivity).
      rewrite (kids_conv _ _ A). apply hfill_conv, (template_plain KTableConstructor).
    - pose proof (rseps_slots _ Hs (Some (List.length ss =? 1)) s) as A. destruct (rseps _ _ _ _). cbn [fst] in *.
      split; [|reflexivity]. apply seps_conv; try reflexivity. exact A.
    - pose proof (rseps_slots _ Hs None (update_pos_range sp s)) as A. destruct (rseps _ _ _ _) as [ss' s1].
      pose proof (rkids_slots _ Hk None s1) as B. destruct (rkids _ _ _ _). cbn [fst] in *. split; [|reflexivity]. cbn [hlayout]. rewrite (kids_conv _ _ B).
      rewrite map_app, hnth_conv. cbn [map app]. f_equal. apply seps_conv; try reflexivity. exact A.
    - pose proof (ritems_slots _ Hi ((fst s + 1)%Z, snd s)) as A. destruct (ritems _ _ _). cbn [fst] in *. split; [|reflexivity].
      apply list_conv. exact A.
  Qed.
End Hints.
