(** The pass before writing changes quotes and table options only. *)
From Verif Require Import Base Lib Config State Ast LuaLexer Recon LexSpec LayoutSpec UtilSpec UtilProofs RenderProofs.

Section Recon.
  Variable c : config.
  Definition conv (s : slot) : slot :=
    match s with
    | STok (CharStringLiteral t) =>
        if on c B_convert_charstring_to_normalstring then STok (NormalStringLiteral (charstring_to_normalstring t)) else s
    | _ => s
    end.

  Fixpoint rkids (sc : option bool) (l : list node) (s : rstate) : list node * rstate :=
    match l with
    | [] => ([], s)
    | x :: r => let '(x', s1) := recon c sc x s in let '(r', s2) := rkids sc r s1 in (x' :: r', s2)
    end.
  Fixpoint ritems (l : list (loc * node)) (s : rstate) : list (loc * node) * rstate :=
    match l with
    | [] => ([], s)
    | (p, x) :: r => let '(x', s1) := recon c None x s in let '(r', s2) := ritems r s1 in ((p, x') :: r', s2)
    end.
  Fixpoint rseps (sc : option bool) (l : list sitem) (s : rstate) : list sitem * rstate :=
    match l with
    | [] => ([], s)
    | (p, x, q, z) :: r => let '(x', s1) := recon c sc x s in let '(r', s2) := rseps sc r s1 in ((p, x', q, z) :: r', s2)
    end.
  Lemma recon_eq sc k sp ls t lv ks is ss o s : recon c sc (Nd k sp ls t lv ks is ss o) s =
    match k with
    | KStatementList =>
        let '(is', s1) := ritems is ((fst s + 1)%Z, snd s) in
        (Nd k sp ls t lv ks is' ss o, ((fst s1 - 1)%Z, snd s1))
    | KFields =>
        let '(ss', s1) := rseps (Some (Nat.eqb (List.length ss) 1)) ss s in
        (Nd k sp ls t lv ks is ss' (mk_opts (Some (forallb (fun i => is_field_sequential (si_node i)) ss)) (o_single o)), s1)
    | KTableConstructor =>
        let single :=
          match (match sc with Some b => Some b | None => o_single o end) with
          | Some b => Some b
          | None => Some true
          end in
        let '(ks', s1) := rkids None ks (update_pos_range sp s) in
        let iv := match ks' with
                  | [f] => if kind_beq (n_kind f) KFields then o_iv (n_opts f) else o_iv o
                  | _ => o_iv o
                  end in
        (Nd k sp ls t lv (map (set_single single) ks') is ss (mk_opts iv single), s1)
    | KCharStringLiteral =>
        if on c B_convert_charstring_to_normalstring
        then (Nd KNormalStringLiteral sp ls (charstring_to_normalstring t) lv ks is ss o, update_pos_range sp s)
        else (Nd k sp ls t lv ks is ss o, update_pos_range sp s)
    | KFuncNameSelf =>
        let '(ss', s1) := rseps None ss (update_pos_range sp s) in
        let '(ks', s2) := rkids None ks s1 in
        (Nd k sp ls t lv ks' is ss' o, s2)
    | _ =>
        let '(ks', s1) := rkids (match k with KFieldSequential => sc | _ => None end) ks (update_pos_range sp s) in
        let '(is', s2) := ritems is s1 in
        let '(ss', s3) := rseps None ss s2 in
        (Nd k sp ls t lv ks' is' ss' o, s3)
    end.
  Proof. destruct k; reflexivity. Qed.

  Definition rlay (n : node) : Prop := forall sc s, layout (fst (recon c sc n s)) = map conv (layout n).
  Lemma rkids_lay l : Forall rlay l -> forall sc s, map layout (fst (rkids sc l s)) = map (map conv) (map layout l).
  Proof.
    induction 1 as [|x l Hx Hl IH]; intros sc s; [reflexivity|]. cbn [rkids]. specialize (Hx sc s). destruct (recon c sc x s) as [x' s1].
    specialize (IH sc s1). destruct (rkids sc l s1). cbn in *. now rewrite Hx, IH.
  Qed.
  Lemma ritems_lay l : Forall (fun x => rlay (snd x)) l -> forall s,
    map (fun x => (fst x, layout (snd x))) (fst (ritems l s)) = map (fun x => (fst x, map conv (snd x))) (map (fun x => (fst x, layout (snd x))) l).
  Proof.
    induction 1 as [|[p x] l Hx Hl IH]; intros s; [reflexivity|]. cbn [ritems]. cbn in Hx. specialize (Hx None s). destruct (recon c None x s) as [x' s1].
    specialize (IH s1). destruct (ritems l s1). cbn in *. now rewrite Hx, IH.
  Qed.
  Definition slots_of (x : sitem) : sslots := (fst (fst (fst x)), layout (snd (fst (fst x))), snd (fst x), snd x).
  Definition conv_s (x : sslots) : sslots := (fst (fst (fst x)), map conv (snd (fst (fst x))), snd (fst x), snd x).
  Lemma rseps_lay l : Forall (fun x => rlay (snd (fst (fst x)))) l -> forall sc s,
    map slots_of (fst (rseps sc l s)) = map conv_s (map slots_of l).
  Proof.
    induction 1 as [|[[[p x] q] z] l Hx Hl IH]; intros sc s; [reflexivity|]. cbn [rseps]. cbn in Hx. specialize (Hx sc s). destruct (recon c sc x s) as [x' s1].
    specialize (IH sc s1). destruct (rseps sc l s1). cbn [fst map] in *. rewrite IH. f_equal. unfold slots_of, conv_s. cbn. now rewrite Hx.
  Qed.
  Lemma rkids_pos l : Forall (fun n => forall sc s, snd s = None -> snd (snd (recon c sc n s)) = None) l ->
    forall sc s, snd s = None -> snd (snd (rkids sc l s)) = None.
  Proof.
    induction 1 as [|x l Hx Hl IH]; intros sc s E; [exact E|]. cbn [rkids]. specialize (Hx sc s E). destruct (recon c sc x s) as [x' s1].
    specialize (IH sc s1 Hx). destruct (rkids sc l s1). exact IH.
  Qed.
  Lemma ritems_pos l : Forall (fun n => forall sc s, snd s = None -> snd (snd (recon c sc (snd n) s)) = None) l ->
    forall s, snd s = None -> snd (snd (ritems l s)) = None.
  Proof.
    induction 1 as [|[p x] l Hx Hl IH]; intros s E; [exact E|]. cbn [ritems]. specialize (Hx None s E). cbn in Hx. destruct (recon c None x s) as [x' s1].
    specialize (IH s1 Hx). destruct (ritems l s1). exact IH.
  Qed.
  Lemma rseps_pos l : Forall (fun n => forall sc s, snd s = None -> snd (snd (recon c sc (snd (fst (fst n))) s)) = None) l ->
    forall sc s, snd s = None -> snd (snd (rseps sc l s)) = None.
  Proof.
    induction 1 as [|[[[p x] q] z] l Hx Hl IH]; intros sc s E; [exact E|]. cbn [rseps]. specialize (Hx sc s E). cbn in Hx. destruct (recon c sc x s) as [x' s1].
    specialize (IH sc s1 Hx). destruct (rseps sc l s1). exact IH.
  Qed.
  Lemma update_none sp s : snd s = None -> snd (update_pos_range sp s) = None.
  Proof. destruct s as [lv pr]. cbn. intros ->. now destruct (Z.eqb lv 1). Qed.
  Lemma recon_pos n : forall sc s, snd s = None -> snd (snd (recon c sc n s)) = None.
  Proof.
    induction n as [k sp ls t lv ks is ss o Hk Hi Hs] using node_rect'. intros sc s E.
    assert (A : snd (snd (let '(ks', s1) := rkids (match k with KFieldSequential => sc | _ => None end) ks (update_pos_range sp s) in
        let '(is', s2) := ritems is s1 in
        let '(ss', s3) := rseps None ss s2 in
        (Nd k sp ls t lv ks' is' ss' o, s3))) = None).
    { pose proof (rkids_pos _ Hk (match k with KFieldSequential => sc | _ => None end) _ (update_none sp s E)) as A1. destruct (rkids _ _ _) as [ks' s1].
      pose proof (ritems_pos _ Hi s1 A1) as A2. destruct (ritems _ _) as [is' s2].
      pose proof (rseps_pos _ Hs None s2 A2) as A3. destruct (rseps _ _ _) as [ss' s3]. exact A3. }
    rewrite recon_eq. destruct k; try exact A; clear A.
    - destruct (on c _); exact (update_none sp s E).
    - pose proof (rkids_pos _ Hk None _ (update_none sp s E)) as A. destruct (rkids _ _ _). exact A.
    - pose proof (rseps_pos _ Hs (Some (List.length ss =? 1)) s E) as A. destruct (rseps _ _ _). exact A.
    - pose proof (rseps_pos _ Hs None _ (update_none sp s E)) as A. destruct (rseps _ _ _) as [ss' s1].
      pose proof (rkids_pos _ Hk None s1 A) as B. destruct (rkids _ _ _). exact B.
    - pose proof (ritems_pos _ Hi ((fst s + 1)%Z, snd s) E) as A. destruct (ritems _ _). exact A.
  Qed.

  Lemma commas_conv t l : (forall s, t <> CharStringLiteral s) -> commas t (map conv_s l) = map conv (commas t l).
  Proof.
    intros Ht. assert (E : conv (STok t) = STok t) by (destruct t; try reflexivity; congruence).
    induction l as [|[[[p x] q] z] l IH]; [reflexivity|]. cbn [map commas conv_s fst snd]. cbn [map conv]. rewrite map_app. cbn [map conv]. f_equal. f_equal. f_equal.
    destruct l as [|y l]; [reflexivity|]. cbn [map]. rewrite E. f_equal. exact IH.
  Qed.
  Lemma fields_conv l : fields (map conv_s l) = map conv (fields l).
  Proof.
    induction l as [|[[[p x] q] z] l IH]; [reflexivity|]. cbn [map fields conv_s fst snd]. cbn [map conv]. rewrite map_app. cbn [map conv]. f_equal. f_equal. f_equal.
    destruct l as [|y l]; [reflexivity|]. cbn [map]. f_equal. exact IH.
  Qed.
  Lemma listed_conv l : listed (map (fun x => (fst x, map conv (snd x))) l) = map conv (listed l).
  Proof. induction l as [|[p x] l IH]; [reflexivity|]. cbn. rewrite map_app. f_equal. f_equal. exact IH. Qed.
  Lemma nth_conv K i : nth i (map (map conv) K) nil_slots = map conv (nth i K nil_slots).
  Proof. change nil_slots with (map conv nil_slots) at 1. apply map_nth. Qed.
  Lemma fill_conv ls K ps : Forall (fun p => match p with TT (CharStringLiteral _) => False | _ => True end) ps -> forall i j,
    fill ls (map (map conv) K) i j ps = map conv (fill ls K i j ps).
  Proof.
    induction 1 as [|p ps Hp H IH]; intros i j; [reflexivity|]. cbn [fill]. rewrite map_app. f_equal.
    - destruct p as [t|]; [destruct t; try reflexivity; destruct Hp|apply nth_conv].
    - destruct ps as [|q ps]; [reflexivity|]. cbn [map conv]. f_equal. apply IH.
  Qed.
  Lemma op_token_conv t : conv (STok (op_token t)) = STok (op_token t).
  Proof.
    unfold op_token. destruct (find _ _) as [u|] eqn:E; [|reflexivity]. apply find_some in E as [E _]. cbn in E.
    decompose [or] E; try contradiction; subst u; reflexivity.
  Qed.
  Lemma template_plain k : Forall (fun p => match p with TT (CharStringLiteral _) => False | _ => True end) (template k).
  Proof. destruct k; repeat constructor. Qed.
  Lemma layout_eq k sp ls t lv ks is ss o sp' o' : layout (Nd k sp ls t lv ks is ss o) = layout (Nd k sp' ls t lv ks is ss o').
  Proof. destruct k; reflexivity. Qed.
  Lemma set_single_layout v n : layout (set_single v n) = layout n.
  Proof. destruct n as [k sp ls t lv ks is ss o]. destruct k; reflexivity. Qed.

  Lemma layout_conv k sp ls t lv ks is ss o sp' ks' is' ss' o' : k <> KCharStringLiteral ->
    map layout ks' = map (map conv) (map layout ks) ->
    map (fun x => (fst x, layout (snd x))) is' = map (fun x => (fst x, map conv (snd x))) (map (fun x => (fst x, layout (snd x))) is) ->
    map slots_of ss' = map conv_s (map slots_of ss) ->
    layout (Nd k sp' ls t lv ks' is' ss' o') = map conv (layout (Nd k sp ls t lv ks is ss o)).
  Proof.
    intros Hk Ek Ei Es.
    assert (C : forall t, (forall s, t <> CharStringLiteral s) -> commas t (map slots_of ss') = map conv (commas t (map slots_of ss))).
    { intros u Hu. rewrite Es. now apply commas_conv. }
    assert (F : fields (map slots_of ss') = map conv (fields (map slots_of ss))).
    { rewrite Es. apply fields_conv. }
    destruct k; try congruence; cbn [layout]; rewrite ?Ek, ?Ei;
      try (apply fill_conv, (template_plain _)); try apply listed_conv; try exact F; try (apply C; discriminate); try reflexivity.
    all: rewrite ?map_app, ?nth_conv; cbn [map app]; rewrite ?map_app; cbn [map app]; rewrite ?op_token_conv; try reflexivity.
    all: f_equal; try apply fill_conv, (template_plain KTableConstructor); try reflexivity.
    all: try (apply C; discriminate).
    all: rewrite map_app; reflexivity.
  Qed.
  Lemma recon_layout n : rlay n.
  Proof.
    induction n as [k sp ls t lv ks is ss o Hk Hi Hs] using node_rect'. intros sc s.
    pose proof (Forall_impl rlay (fun n H => H) Hk) as Hk'. 
    assert (A : k <> KCharStringLiteral -> layout (fst (let '(ks', s1) := rkids (match k with KFieldSequential => sc | _ => None end) ks (update_pos_range sp s) in
        let '(is', s2) := ritems is s1 in
        let '(ss', s3) := rseps None ss s2 in
        (Nd k sp ls t lv ks' is' ss' o, s3))) = map conv (layout (Nd k sp ls t lv ks is ss o))).
    { intros Hc. pose proof (rkids_lay _ Hk (match k with KFieldSequential => sc | _ => None end) (update_pos_range sp s)) as A1. destruct (rkids _ _ _) as [ks' s1].
      pose proof (ritems_lay _ Hi s1) as A2. destruct (ritems _ _) as [is' s2].
      pose proof (rseps_lay _ Hs None s2) as A3. destruct (rseps _ _ _) as [ss' s3]. now apply layout_conv. }
    rewrite recon_eq. destruct k; try (apply A; discriminate); clear A.
    - cbn [layout map conv]. destruct (on c _); reflexivity.
    - pose proof (rkids_lay _ Hk None (update_pos_range sp s)) as A. destruct (rkids _ _ _) as [ks' s1]. cbn [fst] in *.
      cbn [layout map conv]. f_equal. rewrite map_map. rewrite (map_ext _ _ (set_single_layout _)), A. apply fill_conv, (template_plain KTableConstructor).
    - pose proof (rseps_lay _ Hs (Some (List.length ss =? 1)) s) as A. destruct (rseps _ _ _). cbn [fst] in *. exact (eq_trans (f_equal fields A) (fields_conv _)).
    - pose proof (rseps_lay _ Hs None (update_pos_range sp s)) as A. destruct (rseps _ _ _) as [ss' s1].
      pose proof (rkids_lay _ Hk None s1) as B. destruct (rkids _ _ _). cbn [fst] in *. cbn [layout]. rewrite B.
      rewrite map_app, nth_conv. cbn [map app conv]. f_equal. refine (eq_trans (f_equal (commas Period) A) (commas_conv Period _ _)). discriminate.
    - pose proof (ritems_lay _ Hi ((fst s + 1)%Z, snd s)) as A. destruct (ritems _ _). cbn [fst] in *. cbn [layout]. rewrite A. apply listed_conv.
  Qed.

  Lemma conv_token t : exists t', conv (STok t) = STok t' /\ (token_ok t \/ t = EOF -> token_ok t' \/ t' = EOF).
  Proof.
    destruct t; try (eexists; split; [reflexivity|auto]). cbn. destruct (on c _); eexists; (split; [reflexivity|auto]).
    intros [H|]; [left|discriminate]. now apply closes_convert.
  Qed.
  Lemma conv_ok src ss : Forall (slot_ok src) ss -> Forall (slot_ok src) (map conv ss).
  Proof.
    induction 1 as [|s ss Hs H IH]; cbn; constructor; [|exact IH]. destruct s as [t| | | |]; try exact Hs.
    destruct (conv_token t) as (t' & -> & Ht). exact (Ht Hs).
  Qed.
End Recon.
