(** Formatting a range of lines leaves the statements outside of it alone. *)
From Verif Require Import Base Lib Config State Ast LuaLexer LuaParser Recon CommentParser WriterBase LuaWriter Formatter UtilSpec UtilProofs LexSpec LexLoop
  LayoutSpec LayoutProofs LayoutText RenderProofs ReconProofs WriterFrame TotalFrame TotalProofs OutcomeProofs TotalResults SpanProofs KeepProofs ReconRange RangeSpec.

(** ** texts *)
Lemma text_at_join (src : str) a b d : a <= b -> b <= d -> text_at src a b ++ text_at src b d = text_at src a d.
Proof.
  intros H1 H2. unfold text_at. replace (skipn b src) with (skipn (b - a) (skipn a src)) by (rewrite skipn_skipn; f_equal; lia).
  replace (d - a) with ((b - a) + (d - b)) by lia. generalize (skipn a src) as s. generalize (b - a) as n, (d - b) as m. clear.
  induction n as [|n IH]; intros m [|x s]; cbn; auto; [now rewrite firstn_nil|]. f_equal. apply IH.
Qed.
Lemma firstn_join (src : str) a b : a <= b -> firstn a src ++ text_at src a b = firstn b src.
Proof.
  intros H. change (firstn b src) with (firstn b (skipn 0 src)). replace b with (b - 0) by lia. change (firstn (b - 0) (skipn 0 src)) with (text_at src 0 b).
  rewrite <- (text_at_join src 0 a b) by lia. f_equal; [|f_equal; lia]. unfold text_at. cbn. now rewrite Nat.sub_0_r.
Qed.
Lemma text_at_end (src : str) a : text_at src a (List.length src) = skipn a src.
Proof. unfold text_at. apply firstn_all2. rewrite skipn_length. lia. Qed.

(** ** tokens *)
Lemma num_step_firm a x b : num_step a x = Some b -> is_sp_tab x = false.
Proof.
  intros H. destruct (is_sp_tab x) eqn:E; [|reflexivity]. exfalso. apply orb_true_iff in E as [E|E]; apply ceq_true in E; subst x; destruct a; discriminate H.
Qed.
Lemma num_run_firm s : forall a b, num_run a s = Some b -> Forall (fun x => is_sp_tab x = false) s.
Proof.
  induction s as [|x s IH]; intros a b; cbn [num_run]; [constructor|]. destruct (num_step a x) as [a'|] eqn:E; [|discriminate].
  intros H. constructor; [exact (num_step_firm _ _ _ E)|eauto].
Qed.
Lemma all_firm s : Forall (fun x => is_sp_tab x = false) s -> firm s.
Proof.
  intros H. unfold firm. destruct (lastc s) as [x|] eqn:E; [|exact Logic.I]. apply lastc_inv in E as (s' & ->). apply Forall_app in H as [_ H]. now inversion H.
Qed.
Lemma firm_snoc s x : is_sp_tab x = false -> firm (s ++ [x]).
Proof. intros H. unfold firm. now rewrite lastc_snoc. Qed.
Lemma word_firm x : letter x || digit x = true -> is_sp_tab x = false.
Proof.
  intros H. destruct (is_sp_tab x) eqn:E; [|reflexivity]. apply orb_true_iff in E as [E|E]; apply ceq_true in E; subst x; discriminate H.
Qed.
Lemma token_firm t : token_ok t -> inner t = true -> firm (spelling t).
Proof.
  destruct t; intros H I; try reflexivity; try discriminate I; cbn [token_ok spelling] in *.
  - destruct s as [|x s]; [contradiction|]. destruct H as (H1 & H2 & _). apply all_firm. constructor; [apply word_firm; now rewrite H1|].
    eapply Forall_impl; [|exact H2]. apply word_firm.
  - destruct H as (st & H & _). apply all_firm. exact (num_run_firm _ _ _ H).
  - rewrite app_assoc. now apply firm_snoc.
  - rewrite app_assoc. now apply firm_snoc.
  - unfold long, closing, brackets. rewrite !app_assoc. now apply firm_snoc.
Qed.
Lemma inner_written t w rest : inner t = true -> written t w rest -> w = spelling t.
Proof. destruct t; cbn; auto. discriminate. Qed.

Lemma tiles_bounds src ts : forall p l t r, tiles src p ts -> In (l, t, r) ts -> t <> EOF -> l < r /\ r <= List.length src.
Proof.
  induction ts as [|[[l0 t0] r0] ts IH]; intros p l t r; [intros []|]. cbn [tiles]. destruct ts as [|x ts].
  - intros (-> & _) [[= <- <- <-]|[]] Hne. congruence.
  - intros (_ & H1 & H2 & _ & _ & _ & T) [[= <- <- <-]|Hin] Hne; [auto|]. eapply IH; eauto.
Qed.
Lemma tiles_eof src ts : forall p q r, tiles src p ts -> In (q, EOF, r) ts -> q = List.length src.
Proof.
  induction ts as [|[[l0 t0] r0] ts IH]; intros p q r; [intros []|]. cbn [tiles]. destruct ts as [|x ts].
  - intros (_ & _ & -> & E & _) [[= <- _ _]|[]]. exact E.
  - intros (_ & _ & _ & H & _ & _ & T) [[= _ -> _]|Hin]; [contradiction|]. eapply IH; eauto.
Qed.

Section Places.
  Variables (src : str) (ts : list ptok).
  Hypothesis T : tiles src 0 ts.
  (** a node that is not the shebang line *)
  Lemma place n : placed ts n -> shebang_kind (n_kind n) = false ->
    fst (n_span n) < snd (n_span n) /\ snd (n_span n) <= List.length src
    /\ firm (text_at src (fst (n_span n)) (snd (n_span n))) /\ text_at src (fst (n_span n)) (snd (n_span n)) <> [].
  Proof.
    intros P K. inversion P as [m (w1 & w & w2 & E & Hw & Hc & _) _ _]. subst m. destruct Hc as [Hc|Hc]; [|congruence].
    destruct (n_span n) as [a b]. cbn [fst snd] in *. pose proof (tiles_sorted _ _ _ T) as S. rewrite E in S. apply sorted_app in S as [_ S]. apply sorted_app in S as [S _].
    destruct Hw as [(t & r & w' & E1) (v & l' & t' & E2)].
    assert (I1 : In (l', t', b) ts) by (rewrite E, E2; apply in_or_app; right; apply in_or_app; left; apply in_or_app; right; now left).
    assert (N1 : inner t' = true) by (unfold clean in Hc; rewrite E2 in Hc; apply Forall_app in Hc as [_ Hc]; now inversion Hc).
    assert (N2 : t' <> EOF) by (intros ->; discriminate).
    destruct (tiles_bounds _ _ _ _ _ _ T I1 N2) as [B1 B2]. destruct (tiles_in _ _ _ _ _ _ T I1 N2) as [K1 K2].
    assert (A : a <= l').
    { rewrite E1 in E2. destruct v as [|[[a0 t0] r0] v]; cbn in E2; injection E2; [intros; lia|]. intros E3 Er Et Ea. subst a0 t0 r0. rewrite E1, E3 in S. clear -S.
      cbn [app sorted] in S. destruct S as (S1 & S2 & S3). revert r S1 S2. induction v as [|[[x y] z] v IH]; intros r S1 S2; cbn [app] in S2, S3.
      - lia.
      - cbn [sorted] in S3. destruct S3 as (U1 & U2 & U3). assert (a <= z) by lia. apply (IH U3 z); auto. }
    split; [lia|]. split; [exact B2|]. rewrite <- (text_at_join src a l' b) by lia. rewrite (inner_written _ _ _ N1 K2).
    assert (F : firm (spelling t')) by now apply token_firm.
    assert (Ne : spelling t' <> []).
    { rewrite <- (inner_written _ _ _ N1 K2). unfold text_at. intros C. apply (f_equal (@List.length _)) in C. rewrite firstn_length, skipn_length in C. cbn in C. lia. }
    split.
    - unfold firm in *. rewrite lastc_app. destruct (snoc_cases (spelling t')) as [C|(s & x & C)]; [congruence|]. rewrite C in *. rewrite lastc_snoc in *. exact F.
    - intros C. apply app_eq_nil in C as [_ C]. auto.
  Qed.
  Lemma firm_end a b : a < b -> b <= List.length src -> firm (text_at src a b) -> firm (firstn b src).
  Proof.
    intros H1 H2 F. rewrite <- (firstn_join src a b) by lia. unfold firm in *. rewrite lastc_app. destruct (lastc (text_at src a b)) eqn:E; [exact F|].
    destruct (snoc_cases (text_at src a b)) as [C|(s & x & C)]; [|rewrite C, lastc_snoc in E; discriminate].
    exfalso. unfold text_at in C. apply (f_equal (@List.length _)) in C. rewrite firstn_length, skipn_length in C. cbn in C. lia.
  Qed.
  (** the text of a node with one token *)
  Lemma one_token n t : placed ts n -> layout n = [STok t] -> inner t = true -> text_at src (fst (n_span n)) (snd (n_span n)) = spelling t.
  Proof.
    intros P L I. inversion P as [m (w1 & w & w2 & E & Hw & _ & Ly) _ _]. subst m. rewrite L in Ly. inversion Ly as [| |? ? r ? ? w' Ly' | | | |]; subst.
    inversion Ly'; subst. refine (inner_written _ _ _ I (proj2 (tiles_in _ _ _ _ _ _ T _ _))).
    - apply in_or_app. right. left. reflexivity.
    - intros ->. discriminate.
  Qed.
End Places.

(** ** the pass before writing *)
Lemma update_level sp s : fst (update_pos_range sp s) = fst s.
Proof. destruct s as [lv [[l e]|]]; cbn; destruct (Z.eqb lv 1); try reflexivity. now destruct (_ && _). Qed.
Section Level.
  Variable c : config.
  Definition lvl (n : node) : Prop := forall sc s, fst (snd (recon c sc n s)) = fst s.
  Lemma rkids_lvl l : Forall lvl l -> forall sc s, fst (snd (rkids c sc l s)) = fst s.
  Proof.
    induction 1 as [|x l Hx Hl IH]; intros sc s; [reflexivity|]. cbn [rkids]. specialize (Hx sc s). destruct (recon c sc x s) as [x' s1].
    specialize (IH sc s1). destruct (rkids c sc l s1). cbn in *. congruence.
  Qed.
  Lemma ritems_lvl l : Forall (fun x => lvl (snd x)) l -> forall s, fst (snd (ritems c l s)) = fst s.
  Proof.
    induction 1 as [|[p x] l Hx Hl IH]; intros s; [reflexivity|]. cbn [ritems]. cbn in Hx. specialize (Hx None s). destruct (recon c None x s) as [x' s1].
    specialize (IH s1). destruct (ritems c l s1). cbn in *. congruence.
  Qed.
  Lemma rseps_lvl l : Forall (fun x => lvl (snd (fst (fst x)))) l -> forall sc s, fst (snd (rseps c sc l s)) = fst s.
  Proof.
    induction 1 as [|[[[p x] q] z] l Hx Hl IH]; intros sc s; [reflexivity|]. cbn [rseps]. cbn in Hx. specialize (Hx sc s). destruct (recon c sc x s) as [x' s1].
    specialize (IH sc s1). destruct (rseps c sc l s1). cbn in *. congruence.
  Qed.
  Lemma recon_lvl n : lvl n.
  Proof.
    induction n as [k sp ls t lv ks is ss o Hk Hi Hs] using node_rect'. intros sc s. pose proof (update_level sp s) as U.
    assert (A : fst (snd (let '(ks', s1) := rkids c (match k with KFieldSequential => sc | _ => None end) ks (update_pos_range sp s) in
        let '(is', s2) := ritems c is s1 in
        let '(ss', s3) := rseps c None ss s2 in
        (Nd k sp ls t lv ks' is' ss' o, s3))) = fst s).
    { pose proof (rkids_lvl _ Hk (match k with KFieldSequential => sc | _ => None end) (update_pos_range sp s)) as A1. destruct (rkids _ _ _ _) as [ks' s1].
      pose proof (ritems_lvl _ Hi s1) as A2. destruct (ritems _ _ _) as [is' s2].
      pose proof (rseps_lvl _ Hs None s2) as A3. destruct (rseps _ _ _ _) as [ss' s3]. cbn [snd] in *. congruence. }
    rewrite recon_eq. destruct k; try exact A; clear A.
    - destruct (on c _); exact U.
    - pose proof (rkids_lvl _ Hk None (update_pos_range sp s)) as A. destruct (rkids _ _ _ _). cbn [snd] in *. congruence.
    - pose proof (rseps_lvl _ Hs (Some (List.length ss =? 1)) s) as A. destruct (rseps _ _ _ _). exact A.
    - pose proof (rseps_lvl _ Hs None (update_pos_range sp s)) as A. destruct (rseps _ _ _ _) as [ss' s1].
      pose proof (rkids_lvl _ Hk None s1) as B. destruct (rkids _ _ _ _). cbn [snd] in *. congruence.
    - pose proof (ritems_lvl _ Hi ((fst s + 1)%Z, snd s)) as A. destruct (ritems _ _ _). cbn in *. lia.
  Qed.
End Level.

Definition like (b b' : node) : Prop :=
  alike b b' /\ (list_kind (n_kind b) = true -> alike_items (n_items b) (n_items b'))
  /\ (n_kind b = KStatsRetStat -> exists ks', n_kids b' = ks' /\ Forall2 (fun x x' => alike x x' /\ (list_kind (n_kind x) = true -> alike_items (n_items x) (n_items x'))) (n_kids b) ks').
Lemma recon_items c sc n s : list_kind (n_kind n) = true -> alike_items (n_items n) (n_items (fst (recon c sc n s))).
Proof.
  destruct n as [k sp ls t lv ks is ss o]. cbn [n_kind n_items]. intros K. destruct k; try discriminate K. rewrite recon_eq.
  pose proof (ritems_alike c is ((fst s + 1)%Z, snd s)) as A. destruct (ritems c is _). exact A.
Qed.
Lemma recon_like c sc n s : like n (fst (recon c sc n s)).
Proof.
  split; [apply recon_alike|]. split; [apply recon_items|]. intros K. eexists. split; [reflexivity|].
  destruct n as [k sp ls t lv ks is ss o]. cbn [n_kind] in K. subst k. rewrite recon_eq. cbn [n_kids].
  assert (A : forall l s, Forall2 (fun x x' => alike x x' /\ (list_kind (n_kind x) = true -> alike_items (n_items x) (n_items x'))) l (fst (rkids c None l s))).
  { clear. induction l as [|x l IH]; intros s; [constructor|]. cbn [rkids]. pose proof (recon_alike c None x s) as A. pose proof (recon_items c None x s) as B.
    destruct (recon c None x s) as [x' s1]. specialize (IH s1). destruct (rkids c None l s1) as [l' s2]. constructor; auto. }
  specialize (A ks (update_pos_range sp s)). destruct (rkids c None ks _) as [ks' s1]. destruct (ritems c is s1), (rseps c None ss _). exact A.
Qed.

Lemma ordered_drop l1 : forall l2 a b, ordered a b (l1 ++ l2) -> ordered a b l2.
Proof.
  induction l1 as [|[x y] l1 IH]; cbn; auto. intros l2 a b (H1 & H2 & H3). apply IH in H3. destruct l2 as [|[u v] l2]; cbn in *; [lia|]. intuition lia.
Qed.
Lemma ordered_cons a b z q : ordered a b (z :: q) -> a <= fst z /\ fst z <= snd z /\ ordered (snd z) b q.
Proof. now destruct z. Qed.
Lemma ordered_pair q : forall a b z, ordered a b q -> In z q -> a <= fst z /\ fst z <= snd z.
Proof.
  induction q as [|[u v] q IH]; intros a b z O Hz; [destruct Hz|]. destruct O as (Q1 & Q2 & Q3). destruct Hz as [<-|Hz]; [auto|].
  destruct (IH _ _ _ Q3 Hz). split; lia.
Qed.
Lemma list_moves c a s : list_kind (n_kind a) = true -> nested a ->
  moves (item_places a) (snd s) (snd (snd (recon c None a s))) /\ ordered (fst (n_span a)) (snd (n_span a)) (item_places a).
Proof.
  intros K N. inversion N as [m O C]. subst m. destruct a as [k sp ls t lv ks is ss o]. cbn [n_kind n_span] in *. destruct k; try discriminate K.
  unfold item_places. cbn [n_items]. split.
  - rewrite recon_eq. assert (F : Forall (fun x => nested (snd x)) is).
    { apply Forall_forall. intros x Hx. apply C. unfold children. cbn. apply in_or_app. right. apply in_or_app. right. now apply in_map. }
    pose proof (ritems_moves c is F ((fst s + 1)%Z, snd s)) as A. destruct (ritems c is _). exact A.
  - unfold children in O. cbn [n_seps n_kids n_items] in O. rewrite !map_app in O. apply ordered_drop in O. apply ordered_drop in O. rewrite map_map in O. exact O.
Qed.
(** the range moves over the statements of a block one after the other *)
Lemma block_moves ts c b s : placed ts b -> block_kind (n_kind b) = true -> nested b -> fst s = 0%Z ->
  moves (block_places b) (snd s) (snd (snd (recon c None b s)))
  /\ ordered (fst (n_span b)) (snd (n_span b)) (block_places b).
Proof.
  intros P K N Z. pose proof (recon_moved c b N None s) as M. inversion N as [m O C]. subst m. inversion P as [m W Lo Pc]. subst m.
  destruct (list_kind (n_kind b)) eqn:Kl.
  { replace (block_places b) with (item_places b) by (unfold block_places; now destruct (n_kind b)). now apply list_moves. }
  destruct b as [k sp ls t lv ks is ss o]. cbn [n_kind n_span] in *. unfold local in Lo. cbn [n_kind n_items n_span n_kids n_locs n_seps] in Lo.
  assert (R : ret_kind k = true -> moves [sp] (snd s) (snd (snd (recon c None (Nd k sp ls t lv ks is ss o) s))) /\ ordered (fst sp) (snd sp) [sp]).
  { intros _. apply ordered_le in O. destruct sp as [a b]. split; [|cbn in *; lia]. econstructor; [exact M|constructor]. }
  unfold block_places. cbn [n_kind n_span].
  destruct k; try discriminate K; try discriminate Kl; try (now apply R); clear R.
  destruct Lo as (a & r & -> & _ & -> & Ka & Kr & -> & ->). cbn [n_kids fst snd].
  assert (Na : nested a) by (apply C; now left). assert (Nr : nested r) by (apply C; right; now left).
  cbn in O. destruct (list_moves c a s Ka Na) as [A1 A2].
  destruct (n_span a) as [x y] eqn:Ea, (n_span r) as [u v] eqn:Er. cbn [fst snd] in *. split.
  - rewrite recon_eq. cbn [rkids ritems rseps]. destruct s as [lv0 pr]. cbn [fst] in Z. subst lv0. cbn [update_pos_range Z.eqb].
    destruct (recon c None a (0%Z, pr)) as [a' s1]. pose proof (recon_moved c r Nr None s1) as B. destruct (recon c None r s1) as [r' s2]. cbn [fst snd] in *.
    eapply moves_app; [exact A1|]. rewrite Er in B. econstructor; [exact B|constructor].
  - eapply ordered_app; [exact A2| |cbn; split; [reflexivity|]]; lia.
Qed.

(** ** writing *)
Section Write.
  Variables (src : str) (ts : list ptok) (l e : nat).
  Hypothesis T : tiles src 0 ts.
  Let len := List.length src.
  Definition at0 (w : world) : Prop := base (w_st w) = base (start_state src (Some (l, e))).
  Definition hoare {A} (P Q : str -> Prop) (m : M A) : Prop :=
    forall w a w', m w = (ROk a, w') -> at0 w -> P (w_f w) -> at0 w' /\ Q (w_f w').
  Definition any : str -> Prop := fun _ => True.
  Definition copies {A} (p : loc) (m : M A) : Prop := forall f, hoare (fun x => x = f) (fun x => x = f ++ text_at src (fst p) (snd p)) m.
  Definition out (p : loc) : Prop := snd p <= l \/ e <= fst p.
  Lemma out_test p : out p -> test_out_of_range (Some (l, e)) p = true.
  Proof. intros [H|H]; cbn; apply orb_true_iff; [left|right]; now apply Nat.leb_le. Qed.
  Lemma at0_range w : at0 w -> pos_range (w_st w) = Some (l, e).
  Proof. intros H. exact (f_equal pos_range H). Qed.
  Lemma at0_index w : at0 w -> c2b (w_st w) = update_indexes src.
  Proof. intros H. exact (f_equal c2b H). Qed.
  Lemma at0_level w c : at0 w -> indent_text c (w_st w) = [].
  Proof. intros H. change (indent_text c (w_st w)) with (indent_text c (base (w_st w))). rewrite H. unfold indent_text. now destruct (cs c _). Qed.

  Lemma h_bind {A B} P Q R (m : M A) (f : A -> M B) : hoare P Q m -> (forall a, hoare Q R (f a)) -> hoare P R (bind m f).
  Proof.
    intros Hm Hf w b w'. unfold bind. destruct (m w) as [[a| | |] w1] eqn:E; try discriminate. intros E2 A0 Hp.
    destruct (Hm _ _ _ E A0 Hp). eapply Hf; eauto.
  Qed.
  Lemma h_ret {A} (P Q : str -> Prop) (a : A) : (forall f, P f -> Q f) -> hoare P Q (ret a).
  Proof. intros H w b w' [= _ <-]. auto. Qed.
  Lemma h_weaken {A} (P P' Q Q' : str -> Prop) (m : M A) : hoare P Q m -> (forall f, P' f -> P f) -> (forall f, Q f -> Q' f) -> hoare P' Q' m.
  Proof. intros H H1 H2 w a w' E A0 Hp. destruct (H _ _ _ E A0 (H1 _ Hp)). auto. Qed.
  Lemma h_get {B} P Q (f : state -> M B) : (forall s, pos_range s = Some (l, e) -> c2b s = update_indexes src -> hoare P Q (f s)) -> hoare P Q (s <- get_st ;; f s).
  Proof. intros H w a w' E A0 Hp. unfold bind, get_st in E. refine (H _ _ _ _ _ _ E A0 Hp); [now apply at0_range|now apply at0_index]. Qed.
  Lemma h_keep {A} p (m : M A) : keeps p m -> hoare any any m -> hoare (starts p) (starts p) m.
  Proof. intros K H w a w' E A0 Hp. split; [eapply H; eauto; exact Logic.I|eapply K; eauto]. Qed.
  Lemma h_copy {A} (P Q : str -> Prop) p (m : M A) : copies p m -> (forall f, P f -> Q (f ++ text_at src (fst p) (snd p))) -> hoare P Q m.
  Proof. intros C H w a w' E A0 Hp. destruct (C _ _ _ _ E A0 eq_refl) as [A1 ->]. auto. Qed.

  Definition valid (p : loc) : Prop := fst p <= snd p /\ snd p <= len.
  Lemma copy_substr p s : valid p -> c2b s = update_indexes src -> copies p (emit_opt (substr p src s 0)).
  Proof.
    intros [V1 V2] Hs. destruct p as [a b]. cbn [fst snd] in *. rewrite (proj1 (substr_code src a b s Hs)) by (unfold len in *; lia).
    intros f w x w' [= _ <-] A0 <-. split; [exact A0|reflexivity].
  Qed.
  Lemma copy_loc p : valid p -> copies p (write_loc src p).
  Proof. intros V f. apply h_get. intros s _ Hs. now apply copy_substr. Qed.
  Lemma copy_hint c p h : valid p -> out p -> copies p (comment_hint c src p h).
  Proof. intros V O f. apply h_get. intros s Hr Hs. rewrite Hr, (out_test _ O). now apply copy_substr. Qed.
  Lemma copy_ret {A B} p (m : M A) (b : B) : copies p m -> copies p (m ;;; ret b).
  Proof. intros C f. eapply h_bind; [apply C|]. intros _. now apply h_ret. Qed.
  Lemma h_steady {A} (m : M A) : TotalFrame.ok True True True (fun _ => True) (fun _ => True) m -> hoare any any m.
  Proof.
    intros B w a w' E A0 _. split; [|exact Logic.I]. pose proof (B 0 0 _ w Logic.I Logic.I (proj2 (at_depth_zero _ _) eq_refl)) as R. rewrite E in R. cbn in R.
    destruct R as (_ & _ & _ & R). apply at_depth_zero in R. unfold at0 in *. congruence.
  Qed.
  Lemma s_hint c p h : hoare any any (comment_hint c src p h).
  Proof. apply h_steady. apply any_hint; auto. Qed.
  Lemma s_loc p : hoare any any (write_loc src p).
  Proof. apply h_steady. apply any_loc; auto. Qed.
  Lemma s_newline c b p h : hoare any any (if_newline c b (comment_hint c src p) h).
  Proof. apply h_steady. apply ok_if_newline; auto; intros; apply any_hint; auto. Qed.
  Lemma s_write k c n : hoare any any (write k src c n).
  Proof. intros w a w' E A0 _. split; [|exact Logic.I]. unfold at0 in *. rewrite (write_balanced _ _ _ _ _ _ _ E). exact A0. Qed.

  (** a statement out of the range *)
  Lemma kind_alike k x y : alike x y -> n_kind x = k -> k <> KCharStringLiteral -> n_kind y = k.
  Proof. intros (_ & _ & [H|H]) E N; congruence. Qed.
  Lemma copy_range c W n m : valid (n_span n) -> out (n_span n) -> copies (n_span n) (range_or c src W n m).
  Proof. intros V O f. apply h_get. intros s Hr Hs. rewrite Hr, (out_test _ O). now apply copy_loc. Qed.
  Lemma copy_tok c W n p t : text_at src (fst p) (snd p) = t -> copies p (run_clause c src W n (plain [ITok t])).
  Proof.
    intros E f. unfold run_clause, plain. cbn [cl_pre cl_test cl_post run_items run_item]. apply (h_bind _ (fun x => x = f ++ text_at src (fst p) (snd p))).
    - apply (h_bind _ (fun x => x = f ++ text_at src (fst p) (snd p))); [|intros; apply h_ret; intros x Hx; exact Hx]. intros w a w' [= _ <-] A0 <-. split; [exact A0|]. cbn [set_f w_f]. now rewrite E.
    - intros _. eapply h_bind; [apply h_ret; intros x Hx; exact Hx|]. intros _. apply h_ret. intros x Hx. exact Hx.
  Qed.
  Lemma copy_stat k c x y : placed ts x -> stat_kind (n_kind x) || ret_kind (n_kind x) = true -> alike x y -> out (n_span x) ->
    copies (n_span x) (write k src c y).
  Proof.
    intros P K A O. destruct k as [|k]; [intros f w a w' E; discriminate E|].
    assert (Kb : shebang_kind (n_kind x) = false) by (destruct (n_kind x); reflexivity || discriminate K).
    destruct (place src ts T x P Kb) as (B1 & B2 & _).
    assert (Kc : n_kind x <> KCharStringLiteral) by (intros E; rewrite E in K; discriminate K).
    pose proof (kind_alike _ _ _ A eq_refl Kc) as Ky. destruct A as (As & _ & _).
    assert (V : valid (n_span y)) by (rewrite As; split; unfold len; lia). assert (Oy : out (n_span y)) by now rewrite As.
    pose proof (fun m => copy_range c (write k src) y m V Oy) as R. rewrite As in R.
    change (write (S k) src c y) with (write_body c src (write k src) y). unfold write_body, clause_of. rewrite Ky.
    destruct x as [kx sp ls t lv ks is ss o]. cbn [n_kind n_span] in *.
    destruct kx; try discriminate K; try exact (R _); clear R; apply copy_tok.
    - exact (one_token src ts T _ Break P eq_refl eq_refl).
    - exact (one_token src ts T _ Return P eq_refl eq_refl).
    - exact (one_token src ts T _ Semicolon P eq_refl eq_refl).
  Qed.

  (** ** positions in the source *)
  Definition reached (x : nat) (f : str) : Prop := f = firstn x src.
  Definition tail (a x : nat) (f : str) : Prop := a <= x /\ exists g, f = g ++ text_at src a x.
  Lemma h_reached {A} p (m : M A) : valid p -> copies p m -> hoare (reached (fst p)) (reached (snd p)) m.
  Proof. intros [V1 V2] C. eapply h_copy; [exact C|]. intros f ->. now apply firstn_join. Qed.
  Lemma h_tail {A} a p (m : M A) : valid p -> copies p m -> hoare (tail a (fst p)) (tail a (snd p)) m.
  Proof.
    intros [V1 V2] C. eapply h_copy; [exact C|]. intros f (H & g & ->). split; [lia|]. exists g. rewrite <- app_assoc. f_equal. apply text_at_join; lia.
  Qed.
  Lemma h_tail_start {A} p (m : M A) : valid p -> copies p m -> hoare any (tail (fst p) (snd p)) m.
  Proof. intros [V1 V2] C. eapply h_copy; [exact C|]. intros f _. split; [lia|]. now exists f. Qed.

  (** ** the list of statements *)
  Definition okit (x y : loc * node) : Prop :=
    fst y = fst x /\ alike (snd x) (snd y) /\ placed ts (snd x) /\ stat_kind (n_kind (snd x)) = true.
  Definition spans (its : list (loc * node)) : list loc := map (fun x => n_span (snd x)) its.
  Section List.
    Variables (k : nat) (c : config) (nn : bool) (fn : node -> M bool) (nl : node -> node -> M bool) (ph : node -> str).
    Hypothesis Hfn : forall x, fn x = ret false.
    Hypothesis Hnl : forall x y, exists v, nl x y = ret v.
    Notation W := (write k src c).
    Notation rest := (write_list_rest c src (comment_hint c src) W nn nl ph).
    Definition gapm (i : bool) (prev : node) (p : loc) (y : node) : M bool :=
      s <- get_st ;;
      (if test_out_of_range (pos_range s) p then write_loc src p ;;; ret i
       else b <- lazy_and nn (nl prev y) ;; if_newline c b (comment_hint c src p) (ph y) ;;; ret (i || b)).
    Lemma s_gapm i prev p y : hoare any any (gapm i prev p y).
    Proof.
      apply h_get. intros s _ _. destruct (test_out_of_range _ _).
      - eapply h_bind; [apply s_loc|]. intros. now apply h_ret.
      - eapply (h_bind _ any).
        + destruct (Hnl prev y) as [v ->]. destruct nn; now apply h_ret.
        + intros b. eapply h_bind; [apply s_newline|]. intros. now apply h_ret.
    Qed.
    Lemma copy_gapm i prev p y : valid p -> out p -> copies p (gapm i prev p y).
    Proof. intros V O f. apply h_get. intros s Hr _. rewrite Hr, (out_test _ O). now apply (copy_ret p _ i (copy_loc p V)). Qed.
    Lemma rest_step P Q R S i prev p y its : hoare P Q (gapm i prev p y) -> hoare Q R (W y) -> (forall i, hoare R S (rest i y its)) ->
      hoare P S (rest i prev ((p, y) :: its)).
    Proof.
      intros H1 H2 H3 w a w' E. refine (h_bind P Q S (gapm i prev p y) (fun i => W y ;;; rest i y its) H1 _ w a w' E).
      intros i'. eapply h_bind; [exact H2|]. intros _. apply H3.
    Qed.
    Lemma first_step P Q R S p y its : hoare P Q (comment_hint c src p []) -> hoare Q R (W y) -> (forall i, hoare R S (rest i y its)) ->
      hoare P S (write_list c src (comment_hint c src) W nn fn nl ph ((p, y) :: its)).
    Proof.
      intros H1 H2 H3. cbn [write_list]. rewrite Hfn. intros w a w' E.
      refine (h_bind P Q S (if_newline c false (comment_hint c src p) []) (fun _ => W y ;;; rest false y its) H1 _ w a w' _).
      - intros _. eapply h_bind; [exact H2|]. intros _. apply H3.
      - destruct nn; exact E.
    Qed.
    Lemma k_rest p i prev its : firm p -> keeps p (rest i prev its).
    Proof.
      intros F. apply (k_list_rest p F c src (write k src c) nn nl ph).
      - intros x. now apply write_keeps.
      - intros x y. destruct (Hnl x y) as [v ->]. apply q_ret.
    Qed.
    Lemma s_rest its : forall i prev, hoare any any (rest i prev its).
    Proof.
      induction its as [|[p y] its IH]; intros i prev; [now apply h_ret|]. eapply rest_step; [apply s_gapm|apply s_write|]. intros. apply IH.
    Qed.
    Lemma placed_valid x : placed ts x -> stat_kind (n_kind x) || ret_kind (n_kind x) = true -> valid (n_span x).
    Proof.
      intros P K. assert (Kb : shebang_kind (n_kind x) = false) by (destruct (n_kind x); reflexivity || discriminate K).
      destruct (place src ts T x P Kb) as (B1 & B2 & _). split; unfold len; lia.
    Qed.
    Lemma placed_firm x : placed ts x -> stat_kind (n_kind x) || ret_kind (n_kind x) = true -> firm (firstn (snd (n_span x)) src).
    Proof.
      intros P K. assert (Kb : shebang_kind (n_kind x) = false) by (destruct (n_kind x); reflexivity || discriminate K).
      destruct (place src ts T x P Kb) as (B1 & B2 & F & _). exact (firm_end src _ _ B1 B2 F).
    Qed.

    (** everything behind the range *)
    Lemma rest_tail a its its' : Forall2 okit its its' -> forall x r i prev, links x its r -> ordered x r (spans its) -> e <= x ->
      hoare (tail a x) (tail a r) (rest i prev its').
    Proof.
      induction 1 as [|[p0 n0] [p y] its its' (E & A & P & K) F IH]; intros x r i prev L O He.
      - cbn in L. subst. now apply h_ret.
      - cbn [fst snd] in *. destruct L as [-> L]. subst p. apply ordered_cons in O as (O1 & O2 & O3). cbn [snd] in O1, O2, O3. destruct (n_span n0) as [u v] eqn:Es. cbn [fst snd] in *. fold (spans its) in O3.
        pose proof (placed_valid _ P ltac:(now rewrite K)) as V. rewrite Es in V. destruct V as [V1 V2]. cbn [fst snd] in *.
        apply (rest_step _ (tail a u) (tail a v)).
        + apply (h_tail a (x, u)); [split; cbn; lia|]. apply copy_gapm; [split; cbn; lia|right; exact He].
        + apply (h_tail a (u, v)); [split; cbn; lia|]. rewrite <- Es. apply copy_stat; auto; [now rewrite K|]. right. rewrite Es. cbn. lia.
        + intros i'. apply IH; auto. lia.
    Qed.
    Lemma rest_after its its' : Forall2 okit its its' -> forall x r i prev z, links x its r -> ordered x r (spans its) -> In z (spans its) -> e <= fst z ->
      hoare any (tail (fst z) r) (rest i prev its').
    Proof.
      induction 1 as [|[p0 n0] [p y] its its' (E & A & P & K) F IH]; intros x r i prev z L O Hz He; [destruct Hz|].
      cbn [fst snd] in *. destruct L as [-> L]. subst p. apply ordered_cons in O as (O1 & O2 & O3). cbn [snd] in O1, O2, O3. cbn [spans map snd] in Hz.
      pose proof (placed_valid _ P ltac:(now rewrite K)) as V. destruct Hz as [<-|Hz].
      - eapply rest_step; [apply s_gapm| |intros i'; apply (rest_tail (fst (n_span n0)) its its' F (snd (n_span n0)) r); auto].
        + apply h_tail_start; [exact V|]. apply copy_stat; auto; [now rewrite K|now right].
        + destruct V. lia.
      - eapply rest_step; [apply s_gapm|apply s_write|]. intros i'. eapply IH; eauto.
    Qed.
    Lemma rest_before its its' : Forall2 okit its its' -> forall x r i prev z, links x its r -> ordered x r (spans its) -> In z (spans its) -> snd z <= l ->
      hoare (reached x) (starts (firstn (snd z) src)) (rest i prev its').
    Proof.
      induction 1 as [|[p0 n0] [p y] its its' (E & A & P & K) F IH]; intros x r i prev z L O Hz He; [destruct Hz|].
      cbn [fst snd] in *. destruct L as [-> L]. subst p. apply ordered_cons in O as (O1 & O2 & O3). cbn [snd] in O1, O2, O3. cbn [spans map snd] in Hz.
      pose proof (placed_valid _ P ltac:(now rewrite K)) as [V1 V2].
      assert (Hl : snd (n_span n0) <= l).
      { destruct Hz as [<-|Hz]; [exact He|]. pose proof (ordered_inside _ _ _ O3) as G. rewrite Forall_forall in G. destruct (G _ Hz) as [G1 G2].
        destruct (ordered_pair _ _ _ _ O3 Hz). lia. }
      apply (rest_step _ (reached (fst (n_span n0))) (reached (snd (n_span n0)))).
      - apply (h_reached (x, fst (n_span n0))); [split; cbn; lia|]. apply copy_gapm; [split; cbn; lia|left; cbn; lia].
      - apply h_reached; [split; auto|]. apply copy_stat; auto; [now rewrite K|now left].
      - intros i'. destruct Hz as [<-|Hz]; [|eapply IH; eauto].
        eapply h_weaken; [apply h_keep; [|apply s_rest]| |intros f Hf; exact Hf].
        + apply k_rest. apply placed_firm; auto. now rewrite K.
        + intros f ->. apply starts_refl.
    Qed.
  End List.

  Lemma h_range c W n m P Q : valid (n_span n) -> hoare P Q (write_loc src (n_span n)) -> hoare P Q m ->
    (forall r, raw_items n = Some r -> hoare P Q (run_items c src W n r)) -> hoare P Q (range_or c src W n m).
  Proof.
    intros V H1 H2 H3. apply h_get. intros s _ _. destruct (test_out_of_range _ _); [exact H1|]. destruct (raw_items n) as [r|]; [|exact H2].
    destruct (test_not_completely_contained _ _); [now apply H3|exact H2].
  Qed.
  Lemma starts_le (a b : nat) : a <= b -> starts (firstn a src) (firstn b src).
  Proof. intros H. exists (text_at src a b). symmetry. now apply firstn_join. Qed.
  Lemma tail_in (a x b : nat) f : a <= x -> x <= b -> tail x b (f ++ text_at src a b).
  Proof. intros H1 H2. split; [exact H2|]. exists (f ++ text_at src a x). rewrite <- app_assoc. f_equal. symmetry. now apply text_at_join. Qed.

  Section Node.
    Variables (n n' : node).
    Hypothesis P : placed ts n.
    Hypothesis K : list_kind (n_kind n) = true.
    Hypothesis A : alike n n'.
    Hypothesis Ai : alike_items (n_items n) (n_items n').
    Hypothesis O : ordered (fst (n_span n)) (snd (n_span n)) (item_places n).
    Lemma list_parts : n_kind n = KStatementList /\ n_kind n' = KStatementList /\ n_span n' = n_span n /\ valid (n_span n)
      /\ links (fst (n_span n)) (n_items n) (snd (n_span n)) /\ Forall2 okit (n_items n) (n_items n').
    Proof.
      assert (Kn : n_kind n = KStatementList) by (destruct (n_kind n); reflexivity || discriminate K).
      split; [exact Kn|]. split; [apply (kind_alike _ _ _ A Kn); discriminate|]. split; [apply A|].
      split; [apply placed_valid; [exact P|now rewrite Kn]|]. inversion P as [m _ Lo Pc]. subst m. unfold local in Lo. rewrite Kn in Lo. destruct Lo as [L F]. split; [exact L|].
      rewrite forallb_forall in F. assert (G : forall x, In x (n_items n) -> placed ts (snd x) /\ stat_kind (n_kind (snd x)) = true).
      { intros x Hx. split; [|now apply F]. apply Pc. unfold children. apply in_or_app. right. apply in_or_app. right. now apply in_map. }
      revert Ai G. generalize (n_items n), (n_items n'). clear. intros q q' Ai G. induction Ai as [|x y its its' [H1 H2] H IH]; constructor.
      - destruct (G x (or_introl eq_refl)). unfold okit. auto.
      - apply IH; [exact H|]. intros z Hz. apply G. now right.
    Qed.
    Lemma list_before k c z : In z (item_places n) -> snd z <= l -> hoare (reached (fst (n_span n))) (starts (firstn (snd z) src)) (write k src c n').
    Proof.
      intros Hz Hl. destruct list_parts as (Kn & Kn' & Es & V & L & F). destruct k as [|k]; [intros w a w' E; discriminate E|].
      change (write (S k) src c n') with (write_body c src (write k src) n'). unfold write_body. rewrite Kn'.
      pose proof (ordered_inside _ _ _ O) as G. rewrite Forall_forall in G. destruct (G _ Hz) as [G1 G2]. clear G.
      apply h_range; rewrite ?Es; [exact V| | |intros r; unfold raw_items; rewrite Kn'; discriminate].
      - eapply h_weaken; [apply h_reached; [exact V|now apply copy_loc]|auto|]. intros f ->. now apply starts_le.
      - eapply h_bind; [|intros; apply h_ret; intros f Hf; exact Hf]. unfold lua_list. unfold item_places in Hz, O.
        destruct F as [|[p0 n0] [p y] its its' (E & A1 & P1 & K1) F]; [destruct Hz|]. cbn [fst snd map] in *. destruct L as [-> L]. subst p.
        apply ordered_cons in O as (O1 & O2 & O3). pose proof (placed_valid _ P1 ltac:(now rewrite K1)) as [V1 V2].
        assert (Hl0 : snd (n_span n0) <= l).
        { destruct Hz as [<-|Hz]; [exact Hl|]. destruct (ordered_pair _ _ _ _ O3 Hz). lia. }
        apply (first_step k c _ (need_first_newline c src (write k src) n') (need_newline c src (write k src) n') list_prefix_hint ltac:(intros x; unfold need_first_newline; now rewrite Kn') _ (reached (fst (n_span n0))) (reached (snd (n_span n0)))).
        + apply (h_reached (fst (n_span n), fst (n_span n0))); [split; cbn; lia|]. apply copy_hint; [split; cbn; lia|left; cbn; lia].
        + apply h_reached; [split; auto|]. apply copy_stat; auto; [now rewrite K1|now left].
        + assert (Hn : forall x y, exists v, need_newline c src (write k src) n' x y = ret v) by (intros x y0; unfold need_newline; rewrite Kn'; eauto).
          intros i. destruct Hz as [<-|Hz].
          * eapply h_weaken; [apply h_keep; [|now apply s_rest]| |intros f Hf; exact Hf].
            -- apply k_rest; [exact Hn|]. apply placed_firm; auto. now rewrite K1.
            -- intros f ->. apply starts_refl.
          * eapply rest_before; eauto.
    Qed.
    Lemma list_after k c z : In z (item_places n) -> e <= fst z -> hoare any (tail (fst z) (snd (n_span n))) (write k src c n').
    Proof.
      intros Hz Hl. destruct list_parts as (Kn & Kn' & Es & V & L & F). destruct k as [|k]; [intros w a w' E; discriminate E|].
      change (write (S k) src c n') with (write_body c src (write k src) n'). unfold write_body. rewrite Kn'.
      pose proof (ordered_inside _ _ _ O) as G. rewrite Forall_forall in G. destruct (G _ Hz) as [G1 G2]. clear G.
      apply h_range; rewrite ?Es; [exact V| | |intros r; unfold raw_items; rewrite Kn'; discriminate].
      - eapply h_copy; [now apply copy_loc|]. intros f _. apply tail_in; [exact G1|]. destruct (ordered_pair _ _ _ _ O Hz). lia.
      - eapply h_bind; [|intros; apply h_ret; intros f Hf; exact Hf]. unfold lua_list. unfold item_places in Hz, O.
        destruct F as [|[p0 n0] [p y] its its' (E & A1 & P1 & K1) F]; [destruct Hz|]. cbn [fst snd map] in *. destruct L as [-> L]. subst p.
        apply ordered_cons in O as (O1 & O2 & O3). pose proof (placed_valid _ P1 ltac:(now rewrite K1)) as [V1 V2].
        assert (Hn : forall x y, exists v, need_newline c src (write k src) n' x y = ret v) by (intros x y0; unfold need_newline; rewrite Kn'; eauto).
        destruct Hz as [<-|Hz].
        + eapply first_step; [intros x; unfold need_first_newline; now rewrite Kn'|apply s_hint| |].
          * apply (h_tail_start (n_span n0)); [exact (conj V1 V2)|]. apply copy_stat; auto; [now rewrite K1|now right].
          * intros i. eapply rest_tail; eauto. lia.
        + eapply first_step; [intros x; unfold need_first_newline; now rewrite Kn'|apply s_hint|apply s_write|].
          intros i. eapply rest_after; eauto.
    Qed.
  End Node.

  (** ** blocks *)
  Section Block.
    Variables (b b' : node).
    Hypothesis P : placed ts b.
    Hypothesis K : block_kind (n_kind b) = true.
    Hypothesis A : like b b'.
    Hypothesis N : nested b.
    Hypothesis O : ordered (fst (n_span b)) (snd (n_span b)) (block_places b).
    Lemma block_cases : (list_kind (n_kind b) = true /\ block_places b = item_places b)
      \/ (ret_kind (n_kind b) = true /\ block_places b = [n_span b])
      \/ (n_kind b = KStatsRetStat /\ exists a r a' r', n_kids b = [a; r] /\ n_kids b' = [a'; r'] /\ n_locs b' = [(snd (n_span a), fst (n_span r))]
           /\ n_span b = (fst (n_span a), snd (n_span r)) /\ list_kind (n_kind a) = true /\ ret_kind (n_kind r) = true
           /\ placed ts a /\ placed ts r /\ alike a a' /\ alike_items (n_items a) (n_items a') /\ alike r r'
           /\ block_places b = item_places a ++ [n_span r]
           /\ ordered (fst (n_span a)) (snd (n_span a)) (item_places a) /\ snd (n_span a) <= fst (n_span r)).
    Proof.
      inversion P as [m _ Lo Pc]. subst m. inversion N as [m On Cn]. subst m. unfold block_places, local in *. destruct (n_kind b) eqn:Kb; try discriminate K; auto.
      right; right. split; [reflexivity|]. destruct Lo as (a & r & Ek & El & Es & Ka & Kr & _). destruct A as (A1 & _ & A3).
      destruct (A3 Kb) as (ks' & E' & F). rewrite Ek in F. inversion F as [|? a' ? ? [F1 F2] F3]; subst. inversion F3 as [|? r' ? ? [F4 F5] F6]; subst. inversion F6; subst.
      assert (In a (children b)) by (unfold children; rewrite Ek; apply in_or_app; right; now left).
      assert (In r (children b)) by (unfold children; rewrite Ek; apply in_or_app; right; right; now left).
      exists a, r, a', r'. split; [exact Ek|]. split; [auto|]. split; [destruct A1 as (_ & -> & _); exact El|].
      split; [exact Es|]. split; [exact Ka|]. split; [exact Kr|]. split; [now apply Pc|]. split; [now apply Pc|]. split; [exact F1|]. split; [now apply F2|].
      split; [exact F4|]. rewrite Ek. split; [reflexivity|]. split; [apply (list_moves default_config a (0%Z, None)); auto|].
      unfold children in On. rewrite Ek in On. rewrite !map_app in On. apply ordered_drop in On. cbn [map app] in On.
      apply ordered_cons in On as (_ & _ & On). apply ordered_cons in On as (On & _). exact On.
    Qed.
    Lemma b_valid : valid (n_span b).
    Proof.
      assert (Kb : shebang_kind (n_kind b) = false) by (destruct (n_kind b); reflexivity || discriminate K).
      destruct (place src ts T b P Kb) as (B1 & B2 & _). split; unfold len; lia.
    Qed.
    Lemma stats_write k c : n_kind b = KStatsRetStat -> exists m, write (S k) src c b' = range_or c src (write k src) b' m
      /\ (forall P Q, hoare P Q (run_items c src (write k src) b' [IKid 0; INl (nsome c N_newline_format_statement) 0 sp; IKid 1]) -> hoare P Q m).
    Proof.
      intros Kb. pose proof (kind_alike _ _ _ (proj1 A) Kb ltac:(discriminate)) as Kb'.
      eexists. split.
      - change (write (S k) src c b') with (write_body c src (write k src) b'). unfold write_body. rewrite Kb'. reflexivity.
      - intros P0 Q H. apply h_get. intros s _ _.
        assert (Et : match oneline_if_cfg c b' with Some c' => Some c' | None => oneline_function_cfg c s b' end = None).
        { unfold oneline_if_cfg, oneline_function_cfg, is_if, is_func_body. rewrite Kb', ?andb_false_r. cbn. now rewrite ?andb_false_r. }
        rewrite Et. cbn [oneline_or]. unfold run_clause, clause_of. rewrite Kb'. cbn [plain cl_pre cl_test cl_post]. eapply h_bind; [exact H|]. intros _.
        eapply h_bind; [apply h_ret; intros f Hf; exact Hf|]. intros _. now apply h_ret.
    Qed.
    Lemma block_before k c z : In z (block_places b) -> snd z <= l -> hoare (reached (fst (n_span b))) (starts (firstn (snd z) src)) (write k src c b').
    Proof.
      intros Hz Hl. pose proof b_valid as V.
      destruct block_cases as [[Kb E]|[[Kb E]|(Kb & a & r & a' & r' & Ek & Ek' & El & Es & Ka & Kr & Pa & Pr & Aa & Ai & Ar & E & Oa & Or)]]; rewrite E in *.
      - apply (list_before b b'); auto; [apply A|now apply A].
      - destruct Hz as [<-|[]]. eapply h_weaken; [apply h_reached; [exact V|apply copy_stat; [exact P| |apply A|now left]]|auto|].
        + now rewrite Kb, orb_true_r.
        + intros f ->. apply starts_refl.
      - assert (Hs : n_span b' = n_span b) by apply A. destruct k as [|k]; [intros w x w' Ew; discriminate Ew|].
        destruct (stats_write k c Kb) as (m & -> & Hm).
        destruct (Nat.le_gt_cases (snd (n_span b)) l) as [Hb|Hb].
        + eapply h_weaken; [apply h_reached; [exact V|]|auto|].
          * rewrite <- Hs. apply copy_range; rewrite Hs; [exact V|now left].
          * intros f ->. apply starts_le. pose proof (ordered_inside _ _ _ O) as G. rewrite Forall_forall in G. apply G in Hz. apply Hz.
        + apply in_app_or in Hz as [Hz|[<-|[]]]; [|rewrite Es in Hb; cbn in Hb; lia].
          assert (F : firm (firstn (snd z) src)).
          { apply in_map_iff in Hz as ([p x] & <- & Hx). cbn [snd]. destruct (list_parts a a' Pa Ka Aa Ai) as (_ & _ & _ & _ & _ & Fx).
            assert (G : placed ts x /\ stat_kind (n_kind x) = true).
            { clear -Fx Hx. induction Fx as [|u v q q' (_ & _ & U1 & U2) _ IH]; [destruct Hx|]. destruct Hx as [->|Hx]; auto. }
            destruct G as [G1 G2]. apply placed_firm; [exact G1|now rewrite G2]. }
          assert (H0 : hoare (reached (fst (n_span b))) (starts (firstn (snd z) src)) (run_item c src (write k src) b' (IKid 0))).
          { cbn [run_item]. unfold kid. rewrite Ek'. cbn [nth]. rewrite Es. cbn [fst]. apply (list_before a a'); auto. }
          assert (H1 : hoare (starts (firstn (snd z) src)) (starts (firstn (snd z) src)) (run_item c src (write k src) b' (IKid 1))).
          { apply h_keep; [now apply write_keeps|apply s_write]. }
          apply h_range.
          * rewrite Hs. exact V.
          * eapply h_weaken; [rewrite Hs; apply h_reached; [exact V|now apply copy_loc]|auto|]. intros f ->. apply starts_le. rewrite Es. cbn.
            pose proof (ordered_inside _ _ _ Oa) as G. rewrite Forall_forall in G. apply G in Hz. unfold inside in Hz.
            pose proof (ordered_pair _ _ _ (n_span r) O). rewrite Es in H. cbn in H. destruct H; [apply in_or_app; right; now left|]. lia.
          * apply Hm. cbn [run_items]. eapply h_bind; [exact H0|]. intros _. eapply h_bind.
            { apply h_keep; [now apply k_if_newline, k_hint|apply s_newline]. }
            intros _. eapply h_bind; [exact H1|]. intros _. now apply h_ret.
          * unfold raw_items. rewrite (kind_alike _ _ _ (proj1 A) Kb ltac:(discriminate)). intros q [= <-]. cbn [run_items]. eapply h_bind; [exact H0|]. intros _. eapply h_bind.
            { apply h_keep; [apply k_loc|apply s_loc]. }
            intros _. eapply h_bind; [exact H1|]. intros _. now apply h_ret.
    Qed.
    Lemma block_after k c z : In z (block_places b) -> e <= fst z -> hoare any (tail (fst z) (snd (n_span b))) (write k src c b').
    Proof.
      intros Hz Hl. pose proof b_valid as V.
      destruct block_cases as [[Kb E]|[[Kb E]|(Kb & a & r & a' & r' & Ek & Ek' & El & Es & Ka & Kr & Pa & Pr & Aa & Ai & Ar & E & Oa & Or)]]; rewrite E in *.
      - apply (list_after b b'); auto; [apply A|now apply A].
      - destruct Hz as [<-|[]]. apply h_tail_start; [exact V|]. apply copy_stat; [exact P|now rewrite Kb, orb_true_r|apply A|now right].
      - assert (Hs : n_span b' = n_span b) by apply A. destruct k as [|k]; [intros w x w' Ew; discriminate Ew|].
        destruct (stats_write k c Kb) as (m & -> & Hm). clear Hm.
        pose proof (ordered_inside _ _ _ O) as G. rewrite Forall_forall in G. destruct (G _ Hz) as [G1 G2]. clear G. destruct (ordered_pair _ _ _ _ O Hz) as [_ G3].
        assert (Vr : valid (n_span r)) by (apply placed_valid; [exact Pr|now rewrite Kr, orb_true_r]).
        assert (Sr : fst (n_span r) < snd (n_span r)).
        { apply (place src ts T r Pr). destruct (n_kind r); reflexivity || discriminate Kr. }
        assert (Zr : fst z <= fst (n_span r)).
        { apply in_app_or in Hz as [Hz|[<-|[]]]; [|lia]. pose proof (ordered_inside _ _ _ Oa) as G. rewrite Forall_forall in G. apply G in Hz. unfold inside in Hz. lia. }
        apply h_get. intros s Hr _. rewrite Hr, Hs. destruct (test_out_of_range (Some (l, e)) (n_span b)) eqn:Et.
        { eapply h_copy; [now apply copy_loc|]. intros f _. apply tail_in; lia. }
        unfold raw_items. rewrite (kind_alike _ _ _ (proj1 A) Kb ltac:(discriminate)).
        assert (Ec : test_not_completely_contained (Some (l, e)) (n_span b) = true).
        { unfold test_out_of_range, test_not_completely_contained in *. apply orb_false_iff in Et as [_ Et]. apply Nat.leb_gt in Et. apply orb_true_iff. right. apply andb_true_iff. rewrite !Nat.ltb_lt.
          rewrite Es in *. cbn [fst snd] in *. lia. }
        rewrite Ec. cbn [run_items run_item]. unfold kid, nloc. rewrite Ek', El. cbn [nth].
        assert (Hc : copies (n_span r) (write k src c r')) by (apply copy_stat; [exact Pr|now rewrite Kr, orb_true_r|exact Ar|right; lia]).
        rewrite Es. cbn [snd]. apply in_app_or in Hz as [Hz|[<-|[]]].
        + eapply h_bind; [apply (list_after a a' Pa Ka Aa Ai Oa k c z Hz Hl)|]. intros _. eapply h_bind.
          { apply (h_tail (fst z) (snd (n_span a), fst (n_span r))); [|apply copy_loc]; (split; [exact Or|]; destruct Vr; cbn; lia). }
          intros _. eapply h_bind; [apply h_tail; [exact Vr|exact Hc]|]. intros _. now apply h_ret.
        + eapply h_bind; [apply s_write|]. intros _. eapply h_bind; [apply s_loc|]. intros _.
          eapply h_bind; [apply h_tail_start; [exact Vr|exact Hc]|]. intros _. now apply h_ret.
    Qed.
  End Block.

  (** ** the end of the file *)
  Lemma trim_cases s : (trim_end_spaces_and_tabs s = [] /\ spaces s)
    \/ exists t x u, s = (t ++ [x]) ++ u /\ trim_end_spaces_and_tabs s = t ++ [x] /\ is_sp_tab x = false /\ spaces u.
  Proof.
    assert (D : forall r, (drop_while is_sp_tab r = [] /\ spaces r) \/ exists u x q, r = u ++ x :: q /\ drop_while is_sp_tab r = x :: q /\ is_sp_tab x = false /\ spaces u).
    { assert (Sp : forall x, is_sp_tab x = true -> x = 32%N \/ x = 9%N) by (intros x E; apply orb_true_iff in E as [E|E]; apply ceq_true in E; auto).
      induction r as [|x r [[IH1 IH2]|(u & y & q & -> & IH & Hy & Hu)]]; [left; split; [reflexivity|constructor]| |]; cbn [drop_while]; destruct (is_sp_tab x) eqn:E.
      - left. split; [exact IH1|]. constructor; auto.
      - right. exists [], x, r. split; [reflexivity|]. split; [reflexivity|]. split; [exact E|constructor].
      - right. exists (x :: u), y, q. split; [reflexivity|]. split; [exact IH|]. split; [exact Hy|]. constructor; auto.
      - right. exists [], x, (u ++ y :: q). split; [reflexivity|]. split; [reflexivity|]. split; [exact E|constructor]. }
    unfold trim_end_spaces_and_tabs. destruct (D (rev s)) as [[H1 H2]|(u & x & q & E & -> & Hx & Hu)].
    - left. rewrite H1. split; [reflexivity|]. rewrite <- (rev_involutive s). now apply Forall_rev.
    - right. exists (rev q), x, (rev u). split; [|split; [reflexivity|split; [exact Hx|now apply Forall_rev]]].
      rewrite <- (rev_involutive s), E, rev_app_distr. reflexivity.
  Qed.
  Lemma not_spaces x : is_sp_tab x = false -> ~ spaces [x].
  Proof. intros H S. inversion S as [|? ? [->| ->]]; discriminate H. Qed.
  Lemma ends_nl_snoc s x : ends_nl (s ++ [x]) = N.eqb x 10.
  Proof. unfold ends_nl. now rewrite lastc_snoc. Qed.
  Definition ending (nl : bool) (x : nat) (f : str) : Prop := exists t u, f = t ++ u /\ eof_text nl (skipn x src) u.
  Lemma eof_step c nl x y : e <= y -> x < y -> y <= len -> firm (text_at src x y) ->
    hoare (tail x y) (ending nl x) (if_newline c nl (comment_hint c src (y, len)) []).
  Proof.
    intros He Hxy Hy F. assert (V : valid (y, len)) by (split; cbn; lia). assert (Ot : out (y, len)) by now right.
    pose proof (skipn_split src x y ltac:(lia)) as Sk.
    unfold if_newline. destruct nl; cbn [negb].
    - intros w a w' E A0 (_ & g & Hf). unfold bind at 1, in_buffer in E.
      destruct (comment_hint c src (y, len) [] (set_f [] w)) as [[[]| | |] w1] eqn:E1; try discriminate.
      destruct (copy_hint c _ [] V Ot [] _ _ _ E1 A0 eq_refl) as [A1 B]. cbn [fst snd app] in B. rewrite B in E. cbn [set_f w_f] in E. rewrite text_at_end in E.
      assert (Wi : forall v b v', write_indent c v = (ROk b, v') -> at0 v -> at0 v' /\ w_f v' = w_f v).
      { intros v b v' [= _ <-] Av. split; [exact Av|]. cbn [set_f w_f]. rewrite (at0_level _ c Av). apply app_nil_r. }
      destruct (snoc_cases (text_at src x y)) as [C|(s & z & C)].
      { exfalso. unfold text_at in C. apply (f_equal (@List.length _)) in C. rewrite firstn_length, skipn_length in C. cbn in C. unfold len in *. lia. }
      assert (Hz : is_sp_tab z = false) by (unfold firm in F; rewrite C, lastc_snoc in F; exact F).
      destruct (trim_cases (skipn y src)) as [[Tr Sp]|(t & z' & u & Es & Tr & Hz' & Hu)]; rewrite Tr in E.
      + cbn [is_empty negb] in E. unfold bind in E. apply Wi in E as [E1' E2'].
        * split; [exact E1'|]. rewrite E2'. cbn [set_f w_f]. rewrite Hf, C. exists g. rewrite Sk, C.
          assert (Pb : pop_blank (g ++ s ++ [z]) = g ++ s ++ [z]).
          { unfold pop_blank. destruct (1 <? _); [|reflexivity]. rewrite app_assoc, rev_app_distr. cbn. now rewrite Hz. }
          rewrite Pb. assert (En : ends_nl (g ++ s ++ [z]) = N.eqb z 10) by (rewrite app_assoc; apply ends_nl_snoc). rewrite En. destruct (N.eqb z 10) eqn:Ez.
          -- eexists. split; [reflexivity|]. exists s, z, (skipn y src). rewrite Ez. split; [reflexivity|]. split; [exact Sp|]. split; [now apply not_spaces|reflexivity].
          -- exists ((s ++ [z]) ++ [10%N]). split; [now rewrite <- !app_assoc|]. exists s, z, (skipn y src). rewrite Ez. split; [reflexivity|]. split; [exact Sp|]. split; [now apply not_spaces|reflexivity].
        * exact A1.
      + assert (Ne : is_empty (t ++ [z']) = false) by (destruct t; reflexivity). rewrite Ne in E. cbn [negb] in E. rewrite ends_nl_snoc in E.
        assert (Sk' : skipn x src = ((text_at src x y ++ t) ++ [z']) ++ u) by (rewrite Sk, Es, <- !app_assoc; reflexivity).
        unfold bind, emit in E. destruct (N.eqb z' 10) eqn:Ez; cbn [ret] in E; (apply Wi in E as [E1' E2']; [|exact A1]); (split; [exact E1'|]); rewrite E2'; cbn [set_f w_f]; rewrite Hf.
        * exists g, ((text_at src x y ++ t) ++ [z']). split; [now rewrite <- !app_assoc|]. exists (text_at src x y ++ t), z', u. rewrite Ez. split; [exact Sk'|]. split; [exact Hu|]. split; [now apply not_spaces|reflexivity].
        * exists g, (((text_at src x y ++ t) ++ [z']) ++ [10%N]). split; [now rewrite <- !app_assoc|]. exists (text_at src x y ++ t), z', u. rewrite Ez. split; [exact Sk'|]. split; [exact Hu|]. split; [now apply not_spaces|reflexivity].
    - eapply h_weaken; [apply (h_tail x (y, len)); [exact V|now apply copy_hint]|auto|]. cbn [snd]. intros f (_ & g & ->). exists g, (text_at src x len). split; [reflexivity|]. apply text_at_end.
  Qed.
  Lemma firm_tail a x y : a <= x -> x < y -> y <= len -> firm (text_at src a y) -> firm (text_at src x y).
  Proof.
    intros H1 H2 H3. rewrite <- (text_at_join src a x y) by lia. unfold firm. rewrite lastc_app. destruct (lastc (text_at src x y)); auto.
  Qed.

  (** ** the file *)
  Section Chunk.
    Variables (b b' : node).
    Hypothesis P : placed ts b.
    Hypothesis K : block_kind (n_kind b) = true.
    Hypothesis A : like b b'.
    Hypothesis N : nested b.
    Hypothesis O : ordered (fst (n_span b)) (snd (n_span b)) (block_places b).
    Lemma block_stat z : In z (block_places b) -> exists x, n_span x = z /\ placed ts x /\ stat_kind (n_kind x) || ret_kind (n_kind x) = true.
    Proof.
      assert (L : forall n, placed ts n -> list_kind (n_kind n) = true -> In z (item_places n) -> exists x, n_span x = z /\ placed ts x /\ stat_kind (n_kind x) || ret_kind (n_kind x) = true).
      { intros n Pn Kn Hz. apply in_map_iff in Hz as ([p x] & <- & Hx). exists x. split; [reflexivity|]. inversion Pn as [m _ Lo Pc]. subst m. split.
        - apply Pc. unfold children. apply in_or_app. right. apply in_or_app. right. apply in_map_iff. now exists (p, x).
        - unfold local in Lo. destruct (n_kind n); try discriminate Kn. destruct Lo as [_ Lo]. rewrite forallb_forall in Lo. specialize (Lo _ Hx). cbn in Lo. now rewrite Lo. }
      destruct (block_cases b b' P K A N O) as [[Kb ->]|[[Kb ->]|(Kb & a & r & a' & r' & _ & _ & _ & _ & Ka & Kr & Pa & Pr & _ & _ & _ & -> & _)]].
      - now apply L.
      - intros [<-|[]]. exists b. split; [reflexivity|]. split; [exact P|]. now rewrite Kb, orb_true_r.
      - intros Hz. apply in_app_or in Hz as [Hz|[<-|[]]]; [now apply (L a)|]. exists r. split; [reflexivity|]. split; [exact Pr|]. now rewrite Kr, orb_true_r.
    Qed.
    Lemma block_firm z : In z (block_places b) -> fst (n_span b) <= fst z /\ fst z < snd z /\ snd z <= snd (n_span b) /\ snd (n_span b) <= len
      /\ firm (firstn (snd z) src) /\ firm (text_at src (fst z) (snd (n_span b))).
    Proof.
      intros Hz. pose proof (ordered_inside _ _ _ O) as G. rewrite Forall_forall in G. destruct (G _ Hz) as [G1 G2].
      destruct (block_stat z Hz) as (x & <- & Px & Kx). assert (Kb : shebang_kind (n_kind x) = false) by (destruct (n_kind x); reflexivity || discriminate Kx).
      destruct (place src ts T x Px Kb) as (B1 & B2 & _). assert (Kb' : shebang_kind (n_kind b) = false) by (destruct (n_kind b); reflexivity || discriminate K).
      destruct (place src ts T b P Kb') as (B3 & B4 & F & _). split; [exact G1|]. split; [exact B1|]. split; [exact G2|]. split; [exact B4|]. split; [now apply placed_firm|].
      apply (firm_tail (fst (n_span b))); auto. lia.
    Qed.
    Lemma chunk_write c k n' m : n_kind n' = m -> m = KChunk \/ m = KSheBangChunk -> forall P Q,
      hoare P Q (run_items c src (write k src) n' (cl_pre (clause_of c n'))) -> hoare P Q (write (S k) src c n').
    Proof.
      intros Kn Km P0 Q H. change (write (S k) src c n') with (write_body c src (write k src) n'). unfold write_body. rewrite Kn.
      assert (E : cl_test (clause_of c n') = None /\ forall i, cl_post (clause_of c n') i = []) by (unfold clause_of; rewrite Kn; destruct Km as [->| ->]; split; reflexivity).
      destruct E as [E1 E2].
      assert (G : hoare P0 Q (run_clause c src (write k src) n' (clause_of c n'))).
      { unfold run_clause. rewrite E1. eapply h_bind; [exact H|]. intros _. eapply h_bind; [apply h_ret; intros f Hf; exact Hf|]. intros i. rewrite E2. now apply h_ret. }
      destruct Km as [->| ->]; exact G.
    Qed.

    Section Plain.
      Variables (n' : node).
      Hypothesis Kn : n_kind n' = KChunk.
      Hypothesis Ek : n_kids n' = [b'].
      Hypothesis El : n_locs n' = [(0, fst (n_span b)); (snd (n_span b), len)].
      Lemma plain_before c k z : In z (block_places b) -> snd z <= l -> hoare (reached 0) (starts (firstn (snd z) src)) (write k src c n').
      Proof.
        intros Hz Hl. destruct (block_firm z Hz) as (B1 & B2 & B3 & B4 & F1 & F2). destruct k as [|k]; [intros w x w' Ew; discriminate Ew|].
        apply (chunk_write c k n' _ Kn); [now left|]. unfold clause_of. rewrite Kn. cbn [plain cl_pre run_items run_item]. unfold kid, nloc. rewrite Ek, El. cbn [nth].
        eapply h_bind; [apply (h_reached (0, fst (n_span b))); [split; cbn; lia|apply copy_hint; [split; cbn; lia|left; cbn; lia]]|]. intros _.
        eapply h_bind; [apply (block_before b b' P K A N O k c z Hz Hl)|]. intros _.
        eapply h_bind; [apply h_keep; [now apply k_if_newline, k_hint|apply s_newline]|]. intros _. now apply h_ret.
      Qed.
      Lemma plain_after c k z : In z (block_places b) -> e <= fst z -> hoare any (ending (on c B_write_newline_at_eof) (fst z)) (write k src c n').
      Proof.
        intros Hz Hl. destruct (block_firm z Hz) as (B1 & B2 & B3 & B4 & F1 & F2). destruct k as [|k]; [intros w x w' Ew; discriminate Ew|].
        apply (chunk_write c k n' _ Kn); [now left|]. unfold clause_of. rewrite Kn. cbn [plain cl_pre run_items run_item]. unfold kid, nloc. rewrite Ek, El. cbn [nth].
        eapply h_bind; [apply s_hint|]. intros _.
        eapply h_bind; [apply (block_after b b' P K A N O k c z Hz Hl)|]. intros _.
        eapply h_bind; [apply eof_step; auto; lia|]. intros _. now apply h_ret.
      Qed.
    End Plain.

    Section WithShebang.
      Variables (n' a a' : node).
      Hypothesis Kn : n_kind n' = KSheBangChunk.
      Hypothesis Ek : n_kids n' = [a'; b'].
      Hypothesis El : n_locs n' = [(0, fst (n_span a)); (snd (n_span a), fst (n_span b)); (snd (n_span b), len)].
      Hypothesis Pa : placed ts a.
      Hypothesis Ka : n_kind a = KSheBang.
      Hypothesis Aa : n_kind a' = KSheBang /\ n_text a' = n_text a.
      Hypothesis Oa : fst (n_span a) <= snd (n_span a) /\ snd (n_span a) <= fst (n_span b).
      Lemma shebang_copies c k : copies (n_span a) (write k src c a').
      Proof.
        intros f. destruct k as [|k]; [intros w x w' Ew; discriminate Ew|]. change (write (S k) src c a') with (write_body c src (write k src) a'). unfold write_body.
        destruct Aa as [-> ->].
        assert (G : text_at src (fst (n_span a)) (snd (n_span a)) = n_text a ++ [10%N]).
        { assert (Kb' : shebang_kind (n_kind b) = false) by (destruct (n_kind b); reflexivity || discriminate K).
          destruct (place src ts T b P Kb') as (B3 & B4 & _). inversion Pa as [m (w1 & w & w2 & E & Hw & _ & Ly) _ _]. subst m.
          assert (La : layout a = [STok (SheBang (n_text a))]) by (destruct a; cbn in Ka; subst; reflexivity).
          rewrite La in Ly. inversion Ly as [| |? ? r ? ? w' Ly' El1 Et1 Ee1 | | | |]. subst w. inversion Ly'. subst.
          assert (W : written (SheBang (n_text a)) (text_at src (fst (n_span a)) (snd (n_span a))) (skipn (snd (n_span a)) src)).
          { refine (proj2 (tiles_in _ _ _ _ _ _ T _ _)); [apply in_or_app; right; left; reflexivity|discriminate]. }
          destruct W as [W|[_ W]]; [exact W|]. exfalso. apply (f_equal (@List.length _)) in W. rewrite skipn_length in W. cbn in W. lia. }
        intros w x w' [= _ <-] A0 <-. split; [exact A0|]. cbn [set_f w_f]. now rewrite G.
      Qed.
      Lemma shebang_before c k z : In z (block_places b) -> snd z <= l -> hoare (reached 0) (starts (firstn (snd z) src)) (write k src c n').
      Proof.
        intros Hz Hl. destruct (block_firm z Hz) as (B1 & B2 & B3 & B4 & F1 & F2). destruct k as [|k]; [intros w x w' Ew; discriminate Ew|].
        apply (chunk_write c k n' _ Kn); [now right|]. unfold clause_of. rewrite Kn. cbn [plain cl_pre run_items run_item]. unfold kid, nloc. rewrite Ek, El. cbn [nth].
        eapply h_bind; [apply (h_reached (0, fst (n_span a))); [split; cbn; lia|apply copy_hint; [split; cbn; lia|left; cbn; lia]]|]. intros _.
        eapply h_bind; [apply (h_reached (n_span a)); [split; lia|apply shebang_copies]|]. intros _.
        eapply h_bind; [apply (h_reached (snd (n_span a), fst (n_span b))); [split; cbn; lia|apply copy_hint; [split; cbn; lia|left; cbn; lia]]|]. intros _.
        eapply h_bind; [apply (block_before b b' P K A N O k c z Hz Hl)|]. intros _.
        eapply h_bind; [apply h_keep; [now apply k_if_newline, k_hint|apply s_newline]|]. intros _. now apply h_ret.
      Qed.
      Lemma shebang_after c k z : In z (block_places b) -> e <= fst z -> hoare any (ending (on c B_write_newline_at_eof) (fst z)) (write k src c n').
      Proof.
        intros Hz Hl. destruct (block_firm z Hz) as (B1 & B2 & B3 & B4 & F1 & F2). destruct k as [|k]; [intros w x w' Ew; discriminate Ew|].
        apply (chunk_write c k n' _ Kn); [now right|]. unfold clause_of. rewrite Kn. cbn [plain cl_pre run_items run_item]. unfold kid, nloc. rewrite Ek, El. cbn [nth].
        eapply h_bind; [apply s_hint|]. intros _. eapply h_bind; [apply s_write|]. intros _. eapply h_bind; [apply s_hint|]. intros _.
        eapply h_bind; [apply (block_after b b' P K A N O k c z Hz Hl)|]. intros _.
        eapply h_bind; [apply eof_step; auto; lia|]. intros _. now apply h_ret.
      Qed.
    End WithShebang.
  End Chunk.
End Write.

(** ** lines *)
Lemma newlines_join (s : str) a b : a <= b -> newlines (firstn b s) = newlines (firstn a s) + newlines (text_at s a b).
Proof. intros H. rewrite <- (firstn_join s a b H). apply count_occ_app. Qed.
Lemma before_line s k p q : line_end s k q -> line_at s p <= k -> p <= List.length s -> p <= q.
Proof.
  intros (H1 & H2 & H3) H4 H5. destruct (Nat.le_gt_cases p q) as [H|H]; [exact H|]. exfalso. destruct H3 as [H3|H3]; [lia|].
  unfold line_at in H4. rewrite (newlines_join s q p) in H4 by lia. assert (newlines (text_at s q p) = 0) as E by lia.
  unfold text_at in E. destruct (nth_error_split _ _ H3) as (u & v & -> & Hu). rewrite <- Hu in E.
  rewrite skipn_app, skipn_all, Nat.sub_diag in E. cbn [app skipn] in E. destruct (p - List.length u) eqn:Ep; [lia|]. cbn in E. lia.
Qed.
Lemma after_line s k p q : line_end s k q -> k < line_at s p -> q <= p.
Proof.
  intros (H1 & H2 & H3) H4. destruct (Nat.le_gt_cases q p) as [H|H]; [exact H|]. exfalso. unfold line_at in H4. rewrite (newlines_join s p q) in H2 by lia. lia.
Qed.
Lemma line_at_lines s p : line_at s p <= lines s.
Proof.
  unfold line_at, lines. apply le_n_S. unfold newlines. rewrite <- (firstn_skipn p s) at 2. rewrite count_occ_app. lia.
Qed.
Lemma range_lines s L R : (1 <= L <= R)%N -> (L <= N.of_nat (lines s))%N -> exists l e, line_range_to_pos_range s (Some (L, R)) = Some (l, e)
  /\ (forall p, p <= List.length s -> (N.of_nat (line_at s p) < L)%N -> p <= l) /\ (forall p, (R < N.of_nat (line_at s p))%N -> e <= p).
Proof.
  intros H1 H2. destruct (line_range_spec s L R) as (l & e & E & _ & A1 & _ & B1 & _). exists l, e. split; [exact E|]. split.
  - intros p Hp Hl. assert (0 < line_at s p) by (unfold line_at; lia). eapply before_line; [apply A1; lia|lia|exact Hp].
  - intros p Hl. pose proof (line_at_lines s p). eapply after_line; [apply B1; lia|lia].
Qed.

(** ** the statement *)
Theorem outside_lines src c L R n o :
  line_range c = Some (L, R) -> (1 <= L <= R)%N -> (L <= N.of_nat (lines src))%N ->
  parse_lua src = Parsed n -> process_buffer src c = Formatted o ->
  forall a b, In (a, b) (statements n) ->
    ((N.of_nat (line_at src b) < L)%N -> exists t, o = firstn b src ++ t)
    /\ ((R < N.of_nat (line_at src a))%N -> exists t u, o = t ++ u /\ eof_text (on c B_write_newline_at_eof) (skipn a src) u).
Proof.
  intros Hc H1 H2 Hp Ho a b Hz. destruct (range_lines src L R H1 H2) as (l0 & e0 & E0 & HL & HR).
  destruct (tree_placed src n Hp) as (ts & Lx & [[Ei Es] C]). destruct (parse_lua_layout src n Hp) as (ts' & Lx' & _ & [No Nc]).
  assert (ts' = ts) by congruence. subst ts'. pose proof (lex_tiles src ts Lx) as T.
  unfold process_buffer in Ho. rewrite Hp, Hc, E0 in Ho. unfold reconstruct in Ho.
  destruct (recon c None n (0%Z, Some (l0, e0))) as [n' [lv pr]] eqn:Er. cbn [snd] in Ho.
  assert (G : exists l e, pr = Some (l, e)
    /\ (b <= l0 -> forall k, hoare src l e (reached src 0) (starts (firstn b src)) (write k src c n'))
    /\ (e0 <= a -> forall k, hoare src l e any (ending src (on c B_write_newline_at_eof) a) (write k src c n')) /\ b <= List.length src).
  { destruct n as [k sp ls t lv0 ks is ss o0]. cbn [n_items n_seps n_kids n_locs n_kind] in *. subst is ss. unfold statements in Hz. cbn [n_kind n_kids] in Hz.
    destruct C as [(-> & x & ->)|[(-> & bk & q & r & -> & El & Hq & Kb & Pb)|(-> & ak & bk & q & r & -> & El & Hq & Ka & Kb & Pa & Pb)]].
    - destruct Hz.
    - apply orb_true_iff in Kb as [Kb|Kb]; [|unfold block_places in Hz; destruct (n_kind bk); try discriminate Kb; destruct Hz].
      assert (q = List.length src) by exact (tiles_eof src ts 0 q r T Hq). subst q.
      assert (Nb : nested bk) by (rewrite Forall_forall in Nc; apply Nc; now left).
      rewrite recon_eq in Er. cbn [rkids ritems rseps update_pos_range Z.eqb] in Er.
      destruct (block_moves ts c bk (0%Z, Some (l0, e0)) Pb Kb Nb eq_refl) as [Mv O].
      pose proof (recon_like c None bk (0%Z, Some (l0, e0))) as A. destruct (recon c None bk (0%Z, Some (l0, e0))) as [bk' [lv1 r1]]. cbn [fst snd] in *.
      injection Er as <- <- <-. destruct (moves_some _ _ _ _ _ _ O Mv) as (l & e & -> & M). destruct (M _ Hz) as [M1 M2]. cbn [fst snd] in *.
      exists l, e. split; [reflexivity|]. split; [|split].
      + intros Hb k. eapply (plain_before src ts l e T bk bk' Pb Kb A Nb O (Nd KChunk sp ls t lv0 [bk'] [] [] o0) eq_refl eq_refl El c k (a, b) Hz). cbn. auto.
      + intros Ha k. eapply (plain_after src ts l e T bk bk' Pb Kb A Nb O (Nd KChunk sp ls t lv0 [bk'] [] [] o0) eq_refl eq_refl El c k (a, b) Hz). cbn. auto.
      + destruct (block_firm src ts T bk bk' Pb Kb A Nb O _ Hz) as (_ & _ & F1 & F2 & _). cbn in *. lia.
    - assert (q = List.length src) by exact (tiles_eof src ts 0 q r T Hq). subst q.
      rewrite Forall_forall in Nc. assert (Na : nested ak) by (apply Nc; now left). assert (Nb : nested bk) by (apply Nc; right; now left).
      rewrite recon_eq in Er. cbn [rkids ritems rseps update_pos_range Z.eqb] in Er.
      assert (Ka' : n_kind ak = KSheBang) by (destruct (n_kind ak); reflexivity || discriminate Ka).
      pose proof (recon_moved c ak Na None (0%Z, Some (l0, e0))) as Ma. pose proof (recon_lvl c ak None (0%Z, Some (l0, e0))) as Lv.
      assert (Aa : n_kind (fst (recon c None ak (0%Z, Some (l0, e0)))) = KSheBang /\ n_text (fst (recon c None ak (0%Z, Some (l0, e0)))) = n_text ak).
      { destruct ak as [ka spa lsa ta lva ksa isa ssa oa]. cbn [n_kind] in Ka'. subst ka. rewrite recon_eq. destruct (rkids _ _ _ _) as [? ?]. destruct (ritems _ _ _) as [? ?]. destruct (rseps _ _ _ _) as [? ?]. now split. }
      destruct (recon c None ak (0%Z, Some (l0, e0))) as [ak' [lv1 r1]]. cbn [fst snd] in *. subst lv1.
      destruct (block_moves ts c bk (0%Z, r1) Pb Kb Nb eq_refl) as [Mv O].
      pose proof (recon_like c None bk (0%Z, r1)) as A. destruct (recon c None bk (0%Z, r1)) as [bk' [lv2 r2]]. cbn [fst snd] in *.
      injection Er as <- <- <-.
      cbn [children n_seps n_items n_kids map app] in No. apply ordered_cons in No as (O1 & O2 & No). apply ordered_cons in No as (O3 & O4 & No).
      assert (Mv2 : moves (n_span ak :: block_places bk) (Some (l0, e0)) r2) by (econstructor; [exact Ma|exact Mv]).
      assert (Oall : ordered (fst (n_span ak)) (snd (n_span bk)) (n_span ak :: block_places bk)).
      { apply (ordered_app _ (snd (n_span ak)) (fst (n_span bk)) _ [n_span ak]); [|exact O3|exact O]. destruct (n_span ak); cbn in *; lia. }
      destruct (moves_some _ _ _ _ _ _ Oall Mv2) as (l & e & -> & M). destruct (M _ (or_intror Hz)) as [M1 M2]. cbn [fst snd] in *.
      exists l, e. split; [reflexivity|]. split; [|split].
      + intros Hb k. eapply (shebang_before src ts l e T bk bk' Pb Kb A Nb O (Nd KSheBangChunk sp ls t lv0 [ak'; bk'] [] [] o0) ak ak' eq_refl eq_refl El Pa Ka' Aa (conj O2 O3) c k (a, b) Hz). cbn. auto.
      + intros Ha k. eapply (shebang_after src ts l e T bk bk' Pb Kb A Nb O (Nd KSheBangChunk sp ls t lv0 [ak'; bk'] [] [] o0) ak ak' eq_refl eq_refl El (conj O2 O3) c k (a, b) Hz). cbn. auto.
      + destruct (block_firm src ts T bk bk' Pb Kb A Nb O _ Hz) as (_ & _ & F1 & F2 & _). cbn in *. lia. }
  destruct G as (l & e & -> & G1 & G2 & G3).
  destruct (write (write_fuel n') src c n' (mk_world [] (start_state src (Some (l, e))) [] [])) as [[x| | |] w] eqn:Ew; try discriminate Ho. injection Ho as <-.
  split; intros Hl.
  - destruct (G1 (HL _ G3 Hl) _ _ _ _ Ew eq_refl eq_refl) as [_ [t Ht]]. exists t. exact Ht.
  - destruct (G2 (HR _ Hl) _ _ _ _ Ew eq_refl Logic.I) as [_ Ht]. exact Ht.
Qed.
