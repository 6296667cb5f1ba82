From Verif Require Import Base Lib FileUtil FileSpec.

Lemma find_entry_in x l e : find_entry x l = Some e -> In (x, e) l.
Proof.
  induction l as [|[y f] l IH]; cbn; [discriminate|].
  destruct (str_eqb x y) eqn:E.
  - intros [= ->]. apply str_eqb_true in E. subst. auto.
  - auto.
Qed.
Lemma find_entry_nodup x l e : NoDup (map fst l) -> In (x, e) l -> find_entry x l = Some e.
Proof.
  induction l as [|[y f] l IH]; cbn; [tauto|].
  intros ND [H|H]; inversion ND as [|? ? Hn ND']; subst.
  - injection H as -> ->. now rewrite str_eqb_refl.
  - destruct (str_eqb x y) eqn:E; [|auto]. apply str_eqb_true in E. subst. exfalso. apply Hn.
    apply (in_map fst) in H. exact H.
Qed.

Lemma lookup_leads p root e : lookup p root = Some e -> leads root p e.
Proof.
  revert root; induction p as [|x p IH]; intros root; cbn.
  - intros [= ->]. constructor.
  - destruct root as [| [l|] |]; try discriminate.
    destruct (find_entry x l) eqn:F; [|discriminate]. intros H.
    eapply leads_down; [eapply find_entry_in; eassumption|]. now apply IH.
Qed.
Lemma leads_lookup p root e : wf_entry root -> leads root p e -> lookup p root = Some e.
Proof.
  intros W H. induction H as [e|l x e p e' Hin H IH]; cbn; [reflexivity|].
  inversion W as [| | |? ND Hs]; subst. rewrite (find_entry_nodup _ _ _ ND Hin). eauto.
Qed.
Lemma lookup_iff p root e : wf_entry root -> (lookup p root = Some e <-> leads root p e).
Proof. intros W. split; [apply lookup_leads|now apply leads_lookup]. Qed.
Lemma leads_wf p root e : wf_entry root -> leads root p e -> wf_entry e.
Proof.
  intros W H. induction H as [|l x e p e' Hin H IH]; [auto|]. inversion W; subst. eauto.
Qed.
Lemma leads_app p q root e e' : leads root p e -> leads e q e' -> leads root (p ++ q) e'.
Proof. induction 1; cbn; [auto|]. intros. econstructor; eauto. Qed.
Lemma leads_app_inv p q root e' : leads root (p ++ q) e' -> exists e, leads root p e /\ leads e q e'.
Proof.
  revert root; induction p as [|x p IH]; cbn; intros root H.
  - eexists. split; [constructor|auto].
  - inversion H; subst. destruct (IH _ H5) as (e0 & ? & ?). eexists. split; [econstructor; eauto|auto].
Qed.
Lemma leads_fun p root e e' : wf_entry root -> leads root p e -> leads root p e' -> e = e'.
Proof. intros W A B. apply leads_lookup in A, B; auto. congruence. Qed.

(** ** names *)
Lemma starts_with_iff p s : starts_with p s = true <-> exists b, s = p ++ b.
Proof.
  revert s; induction p as [|x p IH]; intros s; cbn.
  - split; eauto.
  - destruct s as [|y s]; [split; [discriminate|intros (b & [=])]|].
    rewrite andb_true_iff, ceq_true, IH. split.
    + intros (-> & b & ->). eauto.
    + intros (b & [= -> ->]). eauto.
Qed.
Lemma luafmt_iff x : starts_with (s2l ".luafmt") x = true <-> luafmt_name x.
Proof. apply starts_with_iff. Qed.

Lemma after_last_none c s : after_last c s = None <-> ~ In c s.
Proof.
  induction s as [|x r IH]; cbn; [tauto|].
  destruct (after_last c r) eqn:A.
  - split; [discriminate|]. intros H. exfalso. assert (In c r \/ ~ In c r) as [K|K] by (destruct (in_dec N.eq_dec c r); auto).
    + tauto.
    + apply IH in K. discriminate.
  - assert (~ In c r) as K by tauto. destruct (ceq x c) eqn:E.
    + apply ceq_true in E. subst. split; [discriminate|tauto].
    + apply ceq_false in E. tauto.
Qed.
Lemma after_last_app c b t : ~ In c t -> after_last c (b ++ c :: t) = Some t.
Proof.
  intros Hn. induction b as [|x b IH]; cbn.
  - apply after_last_none in Hn. rewrite Hn. now rewrite (proj2 (ceq_true c c) eq_refl).
  - now rewrite IH.
Qed.
Lemma after_last_sound c s t : after_last c s = Some t -> exists b, s = b ++ c :: t.
Proof.
  revert t; induction s as [|x r IH]; intros t; cbn; [discriminate|].
  destruct (after_last c r) as [u|] eqn:A.
  - intros [= ->]. destruct (IH _ eq_refl) as (b & ->). exists (x :: b). reflexivity.
  - destruct (ceq x c) eqn:E; [|discriminate]. intros [= ->]. apply ceq_true in E. subst. exists []. reflexivity.
Qed.
Lemma lua_iff x : is_ext x (s2l "lua") = true <-> lua_name x.
Proof.
  unfold is_ext, lua_name. split.
  - destruct (extension x) as [e|] eqn:E; [|discriminate]. intros H. apply str_eqb_true in H. subst e.
    unfold extension in E. destruct x as [|a r]; [discriminate|].
    destruct (str_eqb (a :: r) (s2l "..")) eqn:D; [discriminate|].
    apply after_last_sound in E. destruct E as (b & ->). exists (a :: b). split; [discriminate|reflexivity].
  - intros (b & Hb & ->). destruct b as [|a b]; [congruence|].
    assert (extension ((a :: b) ++ s2l ".lua") = Some (s2l "lua")) as ->; [|reflexivity].
    unfold extension. cbn [app].
    destruct (str_eqb _ _) eqn:D.
    + apply str_eqb_true in D. cbn in D. injection D as _ D. apply (f_equal (@List.length _)) in D.
      rewrite app_length in D. cbn in D. lia.
    + change (s2l ".lua") with (chr "." :: s2l "lua"). apply after_last_app. vm_compute. intuition discriminate.
Qed.

(** ** nearest configuration file *)
Lemma first_config_some prefix ext l x :
  first_config prefix ext l = Some x ->
  exists c w, In (x, EFile c w) l /\ starts_with prefix x = true /\ is_ext x ext = true.
Proof.
  induction l as [|[y e] l IH]; cbn; [discriminate|].
  destruct e as [c w| |].
  - destruct (starts_with prefix y && is_ext y ext) eqn:E.
    + intros [= ->]. apply andb_true_iff in E. destruct E. eauto 6.
    + intros H. destruct (IH H) as (c' & w' & ? & ?). eauto 6.
  - intros H. destruct (IH H) as (c' & w' & ? & ?). eauto 6.
  - intros H. destruct (IH H) as (c' & w' & ? & ?). eauto 6.
Qed.
Lemma first_config_none prefix ext l x c w :
  first_config prefix ext l = None -> In (x, EFile c w) l ->
  starts_with prefix x = true -> is_ext x ext = true -> False.
Proof.
  induction l as [|[y e] l IH]; cbn; [tauto|].
  intros H [Hin|Hin] S E.
  - injection Hin as -> ->. rewrite S, E in H. discriminate.
  - destruct e as [c' w'| |]; eauto. destruct (starts_with prefix y && is_ext y ext); [discriminate|eauto].
Qed.

Lemma test_file_some root p q : test_file_in_dir root p (s2l ".luafmt") (s2l "lua") = Some q -> config_in root p q.
Proof.
  unfold test_file_in_dir. destruct (lookup p root) as [[|[l|]|]|] eqn:L; try discriminate.
  destruct (first_config _ _ l) as [x|] eqn:F; [|discriminate]. intros [= <-].
  apply first_config_some in F. destruct F as (c & w & Hin & S & E).
  exists x. repeat split; [|now apply luafmt_iff|now apply lua_iff].
  exists c, w. eapply leads_app; [apply lookup_leads; eauto|]. econstructor; eauto. constructor.
Qed.
Lemma test_file_none root p : wf_entry root ->
  test_file_in_dir root p (s2l ".luafmt") (s2l "lua") = None -> forall q, ~ config_in root p q.
Proof.
  intros W H q (x & -> & (c & w & L) & S & E).
  apply leads_app_inv in L. destruct L as (e & L1 & L2). inversion L2; subst. inversion H5; subst.
  unfold test_file_in_dir in H. rewrite (leads_lookup _ _ _ W L1) in H.
  destruct (first_config (s2l ".luafmt") (s2l "lua") l) eqn:F; [discriminate|].
  eapply first_config_none; eauto; [now apply luafmt_iff|now apply lua_iff].
Qed.

Lemma climb_spec root rp : wf_entry root ->
  match climb root (s2l ".luafmt") rp with
  | Some q => exists d r, rev rp = d ++ r /\ config_in root d q
                          /\ forall r1 r2, r = r1 ++ r2 -> r1 <> [] -> forall q', ~ config_in root (d ++ r1) q'
  | None => forall d r, rev rp = d ++ r -> forall q', ~ config_in root d q'
  end.
Proof.
  intros W. induction rp as [|x up IH]; cbn [climb].
  - destruct (test_file_in_dir _ _ _ _) as [q|] eqn:T.
    + exists [], []. repeat split; [now apply test_file_some|].
      intros [|] r2 E1 E2; [congruence|discriminate].
    + intros d r E. cbn in E. symmetry in E. apply app_eq_nil in E. destruct E as [-> ->].
      eapply test_file_none; eauto.
  - destruct (test_file_in_dir _ _ _ _) as [q|] eqn:T.
    + exists (rev (x :: up)), []. rewrite app_nil_r. repeat split; [now apply test_file_some|].
      intros [|] r2 E1 E2; [congruence|discriminate].
    + pose proof (test_file_none _ _ W T) as T'. cbn [rev] in *.
      destruct (climb root (s2l ".luafmt") up) as [q|].
      * destruct IH as (d & r & E & Hc & Hm). exists d, (r ++ [x]). rewrite E, app_assoc. repeat split; auto.
        intros r1 r2 E1 N1 q'. destruct r2 as [|z r2] using rev_ind.
        -- rewrite app_nil_r in E1. subst r1. rewrite app_assoc, <- E. apply T'.
        -- rewrite app_assoc in E1. apply app_inj_tail in E1. destruct E1 as [-> _]. eapply Hm; eauto.
      * intros d r E q'. destruct r as [|z r] using rev_ind.
        -- rewrite app_nil_r in E. rewrite <- E. apply T'.
        -- rewrite app_assoc in E. apply app_inj_tail in E. destruct E as [E _]. eapply IH; eauto.
Qed.

Lemma nearest_config root p : wf_entry root -> regular root p ->
  match get_file_config root p (s2l ".luafmt") with
  | Some q => exists d, above d p /\ config_in root d q
                        /\ forall d' q', above d' p -> above d d' -> ~ config_in root d' q'
  | None => forall d q, above d p -> ~ config_in root d q
  end.
Proof.
  intros W (c & w & L). unfold get_file_config. rewrite (leads_lookup _ _ _ W L).
  destruct (rev p) as [|x up] eqn:R.
  - apply (f_equal (@rev _)) in R. rewrite rev_involutive in R. cbn in R. subst p.
    intros d q (r & Hr & E). symmetry in E. apply app_eq_nil in E. tauto.
  - apply (f_equal (@rev _)) in R. rewrite rev_involutive in R. cbn in R. subst p.
    pose proof (climb_spec root up W) as C. destruct (climb root (s2l ".luafmt") up) as [q|].
    + destruct C as (d & r & E & Hc & Hm). exists d. repeat split; auto.
      * exists (r ++ [x]). rewrite E, app_assoc. split; [destruct r; discriminate|reflexivity].
      * intros d' q' (r' & N' & E') (r1 & N1 & ->).
        rewrite E, <- !app_assoc in E'. apply app_inv_head in E'.
        destruct r' as [|z r'] using rev_ind; [congruence|]. rewrite app_assoc in E'.
        apply app_inj_tail in E'. destruct E' as [E' _]. eapply Hm; eauto.
    + intros d q (r & N & E). destruct r as [|z r] using rev_ind; [congruence|].
      rewrite app_assoc in E. apply app_inj_tail in E. destruct E as [E _]. eapply C; eauto.
Qed.

(** ** directory expansion *)
Definition child_files (rec : bool) (ext prefix : str) (p : path) (x : name) (e : entry) : option (list path) :=
  match e with
  | EDir _ => if rec then get_files rec ext prefix (p ++ [x]) e else Some []
  | EFile _ _ => Some (if is_ext x ext && negb (starts_with prefix x) then [p ++ [x]] else [])
  | EOther => Some []
  end.
Fixpoint dir_files (rec : bool) (ext prefix : str) (p : path) (l : list (name * entry)) : option (list path) :=
  match l with
  | [] => Some []
  | (x, e) :: r =>
      match child_files rec ext prefix p x e with
      | Some a => match dir_files rec ext prefix p r with Some b => Some (a ++ b) | None => None end
      | None => None
      end
  end.
Lemma get_files_dir rec ext prefix p l :
  get_files rec ext prefix p (EDir (Some l)) = dir_files rec ext prefix p l.
Proof.
  induction l as [|[x e] r IH]; [reflexivity|]. cbn [dir_files]. rewrite <- IH.
  cbn [get_files]. unfold child_files. destruct e; reflexivity.
Qed.

Definition rel_selected (rec : bool) (e : entry) (r : path) : Prop :=
  ((exists c w, e = EFile c w) /\ r = [])
  \/ (exists mid x, r = mid ++ [x] /\ (rec = false -> mid = []) /\ regular e r /\ lua_name x /\ ~ luafmt_name x).
(** what one entry of a directory contributes, relative to that directory *)
Definition child_selected (rec : bool) (x : name) (e : entry) (r : path) : Prop :=
  exists mid y, r = mid ++ [y] /\ (rec = false -> mid = []) /\ (exists s, r = x :: s /\ regular e s)
                /\ lua_name y /\ ~ luafmt_name y.
Definition rel_fails (rec : bool) (e : entry) : Prop :=
  e = EOther \/ e = EDir None \/ (rec = true /\ exists mid, unlistable e mid).

Definition files_ok (rec : bool) (e : entry) : Prop := forall p,
  match get_files rec (s2l "lua") (s2l ".luafmt") p e with
  | Some l => NoDup l /\ (forall q, In q l <-> exists r, q = p ++ r /\ rel_selected rec e r) /\ ~ rel_fails rec e
  | None => rel_fails rec e
  end.

Lemma app_inj_head {A} (p a b : list A) : p ++ a = p ++ b -> a = b.
Proof. apply app_inv_head. Qed.

Lemma regular_dir_inv l r : regular (EDir l) r -> r <> [].
Proof. intros (c & w & H) ->. inversion H. Qed.
Lemma regular_file_inv c w r : regular (EFile c w) r -> r = [].
Proof. intros (c' & w' & H). now inversion H. Qed.

Lemma child_files_ok rec x e p : files_ok rec e ->
  match child_files rec (s2l "lua") (s2l ".luafmt") p x e with
  | Some l => NoDup l /\ (forall q, In q l <-> exists r, q = p ++ r /\ child_selected rec x e r)
              /\ ~ (rec = true /\ exists mid, unlistable e mid)
  | None => rec = true /\ exists mid, unlistable e mid
  end.
Proof.
  intros F. unfold child_files. destruct e as [c w|d|].
  - assert (forall r, child_selected rec x (EFile c w) r <-> r = [x] /\ lua_name x /\ ~ luafmt_name x) as S.
    { intros r. split.
      - intros (mid & y & E & _ & (s & Hs & R) & A & B). apply regular_file_inv in R. subst s.
        subst r. destruct mid as [|? [|? ?]]; cbn in Hs; try discriminate. injection Hs as ->. auto.
      - intros (-> & A & B). exists [], x. repeat split; auto. exists []. split; [reflexivity|].
        exists c, w. constructor. }
    split; [|split].
    + destruct (_ && _); repeat constructor. tauto.
    + intros q. destruct (is_ext x (s2l "lua") && negb (starts_with (s2l ".luafmt") x)) eqn:E; cbn.
      * apply andb_true_iff in E. destruct E as [E1 E2]. apply negb_true_iff in E2. apply lua_iff in E1.
        assert (~ luafmt_name x) as E3 by (rewrite <- luafmt_iff; congruence). split.
        -- intros [<-|[]]. exists [x]. split; [reflexivity|]. apply S. auto.
        -- intros (r & -> & Hr). apply S in Hr. destruct Hr as [-> _]. auto.
      * split; [tauto|]. intros (r & -> & Hr). apply S in Hr. destruct Hr as (_ & A & B).
        apply lua_iff in A. rewrite A in E. cbn in E. apply negb_false_iff, luafmt_iff in E. tauto.
    + intros (_ & mid & H). inversion H.
  - destruct rec.
    + specialize (F (p ++ [x])). destruct (get_files true _ _ (p ++ [x]) (EDir d)) as [l|].
      * destruct F as (ND & Hq & Hf). split; [exact ND|split].
        -- intros q. rewrite Hq. split.
           ++ intros (r & -> & [[(c & w & E) _]|(mid & y & -> & _ & R & A & B)]); [discriminate|].
              exists (x :: mid ++ [y]). rewrite <- app_assoc. split; [reflexivity|].
              exists (x :: mid), y. repeat split; auto; [discriminate|]. exists (mid ++ [y]). auto.
           ++ intros (r & -> & (mid & y & E & _ & (s & Hs & R) & A & B)). subst r.
              exists s. rewrite Hs, <- app_assoc. split; [reflexivity|]. right.
              destruct mid as [|m mid]; cbn in Hs.
              ** injection Hs as -> <-. now apply regular_dir_inv in R.
              ** injection Hs as -> <-. exists mid, y. repeat split; auto; [discriminate].
        -- intros (_ & mid & H). apply Hf. right. right. eauto.
      * destruct F as [F|[F|[_ (mid & F)]]]; [discriminate| |eauto].
        split; [reflexivity|]. exists []. rewrite F. constructor.
    + split; [constructor|split].
      * intros q. split; [intros []|]. intros (r & -> & (mid & y & E & Hm & (s & Hs & R) & A & B)).
        specialize (Hm eq_refl). subst mid. cbn in E. rewrite E in Hs. injection Hs as -> <-.
        now apply regular_dir_inv in R.
      * intros (H & _). discriminate.
  - split; [constructor|split].
    + intros q. split; [intros []|]. intros (r & -> & (mid & y & E & Hm & (s & Hs & (c & w & R)) & A & B)).
      inversion R.
    + intros (_ & mid & H). inversion H.
Qed.

Lemma NoDup_app2 {A} (a b : list A) : NoDup a -> NoDup b -> (forall x, In x a -> ~ In x b) -> NoDup (a ++ b).
Proof.
  induction 1 as [|x a Hn ND IH]; cbn; intros NB D; [auto|]. constructor.
  - rewrite in_app_iff. intros [H|H]; [auto|]. apply (D x); auto.
  - apply IH; auto.
Qed.

Lemma dir_files_ok rec p l : NoDup (map fst l) -> (forall x e, In (x, e) l -> files_ok rec e) ->
  match dir_files rec (s2l "lua") (s2l ".luafmt") p l with
  | Some fs => NoDup fs
               /\ (forall q, In q fs <-> exists r x e, q = p ++ r /\ In (x, e) l /\ child_selected rec x e r)
               /\ ~ (rec = true /\ exists x e mid, In (x, e) l /\ unlistable e mid)
  | None => rec = true /\ exists x e mid, In (x, e) l /\ unlistable e mid
  end.
Proof.
  induction l as [|[x e] l IH]; cbn [dir_files map fst]; intros ND F.
  - split; [constructor|split].
    + intros q. split; [intros []|]. intros (r & x & e & _ & [] & _).
    + intros (_ & x & e & mid & [] & _).
  - inversion ND as [|? ? Hn ND']; subst.
    pose proof (child_files_ok rec x e p (F _ _ (or_introl eq_refl))) as C.
    assert (forall x e, In (x, e) l -> files_ok rec e) as F' by (intros; apply (F x0); cbn; auto).
    specialize (IH ND' F').
    destruct (child_files rec (s2l "lua") (s2l ".luafmt") p x e) as [a|].
    2:{ destruct C as (R & mid & U). split; [exact R|]. exists x, e, mid. cbn. auto. }
    destruct C as (NA & HA & UA).
    destruct (dir_files rec (s2l "lua") (s2l ".luafmt") p l) as [b|].
    2:{ destruct IH as (R & x' & e' & mid & Hin & U). split; [exact R|]. exists x', e', mid. cbn. auto. }
    destruct IH as (NB & HB & UB). split; [|split].
    + apply NoDup_app2; auto. intros q H1 H2. apply HA in H1. apply HB in H2.
      destruct H1 as (r & -> & (mid & y & _ & _ & (s & Hs & _) & _)).
      destruct H2 as (r' & x' & e' & E & Hin & (mid' & y' & _ & _ & (s' & Hs' & _) & _)).
      apply app_inj_head in E. subst r r'. injection Hs' as -> ->. apply Hn. apply (in_map fst) in Hin. exact Hin.
    + intros q. rewrite in_app_iff, HA, HB. split.
      * intros [(r & -> & H)|(r & x' & e' & -> & Hin & H)].
        -- exists r, x, e. cbn. auto.
        -- exists r, x', e'. cbn. auto.
      * intros (r & x' & e' & -> & [E|Hin] & H).
        -- injection E as -> ->. left. eauto.
        -- right. eauto 6.
    + intros (R & x' & e' & mid & [E|Hin] & U).
      * injection E as -> ->. apply UA. eauto.
      * apply UB. split; [exact R|]. eauto.
Qed.

Lemma get_files_ok rec e : wf_entry e -> files_ok rec e.
Proof.
  induction 1 as [c w| | |l ND Hs IH]; intros p.
  - cbn. split; [repeat constructor; tauto|split].
    + intros q. split.
      * intros [<-|[]]. exists []. rewrite app_nil_r. split; [reflexivity|]. left. eauto.
      * intros (r & -> & [[_ ->]|(mid & x & -> & _ & R & _)]); [rewrite app_nil_r; auto|].
        apply regular_file_inv in R. destruct mid; discriminate.
    + intros [H|[H|(_ & mid & H)]]; [discriminate|discriminate|inversion H].
  - cbn. left. reflexivity.
  - cbn. right. left. reflexivity.
  - rewrite get_files_dir. pose proof (dir_files_ok rec p l ND IH) as D.
    destruct (dir_files rec (s2l "lua") (s2l ".luafmt") p l) as [fs|].
    + destruct D as (NF & HF & UF). split; [exact NF|split].
      * intros q. rewrite HF. split.
        -- intros (r & x & e & -> & Hin & (mid & y & E & Hm & (s & Hs' & (c & w & R)) & A & B)).
           exists r. split; [reflexivity|]. right. exists mid, y. repeat split; auto.
           exists c, w. rewrite Hs'. econstructor; eauto.
        -- intros (r & -> & [[(c & w & E) _]|(mid & y & E & Hm & (c & w & R) & A & B)]); [discriminate|].
           subst r. inversion R as [|? x e' s ? Hin R' E2 E3 E4].
           subst. exists (mid ++ [y]), x, e'. split; [now rewrite E3|]. split; [exact Hin|].
           exists mid, y. repeat split; auto. exists s. split; [auto|]. exists c, w. auto.
      * intros [H|[H|(R & mid & U)]]; [discriminate|discriminate|].
        inversion U; subst. apply UF. split; [reflexivity|]. eauto 6.
    + destruct D as (R & x & e & mid & Hin & U). right. right. split; [exact R|].
      exists (x :: mid). econstructor; eauto.
Qed.

Lemma expansion root rec p : wf_entry root ->
  match get_path_files root p rec (s2l "lua") (s2l ".luafmt") with
  | Some l => NoDup l /\ (forall q, In q l <-> selected root rec p q) /\ ~ not_expandable root rec p
  | None => not_expandable root rec p
  end.
Proof.
  intros W. unfold get_path_files. destruct (lookup p root) as [e|] eqn:L.
  - apply lookup_leads in L as L'. pose proof (get_files_ok rec e (leads_wf _ _ _ W L') p) as F.
    assert (forall e', leads root p e' -> e' = e) as U by (intros; eapply leads_fun; eauto).
    destruct (get_files rec (s2l "lua") (s2l ".luafmt") p e) as [l|].
    + destruct F as (ND & Hq & Hf). split; [exact ND|split].
      * intros q. rewrite Hq. split.
        -- intros (r & -> & [[(c & w & ->) ->]|(mid & x & -> & Hm & (c & w & R) & A & B)]).
           ++ left. rewrite app_nil_r. split; [exists c, w; auto|reflexivity].
           ++ right. split.
              ** destruct e as [c' w'|d|]; [inversion R; destruct mid; discriminate|eexists; eauto|inversion R].
              ** exists mid, x. repeat split; auto. exists c, w. eapply leads_app; eauto.
        -- intros [((c & w & R) & ->)|((d & D) & mid & x & -> & Hm & (c & w & R) & A & B)].
           ++ exists []. rewrite app_nil_r. split; [reflexivity|]. left. apply U in R. eauto.
           ++ exists (mid ++ [x]). split; [reflexivity|]. right. exists mid, x. repeat split; auto.
              apply leads_app_inv in R. destruct R as (e' & R1 & R2). apply U in R1. subst e'. exists c, w. auto.
      * intros [[Hr Hd]|[H|(R & mid & H)]].
        -- destruct e as [c w|d|].
           ++ apply Hr. exists c, w. auto.
           ++ apply Hd. eexists; eauto.
           ++ apply Hf. left. reflexivity.
        -- apply U in H. apply Hf. right. left. auto.
        -- apply Hf. right. right. split; [exact R|]. apply leads_app_inv in H. destruct H as (e' & H1 & H2).
           apply U in H1. subst. eexists; exact H2.
    + destruct F as [->|[->|(R & mid & H)]].
      * left. split; [intros (c & w & H)|intros (d & H)]; apply U in H; discriminate.
      * right. left. exact L'.
      * right. right. split; [exact R|]. exists mid. eapply leads_app; eauto.
  - left. split; [intros (c & w & H)|intros (d & H)]; apply leads_lookup in H; auto; congruence.
Qed.
