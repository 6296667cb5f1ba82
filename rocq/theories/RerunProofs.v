(** A second run finds everything as it wants it. *)
From Verif Require Import Base Lib Config ConfigSpec Formatter FileUtil FileSpec FileProofs Cli CliSpec CliProofs IdemSpec SettleSpec SettleProofs RerunSpec.

(** ** writing a file does not change what is found where *)
Lemma write_child_files rec ext pre p x r s e :
  (forall q, get_files rec ext pre q (write_entry r s e) = get_files rec ext pre q e) ->
  child_files rec ext pre p x (write_entry r s e) = child_files rec ext pre p x e.
Proof.
  intros IH. unfold child_files. destruct e as [c w|d|].
  - destruct r; reflexivity.
  - specialize (IH (p ++ [x])). destruct r as [|y r]; [reflexivity|]. destruct d as [l|]; [|reflexivity].
    cbn [write_entry] in *. destruct rec; [exact IH|reflexivity].
  - destruct r; reflexivity.
Qed.
Lemma write_get_files rec ext pre r s : forall e q, get_files rec ext pre q (write_entry r s e) = get_files rec ext pre q e.
Proof.
  induction r as [|x r IH]; intros e q.
  - destruct e; reflexivity.
  - destruct e as [c w|[l|]|]; try reflexivity. cbn [write_entry]. rewrite !get_files_dir.
    induction l as [|[y e] l IHl]; [reflexivity|]. cbn [map dir_files fst snd].
    destruct (str_eqb x y); rewrite IHl; [rewrite write_child_files; [reflexivity|apply IH]|reflexivity].
Qed.
Lemma write_get_path_files p s root q rec ext pre : get_path_files (write_entry p s root) q rec ext pre = get_path_files root q rec ext pre.
Proof.
  unfold get_path_files. rewrite lookup_write. destruct (lookup q root) as [e|]; [|reflexivity]. cbn [option_map].
  destruct (strip q p) as [r|]; [apply write_get_files|reflexivity].
Qed.
Lemma write_first_config pre ext y r s l :
  first_config pre ext (map (fun ye => if str_eqb y (fst ye) then (fst ye, write_entry r s (snd ye)) else ye) l) = first_config pre ext l.
Proof.
  induction l as [|[z e] l IH]; [reflexivity|]. cbn [map fst snd]. destruct (str_eqb y z); cbn [first_config]; rewrite IH; [|reflexivity].
  destruct r, e as [? ?|[?|]|]; reflexivity.
Qed.
Lemma write_test_file p s root q pre ext : test_file_in_dir (write_entry p s root) q pre ext = test_file_in_dir root q pre ext.
Proof.
  unfold test_file_in_dir. rewrite lookup_write. destruct (lookup q root) as [e|]; [|reflexivity]. cbn [option_map].
  destruct (strip q p) as [r|]; [|reflexivity]. destruct r as [|y r]; [destruct e; reflexivity|].
  destruct e as [? ?|[l|]|]; try reflexivity. cbn [write_entry]. now rewrite write_first_config.
Qed.
Lemma write_climb p s root pre rp : climb (write_entry p s root) pre rp = climb root pre rp.
Proof. induction rp as [|x rp IH]; cbn [climb]; rewrite write_test_file; [reflexivity|]. now rewrite IH. Qed.
Lemma write_get_file_config p s root q pre : get_file_config (write_entry p s root) q pre = get_file_config root q pre.
Proof.
  unfold get_file_config. rewrite lookup_write. destruct (lookup q root); [|reflexivity]. cbn [option_map].
  destruct (rev q); [reflexivity|]. apply write_climb.
Qed.
Lemma climb_luafmt root rp q : climb root (s2l ".luafmt") rp = Some q -> exists d x, q = d ++ [x] /\ luafmt_name x.
Proof.
  induction rp as [|y rp IH]; cbn [climb]; destruct (test_file_in_dir root _ _ _) as [q'|] eqn:T; try discriminate; auto;
    intros [= <-]; apply test_file_some in T; destruct T as (x & -> & _ & L & _); eauto.
Qed.
Lemma get_file_config_luafmt root p q : get_file_config root p (s2l ".luafmt") = Some q -> exists d x, q = d ++ [x] /\ luafmt_name x.
Proof.
  unfold get_file_config. destruct (lookup p root); [|discriminate]. destruct (rev p); [discriminate|]. apply climb_luafmt.
Qed.
Lemma write_same p s : forall e w, wf_entry e -> lookup p e = Some (EFile (Some s) w) -> write_entry p s e = e.
Proof.
  induction p as [|x p IH]; intros e w W L.
  - injection L as ->. reflexivity.
  - destruct e as [? ?|[l|]|]; try discriminate. cbn [lookup] in L. cbn [write_entry]. do 2 f_equal.
    inversion W as [| | |? ND Hs]; subst.
    assert (forall e, find_entry x l = Some e -> write_entry p s e = e) as K.
    { intros e F. rewrite F in L. eapply IH; [|exact L]. apply (Hs x). now apply find_entry_in. }
    clear L W. rewrite <- (map_id l) at 2. apply map_ext_in. intros [y e] Hin. cbn [fst snd].
    destruct (str_eqb x y) eqn:E; [|reflexivity]. apply str_eqb_true in E. subst y. f_equal. apply K.
    now apply find_entry_nodup.
Qed.

(** ** the configuration of a file *)
Definition conf (c : config) (r : entry) (p : path) : config + file_result :=
  if has_empty_format c then
    match get_file_config r p cfg_prefix with
    | Some q => match file_content r q with
                | None => inr FPanic
                | Some t => match reload_format t c with Some c' => inl c' | None => inr FInvalidConfigFile end
                end
    | None => inr FNoConfigureFile
    end
  else inl c.
Lemma process_file_conf r p c :
  process_file r p c = match file_content r p with
                       | None => FReadingError
                       | Some t => match conf c r p with inl c' => of_outcome (process_buffer t c') | inr e => e end
                       end.
Proof.
  unfold process_file, conf. destruct (file_content r p) as [t|]; [|reflexivity]. destruct (has_empty_format c); [|reflexivity].
  destruct (get_file_config r p cfg_prefix) as [q|]; [|reflexivity]. destruct (file_content r q) as [u|]; [|reflexivity].
  destruct (reload_format u c); reflexivity.
Qed.
Lemma conf_settings root c p c' : wf_entry root -> regular root p -> conf c root p = inl c' -> settings_for root c p c'.
Proof.
  intros W R. unfold conf, settings_for. destruct (has_empty_format c) eqn:E.
  - change cfg_prefix with (s2l ".luafmt"). pose proof (nearest_config root p W R) as N.
    destruct (get_file_config root p (s2l ".luafmt")) as [q|]; [|discriminate]. destruct N as (d & A & C & N).
    destruct (file_content root q) as [u|] eqn:F; [|discriminate]. destruct (reload_format u c) as [c1|] eqn:L; [|discriminate].
    intros [= <-]. right. split; [now apply no_format_iff|]. apply file_content_at in F. destruct F as (w & F).
    apply (file_at_leads _ _ _ _ W) in F. exists d, q, u, w. auto.
  - intros [= <-]. left. split; [|reflexivity]. intros H. apply no_format_iff in H. congruence.
Qed.
Lemma file_content_write root p s q t w : file_at root p = Some (t, w) -> q <> p -> file_content (write_entry p s root) q = file_content root q.
Proof.
  intros F N. pose proof (write_file_at root p s q t w F) as H. destruct (path_dec q p); [congruence|].
  unfold file_at, file_content in *. destruct (lookup q (write_entry p s root)) as [[]|], (lookup q root) as [[]|]; congruence.
Qed.
Lemma conf_write c root p s t w q : file_at root p = Some (t, w) ->
  (no_format_option c -> forall d x, p = d ++ [x] -> ~ luafmt_name x) -> conf c (write_entry p s root) q = conf c root q.
Proof.
  intros F N. unfold conf. destruct (has_empty_format c) eqn:E; [|reflexivity]. apply no_format_iff in E.
  change cfg_prefix with (s2l ".luafmt"). rewrite write_get_file_config. destruct (get_file_config root q (s2l ".luafmt")) as [z|] eqn:G; [|reflexivity].
  apply get_file_config_luafmt in G. destruct G as (d & x & Hz & L). erewrite file_content_write; [reflexivity|exact F|].
  intros ->. exact (N E d x Hz L).
Qed.

Section Run.
Context (c : config) (o : program_opts) (root0 : entry) (sel : path -> Prop).
Hypothesis keep : no_format_option c -> forall d x, sel (d ++ [x]) -> ~ luafmt_name x.
Definition good (c' : config) (t : str) : Prop := forall s, process_buffer t c' = Formatted s -> process_buffer s c' = Formatted s.
Definition fine (r : entry) : Prop :=
  wf_entry r /\ (forall q rec ext pre, get_path_files r q rec ext pre = get_path_files root0 q rec ext pre)
  /\ (forall p, conf c r p = conf c root0 p)
  /\ (forall p t c', sel p -> file_content r p = Some t -> conf c root0 p = inl c' -> good c' t).

Lemma process_path_written r p r1 es x : fine r -> process_path r p c o = (r1, es, x) ->
  r1 = r \/ (exists t s c', inplace o = true /\ file_at r p = Some (Some t, true) /\ conf c root0 p = inl c'
             /\ process_buffer t c' = Formatted s /\ r1 = write_entry p s r /\ es = [Write p s] /\ x = Exited).
Proof.
  intros (W & _ & Cf & _) P. pose proof (process_path_cases r p c o) as K. rewrite P in K.
  destruct K as [[-> _]|(t & s & I & F & Q & -> & -> & ->)]; [now left|]. right.
  rewrite process_file_conf, (proj2 (file_content_at r p t)) in Q by eauto. rewrite Cf in Q.
  destruct (conf c root0 p) as [c'|e] eqn:E.
  - destruct (process_buffer t c') as [s'| | | |] eqn:B; try discriminate. injection Q as ->. exists t, s, c'. auto 8.
  - exfalso. subst e. unfold conf in E. destruct (has_empty_format c); [|discriminate].
    destruct (get_file_config root0 p cfg_prefix) as [q|]; [|discriminate]. destruct (file_content root0 q) as [u|]; [|discriminate].
    destruct (reload_format u c); discriminate.
Qed.
Lemma process_path_fine r p r1 es x : fine r -> sel p -> process_path r p c o = (r1, es, x) -> fine r1.
Proof.
  intros F S P. destruct (process_path_written _ _ _ _ _ F P) as [->|(t & s & c' & _ & A & C & B & -> & _)]; [exact F|].
  destruct F as (W & G & Cf & Go). split; [now apply write_wf|split; [|split]].
  - intros. rewrite write_get_path_files. apply G.
  - intros q. rewrite (conf_write c r p s (Some t) true q A); [apply Cf|]. intros N d y E. subst p. exact (keep N d y S).
  - intros q u c1 Sq Fu Cq. destruct (path_dec q p) as [->|D].
    + pose proof (write_file_at r p s p _ _ A) as K. destruct (path_dec p p); [|congruence].
      apply file_content_at in Fu. destruct Fu as (w & Fu). rewrite K in Fu. injection Fu as <- _.
      rewrite C in Cq. injection Cq as <-. intros s2 E2.
      assert (process_buffer s c' = Formatted s) as E.
      { refine (Go p t c' S _ C s B). apply file_content_at. eauto. }
      rewrite E in E2. now injection E2 as <-.
    + rewrite (file_content_write r p s q _ _ A D) in Fu. exact (Go q u c1 Sq Fu Cq).
Qed.
Lemma process_path_again r p r1 es x : fine r -> sel p -> process_path r p c o = (r1, es, x) -> process_path r1 p c o = (r1, es, x).
Proof.
  intros F S P. pose proof (process_path_fine _ _ _ _ _ F S P) as F1.
  destruct (process_path_written _ _ _ _ _ F P) as [->|(t & s & c' & I & A & C & B & -> & -> & ->)]; [exact P|].
  pose proof (write_file_at r p s p _ _ A) as K. destruct (path_dec p p); [|congruence].
  unfold process_path. rewrite process_file_conf, (proj2 (file_content_at _ p s)) by eauto.
  rewrite (proj1 (proj2 (proj2 F1)) p), C. rewrite (proj2 (proj2 (proj2 F)) p t c' S); [|apply file_content_at; eauto|exact C|exact B].
  cbn [of_outcome]. rewrite I. unfold file_at in K. unfold is_writable.
  destruct (lookup p (write_entry p s r)) as [[u w| |]|] eqn:L; try discriminate. injection K as -> ->.
  rewrite (write_same p s _ true (proj1 F1) L). reflexivity.
Qed.
Lemma process_path_kept r p r1 es x q es' x' : fine r -> sel p -> process_path r p c o = (r1, es, x) ->
  process_path r q c o = (r, es', x') -> process_path r1 q c o = (r1, es', x').
Proof.
  intros F S P Q. pose proof (process_path_fine _ _ _ _ _ F S P) as F1.
  destruct (process_path_written _ _ _ _ _ F P) as [->|(t & s & c' & I & A & C & B & -> & -> & ->)]; [exact Q|].
  destruct (path_dec q p) as [->|D]; [rewrite P in Q; injection Q as E <- <-; rewrite E; rewrite E in P; exact P|].
  pose proof (write_file_at r p s q _ _ A) as K. destruct (path_dec q p); [congruence|].
  assert (file_content (write_entry p s r) q = file_content r q) as Kc by now apply (file_content_write r p s q _ _ A).
  assert (is_writable (write_entry p s r) q = is_writable r q) as Kw.
  { unfold is_writable, file_at in *. destruct (lookup q (write_entry p s r)) as [[]|], (lookup q r) as [[]|]; congruence. }
  assert (process_file (write_entry p s r) q c = process_file r q c) as Kp.
  { rewrite !process_file_conf, Kc. destruct F as (_ & _ & Cf & _), F1 as (_ & _ & Cf1 & _). now rewrite Cf, Cf1. }
  destruct (process_path_written _ _ _ _ _ F Q) as [_|(u & v & c1 & _ & A' & _ & _ & E & -> & ->)].
  - unfold process_path in *. rewrite Kp, Kw. destruct (process_file r q c) as [v| | | | | | |]; try (injection Q as <- <-; reflexivity).
    destruct (inplace o); [|injection Q as <- <-; reflexivity]. destruct (is_writable r q) eqn:Wr; [|injection Q as <- <-; reflexivity].
    injection Q as E <- <-. f_equal. f_equal. apply is_writable_at in Wr. destruct Wr as (u & A').
    pose proof (write_file_at r q v q _ _ A') as K'. rewrite E in K'. destruct (path_dec q q); [|congruence].
    rewrite <- K in K'. unfold file_at in K'. destruct (lookup q (write_entry p s r)) as [[]|] eqn:L; try discriminate.
    injection K' as -> ->. exact (write_same q v _ true (proj1 F1) L).
  - unfold process_path in *. rewrite Kp, Kw. destruct (process_file r q c) as [v'| | | | | | |]; try discriminate.
    destruct (inplace o); [|discriminate]. destruct (is_writable r q) eqn:Wr; [|discriminate].
    injection Q as E' ->. f_equal. f_equal.
    pose proof (write_file_at r q v q _ _ A') as K'. rewrite E' in K'. destruct (path_dec q q); [|congruence].
    rewrite <- K in K'. unfold file_at in K'. destruct (lookup q (write_entry p s r)) as [[]|] eqn:L; try discriminate.
    injection K' as -> ->. exact (write_same q v _ true (proj1 F1) L).
Qed.

(** ** several files *)
Inductive fixed (r : entry) : list path -> list effect -> exit -> Prop :=
| fx_nil : fixed r [] [] Exited
| fx_cons : forall p ps e es x, process_path r p c o = (r, e, Exited) -> fixed r ps es x -> fixed r (p :: ps) (e ++ es) x
| fx_stop : forall p ps e, process_path r p c o = (r, e, Aborted) -> fixed r (p :: ps) e Aborted.
Lemma fixed_runs r ps es x : fixed r ps es x -> process_paths r ps c o = (r, es, x).
Proof.
  induction 1 as [|p ps e es x P _ IH|p ps e P]; [reflexivity| |]; cbn [process_paths]; rewrite P; [|reflexivity]. now rewrite IH.
Qed.
Definition still (r r1 : entry) : Prop := forall q e x, process_path r q c o = (r, e, x) -> process_path r1 q c o = (r1, e, x).
Lemma fixed_still r r1 ps es x : still r r1 -> fixed r ps es x -> fixed r1 ps es x.
Proof. intros S. induction 1; [apply fx_nil|apply fx_cons; auto|apply fx_stop; auto]. Qed.
Lemma process_paths_again ps : forall r r1 es x, fine r -> Forall sel ps -> process_paths r ps c o = (r1, es, x) ->
  fine r1 /\ fixed r1 ps es x /\ still r r1.
Proof.
  induction ps as [|p ps IH]; intros r r1 es x F S P; cbn [process_paths] in P.
  - injection P as <- <- <-. split; [exact F|]. split; [constructor|]. intros q e x; auto.
  - inversion S as [|? ? Sp Sr]; subst. destruct (process_path r p c o) as [[ra e] xa] eqn:A.
    pose proof (process_path_fine _ _ _ _ _ F Sp A) as Fa. pose proof (process_path_again _ _ _ _ _ F Sp A) as Aa.
    assert (still r ra) as Sa by (intros q e' x' Q; exact (process_path_kept _ _ _ _ _ _ _ _ F Sp A Q)).
    destruct xa.
    + destruct (process_paths ra ps c o) as [[rb es2] x2] eqn:B. injection P as <- <- <-.
      destruct (IH _ _ _ _ Fa Sr B) as (Fb & Xb & Sb). split; [exact Fb|]. split.
      * apply fx_cons; [|exact Xb]. now apply Sb.
      * intros q e' x' Q. apply Sb, Sa, Q.
    + injection P as <- <- <-. split; [exact Fa|]. split; [now apply fx_stop|exact Sa].
Qed.

(** ** several paths *)
Context (cwd : path).
Inductive fixed_sources (r : entry) : list str -> list effect -> exit -> Prop :=
| fs_nil : fixed_sources r [] [] Exited
| fs_lost : forall a ss es x,
    match resolve cwd a with Some q => get_path_files root0 q (recursive o) (s2l "lua") cfg_prefix = None | None => True end ->
    fixed_sources r ss es x -> fixed_sources r (a :: ss) (Message :: es) x
| fs_cons : forall a q ps ss e es x, resolve cwd a = Some q ->
    get_path_files root0 q (recursive o) (s2l "lua") cfg_prefix = Some ps -> fixed r ps e Exited ->
    fixed_sources r ss es x -> fixed_sources r (a :: ss) (e ++ es) x
| fs_stop : forall a q ps ss e, resolve cwd a = Some q ->
    get_path_files root0 q (recursive o) (s2l "lua") cfg_prefix = Some ps -> fixed r ps e Aborted ->
    fixed_sources r (a :: ss) e Aborted.
Lemma fixed_sources_runs r ss es x : fine r -> fixed_sources r ss es x -> process_sources r cwd ss c o = (r, es, x).
Proof.
  intros (_ & G & _). induction 1 as [|a ss es x L _ IH|a q ps ss e es x R Q X _ IH|a q ps ss e R Q X]; [reflexivity| | |]; cbn [process_sources].
  - destruct (resolve cwd a) as [q|]; [rewrite G, L|]; rewrite IH; reflexivity.
  - rewrite R, G, Q, (fixed_runs _ _ _ _ X), IH. reflexivity.
  - rewrite R, G, Q, (fixed_runs _ _ _ _ X). reflexivity.
Qed.
Lemma process_sources_again ss : (forall a q ps p, In a ss -> resolve cwd a = Some q ->
    get_path_files root0 q (recursive o) (s2l "lua") cfg_prefix = Some ps -> In p ps -> sel p) ->
  forall r r1 es x, fine r -> process_sources r cwd ss c o = (r1, es, x) -> fine r1 /\ fixed_sources r1 ss es x /\ still r r1.
Proof.
  induction ss as [|a ss IH]; intros S r r1 es x F P; cbn [process_sources] in P.
  - injection P as <- <- <-. split; [exact F|]. split; [constructor|]. intros q e x; auto.
  - specialize (IH (fun a' q ps p H => S a' q ps p (or_intror H))).
    destruct (resolve cwd a) as [q|] eqn:R.
    + rewrite (proj1 (proj2 F)) in P. destruct (get_path_files root0 q (recursive o) (s2l "lua") cfg_prefix) as [ps|] eqn:G.
      * destruct (process_paths r ps c o) as [[ra e] xa] eqn:A.
        assert (Forall sel ps) as Sp by (apply Forall_forall; intros p Hp; exact (S a q ps p (or_introl eq_refl) R G Hp)).
        destruct (process_paths_again ps _ _ _ _ F Sp A) as (Fa & Xa & Sa). destruct xa.
        -- destruct (process_sources ra cwd ss c o) as [[rb es2] x2] eqn:B. injection P as <- <- <-.
           destruct (IH _ _ _ _ Fa B) as (Fb & Xb & Sb). split; [exact Fb|]. split.
           ++ eapply fs_cons; eauto. now apply (fixed_still ra).
           ++ intros z e' x' Q. apply Sb, Sa, Q.
        -- injection P as <- <- <-. split; [exact Fa|]. split; [eapply fs_stop; eauto|exact Sa].
      * destruct (process_sources r cwd ss c o) as [[rb es2] x2] eqn:B. injection P as <- <- <-.
        destruct (IH _ _ _ _ F B) as (Fb & Xb & Sb). split; [exact Fb|]. split; [|exact Sb]. apply (fs_lost rb); [rewrite R; exact G|exact Xb].
    + destruct (process_sources r cwd ss c o) as [[rb es2] x2] eqn:B. injection P as <- <- <-.
      destruct (IH _ _ _ _ F B) as (Fb & Xb & Sb). split; [exact Fb|]. split; [|exact Sb]. apply (fs_lost rb); [rewrite R; exact Logic.I|exact Xb].
Qed.
End Run.

Theorem run_again root cwd stdin args root' es x : wf_entry root -> calm_run root cwd args ->
  main root cwd stdin args = (root', es, x) -> main root' cwd stdin args = (root', es, x).
Proof.
  unfold calm_run. cbn zeta. intros W [H K] M. unfold main in *. rewrite options_of_eq, sources_of_eq in *.
  destruct (parse_options (filter dash args)) as [c o]. cbn [fst snd] in H, K.
  destruct (sort_strs (filter (fun a => negb (dash a)) args)) as [|a0 ss0] eqn:E.
  - destruct stdin as [t|]; [|injection M as <- <- <-; reflexivity].
    destruct (process_buffer t c); injection M as <- <- <-; reflexivity.
  - set (sel := selected_by root cwd (recursive o) args) in *.
    assert (fine c root sel root) as F.
    { split; [exact W|]. split; [reflexivity|]. split; [reflexivity|]. intros p t c' Sp Ft Cp s B.
      apply file_content_at in Ft. destruct Ft as (w & Ft). apply (file_at_leads _ _ _ _ W) in Ft.
      destruct (H p t w c' Sp Ft) as [Ca Re]; [apply conf_settings; auto; exists (Some t), w; exact Ft|].
      exact (format_stays t c' s Ca Re B). }
    destruct (process_sources_again c o root sel K cwd (a0 :: ss0)) with (r := root) (r1 := root') (es := es) (x := x) as (F1 & X1 & _).
    + intros a q ps p Ha R G Hp. rewrite <- E in Ha. apply sort_in, filter_In in Ha. destruct Ha as [Ha Hd]. apply negb_true_iff in Hd.
      exists a, q. repeat split; auto. pose proof (expansion root (recursive o) q W) as Xp. change cfg_prefix with (s2l ".luafmt") in G.
      rewrite G in Xp. apply Xp. exact Hp.
    + exact F.
    + exact M.
    + exact (fixed_sources_runs c o root sel cwd root' (a0 :: ss0) es x F1 X1).
Qed.
