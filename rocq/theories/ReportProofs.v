(** What the program prints. *)
From Coq Require Import Permutation.
From Verif Require Import Base Lib Config ConfigSpec ConfigProofs LuaParser LuaError ErrorProofs Formatter TotalResults LayoutProofs Recon LuaWriter Ast FileUtil FileSpec FileProofs Cli CliSpec CliProofs RerunSpec RerunProofs Report ReportSpec.

(** ** the run without the texts *)
Lemma parse_error_outcome t : parse_lua t = ParseError -> exists e, parse_lua_outcome t = Failed e.
Proof. rewrite outcome_parse. destruct (parse_lua_outcome t); try discriminate. eauto. Qed.
Lemma outcome_parse_error t e : parse_lua_outcome t = Failed e -> parse_lua t = ParseError.
Proof. rewrite outcome_parse. intros ->. reflexivity. Qed.
Lemma parsing_error_outcome t c : process_buffer t c = ParsingError -> exists e, parse_lua_outcome t = Failed e.
Proof.
  unfold process_buffer. intros H. apply parse_error_outcome. destruct (parse_lua t) as [n| |]; [|reflexivity|discriminate].
  destruct (reconstruct c n _) as [n' pr]. destruct (write _ t c n' _) as [[] w]; discriminate.
Qed.
Lemma reload_none_outcome u c : reload_format u c = None -> exists e, parse_lua_outcome u = Failed e.
Proof.
  unfold reload_format. intros H. apply parse_error_outcome. destruct (parse_lua u) as [n| |] eqn:P.
  - destruct (n_kind n); discriminate.
  - reflexivity.
  - exfalso. revert P. apply LayoutProofs.parse_lua_total.
Qed.

(** events that are not about formatted or unformatted text *)
Definition aside (e : event) : bool :=
  match e with Info _ | Err (UnrecognizedOption _) | Err (InvalidValue _ _) | Err (InvalidName _) => true | _ => false end.
(** events of files: remarks only with [-v], complaints about settings only when a configuration file is read *)
Definition proper (v h : bool) (e : event) : bool :=
  match e with
  | Info _ => v
  | Err (InvalidValue _ _) | Err (InvalidName _) => h
  | Err (UnrecognizedOption _) | Err (BufferFailed _) | Out None _ => false
  | _ => true
  end.
Lemma aside_effects es : forallb aside es = true -> flat_map effect_of es = [].
Proof.
  induction es as [|e es IH]; cbn [forallb flat_map]; [reflexivity|]. intros H. apply andb_true_iff in H. destruct H as [A B].
  rewrite IH by exact B. destruct e as [? ?|?|[]|? ?]; try discriminate; reflexivity.
Qed.
Lemma aside_app a b : forallb aside a = true -> forallb aside b = true -> forallb aside (a ++ b) = true.
Proof. intros A B. rewrite forallb_app, A, B. reflexivity. Qed.
Lemma noted_aside v i : forallb aside (noted v i) = true.
Proof. destruct v; reflexivity. Qed.
Lemma set_report_aside n v : forallb aside (map Err (set_report n v)) = true.
Proof.
  unfold set_report. destruct (find_option n option_names) as [[k|k|k|]|]; try reflexivity;
    [destruct (parse_bool v)|destruct (parse_usize v)|destruct (parse_range v)]; reflexivity.
Qed.
Lemma option_report_aside o : forallb aside (map Err (option_report o)) = true.
Proof.
  unfold option_report. destruct (match_config_opt o) as [[n v]|]; [apply set_report_aside|].
  destruct (match_program_opt o) as [w|]; [|reflexivity]. destruct (is_flag w); reflexivity.
Qed.
Lemma assignment_report_aside n : forallb aside (map Err (assignment_report n)) = true.
Proof.
  unfold assignment_report. destruct (n_kids n) as [|a [|b [|? ?]]]; try reflexivity.
  destruct (n_kind a); try reflexivity; destruct (n_kind b); try reflexivity; destruct (n_seps a) as [|v ?]; try reflexivity;
    destruct (n_seps b) as [|e ?]; try reflexivity. cbn zeta.
  destruct (n_kind (si_node v)); try reflexivity; destruct (n_kind (si_node e)); try reflexivity; apply set_report_aside.
Qed.
Lemma load_report_aside : forall n, forallb aside (map Err (load_report n)) = true.
Proof.
  fix IH 1. intros [k sp ls tx lv ks its sps op]. cbn [load_report]. destruct k; try reflexivity; [|apply assignment_report_aside].
  induction its as [|[l m] r IHr]; [reflexivity|]. rewrite map_app, forallb_app, IH, IHr. reflexivity.
Qed.
Lemma reload_report_aside u : forallb aside (map Err (reload_report u)) = true.
Proof.
  unfold reload_report. destruct (parse_lua u) as [n| |]; try reflexivity. destruct (n_kind n); try reflexivity; apply load_report_aside.
Qed.
Lemma buffer_run_aside v t c : forallb aside (fst (buffer_run v t c)) = true.
Proof. apply noted_aside. Qed.

(** complaints about settings *)
Definition complaint (m : message) : bool := match m with InvalidValue _ _ | InvalidName _ => true | _ => false end.
Lemma set_report_complaint n v : forallb complaint (set_report n v) = true.
Proof.
  unfold set_report. destruct (find_option n option_names) as [[k|k|k|]|]; try reflexivity;
    [destruct (parse_bool v)|destruct (parse_usize v)|destruct (parse_range v)]; reflexivity.
Qed.
Lemma assignment_report_complaint n : forallb complaint (assignment_report n) = true.
Proof.
  unfold assignment_report. destruct (n_kids n) as [|a [|b [|? ?]]]; try reflexivity.
  destruct (n_kind a); try reflexivity; destruct (n_kind b); try reflexivity; destruct (n_seps a) as [|v ?]; try reflexivity;
    destruct (n_seps b) as [|e ?]; try reflexivity. cbn zeta.
  destruct (n_kind (si_node v)); try reflexivity; destruct (n_kind (si_node e)); try reflexivity; apply set_report_complaint.
Qed.
Lemma load_report_complaint : forall n, forallb complaint (load_report n) = true.
Proof.
  fix IH 1. intros [k sp ls tx lv ks its sps op]. cbn [load_report]. destruct k; try reflexivity; [|apply assignment_report_complaint].
  induction its as [|[l m] r IHr]; [reflexivity|]. rewrite forallb_app, IH, IHr. reflexivity.
Qed.
Lemma reload_report_complaint u : forallb complaint (reload_report u) = true.
Proof.
  unfold reload_report. destruct (parse_lua u) as [n| |]; try reflexivity. destruct (n_kind n); try reflexivity; apply load_report_complaint.
Qed.
Lemma complaint_proper v ms : forallb complaint ms = true -> forallb (proper v true) (map Err ms) = true.
Proof.
  induction ms as [|m ms IH]; cbn [map forallb]; [reflexivity|]. intros H. apply andb_true_iff in H. destruct H as [A B].
  rewrite IH by exact B. destruct m; try discriminate; reflexivity.
Qed.
Lemma noted_proper v h i : forallb (proper v h) (noted v i) = true.
Proof. destruct v; reflexivity. Qed.

(** ** one file *)
Lemma buffer_run_result v t c : match snd (buffer_run v t c) with
  | Done s => process_buffer t c = Formatted s
  | Fail e => process_buffer t c = ParsingError /\ exists e', e = NoParse e' /\ parse_lua_outcome t = Failed e'
  | Stop => process_buffer t c = Panicked
  end.
Proof.
  unfold buffer_run. cbn [snd]. destruct (format_no_error t c) as [F I]. destruct (process_buffer t c) as [s| | | |] eqn:B; try congruence.
  destruct (parsing_error_outcome _ _ B) as (e & ->). eauto.
Qed.
Lemma file_run_spec v root p c : wf_entry root -> forallb aside (fst (file_run v root p c)) = true
  /\ match snd (file_run v root p c) with
     | Done s => process_file root p c = FOk s
     | Fail e => process_file root p c = match e with CannotRead => FReadingError | NoConfigFile => FNoConfigureFile
                   | BadConfigFile _ _ => FInvalidConfigFile | NoParse _ => FParsingError | NoFormat => FFormattingError end
                 /\ reason root c p e
     | Stop => process_file root p c = FPanic
     end.
Proof.
  intros W. assert (file_content root p = match lookup p root with Some (EFile t _) => t | _ => None end) as FC by reflexivity.
  unfold file_run, process_file. rewrite FC. clear FC. destruct (lookup p root) as [[[t|] w| |]|] eqn:L; cbn [fst snd].
  2:{ split; [apply aside_app; [apply noted_aside|reflexivity]|]. split; [reflexivity|]. intros t w' H.
      apply (lookup_iff _ _ _ W) in H. congruence. }
  2,3,4: (split; [reflexivity|]; split; [reflexivity|]; intros t w' H; apply (lookup_iff _ _ _ W) in H; congruence).
  apply (lookup_iff _ _ _ W) in L.
  destruct (has_empty_format c) eqn:E.
  - apply no_format_iff in E. change cfg_prefix with (s2l ".luafmt").
    pose proof (nearest_config root p W (ex_intro _ _ (ex_intro _ _ L))) as N.
    destruct (get_file_config root p (s2l ".luafmt")) as [q|]; cbn [fst snd].
    2:{ split; [apply aside_app; [apply noted_aside|reflexivity]|]. split; [reflexivity|]. split; assumption. }
    destruct (file_content root q) as [u|] eqn:F; cbn [fst snd]; [|split; [apply aside_app; [apply noted_aside|reflexivity]|reflexivity]].
    apply file_content_at in F. destruct F as (w' & F). apply (file_at_leads _ _ _ _ W) in F.
    destruct (reload_format u c) as [c'|] eqn:R.
    + pose proof (buffer_run_aside v t c') as A. pose proof (buffer_run_result v t c') as B. destruct (buffer_run v t c') as [es r]. cbn [fst snd] in *.
      split; [apply aside_app; [apply noted_aside|apply aside_app; [apply reload_report_aside|exact A]]|].
      destruct r as [s|e|]; [now rewrite B| |now rewrite B]. destruct B as (B & e' & -> & O). rewrite B. split; [reflexivity|]. exists t, w. auto.
    + destruct (reload_none_outcome _ _ R) as (e & O). rewrite O. cbn [fst snd]. split; [apply aside_app; [apply noted_aside|reflexivity]|].
      split; [reflexivity|]. split; [exact E|]. split; [exact N|]. exists u, w'. auto.
  - pose proof (buffer_run_aside v t c) as A. pose proof (buffer_run_result v t c) as B. destruct (buffer_run v t c) as [es r]. cbn [fst snd] in *.
    split; [apply aside_app; [apply noted_aside|exact A]|].
    destruct r as [s|e|]; [now rewrite B| |now rewrite B]. destruct B as (B & e' & -> & O). rewrite B. split; [reflexivity|]. exists t, w. auto.
Qed.
Lemma file_run_proper v root p c : forallb (proper v (has_empty_format c)) (fst (file_run v root p c)) = true.
Proof.
  unfold file_run. destruct (lookup p root) as [[[t|] w| |]|]; cbn [fst]; try reflexivity; [|rewrite forallb_app, noted_proper; reflexivity].
  destruct (has_empty_format c) eqn:E; [|unfold buffer_run; cbn [fst]; rewrite forallb_app, !noted_proper; reflexivity].
  destruct (get_file_config root p cfg_prefix) as [q|]; cbn [fst]; [|rewrite forallb_app, noted_proper; reflexivity].
  destruct (file_content root q) as [u|]; cbn [fst]; [|rewrite forallb_app, noted_proper; reflexivity].
  destruct (reload_format u c) as [c'|]; cbn [fst]; [|rewrite forallb_app, noted_proper; reflexivity].
  unfold buffer_run. cbn [fst]. rewrite !forallb_app, !noted_proper, complaint_proper by apply reload_report_complaint. reflexivity.
Qed.
Lemma path_run_proper root p c o : forallb (proper (verbose o) (has_empty_format c)) (snd (fst (path_run root p c o))) = true.
Proof.
  unfold path_run. pose proof (file_run_proper (verbose o) root p c) as P. destruct (file_run (verbose o) root p c) as [es r]. cbn [fst] in P.
  destruct r as [s|e|]; [destruct (inplace o); [destruct (is_writable root p)|]| |]; cbn [fst snd]; rewrite ?forallb_app, ?P; reflexivity.
Qed.
Lemma paths_run_proper ps : forall root c o, forallb (proper (verbose o) (has_empty_format c)) (snd (fst (paths_run root ps c o))) = true.
Proof.
  induction ps as [|p ps IH]; intros root c o; cbn [paths_run]; [reflexivity|]. pose proof (path_run_proper root p c o) as P.
  destruct (path_run root p c o) as [[r e] x]. cbn [fst snd] in P. destruct x; [|exact P]. specialize (IH r c o).
  destruct (paths_run r ps c o) as [[r2 e2] x2]. cbn [fst snd] in *. now rewrite forallb_app, P, IH.
Qed.
Lemma sources_run_proper cwd ss : forall root c o, forallb (proper (verbose o) (has_empty_format c)) (snd (fst (sources_run root cwd ss c o))) = true.
Proof.
  induction ss as [|a ss IH]; intros root c o; cbn [sources_run]; [reflexivity|].
  assert (forallb (proper (verbose o) (has_empty_format c)) (snd (fst (source_run root cwd a c o))) = true) as P.
  { unfold source_run. destruct (resolve cwd a) as [q|]; [|reflexivity]. destruct (get_path_files root q _ _ _) as [ps|]; [|reflexivity]. apply paths_run_proper. }
  destruct (source_run root cwd a c o) as [[r e] x]. cbn [fst snd] in P. destruct x; [|exact P]. specialize (IH r c o).
  destruct (sources_run r cwd ss c o) as [[r2 e2] x2]. cbn [fst snd] in *. now rewrite forallb_app, P, IH.
Qed.
(** the events of one file: asides, then exactly one that is about it *)
Lemma path_run_spec root p c o : wf_entry root ->
  let '(root', es, x) := path_run root p c o in
  process_path root p c o = (root', flat_map effect_of es, x)
  /\ exists es0 e, es = es0 ++ e /\ forallb aside es0 = true /\ match x with
     | Exited => exists d, e = [d] /\ about p d /\ (forall q f, d = Err (FileFailed q f) -> q = p /\ reason root c p f)
     | Aborted => e = []
     end.
Proof.
  intros W. unfold path_run, process_path. destruct (file_run_spec (verbose o) root p c W) as [A R].
  destruct (file_run (verbose o) root p c) as [es r]. cbn [fst snd] in A, R. destruct r as [s|e|].
  - rewrite R. destruct (inplace o); [destruct (is_writable root p)|]; rewrite flat_map_app, (aside_effects es A);
      (split; [reflexivity|]; exists es; eexists; split; [reflexivity|]; split; [exact A|]; eexists; split; [reflexivity|];
       split; [reflexivity|]; intros; discriminate).
  - destruct R as [R Hr]. rewrite R, flat_map_app, (aside_effects es A). split; [destruct e; reflexivity|].
    exists es; eexists; split; [reflexivity|]; split; [exact A|]; eexists; split; [reflexivity|]. split; [reflexivity|].
    intros q f [= -> ->]. auto.
  - rewrite R, (aside_effects es A). split; [reflexivity|]. exists es, []. rewrite app_nil_r. auto.
Qed.
Lemma process_path_wf root p c o root' es x : wf_entry root -> process_path root p c o = (root', es, x) -> wf_entry root'.
Proof.
  intros W P. pose proof (process_path_cases root p c o) as K. rewrite P in K.
  destruct K as [[-> _]|(t & s & _ & _ & _ & -> & _)]; [exact W|now apply write_wf].
Qed.
Lemma process_path_formats (sel : path -> Prop) root p c o root' es x : wf_entry root -> sel p ->
  process_path root p c o = (root', es, x) -> formats_to sel c root root'.
Proof.
  intros W S P. pose proof (process_path_cases root p c o) as K. rewrite P in K.
  destruct K as [[-> _]|(t & s & _ & Fa & F & -> & _)]; [constructor|]. apply (file_at_leads _ _ _ _ W) in Fa.
  eapply ft_step; eauto; [|constructor]. now apply (write_replaces root p s (Some t)).
Qed.
Lemma process_path_files root p c o root' es x q rec ext pre : process_path root p c o = (root', es, x) ->
  get_path_files root' q rec ext pre = get_path_files root q rec ext pre.
Proof.
  intros P. pose proof (process_path_cases root p c o) as K. rewrite P in K.
  destruct K as [[-> _]|(t & s & _ & _ & _ & -> & _)]; [reflexivity|]. apply write_get_path_files.
Qed.

(** ** counting *)
Lemma counted_app {A} (P : A -> Prop) a b n m : counted P a n -> counted P b m -> counted P (a ++ b) (n + m).
Proof. induction 1; cbn; intros H'; [exact H'|apply c_yes; auto|apply c_no; auto]. Qed.
Lemma counted_none {A} (P : A -> Prop) l : (forall a, In a l -> ~ P a) -> counted P l 0.
Proof. induction l as [|a l IH]; intros H; [constructor|]. apply c_no; [apply H; now left|]. apply IH. intros b Hb. apply H. now right. Qed.
Lemma counted_iff {A} (P Q : A -> Prop) l n : (forall a, In a l -> (P a <-> Q a)) -> counted P l n -> counted Q l n.
Proof.
  intros E C. induction C as [|a l n H _ IH|a l n H _ IH]; [constructor| |].
  - apply c_yes; [apply (E a); [now left|exact H]|]. apply IH. intros b Hb. apply E. now right.
  - apply c_no; [intros K; apply H, (E a); [now left|exact K]|]. apply IH. intros b Hb. apply E. now right.
Qed.
Lemma counted_perm {A} (P : A -> Prop) l l' : Permutation l l' -> forall n, counted P l n -> counted P l' n.
Proof.
  induction 1 as [|a l l' _ IH|a b l|l1 l2 l3 _ IH1 _ IH2]; intros n C.
  - exact C.
  - inversion C; subst; [apply c_yes|apply c_no]; auto.
  - inversion C as [|? ? m Ha C2|? ? m Ha C2]; subst; inversion C2; subst; repeat ((apply c_yes; [assumption|]) || (apply c_no; [assumption|])); assumption.
  - auto.
Qed.
Lemma counted_filter {A} (P : A -> Prop) (f : A -> bool) l n : (forall a, P a -> f a = true) -> counted P (filter f l) n -> counted P l n.
Proof.
  intros H. revert n; induction l as [|a l IH]; intros n C; cbn [filter] in C; [exact C|]. destruct (f a) eqn:E.
  - inversion C; subst; [apply c_yes|apply c_no]; auto.
  - apply c_no; [intros K; apply H in K; congruence|auto].
Qed.
Lemma aside_about es p : forallb aside es = true -> counted (about p) es 0.
Proof.
  intros A. apply counted_none. intros e He. rewrite forallb_forall in A. specialize (A e He).
  destruct e as [[?|] ?|?|[]|? ?]; try discriminate; cbn; tauto.
Qed.
Lemma insert_perm x l : Permutation (x :: l) (insert_str x l).
Proof.
  induction l as [|y l IH]; cbn [insert_str]; [reflexivity|]. destruct (str_leb x y); [reflexivity|]. rewrite perm_swap. now constructor.
Qed.
Lemma sorted_perm l : Permutation l (sort_strs l).
Proof. induction l as [|x l IH]; [reflexivity|]. cbn. rewrite IH at 1. apply insert_perm. Qed.

(** ** several files *)
Definition fails_of (c : config) (root : entry) (sel : path -> Prop) (es : list event) : Prop :=
  forall p f, In (Err (FileFailed p f)) es -> sel p /\ exists r, formats_to sel c root r /\ reason r c p f.
Lemma aside_fails c root sel es : forallb aside es = true -> fails_of c root sel es.
Proof. intros A p f H. rewrite forallb_forall in A. specialize (A _ H). discriminate A. Qed.
Lemma fails_app c root sel a b : fails_of c root sel a -> fails_of c root sel b -> fails_of c root sel (a ++ b).
Proof. intros A B p f H. apply in_app_iff in H. destruct H; auto. Qed.
Lemma fails_later c r0 root sel es : formats_to sel c r0 root -> fails_of c root sel es -> fails_of c r0 sel es.
Proof. intros F H p f Hin. destruct (H p f Hin) as (S & r & G & R). split; [exact S|]. exists r. split; [|exact R]. eapply formats_to_trans; eauto. Qed.

Lemma path_fails root p c o root' es x (sel : path -> Prop) : wf_entry root -> sel p -> path_run root p c o = (root', es, x) -> fails_of c root sel es.
Proof.
  intros W S P. pose proof (path_run_spec root p c o W) as K. rewrite P in K. destruct K as (_ & es0 & e & -> & A & X).
  apply fails_app; [now apply aside_fails|]. destruct x; [|subst e; intros ? ? []]. destruct X as (d & -> & _ & Hd).
  intros q f [Hin|[]]. subst d. destruct (Hd q f eq_refl) as [-> R]. split; [exact S|]. exists root. split; [constructor|exact R].
Qed.
Lemma no_unresolved_path root p c o root' es x a : wf_entry root -> path_run root p c o = (root', es, x) -> ~ In (Err (UnresolvedPath a)) es.
Proof.
  intros W P Hin. pose proof (path_run_spec root p c o W) as K. rewrite P in K. destruct K as (_ & es0 & e & -> & A & X).
  apply in_app_iff in Hin. destruct Hin as [Hin|Hin].
  - rewrite forallb_forall in A. apply A in Hin. discriminate Hin.
  - destruct x; [|subst e; destruct Hin]. destruct X as (d & -> & Ab & _). destruct Hin as [E|[]]. rewrite E in Ab. exact Ab.
Qed.
Lemma paths_run_spec ps : forall root c o (sel : path -> Prop), wf_entry root -> Forall sel ps ->
  let '(root', es, x) := paths_run root ps c o in
  process_paths root ps c o = (root', flat_map effect_of es, x) /\ wf_entry root' /\ formats_to sel c root root'
  /\ (forall q rec ext pre, get_path_files root' q rec ext pre = get_path_files root q rec ext pre)
  /\ fails_of c root sel es /\ (forall a, ~ In (Err (UnresolvedPath a)) es)
  /\ (x = Exited -> forall p, exists n, counted (about p) es n /\ counted (eq p) ps n).
Proof.
  induction ps as [|p ps IH]; intros root c o sel W S; cbn [paths_run process_paths].
  - split; [reflexivity|]. split; [exact W|]. split; [constructor|]. split; [reflexivity|]. split; [intros ? ? []|]. split; [intros a []|].
    intros _ p. exists 0. split; constructor.
  - inversion S as [|? ? Sp Sr]; subst. pose proof (path_run_spec root p c o W) as K.
    destruct (path_run root p c o) as [[r1 e1] x1] eqn:P. destruct K as (K & es0 & e & -> & A & X). rewrite K.
    pose proof (process_path_wf _ _ _ _ _ _ _ W K) as W1. pose proof (process_path_formats sel _ _ _ _ _ _ _ W Sp K) as F1.
    pose proof (path_fails _ _ _ _ _ _ _ sel W Sp P) as Fa1.
    destruct x1.
    + specialize (IH r1 c o sel W1 Sr). destruct (paths_run r1 ps c o) as [[r2 e2] x2]. destruct IH as (E2 & W2 & F2 & G2 & Fa2 & U2 & N2).
      rewrite E2, <- flat_map_app. split; [reflexivity|]. split; [exact W2|]. split; [eapply formats_to_trans; eauto|].
      split; [intros; rewrite G2; eapply process_path_files; eauto|]. split; [apply fails_app; [exact Fa1|]; eapply fails_later; eauto|]. split.
      * intros a H. apply in_app_iff in H. destruct H as [H|H]; [|now apply U2 in H]. exact (no_unresolved_path _ _ _ _ _ _ _ a W P H).
      * intros Hx q. destruct (N2 Hx q) as (n & C1 & C2). destruct X as (d & -> & Ab & _).
        assert (about q d <-> q = p) as Hq by (destruct d as [[?|] ?|?|[]|? ?]; cbn in *; split; congruence || tauto).
        destruct (path_dec q p) as [->|D].
        -- exists (1 + n). split; [|apply c_yes; auto]. rewrite <- app_assoc. cbn [app].
           refine (counted_app _ _ _ 0 (1 + n) (aside_about _ _ A) _). apply c_yes; [tauto|exact C1].
        -- exists n. split; [|apply c_no; auto]. rewrite <- app_assoc. cbn [app].
           refine (counted_app _ _ _ 0 n (aside_about _ _ A) _). apply c_no; [tauto|exact C1].
    + subst e. split; [reflexivity|]. split; [exact W1|]. split; [exact F1|]. split; [intros; eapply process_path_files; eauto|].
      split; [exact Fa1|]. split; [|intros; discriminate]. intros a H. exact (no_unresolved_path _ _ _ _ _ _ _ a W P H).
Qed.
Lemma counted_nodup {A} (p : A) l : NoDup l -> forall n, counted (eq p) l n -> (In p l /\ n = 1) \/ (~ In p l /\ n = 0).
Proof.
  induction 1 as [|a l Hn ND IH]; intros n C; inversion C as [|? ? m Ha C2|? ? m Ha C2]; subst.
  - right. auto.
  - left. destruct (IH _ C2) as [[Hin _]|[_ ->]]; [tauto|]. split; [now left|reflexivity].
  - destruct (IH _ C2) as [[Hin ->]|[Ho ->]]; [left; split; [now right|reflexivity]|right; split; [|reflexivity]].
    intros [->|Hin]; [now apply Ha|tauto].
Qed.

(** ** several paths *)
Definition asks (root : entry) (cwd : path) (rec : bool) (p : path) (a : str) : Prop :=
  exists d, resolve cwd a = Some d /\ ~ not_expandable root rec d /\ selected root rec d p.
Definition lost (root : entry) (cwd : path) (rec : bool) (a : str) : Prop := forall d, resolve cwd a = Some d -> not_expandable root rec d.
Lemma source_run_spec root0 root cwd a c o (sel : path -> Prop) : wf_entry root0 -> wf_entry root ->
  (forall q rec ext pre, get_path_files root q rec ext pre = get_path_files root0 q rec ext pre) ->
  (forall d p, resolve cwd a = Some d -> selected root0 (recursive o) d p -> sel p) ->
  let '(root', es, x) := source_run root cwd a c o in
  process_sources root cwd [a] c o = (root', flat_map effect_of es, x) /\ wf_entry root' /\ formats_to sel c root root'
  /\ (forall q rec ext pre, get_path_files root' q rec ext pre = get_path_files root q rec ext pre)
  /\ fails_of c root sel es
  /\ (forall b, In (Err (UnresolvedPath b)) es <-> b = a /\ lost root0 cwd (recursive o) a)
  /\ (x = Exited -> forall p, exists n, counted (about p) es n /\ counted (asks root0 cwd (recursive o) p) [a] n).
Proof.
  intros W0 W G S. unfold source_run. cbn [process_sources].
  destruct (resolve cwd a) as [d|] eqn:R.
  - rewrite G. pose proof (expansion root0 (recursive o) d W0) as Xp. change cfg_prefix with (s2l ".luafmt").
    destruct (get_path_files root0 d (recursive o) (s2l "lua") (s2l ".luafmt")) as [ps|] eqn:E.
    + destruct Xp as (ND & Hq & NX).
      assert (Forall sel ps) as Sp by (apply Forall_forall; intros p Hp; apply (S d); [reflexivity|]; now apply Hq).
      pose proof (paths_run_spec ps root c o sel W Sp) as K. destruct (paths_run root ps c o) as [[r1 e1] x1].
      destruct K as (K & W1 & F1 & G1 & Fa & U & N). rewrite K. split; [destruct x1; rewrite ?app_nil_r; reflexivity|].
      split; [exact W1|]. split; [exact F1|]. split; [exact G1|]. split; [exact Fa|]. split.
      * intros b. split; [intros H; now apply U in H|]. intros [_ L]. elim NX. now apply L.
      * intros Hx p. destruct (N Hx p) as (n & C1 & C2). exists n. split; [exact C1|].
        destruct (counted_nodup p ps ND n C2) as [[Hin ->]|[Ho ->]].
        -- apply c_yes; [|constructor]. exists d. split; [exact R|]. split; [exact NX|]. now apply Hq.
        -- apply c_no; [|constructor]. intros (d' & Rd & _ & Sd). rewrite R in Rd. injection Rd as <-. apply Hq in Sd. tauto.
    + split; [reflexivity|]. split; [exact W|]. split; [constructor|]. split; [reflexivity|]. split; [intros p f [H|[]]; discriminate|]. split.
      * intros b. split; [intros [H|[]]; injection H as <-|intros [-> _]; now left]. split; [reflexivity|]. intros d' Rd. rewrite R in Rd. now injection Rd as <-.
      * intros _ p. exists 0. split; [apply c_no; [intros []|constructor]|]. apply c_no; [|constructor].
        intros (d' & Rd & Ne & _). rewrite R in Rd. injection Rd as <-. tauto.
  - split; [reflexivity|]. split; [exact W|]. split; [constructor|]. split; [reflexivity|]. split; [intros p f [H|[]]; discriminate|]. split.
    + intros b. split; [intros [H|[]]; injection H as <-|intros [-> _]; now left]. split; [reflexivity|]. intros d' Rd. congruence.
    + intros _ p. exists 0. split; [apply c_no; [intros []|constructor]|]. apply c_no; [|constructor]. intros (d' & Rd & _). congruence.
Qed.
Lemma process_sources_cons root cwd a ss c o :
  process_sources root cwd (a :: ss) c o =
  match process_sources root cwd [a] c o with
  | (root', es, Exited) => let '(root'', es', x) := process_sources root' cwd ss c o in (root'', es ++ es', x)
  | (root', es, Aborted) => (root', es, Aborted)
  end.
Proof.
  cbn [process_sources]. destruct (match resolve cwd a with Some q => _ | None => _ end) as [[r e] x]. destruct x; [|reflexivity].
  rewrite app_nil_r. reflexivity.
Qed.
Lemma sources_run_spec root0 cwd c o (sel : path -> Prop) ss : wf_entry root0 ->
  (forall a d p, In a ss -> resolve cwd a = Some d -> selected root0 (recursive o) d p -> sel p) ->
  forall root, wf_entry root -> (forall q rec ext pre, get_path_files root q rec ext pre = get_path_files root0 q rec ext pre) ->
  let '(root', es, x) := sources_run root cwd ss c o in
  process_sources root cwd ss c o = (root', flat_map effect_of es, x) /\ fails_of c root sel es
  /\ (forall b, In (Err (UnresolvedPath b)) es -> In b ss /\ lost root0 cwd (recursive o) b)
  /\ (x = Exited -> (forall b, In b ss -> lost root0 cwd (recursive o) b -> In (Err (UnresolvedPath b)) es)
      /\ forall p, exists n, counted (about p) es n /\ counted (asks root0 cwd (recursive o) p) ss n).
Proof.
  intros W0. induction ss as [|a ss IH]; intros S root W G; cbn [sources_run].
  - split; [reflexivity|]. split; [intros ? ? []|]. split; [intros b []|]. intros _. split; [intros b []|]. intros p. exists 0. split; constructor.
  - rewrite process_sources_cons.
    pose proof (source_run_spec root0 root cwd a c o sel W0 W G (fun d p => S a d p (or_introl eq_refl))) as K.
    destruct (source_run root cwd a c o) as [[r1 e1] x1]. destruct K as (K & W1 & F1 & G1 & Fa & U & N). rewrite K. destruct x1.
    + specialize (IH (fun a' d p H => S a' d p (or_intror H)) r1 W1).
      assert (forall q rec ext pre, get_path_files r1 q rec ext pre = get_path_files root0 q rec ext pre) as G1' by (intros; rewrite G1; apply G).
      specialize (IH G1'). destruct (sources_run r1 cwd ss c o) as [[r2 e2] x2]. destruct IH as (E2 & Fa2 & U2 & X2).
      rewrite E2, <- flat_map_app. split; [reflexivity|]. split; [apply fails_app; [exact Fa|]; eapply fails_later; eauto|]. split.
      * intros b H. apply in_app_iff in H. destruct H as [H|H].
        -- apply U in H. destruct H as [-> L]. split; [now left|exact L].
        -- apply U2 in H. destruct H as [H L]. split; [now right|exact L].
      * intros Hx. destruct (X2 Hx) as [V2 N2]. split.
        -- intros b [<-|H] L; apply in_app_iff; [left; apply U; auto|right; auto].
        -- intros p. destruct (N eq_refl p) as (n & C1 & C2). destruct (N2 p) as (m & D1 & D2). exists (n + m).
           split; [now apply counted_app|]. change (a :: ss) with ([a] ++ ss). now apply counted_app.
    + split; [reflexivity|]. split; [exact Fa|]. split; [|intros; discriminate]. intros b H. apply U in H. destruct H as [-> L]. split; [now left|exact L].
Qed.

(** ** the options *)
Lemma bad_value_iff (A : Type) (P : A -> Prop) (o : option A) : (forall b, o = Some b <-> P b) -> (is_some o = false <-> forall b, ~ P b).
Proof.
  intros H. destruct o as [x|]; cbn [is_some].
  - split; [discriminate|]. intros N. elim (N x). now apply H.
  - split; [|reflexivity]. intros _ b K. apply H in K. discriminate.
Qed.
Lemma set_report_in n v m : In m (set_report n v) <->
  ((forall o, ~ names n o) /\ m = InvalidName n) \/ (exists o, names n o /\ invalid_for o v /\ m = InvalidValue n v).
Proof.
  unfold set_report. destruct (find_option n option_names) as [o|] eqn:F.
  - pose proof F as F'. apply find_names in F'.
    assert ((In m match o with OB _ => if is_some (parse_bool v) then [] else [InvalidValue n v]
        | ON _ => if is_some (parse_usize v) then [] else [InvalidValue n v] | OS _ => []
        | OLineRange => if is_some (parse_range v) then [] else [InvalidValue n v] end) <-> invalid_for o v /\ m = InvalidValue n v) as K.
    { destruct o as [k|k|k|]; cbn [invalid_for].
      - rewrite <- (bad_value_iff _ _ _ (bool_text_iff v)). destruct (is_some (parse_bool v)); cbn; intuition congruence.
      - rewrite <- (bad_value_iff _ _ _ (nat_text_iff v)). destruct (is_some (parse_usize v)); cbn; intuition congruence.
      - cbn. tauto.
      - rewrite <- (bad_value_iff _ _ _ (range_text_iff v)). destruct (is_some (parse_range v)); cbn; intuition congruence. }
    rewrite K. split.
    + intros [A B]. right. exists o. auto.
    + intros [[N _]|(o' & N & A & B)]; [elim (N o F')|]. apply find_names in N. rewrite F in N. injection N as <-. auto.
  - pose proof (proj1 (find_none n) F) as N. split.
    + intros [<-|[]]. left. auto.
    + intros [[_ ->]|(o & K & _)]; [now left|elim (N o K)].
Qed.
Lemma option_report_in a m : dash a = true -> (In m (option_report a) <->
  (m = UnrecognizedOption a /\ strange_option a)
  \/ (exists n v, setting_arg a n v /\ (forall o, ~ names n o) /\ m = InvalidName n)
  \/ (exists n v o, setting_arg a n v /\ names n o /\ invalid_for o v /\ m = InvalidValue n v)).
Proof.
  intros D. unfold option_report, strange_option. destruct (match_config_opt a) as [[n v]|] eqn:C.
  - pose proof C as S. apply match_config_opt_iff in S. rewrite set_report_in. split.
    + intros [[N ->]|(o & N & I & ->)]; [right; left; exists n, v; auto|right; right; exists n, v, o; auto].
    + intros [[_ (_ & N & _)]|[(n' & v' & S' & N & ->)|(n' & v' & o & S' & N & I & ->)]].
      * elim (N _ _ S).
      * apply match_config_opt_iff in S'. rewrite C in S'. injection S' as <- <-. auto.
      * apply match_config_opt_iff in S'. rewrite C in S'. injection S' as <- <-. right. eauto.
  - assert (forall n v, ~ setting_arg a n v) as NS by (intros n v S; apply match_config_opt_iff in S; congruence).
    destruct good_flags as (G1 & G2 & G3 & G4 & G5 & G6).
    pose proof (flag_iff _ _ a G1 G2) as I. pose proof (flag_iff _ _ a G3 G4) as R. pose proof (flag_iff _ _ a G5 G6) as V.
    unfold flag_is in I, R, V. rewrite C in I, R, V.
    assert (In m (match match_program_opt a with Some w => if is_flag w then [] else [UnrecognizedOption a] | None => [UnrecognizedOption a] end)
      <-> m = UnrecognizedOption a /\ ~ flag_arg "i" "inplace" a /\ ~ flag_arg "r" "recursive" a /\ ~ flag_arg "v" "verbose" a) as K.
    { rewrite <- I, <- R, <- V. destruct (match_program_opt a) as [w|].
      - unfold is_flag. cbn [map existsb]. destruct (str_eqb w (s2l "i")), (str_eqb w (s2l "inplace")), (str_eqb w (s2l "r")),
          (str_eqb w (s2l "recursive")), (str_eqb w (s2l "v")), (str_eqb w (s2l "verbose")); cbn; intuition congruence.
      - cbn. intuition congruence. }
    rewrite K. split.
    + intros (A & B). left. tauto.
    + intros [(A & _ & _ & B)|[(n & v & S & _)|(n & v & o & S & _)]]; [tauto|elim (NS _ _ S)|elim (NS _ _ S)].
Qed.
Lemma options_report_in args m : In m (flat_map option_report (filter dash args)) <->
  (exists a, In a args /\ m = UnrecognizedOption a /\ strange_option a)
  \/ (exists a n v, In a args /\ setting_arg a n v /\ (forall o, ~ names n o) /\ m = InvalidName n)
  \/ (exists a n v o, In a args /\ setting_arg a n v /\ names n o /\ invalid_for o v /\ m = InvalidValue n v).
Proof.
  assert (forall a n v, setting_arg a n v -> dash a = true) as SD by (intros a n v (-> & _); reflexivity).
  rewrite in_flat_map. split.
  - intros (a & Ha & Hm). apply filter_In in Ha. destruct Ha as [Ha D]. apply (option_report_in a m D) in Hm.
    destruct Hm as [[? ?]|[(n & v & ? & ? & ?)|(n & v & o & ? & ? & ? & ?)]]; [left; eauto|right; left; exists a, n, v; auto|right; right; exists a, n, v, o; auto].
  - intros [(a & Ha & E & S)|[(a & n & v & Ha & S & N & E)|(a & n & v & o & Ha & S & N & I & E)]].
    + exists a. split; [apply filter_In; split; [exact Ha|apply S]|]. apply option_report_in; [apply S|]. auto.
    + exists a. split; [apply filter_In; split; [exact Ha|eauto]|]. apply option_report_in; [eauto|]. right. left. eauto.
    + exists a. split; [apply filter_In; split; [exact Ha|eauto]|]. apply option_report_in; [eauto|]. right. right. exists n, v, o. auto.
Qed.

(** ** the whole run *)
Lemma first_aside o l i j : forallb aside (map Err (flat_map option_report l) ++ noted (verbose o) i ++ noted (verbose o) j) = true.
Proof.
  rewrite !forallb_app, !noted_aside, !andb_true_r. induction l as [|a l IH]; [reflexivity|]. cbn [flat_map].
  rewrite map_app, forallb_app, IH, option_report_aside. reflexivity.
Qed.
Theorem run_is_main root cwd stdin args root' es x : wf_entry root -> run root cwd stdin args = (root', es, x) ->
  main root cwd stdin args = (root', flat_map effect_of es, x).
Proof.
  intros W. unfold run, main. destruct (parse_options (options_of args)) as [c o]. cbn zeta.
  set (first := map Err _ ++ _). assert (flat_map effect_of first = []) as Fe by (apply aside_effects, first_aside).
  destruct (sources_of args) as [|a ss].
  - destruct stdin as [t|]; [|intros [= <- <- <-]; now rewrite Fe].
    pose proof (aside_effects _ (buffer_run_aside (verbose o) t c)) as B. pose proof (buffer_run_result (verbose o) t c) as R.
    destruct (buffer_run (verbose o) t c) as [e r]. cbn [fst snd] in B, R. destruct r as [s|f|]; intros [= <- <- <-]; rewrite ?flat_map_app, ?Fe, ?B.
    + now rewrite R.
    + destruct R as [-> _]. reflexivity.
    + now rewrite R.
  - pose proof (sources_run_spec root cwd c o (fun _ => True) (a :: ss) W (fun _ _ _ _ _ _ => Logic.I) root W (fun _ _ _ _ => eq_refl)) as K.
    destruct (sources_run root cwd (a :: ss) c o) as [[r e] y]. destruct K as (K & _). rewrite K. intros [= <- <- <-]. now rewrite flat_map_app, Fe.
Qed.

Lemma sources_none_or (args : list str) : sources_of args = [] -> forall a, In a args -> dash a = true.
Proof.
  rewrite sources_of_eq. intros E a Ha. destruct (dash a) eqn:D; [reflexivity|].
  assert (In a (sort_strs (filter (fun x => negb (dash x)) args))) as H by (apply sort_in, filter_In; rewrite D; auto). now rewrite E in H.
Qed.
(** the events of a run: about the options, the remarks of [-v], and the rest *)
Lemma run_parts root cwd stdin args root' es x : wf_entry root -> run root cwd stdin args = (root', es, x) ->
  let c := fst (parse_options (filter dash args)) in let o := snd (parse_options (filter dash args)) in
  exists body, es = map Err (flat_map option_report (filter dash args))
      ++ (noted (verbose o) (IPaths (sources_of args)) ++ noted (verbose o) (IOptions o)) ++ body
  /\ (forall e, In e body -> match e with Info _ => verbose o = true | Err (UnrecognizedOption _) => False
        | Err (InvalidValue _ _) | Err (InvalidName _) => no_format_option c | _ => True end)
  /\ fails_of c root (selected_by root cwd (recursive o) args) body
  /\ (forall b, In (Err (UnresolvedPath b)) body -> In b args /\ lost_path root cwd (recursive o) b)
  /\ (x = Exited -> (forall b, In b args -> lost_path root cwd (recursive o) b -> In (Err (UnresolvedPath b)) body)
       /\ forall p, exists n, counted (about p) body n /\ counted (asks_for root cwd (recursive o) p) args n).
Proof.
  intros W. unfold run. rewrite options_of_eq. destruct (parse_options (filter dash args)) as [c o]. cbn [fst snd]. cbn zeta.
  destruct (sources_of args) as [|a0 ss0] eqn:Es.
  - pose proof (sources_none_or args Es) as AD. rewrite <- Es.
    assert (forall body, (forall e, In e body -> match e with Info _ => verbose o = true | Out None _ | Err (BufferFailed _) => True | _ => False end) ->
       (forall e, In e body -> match e with Info _ => verbose o = true | Err (UnrecognizedOption _) => False
          | Err (InvalidValue _ _) | Err (InvalidName _) => no_format_option c | _ => True end)
       /\ fails_of c root (selected_by root cwd (recursive o) args) body
       /\ (forall b, In (Err (UnresolvedPath b)) body -> In b args /\ lost_path root cwd (recursive o) b)
       /\ (x = Exited -> (forall b, In b args -> lost_path root cwd (recursive o) b -> In (Err (UnresolvedPath b)) body)
            /\ forall p, exists n, counted (about p) body n /\ counted (asks_for root cwd (recursive o) p) args n)) as Q.
    { intros body Hb. split; [|split; [|split]].
      - intros e He. specialize (Hb e He). destruct e as [[?|] ?|?|[]|? ?]; tauto.
      - intros p f He. specialize (Hb _ He). destruct Hb.
      - intros b He. specialize (Hb _ He). destruct Hb.
      - intros _. split.
        + intros b Hin (D & _). rewrite (AD b Hin) in D. discriminate.
        + intros p. exists 0. split; apply counted_none.
          * intros e He A. specialize (Hb e He). destruct e as [[?|] ?|?|[]|? ?]; tauto.
          * intros b Hin (D & _). rewrite (AD b Hin) in D. discriminate. }
    destruct stdin as [t|].
    + pose proof (noted_proper (verbose o) true (IFormat c)) as NP. unfold buffer_run.
      assert (forall e, In e (noted (verbose o) (IFormat c)) -> match e with Info _ => verbose o = true | _ => False end) as NI.
      { intros e He. unfold noted in He. destruct (verbose o); [|destruct He]. destruct He as [<-|[]]. reflexivity. }
      set (r := match process_buffer t c with Formatted s => Done s | _ => _ end). clearbody r.
      destruct r as [s|f|]; intros [= <- <- Ex]; rewrite <- ?Es.
      * exists (noted (verbose o) (IFormat c) ++ [Out None s]). split; [now rewrite <- !app_assoc|]. apply Q. intros e He.
        apply in_app_iff in He. destruct He as [He|[<-|[]]]; [|exact Logic.I]. apply NI in He. destruct e; tauto.
      * exists (noted (verbose o) (IFormat c) ++ [Err (BufferFailed f)]). split; [now rewrite <- !app_assoc|]. apply Q. intros e He.
        apply in_app_iff in He. destruct He as [He|[<-|[]]]; [|exact Logic.I]. apply NI in He. destruct e; tauto.
      * exists (noted (verbose o) (IFormat c)). split; [now rewrite <- !app_assoc|]. apply Q. intros e He. apply NI in He. destruct e; tauto.
    + intros [= <- <- Ex]. exists []. rewrite app_nil_r, <- ?Es. split; [reflexivity|]. apply Q. intros e [].
  - pose proof (sources_run_proper cwd (a0 :: ss0) root c o) as Pr.
    assert (forall a, In a (a0 :: ss0) <-> In a args /\ dash a = false) as HS.
    { intros a. rewrite <- Es, sources_of_eq, sort_in, filter_In, negb_true_iff. reflexivity. }
    pose proof (sources_run_spec root cwd c o (selected_by root cwd (recursive o) args) (a0 :: ss0) W) as K.
    specialize (K (fun a d p Ha R Sl => ex_intro _ a (ex_intro _ d (conj (proj1 (proj1 (HS a) Ha)) (conj (proj2 (proj1 (HS a) Ha)) (conj R Sl)))))).
    specialize (K root W (fun _ _ _ _ => eq_refl)).
    destruct (sources_run root cwd (a0 :: ss0) c o) as [[r e] y]. destruct K as (_ & Fa & U & N). cbn [fst snd] in Pr. intros [= <- <- <-].
    exists e. rewrite <- Es. split; [now rewrite <- !app_assoc|]. split; [|split; [exact Fa|split]].
    + intros d Hd. rewrite forallb_forall in Pr. specialize (Pr d Hd). unfold proper in Pr.
      destruct d as [[?|] ?|?|[]|? ?]; try exact Logic.I; try exact Pr; try discriminate Pr; now apply no_format_iff.
    + intros b Hb. apply U in Hb. destruct Hb as [Hin L]. apply HS in Hin. destruct Hin. split; [assumption|]. split; assumption.
    + intros Ex. destruct (N Ex) as [V C]. split.
      * intros b Hb [D L]. apply V; [apply HS; auto|exact L].
      * intros p. destruct (C p) as (n & C1 & C2). exists n. split; [exact C1|].
        apply (counted_filter _ (fun a => negb (dash a))); [intros a (D & _); now rewrite D|].
        apply (counted_perm _ (a0 :: ss0)); [rewrite <- Es, sources_of_eq; symmetry; apply sorted_perm|].
        eapply counted_iff; [|exact C2]. intros a Ha. apply HS in Ha. unfold asks, asks_for. split; [tauto|]. intros [_ H]; exact H.
Qed.

Lemma noted_in v i e : In e (noted v i) -> e = Info i /\ v = true.
Proof. destruct v; [|intros []]. intros [<-|[]]. auto. Qed.
Theorem options_reported root cwd stdin args root' es x : wf_entry root -> run root cwd stdin args = (root', es, x) ->
  (forall a, In (Err (UnrecognizedOption a)) es <-> In a args /\ strange_option a)
  /\ (forall a n v, In a args -> setting_arg a n v ->
        ((forall o, ~ names n o) -> In (Err (InvalidName n)) es)
        /\ (forall o, names n o -> invalid_for o v -> In (Err (InvalidValue n v)) es))
  /\ (~ no_format_option (fst (parse_options (filter dash args))) ->
        (forall n, In (Err (InvalidName n)) es -> exists a v, In a args /\ setting_arg a n v /\ forall o, ~ names n o)
        /\ (forall n v, In (Err (InvalidValue n v)) es -> exists a o, In a args /\ setting_arg a n v /\ names n o /\ invalid_for o v))
  /\ (forall i, In (Info i) es -> exists a, In a args /\ flag_arg "v" "verbose" a).
Proof.
  intros W R. destruct (run_parts _ _ _ _ _ _ _ W R) as (body & -> & P & _). cbn zeta in *.
  pose proof (options_report_in args) as O. destruct (parse_options_spec (filter dash args)) as (_ & _ & _ & _ & Hv).
  set (o := snd (parse_options (filter dash args))) in *. set (c := fst (parse_options (filter dash args))) in *.
  assert (forall m, In (Err m) (map Err (flat_map option_report (filter dash args)) ++
     (noted (verbose o) (IPaths (sources_of args)) ++ noted (verbose o) (IOptions o)) ++ body)
     <-> In m (flat_map option_report (filter dash args)) \/ In (Err m) body) as K.
  { intros m. rewrite !in_app_iff, in_map_iff. split.
    - intros [(m' & E & H)|[[H|H]|H]]; [injection E as <-; auto|apply noted_in in H; destruct H; discriminate|apply noted_in in H; destruct H; discriminate|auto].
    - intros [H|H]; [left; eauto|auto]. }
  split; [|split; [|split]].
  - intros a. rewrite K, O. split.
    + intros [[(b & Hb & E & S)|[(b & n & v & _ & _ & _ & E)|(b & n & v & q & _ & _ & _ & _ & E)]]|H]; try discriminate; [injection E as <-; auto|apply P in H; destruct H].
    + intros [H S]. left. left. eauto.
  - intros a n v Ha S. rewrite K, O. split.
    + intros N. left. right. left. exists a, n, v. auto.
    + intros q N I. rewrite K, O. left. right. right. exists a, n, v, q. auto.
  - intros NF. split.
    + intros n. rewrite K, O. intros [[(b & Hb & E & S)|[(b & n' & v & Hb & S & N & E)|(b & n' & v & q & _ & _ & _ & _ & E)]]|H]; try discriminate.
      * injection E as <-. exists b, v. auto.
      * apply P in H. tauto.
    + intros n v. rewrite K, O. intros [[(b & Hb & E & S)|[(b & n' & v' & _ & _ & _ & E)|(b & n' & v' & q & Hb & S & N & I & E)]]|H]; try discriminate.
      * injection E as <- <-. exists b, q. auto.
      * apply P in H. tauto.
  - intros i H. assert (verbose o = true) as V.
    { rewrite !in_app_iff, in_map_iff in H. destruct H as [(m & E & _)|[[H|H]|H]]; [discriminate|apply noted_in in H; tauto|apply noted_in in H; tauto|exact (P _ H)]. }
    apply Hv in V. destruct V as (a & Ha & F). apply filter_In in Ha. exists a. tauto.
Qed.
Lemma front_no_path args o (body : list event) e :
  In e (map Err (flat_map option_report (filter dash args)) ++
     (noted (verbose o) (IPaths (sources_of args)) ++ noted (verbose o) (IOptions o)) ++ body) ->
  In e body \/ aside e = true.
Proof.
  rewrite app_assoc, in_app_iff. intros [H|H]; [right|now left].
  pose proof (first_aside o (filter dash args) (IPaths (sources_of args)) (IOptions o)) as A. rewrite forallb_forall in A. now apply A.
Qed.
Theorem files_reported root cwd stdin args root' es : wf_entry root -> run root cwd stdin args = (root', es, Exited) ->
  let rec := recursive (snd (parse_options (filter dash args))) in
  (forall a, In (Err (UnresolvedPath a)) es <-> In a args /\ lost_path root cwd rec a)
  /\ forall p, exists n, counted (about p) es n /\ counted (asks_for root cwd rec p) args n.
Proof.
  intros W R. destruct (run_parts _ _ _ _ _ _ _ W R) as (body & -> & _ & _ & U & N). cbn zeta in *. destruct (N eq_refl) as [V C]. split.
  - intros a. split.
    + intros H. apply front_no_path in H. destruct H as [H|H]; [now apply U|discriminate].
    + intros [H L]. rewrite !in_app_iff. right. right. now apply V.
  - intros p. destruct (C p) as (n & C1 & C2). exists n. split; [|exact C2]. rewrite app_assoc.
    refine (counted_app _ _ _ 0 n (aside_about _ _ _) C1). apply first_aside.
Qed.
Theorem failures_reported root cwd stdin args root' es x p f : wf_entry root -> run root cwd stdin args = (root', es, x) ->
  In (Err (FileFailed p f)) es ->
  let c := fst (parse_options (filter dash args)) in
  let sel := selected_by root cwd (recursive (snd (parse_options (filter dash args)))) args in
  sel p /\ exists r, formats_to sel c root r /\ reason r c p f.
Proof.
  intros W R H. destruct (run_parts _ _ _ _ _ _ _ W R) as (body & -> & _ & F & _). cbn zeta in *.
  apply front_no_path in H. destruct H as [H|H]; [now apply F|discriminate].
Qed.

(** ** the exit status *)
Lemma process_file_stop root p c : wf_entry root -> process_file root p c = FPanic ->
  exists t w, leads root p (EFile (Some t) w)
    /\ ((exists c', settings_for root c p c' /\ process_buffer t c' = Panicked)
        \/ (no_format_option c /\ exists q w', nearest root p q /\ leads root q (EFile None w'))).
Proof.
  intros W. unfold process_file. destruct (file_content root p) as [t|] eqn:F; [|discriminate].
  apply file_content_at in F. destruct F as (w & F). apply (file_at_leads _ _ _ _ W) in F. intros H. exists t, w. split; [exact F|].
  assert (forall c', match process_buffer t c' with Formatted s => FOk s | ParsingError => FParsingError | FormattingError => FFormattingError
     | Panicked => FPanic | Formatter.Internal => FInternal end = FPanic -> process_buffer t c' = Panicked) as B by (intros c'; destruct (process_buffer t c'); congruence).
  destruct (has_empty_format c) eqn:E.
  - apply no_format_iff in E. pose proof (nearest_config root p W (ex_intro _ _ (ex_intro _ _ F))) as N. change cfg_prefix with (s2l ".luafmt") in H.
    destruct (get_file_config root p (s2l ".luafmt")) as [q|]; [|discriminate]. destruct N as (d & Ab & Ci & Ne).
    destruct (file_content root q) as [u|] eqn:Fq.
    + apply file_content_at in Fq. destruct Fq as (w' & Fq). apply (file_at_leads _ _ _ _ W) in Fq.
      destruct (reload_format u c) as [c'|] eqn:R; [|discriminate]. left. exists c'. split; [right|now apply B]. split; [exact E|].
      exists d, q, u, w'. auto.
    + right. split; [exact E|]. exists q. pose proof Ci as Ci'. destruct Ci as (x & _ & (tq & wq & L) & _). exists wq. split; [exists d; auto|].
      destruct tq as [u|]; [|exact L]. apply (leads_lookup _ _ _ W) in L. unfold file_content in Fq. rewrite L in Fq. discriminate.
  - left. exists c. split; [left|now apply B]. split; [|reflexivity]. intros K. apply no_format_iff in K. congruence.
Qed.
Definition stops (sel : path -> Prop) (c : config) (root : entry) : Prop :=
  exists p r, sel p /\ wf_entry r /\ formats_to sel c root r /\ process_file r p c = FPanic.
Lemma stops_later (sel : path -> Prop) c r0 r1 : formats_to sel c r0 r1 -> stops sel c r1 -> stops sel c r0.
Proof. intros F (p & r & S & W & G & P). exists p, r. repeat split; auto. eapply formats_to_trans; eauto. Qed.
Lemma path_stops (sel : path -> Prop) root p c o root' es : wf_entry root -> sel p -> process_path root p c o = (root', es, Aborted) -> stops sel c root.
Proof.
  intros W S P. exists p, root. split; [exact S|]. split; [exact W|]. split; [constructor|]. unfold process_path in P.
  destruct (file_run_spec false root p c W) as [_ K].
  destruct (process_file root p c) eqn:F; try reflexivity; try discriminate P; [destruct (inplace o); [destruct (is_writable root p)|]; discriminate P|].
  destruct (snd (file_run false root p c)) as [|[]|]; try discriminate K; destruct K as [K _]; discriminate K.
Qed.
Lemma paths_stop (sel : path -> Prop) c o ps : forall root root' es, wf_entry root -> Forall sel ps -> process_paths root ps c o = (root', es, Aborted) -> stops sel c root.
Proof.
  induction ps as [|p ps IH]; intros root root' es W S P; cbn [process_paths] in P; [discriminate|]. inversion S as [|? ? Sp Sr]; subst.
  destruct (process_path root p c o) as [[r1 e1] x1] eqn:Q. destruct x1.
  - destruct (process_paths r1 ps c o) as [[r2 e2] x2] eqn:Q2. injection P as <- <- ->.
    eapply stops_later; [eapply process_path_formats; eauto|]. eapply IH; [|exact Sr|exact Q2]. eapply process_path_wf; eauto.
  - eapply path_stops; eauto.
Qed.
Lemma sources_stop root0 cwd c o (sel : path -> Prop) ss : wf_entry root0 ->
  (forall a d p, In a ss -> resolve cwd a = Some d -> selected root0 (recursive o) d p -> sel p) ->
  forall root root' es, wf_entry root -> (forall q rec ext pre, get_path_files root q rec ext pre = get_path_files root0 q rec ext pre) ->
  process_sources root cwd ss c o = (root', es, Aborted) -> stops sel c root.
Proof.
  intros W0. induction ss as [|a ss IH]; intros S root root' es W G P; [discriminate|]. rewrite process_sources_cons in P.
  pose proof (source_run_spec root0 root cwd a c o sel W0 W G (fun d p => S a d p (or_introl eq_refl))) as K.
  destruct (source_run root cwd a c o) as [[r1 e1] x1]. destruct K as (K & W1 & F1 & G1 & _). rewrite K in P. destruct x1.
  - destruct (process_sources r1 cwd ss c o) as [[r2 e2] x2] eqn:Q2. injection P as <- <- ->. eapply stops_later; [exact F1|].
    eapply IH; [|exact W1| |exact Q2]; [intros a' d p H; apply S; now right|intros; rewrite G1; apply G].
  - clear P IH. cbn [process_sources] in K. destruct (resolve cwd a) as [d|] eqn:R; [|discriminate K].
    rewrite G in K. pose proof (expansion root0 (recursive o) d W0) as Xp. change cfg_prefix with (s2l ".luafmt") in K.
    destruct (get_path_files root0 d (recursive o) (s2l "lua") (s2l ".luafmt")) as [ps|]; [|discriminate K]. destruct Xp as (_ & Hq & _).
    destruct (process_paths root ps c o) as [[r3 e3] x3] eqn:Q. destruct x3; [discriminate K|]. eapply paths_stop; [exact W| |exact Q].
    apply Forall_forall. intros p Hp. apply (S a d); [now left|exact R|]. now apply Hq.
Qed.
Theorem aborted_run root cwd stdin args root' es : wf_entry root -> run root cwd stdin args = (root', es, Aborted) ->
  let c := fst (parse_options (filter dash args)) in
  let sel := selected_by root cwd (recursive (snd (parse_options (filter dash args)))) args in
  ((forall a, In a args -> dash a = true) /\ (stdin = None \/ exists t, stdin = Some t /\ process_buffer t c = Panicked))
  \/ exists p r t w, sel p /\ formats_to sel c root r /\ leads r p (EFile (Some t) w)
       /\ ((exists c', settings_for r c p c' /\ process_buffer t c' = Panicked)
           \/ (no_format_option c /\ exists q w', nearest r p q /\ leads r q (EFile None w'))).
Proof.
  intros W R. apply run_is_main in R; [|exact W]. unfold main in R. rewrite options_of_eq in R.
  destruct (parse_options (filter dash args)) as [c o]. cbn [fst snd]. cbn zeta.
  destruct (sources_of args) as [|a0 ss0] eqn:Es.
  - left. split; [exact (sources_none_or args Es)|]. destruct stdin as [t|]; [right|now left]. exists t. split; [reflexivity|].
    destruct (format_no_error t c) as [F I]. destruct (process_buffer t c); congruence.
  - right. assert (forall a, In a (a0 :: ss0) <-> In a args /\ dash a = false) as HS.
    { intros a. rewrite <- Es, sources_of_eq, sort_in, filter_In, negb_true_iff. reflexivity. }
    pose proof (sources_stop root cwd c o (selected_by root cwd (recursive o) args) (a0 :: ss0) W) as K.
    specialize (K (fun a d p Ha R Sl => ex_intro _ a (ex_intro _ d (conj (proj1 (proj1 (HS a) Ha)) (conj (proj2 (proj1 (HS a) Ha)) (conj R Sl)))))).
    destruct (K root _ _ W (fun _ _ _ _ => eq_refl) R) as (p & r & Sp & Wr & F & P).
    destruct (process_file_stop _ _ _ Wr P) as (t & w & L & X). exists p, r, t, w. auto.
Qed.
Lemma before_wf : wf_entry before.
Proof.
  unfold before. constructor; [repeat constructor; cbn; intuition discriminate|].
  intros x e [E|[E|[]]]; injection E as <- <-; [|constructor].
  constructor; [repeat constructor; cbn; intuition discriminate|]. intros x e [E|[E|[]]]; injection E as <- <-; constructor.
Qed.
Theorem silent_exit : exists root cwd args root' es p f,
  wf_entry root /\ run root cwd None args = (root', es, Exited) /\ In (Err (FileFailed p f)) es.
Proof.
  exists before, [s2l "p"], [s2l "--max_width=9"; s2l "."]. eexists _, _, [s2l "p"; s2l "b.lua"], _. split; [exact before_wf|].
  split; [vm_compute; reflexivity|]. right. now left.
Qed.
