(** The order in which the program does its work. *)
From Coq Require Import Permutation Sorted.
From Verif Require Import Base Lib Config ConfigSpec ConfigProofs FileUtil FileSpec FileProofs Cli CliSpec CliProofs RerunSpec RerunProofs Report ReportSpec ReportProofs OrderSpec.

Lemma leb_comes a : forall b, str_leb a b = true -> comes_before a b.
Proof.
  induction a as [|x a IH]; intros [|y b] H; cbn in H; try discriminate.
  - apply (cb_beginning [] []).
  - apply (cb_beginning [] (y :: b)).
  - unfold ceq in H. destruct (N.eqb_spec x y) as [->|D].
    + destruct (IH b H) as [a b|p u v a b Hu]; [apply (cb_beginning (y :: a) b)|apply (cb_smaller (y :: p)); exact Hu].
    + apply (cb_smaller [] x y). now apply N.ltb_lt.
Qed.
Lemma insert_sorted x l : Sorted comes_before l -> Sorted comes_before (insert_str x l).
Proof.
  induction 1 as [|y l S IH Hd]; cbn [insert_str]; [repeat constructor|].
  destruct (str_leb x y) eqn:L; [constructor; [constructor; assumption|constructor; now apply leb_comes]|].
  assert (comes_before y x) as Y by (apply leb_comes; destruct (str_leb_total x y); congruence).
  constructor; [exact IH|]. destruct l as [|z l]; cbn [insert_str]; [constructor; exact Y|].
  destruct (str_leb x z); constructor; [exact Y|]. now inversion Hd.
Qed.
Lemma sort_sorted l : Sorted comes_before (sort_strs l).
Proof. induction l as [|x l IH]; [constructor|]. cbn. now apply insert_sorted. Qed.

Lemma files_of_app a b : files_of (a ++ b) = files_of a ++ files_of b.
Proof. unfold files_of. now rewrite flat_map_app. Qed.
Lemma aside_files es : forallb aside es = true -> files_of es = [].
Proof.
  induction es as [|e es IH]; [reflexivity|]. cbn [forallb]. rewrite andb_true_iff. intros [A B].
  change (files_of (e :: es)) with (file_of e ++ files_of es). rewrite (IH B), app_nil_r. destruct e as [[?|] ?|?|[]|? ?]; try discriminate; reflexivity.
Qed.

(** the files worked on are those of the list, in its order, up to a panic *)
Lemma paths_run_files ps : forall root c o, wf_entry root ->
  let '(root', es, x) := paths_run root ps c o in
  match x with Exited => files_of es = ps | Aborted => exists r, ps = files_of es ++ r end.
Proof.
  induction ps as [|p ps IH]; intros root c o W; cbn [paths_run]; [reflexivity|].
  pose proof (path_run_spec root p c o W) as K. destruct (path_run root p c o) as [[r1 e1] x1] eqn:P. destruct K as (K & es0 & e & -> & A & X).
  pose proof (process_path_wf _ _ _ _ _ _ _ W K) as W1. destruct x1.
  - destruct X as (d & -> & Ab & _). specialize (IH r1 c o W1). destruct (paths_run r1 ps c o) as [[r2 e2] x2].
    assert (files_of [d] = [p]) as Hd by (destruct d as [[?|] ?|?|[]|? ?]; cbn in *; congruence || tauto).
    rewrite !files_of_app, (aside_files _ A), Hd. cbn [app]. destruct x2; [now rewrite IH|]. destruct IH as [r ->]. now exists r.
  - subst e. rewrite app_nil_r, (aside_files _ A). now exists (p :: ps).
Qed.
Lemma nodup_app_l {A} (a b : list A) : NoDup (a ++ b) -> NoDup a.
Proof. induction a as [|x a IH]; intros H; [constructor|]. cbn in H. inversion H; subst. constructor; [rewrite in_app_iff in *; tauto|auto]. Qed.

Lemma source_work root0 root cwd a c o : wf_entry root0 -> wf_entry root -> dash a = false ->
  (forall q rec ext pre, get_path_files root q rec ext pre = get_path_files root0 q rec ext pre) ->
  let '(root', es, x) := source_run root cwd a c o in
  match x with Exited => all_work root0 cwd (recursive o) a es | Aborted => some_work root0 cwd (recursive o) a es end.
Proof.
  intros W0 W Da G. unfold source_run. destruct (resolve cwd a) as [d|] eqn:R.
  - rewrite G. pose proof (expansion root0 (recursive o) d W0) as Xp. change cfg_prefix with (s2l ".luafmt").
    destruct (get_path_files root0 d (recursive o) (s2l "lua") (s2l ".luafmt")) as [ps|] eqn:E.
    + destruct Xp as (ND & Hq & NX). pose proof (paths_run_files ps root c o W) as F.
      pose proof (paths_run_spec ps root c o (fun _ => True) W) as K. destruct (paths_run root ps c o) as [[r1 e1] x1].
      destruct K as (_ & _ & _ & _ & _ & U & _); [now apply Forall_forall|].
      assert (forall r, ps = files_of e1 ++ r -> some_work root0 cwd (recursive o) a e1) as SW.
      { intros r Hr. split; [exact U|]. rewrite Hr in ND. split; [exact (nodup_app_l _ _ ND)|]. exists d. split; [exact R|]. split; [exact NX|].
        intros p Hp. apply Hq. rewrite Hr, in_app_iff. now left. }
      destruct x1; [|destruct F as [r Hr]; now apply (SW r)]. right. split; [apply (SW []); now rewrite F, app_nil_r|].
      intros d' p Rd S. rewrite R in Rd. injection Rd as <-. rewrite F. now apply Hq.
    + left. split; [|reflexivity]. split; [exact Da|]. intros d' Rd. rewrite R in Rd. now injection Rd as <-.
  - left. split; [|reflexivity]. split; [exact Da|]. intros d' Rd. congruence.
Qed.
Lemma sources_work root0 cwd c o ss : wf_entry root0 -> Forall (fun a => dash a = false) ss ->
  forall root, wf_entry root -> (forall q rec ext pre, get_path_files root q rec ext pre = get_path_files root0 q rec ext pre) ->
  let '(root', es, x) := sources_run root cwd ss c o in in_order root0 cwd (recursive o) ss es x.
Proof.
  intros W0. induction ss as [|a ss IH]; intros D root W G; cbn [sources_run]; [constructor|].
  inversion D as [|? ? Da Dr]; subst. pose proof (source_work root0 root cwd a c o W0 W Da G) as Wk.
  pose proof (source_run_spec root0 root cwd a c o (fun _ => True) W0 W G (fun _ _ _ _ => Logic.I)) as K.
  destruct (source_run root cwd a c o) as [[r1 e1] x1]. destruct K as (_ & W1 & _ & G1 & _). destruct x1.
  - specialize (IH Dr r1 W1 (fun q rec ext pre => eq_trans (G1 q rec ext pre) (G q rec ext pre))).
    destruct (sources_run r1 cwd ss c o) as [[r2 e2] x2]. now constructor.
  - now constructor.
Qed.

Lemma option_report_one a : option_report a = [] \/ exists m, option_report a = [m].
Proof.
  unfold option_report, set_report. destruct (match_config_opt a) as [[n v]|].
  - destruct (find_option n option_names) as [[k|k|k|]|]; eauto; destruct (is_some _); eauto.
  - destruct (match_program_opt a) as [w|]; [destruct (is_flag w)|]; eauto.
Qed.
Lemma complaint_iff a m : dash a = true -> (complaint a m <-> In m (option_report a)).
Proof.
  intros D. rewrite (option_report_in a m D). split.
  - intros [S|n v S N|n v o S N I]; [left; auto|right; left; eauto|right; right; exists n, v, o; auto].
  - intros [[-> S]|[(n & v & S & N & ->)|(n & v & o & S & N & I & ->)]]; econstructor; eauto.
Qed.
Lemma option_complaints l : Forall (fun a => dash a = true) l -> complaints l (map Err (flat_map option_report l)).
Proof.
  induction 1 as [|a l D F IH]; [constructor|]. cbn [flat_map]. rewrite map_app. constructor; [|exact IH].
  pose proof (fun m => complaint_iff a m D) as C. destruct (option_report_one a) as [E|[m E]]; rewrite E in *; [right|left].
  - split; [|reflexivity]. intros m H. now apply C in H.
  - exists m. split; [apply C; now left|reflexivity].
Qed.

Theorem run_order root cwd stdin args root' es x : wf_entry root -> run root cwd stdin args = (root', es, x) ->
  let o := snd (parse_options (filter dash args)) in
  exists ss first remarks rest, es = first ++ remarks ++ rest
  /\ Permutation (filter (fun a => negb (dash a)) args) ss /\ Sorted comes_before ss
  /\ complaints (filter dash args) first
  /\ remarks = (if verbose o then [Info (IPaths ss); Info (IOptions o)] else [])
  /\ (ss <> [] -> in_order root cwd (recursive o) ss rest x).
Proof.
  intros W. unfold run. rewrite options_of_eq, sources_of_eq. destruct (parse_options (filter dash args)) as [c o]. cbn [fst snd]. cbn zeta.
  set (ss := sort_strs _). pose proof (sorted_perm (filter (fun a => negb (dash a)) args)) as Pm. fold ss in Pm.
  pose proof (sort_sorted (filter (fun a => negb (dash a)) args)) as So. fold ss in So.
  assert (complaints (filter dash args) (map Err (flat_map option_report (filter dash args)))) as Co
    by (apply option_complaints, Forall_forall; intros a Ha; apply filter_In in Ha; tauto).
  assert (noted (verbose o) (IPaths ss) ++ noted (verbose o) (IOptions o) = (if verbose o then [Info (IPaths ss); Info (IOptions o)] else [])) as Rm
    by (unfold noted; destruct (verbose o); reflexivity).
  assert (Forall (fun a => dash a = false) ss) as Ds.
  { apply Forall_forall. intros a Ha. apply (Permutation_in _ (Permutation_sym Pm)) in Ha. apply filter_In in Ha. destruct Ha as [_ Ha].
    now apply negb_true_iff in Ha. }
  clearbody ss. set (first := map Err _) in *.
  assert (forall rest, es = (first ++ noted (verbose o) (IPaths ss) ++ noted (verbose o) (IOptions o)) ++ rest ->
     (ss <> [] -> in_order root cwd (recursive o) ss rest x) ->
     exists ss first remarks rest, es = first ++ remarks ++ rest
  /\ Permutation (filter (fun a => negb (dash a)) args) ss /\ Sorted comes_before ss
  /\ complaints (filter dash args) first
  /\ remarks = (if verbose o then [Info (IPaths ss); Info (IOptions o)] else [])
  /\ (ss <> [] -> in_order root cwd (recursive o) ss rest x)) as Q.
  { intros rest E H. exists ss, first, (noted (verbose o) (IPaths ss) ++ noted (verbose o) (IOptions o)), rest. split; [now rewrite E, <- app_assoc|]. auto. }
  destruct ss as [|a l].
  - destruct stdin as [t|].
    + destruct (buffer_run (verbose o) t c) as [e r]. destruct r as [s|f|]; intros [= <- <- Ex].
      * apply (Q (e ++ [Out None s])); [reflexivity|tauto].
      * apply (Q (e ++ [Err (BufferFailed f)])); [reflexivity|tauto].
      * apply (Q e); [reflexivity|tauto].
    + intros [= <- <- Ex]. apply (Q []); [now rewrite app_nil_r|tauto].
  - pose proof (sources_work root cwd c o (a :: l) W Ds root W (fun _ _ _ _ => eq_refl)) as K.
    destruct (sources_run root cwd (a :: l) c o) as [[r e] y]. intros [= <- <- <-]. apply (Q e); [reflexivity|auto].
Qed.

(** the order is total, so the list is determined *)
Lemma comes_leb a b : comes_before a b -> str_leb a b = true.
Proof.
  intros [a' b'|p x y a' b' H].
  - induction a' as [|u a' IH]; cbn; [now destruct b'|]. unfold ceq. now rewrite N.eqb_refl.
  - induction p as [|u p IH]; cbn; unfold ceq; [|now rewrite N.eqb_refl].
    destruct (N.eqb_spec x y) as [->|D]; [lia|]. now apply N.ltb_lt.
Qed.
Theorem order_total a b : (comes_before a b \/ comes_before b a) /\ (comes_before a b -> comes_before b a -> a = b).
Proof.
  split.
  - destruct (str_leb_total a b) as [H|H]; [left|right]; now apply leb_comes.
  - intros H K. apply str_leb_antisym; now apply comes_leb.
Qed.
