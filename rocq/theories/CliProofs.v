From Coq Require Import Permutation.
From Verif Require Import Base Lib Config ConfigSpec ConfigProofs Formatter FileUtil FileSpec FileProofs Cli CliSpec.

(** ** options and paths *)
Lemma is_option_dash a : is_option a = dash a.
Proof. destruct a as [|c r]; [reflexivity|]. cbn. rewrite andb_true_r. unfold ceq. apply N.eqb_sym. Qed.

Lemma str_leb_refl a : str_leb a a = true.
Proof. induction a as [|x a IH]; cbn; [reflexivity|]. rewrite (proj2 (ceq_true x x) eq_refl). exact IH. Qed.
Lemma str_leb_total a b : str_leb a b = true \/ str_leb b a = true.
Proof.
  revert b; induction a as [|x a IH]; intros [|y b]; cbn; auto.
  destruct (ceq x y) eqn:E.
  - apply ceq_true in E. subst. rewrite (proj2 (ceq_true y y) eq_refl). apply IH.
  - apply ceq_false in E. assert (ceq y x = false) as -> by (apply ceq_false; congruence).
    rewrite !N.ltb_lt. lia.
Qed.
Lemma str_leb_antisym a b : str_leb a b = true -> str_leb b a = true -> a = b.
Proof.
  revert b; induction a as [|x a IH]; intros [|y b]; cbn; auto; try discriminate.
  destruct (ceq x y) eqn:E.
  - apply ceq_true in E. subst. rewrite (proj2 (ceq_true y y) eq_refl). intros A B. f_equal. auto.
  - apply ceq_false in E. assert (ceq y x = false) as -> by (apply ceq_false; congruence).
    rewrite !N.ltb_lt. lia.
Qed.
Lemma str_leb_trans a b c : str_leb a b = true -> str_leb b c = true -> str_leb a c = true.
Proof.
  revert b c; induction a as [|x a IH]; intros [|y b] [|z c]; cbn; auto; try discriminate.
  destruct (ceq x y) eqn:E1, (ceq y z) eqn:E2.
  - apply ceq_true in E1, E2. subst. rewrite (proj2 (ceq_true z z) eq_refl). apply IH.
  - apply ceq_true in E1. subst. rewrite E2. auto.
  - apply ceq_true in E2. subst. rewrite E1. auto.
  - apply ceq_false in E1, E2. rewrite !N.ltb_lt. intros A B.
    assert (ceq x z = false) as -> by (apply ceq_false; lia). apply N.ltb_lt. lia.
Qed.

Lemma insert_comm x y l : insert_str x (insert_str y l) = insert_str y (insert_str x l).
Proof.
  induction l as [|z l IH]; cbn.
  - destruct (str_leb x y) eqn:A, (str_leb y x) eqn:B; cbn; rewrite ?A, ?B; try reflexivity.
    + now rewrite (str_leb_antisym _ _ A B).
    + destruct (str_leb_total x y); congruence.
  - destruct (str_leb y z) eqn:Y, (str_leb x z) eqn:X; cbn; rewrite ?X, ?Y.
    + destruct (str_leb x y) eqn:A, (str_leb y x) eqn:B; cbn; rewrite ?A, ?B, ?X, ?Y; try reflexivity.
      * now rewrite (str_leb_antisym _ _ A B).
      * destruct (str_leb_total x y); congruence.
    + destruct (str_leb x y) eqn:A; cbn; rewrite ?X, ?Y.
      * rewrite (str_leb_trans _ _ _ A Y) in X. discriminate.
      * reflexivity.
    + destruct (str_leb y x) eqn:B; cbn; rewrite ?X, ?Y.
      * rewrite (str_leb_trans _ _ _ B X) in Y. discriminate.
      * reflexivity.
    + now rewrite IH.
Qed.
Lemma sort_perm a b : Permutation a b -> sort_strs a = sort_strs b.
Proof.
  induction 1; [reflexivity| |apply insert_comm|congruence].
  change (insert_str x (sort_strs l) = insert_str x (sort_strs l')). now rewrite IHPermutation.
Qed.
Lemma insert_in x y l : In y (insert_str x l) <-> y = x \/ In y l.
Proof.
  induction l as [|z l IH]; cbn; [intuition|]. destruct (str_leb x z); cbn; [intuition|]. rewrite IH. intuition.
Qed.
Lemma sort_in y l : In y (sort_strs l) <-> In y l.
Proof.
  induction l as [|x l IH]; [tauto|]. change (sort_strs (x :: l)) with (insert_str x (sort_strs l)).
  rewrite insert_in, IH. cbn. intuition.
Qed.
Lemma filter_ext' {A} (f g : A -> bool) l : (forall x, f x = g x) -> filter f l = filter g l.
Proof. intros E. apply filter_ext. exact E. Qed.

Lemma options_of_eq a : options_of a = filter dash a.
Proof. apply filter_ext, is_option_dash. Qed.
Lemma sources_of_eq a : sources_of a = sort_strs (filter (fun x => negb (dash x)) a).
Proof. unfold sources_of. f_equal. apply filter_ext. intros x. now rewrite is_option_dash. Qed.

Lemma main_same_arguments root cwd stdin a b :
  same_arguments a b -> main root cwd stdin a = main root cwd stdin b.
Proof.
  intros [E P]. unfold main. rewrite !options_of_eq, !sources_of_eq, E, (sort_perm _ _ P). reflexivity.
Qed.

(** ** settings *)
Lemma word_char_iff c : is_word c = true <-> word_char c.
Proof.
  unfold is_word, is_alpha, is_lower, is_upper, is_digit, in_range, cleb, ceq, word_char.
  change (chr "0") with 48%N. change (chr "9") with 57%N. change (chr "a") with 97%N. change (chr "z") with 122%N.
  change (chr "A") with 65%N. change (chr "Z") with 90%N. change (chr "_") with 95%N.
  rewrite !orb_true_iff, !andb_true_iff, !N.leb_le, N.eqb_eq. tauto.
Qed.
Lemma span_while_spec p s a b : span_while p s = (a, b) ->
  s = a ++ b /\ Forall (fun c => p c = true) a /\ match b with c :: _ => p c = false | [] => True end.
Proof.
  revert a b; induction s as [|c r IH]; cbn; intros a b.
  - intros [= <- <-]. auto.
  - destruct (p c) eqn:D.
    + destruct (span_while p r) as [a' b'] eqn:T. intros [= <- <-].
      destruct (IH _ _ eq_refl) as (-> & F & G). auto.
    + intros [= <- <-]. auto.
Qed.
Lemma span_while_app p a c r : Forall (fun c => p c = true) a -> p c = false -> span_while p (a ++ c :: r) = (a, c :: r).
Proof. induction 1 as [|d a Hd F IH]; cbn; intros D; [now rewrite D|]. now rewrite Hd, IH. Qed.

Lemma match_config_opt_iff a n v : match_config_opt a = Some (n, v) <-> setting_arg a n v.
Proof.
  unfold match_config_opt, setting_arg. split.
  - destruct a as [|x [|y r]]; try discriminate.
    destruct (ceq x (chr "-") && ceq y (chr "-")) eqn:E; [|discriminate].
    apply andb_true_iff in E. destruct E as [E1 E2]. apply ceq_true in E1, E2. subst.
    destruct (span_while is_word r) as [m t] eqn:S. destruct m as [|m0 m]; [discriminate|].
    destruct t as [|e t]; [discriminate|].
    destruct (ceq e (chr "=") && forallb _ t) eqn:F; [|discriminate].
    intros [= <- <-]. apply andb_true_iff in F. destruct F as [F1 F2]. apply ceq_true in F1. subst e.
    apply span_while_spec in S. destruct S as (-> & Fw & _). split; [reflexivity|].
    split; [discriminate|]. split.
    + eapply Forall_impl; [|exact Fw]. intros c. apply word_char_iff.
    + intros Hin. rewrite forallb_forall in F2. apply F2 in Hin. apply negb_true_iff, ceq_false in Hin. congruence.
  - intros (-> & Hn & Fw & Hv). cbn [s2l app].
    rewrite (proj2 (ceq_true _ _) eq_refl). cbn [andb].
    rewrite span_while_app.
    + destruct n as [|n0 n]; [congruence|]. rewrite (proj2 (ceq_true _ _) eq_refl). cbn [andb].
      assert (forallb (fun c => negb (ceq c ch_nl)) v = true) as ->; [|reflexivity].
      apply forallb_forall. intros c Hin. apply negb_true_iff, ceq_false. intros ->. auto.
    + eapply Forall_impl; [|exact Fw]. intros c. apply word_char_iff.
    + reflexivity.
Qed.

Lemma forallb_lower_str (w : string) : forallb is_lower (s2l w) = true -> s2l w <> [] -> lower_word (s2l w) = Some (s2l w).
Proof. intros A B. unfold lower_word. destruct (s2l w); [congruence|]. now rewrite A. Qed.
Lemma lower_word_some s w : lower_word s = Some w -> s = w /\ w <> [] /\ forallb is_lower w = true.
Proof.
  unfold lower_word. destruct s as [|c r]; [discriminate|].
  destruct (forallb is_lower (c :: r)) eqn:E; [|discriminate]. intros [= <-]. repeat split; auto. discriminate.
Qed.
Lemma match_program_opt_some a w : match_program_opt a = Some w ->
  (a = s2l "-" ++ w \/ a = s2l "--" ++ w).
Proof.
  unfold match_program_opt. destruct a as [|x r]; [discriminate|].
  destruct (ceq x (chr "-")) eqn:E; [|discriminate]. apply ceq_true in E. subst.
  destruct r as [|y r]; [discriminate|]. destruct (ceq y (chr "-")) eqn:E.
  - apply ceq_true in E. subst. intros H. apply lower_word_some in H. destruct H as (-> & _). auto.
  - intros H. apply lower_word_some in H. destruct H as (<- & _). auto.
Qed.

Definition flag_is (short long : string) (a : str) : bool :=
  match match_config_opt a, match_program_opt a with
  | None, Some w => str_eqb w (s2l short) || str_eqb w (s2l long)
  | _, _ => false
  end.
Definition good_flag (w : string) : Prop :=
  match_config_opt (s2l "-" ++ s2l w) = None /\ match_config_opt (s2l "--" ++ s2l w) = None
  /\ match_program_opt (s2l "-" ++ s2l w) = Some (s2l w) /\ match_program_opt (s2l "--" ++ s2l w) = Some (s2l w).
Lemma flag_iff short long a : good_flag short -> good_flag long ->
  (flag_is short long a = true <-> flag_arg short long a).
Proof.
  intros (G1 & G2 & G3 & G4) (L1 & L2 & L3 & L4). unfold flag_is, flag_arg. split.
  - destruct (match_config_opt a) eqn:C; [discriminate|].
    destruct (match_program_opt a) as [w|] eqn:P; [|discriminate].
    rewrite orb_true_iff, !str_eqb_true. intros H. apply match_program_opt_some in P.
    destruct P as [-> | ->], H as [-> | ->]; [exists "-"%string, short|exists "-"%string, long|
      exists "--"%string, short|exists "--"%string, long]; auto.
  - intros (d & w & [-> | ->] & [-> | ->] & ->); rewrite ?G1, ?G2, ?G3, ?G4, ?L1, ?L2, ?L3, ?L4, ?str_eqb_refl,
      ?orb_true_r; reflexivity.
Qed.
Lemma good_flags : good_flag "i" /\ good_flag "inplace" /\ good_flag "r" /\ good_flag "recursive"
                   /\ good_flag "v" /\ good_flag "verbose".
Proof. repeat split; vm_compute; reflexivity. Qed.

Definition step_settings (a : str) : settings := match match_config_opt a with Some nv => [nv] | None => [] end.
Lemma parse_option_spec c p a :
  parse_option (c, p) a =
    (apply_settings (step_settings a) c,
     mk_popts (inplace p || flag_is "i" "inplace" a) (recursive p || flag_is "r" "recursive" a)
       (verbose p || flag_is "v" "verbose" a)).
Proof.
  unfold parse_option, step_settings, flag_is. destruct (match_config_opt a) as [[n v]|].
  - rewrite !orb_false_r. destruct p. reflexivity.
  - destruct (match_program_opt a) as [w|].
    2:{ rewrite !orb_false_r. destruct p. reflexivity. }
    destruct (str_eqb w (s2l "i") || str_eqb w (s2l "inplace")) eqn:I.
    + assert (w = s2l "i" \/ w = s2l "inplace") as Hw by (rewrite orb_true_iff, !str_eqb_true in I; exact I).
      destruct Hw as [-> | ->]; cbn -[s2l]; destruct p; cbn; rewrite ?orb_true_r, ?orb_false_r; reflexivity.
    + destruct (str_eqb w (s2l "r") || str_eqb w (s2l "recursive")) eqn:R.
      * assert (w = s2l "r" \/ w = s2l "recursive") as Hw by (rewrite orb_true_iff, !str_eqb_true in R; exact R).
        destruct Hw as [-> | ->]; destruct p; cbn; rewrite ?orb_true_r, ?orb_false_r; reflexivity.
      * destruct (str_eqb w (s2l "v") || str_eqb w (s2l "verbose")) eqn:V; destruct p; cbn;
          rewrite ?orb_true_r, ?orb_false_r; reflexivity.
Qed.

Lemma apply_settings_app a b c : apply_settings (a ++ b) c = apply_settings b (apply_settings a c).
Proof. apply fold_left_app. Qed.
Lemma fold_parse_options l c p :
  fold_left parse_option l (c, p) =
    (apply_settings (flat_map step_settings l) c,
     mk_popts (inplace p || existsb (flag_is "i" "inplace") l) (recursive p || existsb (flag_is "r" "recursive") l)
       (verbose p || existsb (flag_is "v" "verbose") l)).
Proof.
  revert c p; induction l as [|a l IH]; intros c p.
  - cbn. rewrite !orb_false_r. destruct p. reflexivity.
  - cbn [fold_left flat_map existsb]. rewrite parse_option_spec, IH, apply_settings_app. cbn [inplace recursive verbose].
    rewrite !orb_assoc. reflexivity.
Qed.
Lemma arg_settings_iff l s : arg_settings l s <-> s = flat_map step_settings l.
Proof.
  split.
  - induction 1 as [|a n v l s H _ IH|a l s H _ IH]; cbn; [reflexivity| |].
    + apply match_config_opt_iff in H. unfold step_settings at 1. rewrite H. cbn. congruence.
    + unfold step_settings at 1. destruct (match_config_opt a) as [[n v]|] eqn:E; [|exact IH].
      apply match_config_opt_iff in E. elim (H _ _ E).
  - intros ->. induction l as [|a l IH]; cbn; [constructor|].
    unfold step_settings at 1. destruct (match_config_opt a) as [[n v]|] eqn:E.
    + apply match_config_opt_iff in E. constructor; auto.
    + apply as_skip; [|exact IH]. intros n v H. apply match_config_opt_iff in H. congruence.
Qed.
Lemma existsb_flag short long l : good_flag short -> good_flag long ->
  (existsb (flag_is short long) l = true <-> exists a, In a l /\ flag_arg short long a).
Proof.
  intros A B. rewrite existsb_exists. split; intros (a & Hin & H); exists a; split; auto; eapply flag_iff; eauto.
Qed.
Lemma parse_options_spec l :
  (forall s, arg_settings l s -> fst (parse_options l) = apply_settings s default_config)
  /\ (exists s, arg_settings l s)
  /\ (inplace (snd (parse_options l)) = true <-> exists a, In a l /\ flag_arg "i" "inplace" a)
  /\ (recursive (snd (parse_options l)) = true <-> exists a, In a l /\ flag_arg "r" "recursive" a)
  /\ (verbose (snd (parse_options l)) = true <-> exists a, In a l /\ flag_arg "v" "verbose" a).
Proof.
  destruct good_flags as (G1 & G2 & G3 & G4 & G5 & G6).
  unfold parse_options. rewrite fold_parse_options. cbn [fst snd default_popts inplace recursive verbose orb].
  split; [|split; [|split; [|split]]]; try (now apply existsb_flag).
  - intros s H. apply arg_settings_iff in H. now subst.
  - eexists. now apply arg_settings_iff.
Qed.

(** ** writing a file *)
Fixpoint strip (q p : path) : option path :=
  match q, p with
  | [], _ => Some p
  | x :: q', y :: p' => if str_eqb y x then strip q' p' else None
  | _, [] => None
  end.
Lemma strip_some q p r : strip q p = Some r <-> p = q ++ r.
Proof.
  revert p; induction q as [|x q IH]; intros p; cbn.
  - split; congruence.
  - destruct p as [|y p]; [split; discriminate|]. destruct (str_eqb y x) eqn:E.
    + apply str_eqb_true in E. subst. rewrite IH. split; congruence.
    + apply str_eqb_false in E. split; [discriminate|]. intros [= -> _]. congruence.
Qed.
Lemma find_entry_map x y f l :
  find_entry x (map (fun ye => if str_eqb y (fst ye) then (fst ye, f (snd ye)) else ye) l)
  = option_map (fun e => if str_eqb y x then f e else e) (find_entry x l).
Proof.
  induction l as [|[z e] l IH]; cbn; [reflexivity|].
  destruct (str_eqb y z) eqn:E; cbn; destruct (str_eqb x z) eqn:F; auto.
  - apply str_eqb_true in E, F. subst. cbn. now rewrite str_eqb_refl.
  - apply str_eqb_true in F. subst. cbn. now rewrite E.
Qed.
Lemma lookup_write q p s e :
  lookup q (write_entry p s e)
  = option_map (fun e' => match strip q p with Some r => write_entry r s e' | None => e' end) (lookup q e).
Proof.
  revert p e; induction q as [|x q IH]; intros p e; [reflexivity|].
  destruct p as [|y p].
  - assert (write_entry [] s e = match e with EFile _ w => EFile (Some s) w | _ => e end) as -> by (destruct e; reflexivity).
    destruct e as [| [l|] |]; try reflexivity. cbn. destruct (find_entry x l); [|reflexivity].
    destruct (lookup q e); reflexivity.
  - destruct e as [| [l|] |]; try reflexivity. cbn [write_entry lookup]. rewrite find_entry_map.
    destruct (find_entry x l) as [e|]; [|reflexivity]. cbn [option_map strip].
    destruct (str_eqb y x); [apply IH|]. destruct (lookup q e); reflexivity.
Qed.
Lemma write_wf p s e : wf_entry e -> wf_entry (write_entry p s e).
Proof.
  revert e; induction p as [|x p IH]; intros e W.
  - destruct e as [| [l|] |]; try exact W. constructor.
  - destruct e as [| [l|] |]; try exact W. cbn. inversion W as [| | |? ND Hs]; subst. constructor.
    + rewrite map_map. replace (map _ l) with (map fst l); [exact ND|]. apply map_ext. intros [y e]. cbn.
      destruct (str_eqb x y); reflexivity.
    + intros y e Hin. apply in_map_iff in Hin. destruct Hin as ([z f] & E & Hin). cbn in E.
      destruct (str_eqb x z); injection E as <- <-; [apply IH|]; eauto.
Qed.

Definition path_dec : forall a b : path, {a = b} + {a <> b} := list_eq_dec (list_eq_dec N.eq_dec).
Definition file_at (root : entry) (q : path) : option (option str * bool) :=
  match lookup q root with Some (EFile c w) => Some (c, w) | _ => None end.
Lemma file_at_leads root q c w : wf_entry root -> (file_at root q = Some (c, w) <-> leads root q (EFile c w)).
Proof.
  intros W. rewrite <- (lookup_iff _ _ _ W). unfold file_at.
  destruct (lookup q root) as [[]|]; split; intros H; try discriminate; congruence.
Qed.

Lemma write_file_at root p s q c w :
  file_at root p = Some (c, w) ->
  file_at (write_entry p s root) q = if path_dec q p then Some (Some s, w) else file_at root q.
Proof.
  unfold file_at. intros Hp. rewrite lookup_write.
  destruct (path_dec q p) as [->|Hd].
  - destruct (lookup p root) as [[]|]; try discriminate. injection Hp as -> ->. cbn.
    rewrite (proj2 (strip_some p p []) (eq_sym (app_nil_r p))). reflexivity.
  - destruct (lookup q root) as [e|] eqn:L; [|reflexivity]. cbn.
    destruct (strip q p) as [r|] eqn:S; [|reflexivity]. apply strip_some in S. subst p.
    destruct r as [|x r]; [rewrite app_nil_r in Hd; congruence|].
    destruct e as [| [l|] |]; try reflexivity.
Qed.
Lemma write_directory root p s q : wf_entry root -> (directory root q <-> directory (write_entry p s root) q).
Proof.
  intros W. unfold directory.
  assert (forall r, wf_entry r -> ((exists l, leads r q (EDir l)) <-> exists l, lookup q r = Some (EDir l))) as K.
  { intros r Wr. split; intros (l & H); exists l; apply (lookup_iff _ _ _ Wr); auto. }
  rewrite (K _ W), (K _ (write_wf p s _ W)), lookup_write. split; intros (l & H).
  - rewrite H. cbn. destruct (strip q p) as [[|x r]|]; cbn; eauto. destruct l; eauto.
  - destruct (lookup q root) as [e|]; [|discriminate]. cbn in H. injection H as H.
    destruct (strip q p) as [[|x r]|]; cbn in H; destruct e as [| [l'|] |]; try discriminate; eauto.
Qed.
Lemma write_other root p s q : wf_entry root -> (leads root q EOther <-> leads (write_entry p s root) q EOther).
Proof.
  intros W. rewrite <- (lookup_iff _ _ _ W), <- (lookup_iff _ _ _ (write_wf p s _ W)), lookup_write.
  destruct (lookup q root) as [e|]; cbn; [|tauto].
  destruct (strip q p) as [[|x r]|]; destruct e as [| [l'|] |]; cbn; split; congruence.
Qed.
Lemma write_replaces root p s t : wf_entry root -> leads root p (EFile t true) ->
  replaces root p s (write_entry p s root).
Proof.
  intros W L. apply (file_at_leads _ _ _ _ W) in L as F.
  split; [|split; [|split]].
  - apply (file_at_leads _ _ _ _ (write_wf p s _ W)). rewrite (write_file_at _ _ _ _ _ _ F).
    destruct (path_dec p p); [reflexivity|congruence].
  - intros q c w Hd. rewrite <- (file_at_leads _ _ _ _ W), <- (file_at_leads _ _ _ _ (write_wf p s _ W)).
    rewrite (write_file_at _ _ _ _ _ _ F). destruct (path_dec q p); [congruence|tauto].
  - intros q. now apply write_directory.
  - intros q. now apply write_other.
Qed.

(** ** one file *)
Lemma is_writable_at root p : is_writable root p = true -> exists c, file_at root p = Some (c, true).
Proof.
  unfold is_writable, file_at. destruct (lookup p root) as [[c w| |]|]; try discriminate. intros ->. eauto.
Qed.
Lemma file_content_at root p t : file_content root p = Some t <-> exists w, file_at root p = Some (Some t, w).
Proof.
  unfold file_content, file_at. destruct (lookup p root) as [[c w| |]|]; split; intros H; try discriminate;
    try (destruct H as (w' & H); congruence). subst. eauto.
Qed.
Lemma process_file_content root p c s : process_file root p c = FOk s -> exists t, file_content root p = Some t.
Proof. unfold process_file. destruct (file_content root p); [eauto|discriminate]. Qed.

Lemma process_path_cases root p c o :
  let '(root', es, x) := process_path root p c o in
  (root' = root /\ forall q s, ~ In (Write q s) es)
  \/ (exists t s, inplace o = true /\ file_at root p = Some (Some t, true) /\ process_file root p c = FOk s
                  /\ root' = write_entry p s root /\ es = [Write p s] /\ x = Exited).
Proof.
  unfold process_path. destruct (process_file root p c) as [s| | | | | | |] eqn:P;
    try (left; split; [reflexivity|]; intros q s' H; cbn in H; intuition discriminate).
  destruct (inplace o); [|left; split; [reflexivity|]; intros q s' H; cbn in H; intuition discriminate].
  destruct (is_writable root p) eqn:Wr;
    [|left; split; [reflexivity|]; intros q s' H; cbn in H; intuition discriminate].
  right. apply is_writable_at in Wr. destruct Wr as (c0 & F).
  apply process_file_content in P as (t & T); apply file_content_at in T as (w & T).
  exists t, s. rewrite T in F. injection F as <- ->. auto 8.
Qed.

Lemma formats_to_trans sel c a b d : formats_to sel c a b -> formats_to sel c b d -> formats_to sel c a d.
Proof. induction 1; intros; [auto|]. econstructor; eauto. Qed.

Lemma process_paths_formats sel c o ps root :
  wf_entry root -> Forall sel ps ->
  let '(root', _, _) := process_paths root ps c o in wf_entry root' /\ formats_to sel c root root'.
Proof.
  revert root; induction ps as [|p ps IH]; intros root W F; cbn [process_paths].
  - split; [exact W|constructor].
  - inversion F; subst. pose proof (process_path_cases root p c o) as K.
    destruct (process_path root p c o) as [[root1 es] x].
    assert (wf_entry root1 /\ formats_to sel c root root1) as [W1 F1].
    { destruct K as [[-> _]|(t & s & _ & Fa & P & -> & _)].
      - split; [exact W|constructor].
      - split; [now apply write_wf|]. apply (file_at_leads _ _ _ _ W) in Fa.
        eapply ft_step; eauto; [|constructor]. now apply (write_replaces root p s (Some t)). }
    destruct x; [|auto].
    specialize (IH root1 W1 H2). destruct (process_paths root1 ps c o) as [[root2 es2] x2].
    destruct IH. split; [auto|]. eapply formats_to_trans; eauto.
Qed.

Lemma replaces_selected root root' p s rec d q :
  regular root p -> replaces root p s root' -> (selected root rec d q <-> selected root' rec d q).
Proof.
  intros Rp (A & B & C & D).
  assert (forall r, regular root r <-> regular root' r) as K.
  { intros r. destruct (path_dec r p) as [->|Hd].
    - split; intros _; [exists (Some s), true; exact A|exact Rp].
    - split; intros (c & w & H); exists c, w; apply B; auto. }
  unfold selected. rewrite <- K, <- C. split; intros [H|(H & mid & x & E & M & R & L)]; auto; right; split; auto;
    exists mid, x; rewrite ?K in *; rewrite <- ?K in *; auto.
Qed.
Lemma formats_selected sel c root root' : formats_to sel c root root' ->
  forall rec d q, selected root rec d q <-> selected root' rec d q.
Proof.
  induction 1 as [|root root1 root2 p t s Hs L P R _ IH]; intros rec d q; [tauto|].
  rewrite <- IH. eapply replaces_selected; eauto. exists (Some t), true. exact L.
Qed.

Lemma formats_to_mono (sel sel' : path -> Prop) c a b :
  (forall p, sel p -> sel' p) -> formats_to sel c a b -> formats_to sel' c a b.
Proof. intros M. induction 1; [constructor|]. econstructor; eauto. Qed.

Lemma process_sources_formats cwd c o ss root :
  wf_entry root ->
  let sel p := exists a d, In a ss /\ resolve cwd a = Some d /\ selected root (recursive o) d p in
  let '(root', _, _) := process_sources root cwd ss c o in wf_entry root' /\ formats_to sel c root root'.
Proof.
  revert root; induction ss as [|a ss IH]; intros root W sel; cbn [process_sources].
  - split; [exact W|constructor].
  - set (step := match resolve cwd a with Some q => _ | None => _ end).
    assert (let '(root1, _, _) := step in wf_entry root1 /\ formats_to sel c root root1) as S.
    { unfold step. destruct (resolve cwd a) as [d|] eqn:R; [|split; [exact W|constructor]].
      pose proof (expansion root (recursive o) d W) as X. change cfg_prefix with (s2l ".luafmt").
      destruct (get_path_files root d (recursive o) (s2l "lua") (s2l ".luafmt")) as [ps|]; [|split; [exact W|constructor]].
      destruct X as (_ & Hq & _). apply process_paths_formats; [exact W|].
      apply Forall_forall. intros p Hp. exists a, d. cbn. rewrite <- Hq. auto. }
    destruct step as [[root1 es] x]. destruct S as [W1 S]. destruct x; [|auto].
    specialize (IH root1 W1). cbn zeta in IH. destruct (process_sources root1 cwd ss c o) as [[root2 es2] x2].
    destruct IH as [W2 IH]. split; [exact W2|]. eapply formats_to_trans; [exact S|].
    eapply formats_to_mono; [|exact IH]. intros p (a' & d & Hin & R & Hs). exists a', d. cbn.
    repeat split; auto. eapply formats_selected; eauto.
Qed.

Lemma main_formats root cwd stdin args :
  wf_entry root ->
  let '(c, o) := parse_options (filter dash args) in
  let '(root', _, _) := main root cwd stdin args in
  formats_to (selected_by root cwd (recursive o) args) c root root'.
Proof.
  intros W. unfold main. rewrite options_of_eq, sources_of_eq.
  destruct (parse_options (filter dash args)) as [c o].
  set (ss := sort_strs _).
  assert (match ss with [] => True | _ =>
     let '(root', _, _) := process_sources root cwd ss c o in
     formats_to (selected_by root cwd (recursive o) args) c root root' end) as K.
  { destruct ss as [|a ss'] eqn:E; [exact I|]. rewrite <- E in *.
    pose proof (process_sources_formats cwd c o ss root W) as P. cbn zeta in P.
    destruct (process_sources root cwd ss c o) as [[root1 es] x]. destruct P as [_ P].
    eapply formats_to_mono; [|exact P]. intros p (a' & d & Hin & R & Hs).
    exists a', d. unfold ss in Hin. apply sort_in, filter_In in Hin. destruct Hin as [Hin Hd].
    apply negb_true_iff in Hd. auto. }
  destruct ss as [|a ss']; [|exact K].
  destruct stdin as [t|]; [|constructor]. destruct (process_buffer t c); constructor.
Qed.

(** ** without -i *)
Lemma process_paths_no_inplace c o ps root : inplace o = false -> fst (fst (process_paths root ps c o)) = root.
Proof.
  intros I. revert root; induction ps as [|p ps IH]; intros root; cbn [process_paths]; [reflexivity|].
  pose proof (process_path_cases root p c o) as K.
  destruct (process_path root p c o) as [[root1 es] x].
  destruct K as [[-> _]|(t & s & E & _)]; [|congruence].
  destruct x; [|reflexivity]. specialize (IH root). destruct (process_paths root ps c o) as [[root2 es2] x2]. exact IH.
Qed.
Lemma process_sources_no_inplace cwd c o ss root : inplace o = false -> fst (fst (process_sources root cwd ss c o)) = root.
Proof.
  intros I. revert root; induction ss as [|a ss IH]; intros root; cbn [process_sources]; [reflexivity|].
  set (step := match resolve cwd a with Some q => _ | None => _ end).
  assert (fst (fst step) = root) as S.
  { unfold step. destruct (resolve cwd a); [|reflexivity]. destruct (get_path_files _ _ _ _ _); [|reflexivity].
    now apply process_paths_no_inplace. }
  destruct step as [[root1 es] x]. cbn in S. subst root1. destruct x; [|reflexivity].
  specialize (IH root). destruct (process_sources root cwd ss c o) as [[root2 es2] x2]. exact IH.
Qed.
Lemma main_no_inplace root cwd stdin args :
  (forall a, In a args -> ~ flag_arg "i" "inplace" a) -> fst (fst (main root cwd stdin args)) = root.
Proof.
  intros H. unfold main. rewrite options_of_eq.
  destruct (parse_options_spec (filter dash args)) as (_ & _ & Hi & _).
  destruct (parse_options (filter dash args)) as [c o]. cbn [snd] in Hi.
  assert (inplace o = false) as I.
  { destruct (inplace o); [|reflexivity]. destruct (proj1 Hi eq_refl) as (a & Hin & F).
    apply filter_In in Hin. elim (H a); tauto. }
  destruct (sources_of args) as [|a ss]; [|now apply process_sources_no_inplace].
  destruct stdin as [t|]; [|reflexivity]. destruct (process_buffer t c); reflexivity.
Qed.

(** ** a single path: exact result *)
Lemma no_format_iff c : has_empty_format c = true <-> no_format_option c.
Proof.
  unfold has_empty_format, no_format_option. rewrite !andb_true_iff, !forallb_forall.
  assert (forall A (o : option A), is_none o = true <-> o = None) as K by (intros A []; cbn; split; congruence).
  split.
  - intros [[A B] C]. repeat split; intros k; apply K; auto using in_bopts, in_nopts, in_sopts.
  - intros (A & B & C). repeat split; intros k _; apply K; auto.
Qed.
Lemma process_file_direct root p c t w :
  ~ no_format_option c -> file_at root p = Some (Some t, w) -> process_file root p c = of_outcome (process_buffer t c).
Proof.
  intros N F. unfold process_file. rewrite (proj2 (file_content_at root p t)) by eauto.
  destruct (has_empty_format c) eqn:E; [|reflexivity]. apply no_format_iff in E. tauto.
Qed.
Lemma process_file_missing root p c : (forall t w, file_at root p <> Some (Some t, w)) -> process_file root p c = FReadingError.
Proof.
  intros H. unfold process_file. destruct (file_content root p) as [t|] eqn:E; [|reflexivity].
  apply file_content_at in E. destruct E as (w & E). elim (H _ _ E).
Qed.

Definition formatted_content (c : config) (f : option (option str * bool)) : option (option str * bool) :=
  match f with
  | Some (Some t, true) => match process_buffer t c with Formatted s => Some (Some s, true) | _ => f end
  | _ => f
  end.
Lemma process_path_exact root p c o root' es :
  ~ no_format_option c -> inplace o = true -> process_path root p c o = (root', es, Exited) ->
  forall q, file_at root' q = if path_dec q p then formatted_content c (file_at root p) else file_at root q.
Proof.
  intros N I H q. unfold process_path in H.
  destruct (file_at root p) as [[[t|] w]|] eqn:F.
  - rewrite (process_file_direct _ _ _ _ _ N F) in H. rewrite I in H.
    assert (is_writable root p = w) as Wr.
    { unfold is_writable, file_at in *. destruct (lookup p root) as [[]|]; try discriminate. congruence. }
    rewrite Wr in H. cbn. destruct (process_buffer t c) as [s| | | |]; cbn in H; try discriminate;
      try (injection H as <- <-; destruct w; destruct (path_dec q p) as [->|]; auto).
    destruct w; injection H as <- <-.
    + apply (write_file_at _ _ _ _ _ _ F).
    + destruct (path_dec q p) as [->|]; auto.
  - rewrite (process_file_missing root p c) in H by congruence. injection H as <- <-. cbn.
    destruct (path_dec q p) as [->|]; auto.
  - rewrite (process_file_missing root p c) in H by congruence. injection H as <- <-. cbn.
    destruct (path_dec q p) as [->|]; auto.
Qed.
Lemma process_paths_exact c o ps root root' es :
  ~ no_format_option c -> inplace o = true -> NoDup ps -> process_paths root ps c o = (root', es, Exited) ->
  forall q, file_at root' q = if in_dec path_dec q ps
                              then formatted_content c (file_at root q) else file_at root q.
Proof.
  intros N I. revert root es; induction ps as [|p ps IH]; intros root es ND H q; cbn [process_paths] in H.
  - injection H as <- <-. reflexivity.
  - inversion ND as [|? ? Hn ND']; subst. destruct (process_path root p c o) as [[root1 es1] x] eqn:P.
    destruct x; [|discriminate]. destruct (process_paths root1 ps c o) as [[root2 es2] x2] eqn:Q.
    injection H as -> <- ->. rewrite (IH _ _ ND' Q q). rewrite !(process_path_exact _ _ _ _ _ _ N I P).
    destruct (in_dec path_dec q ps) as [Hin|Hout], (in_dec path_dec q (p :: ps)) as [Hin'|Hout'], (path_dec q p) as [->|Hd];
      try reflexivity; cbn in *; try tauto.
    destruct Hin' as [->|]; tauto.
Qed.
Lemma filter_dash_single opts p : Forall (fun a => dash a = true) opts -> dash p = false ->
  filter dash (opts ++ [p]) = opts /\ filter (fun x => negb (dash x)) (opts ++ [p]) = [p].
Proof.
  intros F D. rewrite !filter_app. cbn. rewrite D. cbn. rewrite app_nil_r. split.
  - induction F as [|a l Ha F IH]; cbn; [reflexivity|]. rewrite Ha. now rewrite IH.
  - induction F as [|a l Ha F IH]; cbn; [reflexivity|]. rewrite Ha. exact IH.
Qed.
Lemma main_exact root cwd stdin opts arg d c :
  wf_entry root -> Forall (fun a => dash a = true) opts -> dash arg = false -> resolve cwd arg = Some d ->
  (exists a, In a opts /\ flag_arg "i" "inplace" a) ->
  fst (parse_options opts) = c -> ~ no_format_option c ->
  ~ not_expandable root (recursive (snd (parse_options opts))) d ->
  let '(root', _, x) := main root cwd stdin (opts ++ [arg]) in
  x = Exited ->
  forall q t w, leads root q (EFile t w) ->
    ((exists u s, selected root (recursive (snd (parse_options opts))) d q /\ w = true /\ t = Some u
                  /\ process_buffer u c = Formatted s /\ leads root' q (EFile (Some s) true))
     \/ ((selected root (recursive (snd (parse_options opts))) d q -> w = true ->
          forall u s, t = Some u -> process_buffer u c <> Formatted s)
         /\ leads root' q (EFile t w))).
Proof.
  intros W Fo Da R Fi Ec N X.
  destruct (main root cwd stdin (opts ++ [arg])) as [[root' es] x] eqn:M. intros -> q t w L.
  unfold main in M. rewrite options_of_eq, sources_of_eq in M.
  destruct (filter_dash_single opts arg Fo Da) as [E1 E2]. rewrite E1, E2 in M. cbn [sort_strs fold_right insert_str] in M.
  destruct (parse_options_spec opts) as (_ & _ & Hi & _).
  destruct (parse_options opts) as [c' o]. cbn [fst snd] in *. subst c'. apply Hi in Fi.
  cbn [process_sources] in M. rewrite R in M.
  pose proof (expansion root (recursive o) d W) as Xp. change cfg_prefix with (s2l ".luafmt") in M.
  destruct (get_path_files root d (recursive o) (s2l "lua") (s2l ".luafmt")) as [ps|]; [|tauto].
  destruct Xp as (ND & Hq & _).
  pose proof (process_paths_formats (fun _ => True) c o ps root W) as Wf.
  destruct (process_paths root ps c o) as [[root1 es1] x1] eqn:P.
  destruct x1; [|discriminate]. injection M as <- <-.
  destruct Wf as [W1 _]; [now apply Forall_forall|].
  pose proof (process_paths_exact _ _ _ _ _ _ N Fi ND P q) as Ex.
  apply (file_at_leads _ _ _ _ W) in L. rewrite L in Ex.
  destruct (in_dec path_dec q ps) as [Hin|Hout].
  - apply Hq in Hin. unfold formatted_content in Ex. destruct t as [u|].
    + destruct w.
      * destruct (process_buffer u c) as [s| | | |] eqn:B;
          try (right; split; [intros _ _ u' s' [= <-]; congruence|apply (file_at_leads _ _ _ _ W1); exact Ex]).
        left. exists u, s. repeat split; auto. apply (file_at_leads _ _ _ _ W1). exact Ex.
      * right. split; [intros _ [=]|]. apply (file_at_leads _ _ _ _ W1). exact Ex.
    + right. split; [intros _ _ u s [=]|]. apply (file_at_leads _ _ _ _ W1). exact Ex.
  - right. split; [|apply (file_at_leads _ _ _ _ W1); exact Ex]. intros Hs. apply Hq in Hs. tauto.
Qed.

(** ** configuration source *)
Lemma config_source root p c t w :
  wf_entry root -> leads root p (EFile (Some t) w) ->
  (~ no_format_option c -> process_file root p c = of_outcome (process_buffer t c))
  /\ (no_format_option c ->
      ((forall d q, above d p -> ~ config_in root d q) -> process_file root p c = FNoConfigureFile)
      /\ ((exists d q, above d p /\ config_in root d q) ->
          exists d q, above d p /\ config_in root d q
            /\ (forall d' q', above d' p -> above d d' -> ~ config_in root d' q')
            /\ forall u w', leads root q (EFile (Some u) w') ->
                 (forall c', reload_format u c = Some c' -> process_file root p c = of_outcome (process_buffer t c'))
                 /\ (reload_format u c = None -> process_file root p c = FInvalidConfigFile))).
Proof.
  intros W L. apply (file_at_leads _ _ _ _ W) in L as F. split.
  - intros N. eapply process_file_direct; eauto.
  - intros N. apply no_format_iff in N.
    pose proof (nearest_config root p W (ex_intro _ _ (ex_intro _ _ L))) as NC.
    unfold process_file. rewrite (proj2 (file_content_at root p t)) by eauto. rewrite N.
    change cfg_prefix with (s2l ".luafmt"). destruct (get_file_config root p (s2l ".luafmt")) as [q|].
    + destruct NC as (d & Ha & Hc & Hn). split.
      * intros K. elim (K d q); auto.
      * intros _. exists d, q. repeat split; auto; intros; apply (file_at_leads _ _ _ _ W) in H as F';
          rewrite (proj2 (file_content_at root q u)) by eauto; rewrite ?H0; reflexivity.
    + split; [reflexivity|]. intros (d & q & Ha & Hc). elim (NC d q); auto.
Qed.

Lemma main_stdin root root' cwd cwd' t args : filter (fun a => negb (dash a)) args = [] ->
  main root cwd (Some t) args =
    (root, match process_buffer t (fst (parse_options (filter dash args))) with
           | Formatted s => [Print s] | ParsingError | FormattingError => [Message] | _ => [] end,
     match process_buffer t (fst (parse_options (filter dash args))) with Panicked | Internal => Aborted | _ => Exited end)
  /\ snd (fst (main root cwd (Some t) args)) = snd (fst (main root' cwd' (Some t) args)).
Proof.
  intros E. unfold main. rewrite options_of_eq, sources_of_eq, E. cbn.
  destruct (parse_options (filter dash args)) as [c o]. cbn.
  destruct (process_buffer t c); auto.
Qed.
