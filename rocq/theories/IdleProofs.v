(** Options that have nothing to act on change nothing. *)
From Verif Require Import Base Lib Config State Ast LuaParser Recon WriterBase LuaWriter Formatter RefuteSpec WidthProofs IdleSpec.

(** equal values but for idle options *)
Definition agree (c c' : config) : Prop :=
  (forall k, cn c' k = cn c k) /\ (forall k, cs c' k = cs c k) /\ (forall k, cb c' k = cb c k \/ idle c k).

(** [c] tabulated, without the options that may be idle *)
Definition nf (c : config) : config :=
  mk_config (line_range c)
    (fun k => match k with
      | B_replace_zero_spaces_with_hint => cb c B_replace_zero_spaces_with_hint
      | B_remove_comments => cb c B_remove_comments
      | B_remove_single_newlines => cb c B_remove_single_newlines
      | B_remove_all_newlines => cb c B_remove_all_newlines
      | B_remove_spaces_between_tokens => cb c B_remove_spaces_between_tokens
      | B_write_newline_at_eof => cb c B_write_newline_at_eof
      | B_write_newline_at_multiline_table => cb c B_write_newline_at_multiline_table
      | B_write_newline_at_explist_multiline_table => cb c B_write_newline_at_explist_multiline_table
      | B_indent_var_suffix => cb c B_indent_var_suffix
      | B_indent_exp_list => cb c B_indent_exp_list
      | B_write_trailing_field_separator => cb c B_write_trailing_field_separator
      | B_convert_charstring_to_normalstring => cb c B_convert_charstring_to_normalstring
      | B_force_single_line_table => cb c B_force_single_line_table
      | _ => None
      end)
    (fun k => match k with
      | N_newline_format_first_oneline_comment => cn c N_newline_format_first_oneline_comment
      | N_newline_format_first_multiline_comment => cn c N_newline_format_first_multiline_comment
      | N_newline_format_oneline_comment => cn c N_newline_format_oneline_comment
      | N_newline_format_multiline_comment => cn c N_newline_format_multiline_comment
      | N_newline_format_statement => cn c N_newline_format_statement
      | N_newline_format_do_end => cn c N_newline_format_do_end
      | N_newline_format_for => cn c N_newline_format_for
      | N_newline_format_function => cn c N_newline_format_function
      | N_newline_format_if => cn c N_newline_format_if
      | N_newline_format_repeat_until => cn c N_newline_format_repeat_until
      | N_newline_format_table_constructor => cn c N_newline_format_table_constructor
      | N_newline_format_table_field => cn c N_newline_format_table_field
      | N_newline_format_while => cn c N_newline_format_while
      | N_newline_format_binary_op => cn c N_newline_format_binary_op
      | N_newline_format_var_suffix => cn c N_newline_format_var_suffix
      | N_newline_format_exp_list => cn c N_newline_format_exp_list
      | N_newline_format_exp_list_first => cn c N_newline_format_exp_list_first
      | N_max_width => cn c N_max_width
      end)
    (fun k => match k with
      | S_hint_after_multiline_comment => cs c S_hint_after_multiline_comment
      | S_hint_after_multiline_comment_text => cs c S_hint_after_multiline_comment_text
      | S_hint_before_comment => cs c S_hint_before_comment
      | S_hint_before_multiline_comment_text => cs c S_hint_before_multiline_comment_text
      | S_hint_before_oneline_comment_text => cs c S_hint_before_oneline_comment_text
      | S_hint_table_constructor => cs c S_hint_table_constructor
      | S_indentation_string => cs c S_indentation_string
      | S_field_separator => cs c S_field_separator
      end).

Section Idle.
  Variables (c c' : config).
  Hypothesis A : agree c c'.
  Hypothesis Er : line_range c' = line_range c.
  Lemma cb_eq k : ~ idle c k -> cb c' k = cb c k.
  Proof. intros H. destruct A as (_ & _ & B). destruct (B k); [assumption|contradiction]. Qed.
  Lemma nf_eq : nf c' = nf c.
  Proof.
    destruct A as (N1 & S1 & _). unfold nf. rewrite Er, !N1, !S1.
    rewrite (cb_eq B_replace_zero_spaces_with_hint), (cb_eq B_remove_comments), (cb_eq B_remove_single_newlines), (cb_eq B_remove_all_newlines),
      (cb_eq B_remove_spaces_between_tokens), (cb_eq B_write_newline_at_eof), (cb_eq B_write_newline_at_multiline_table),
      (cb_eq B_write_newline_at_explist_multiline_table), (cb_eq B_indent_var_suffix), (cb_eq B_indent_exp_list),
      (cb_eq B_write_trailing_field_separator), (cb_eq B_convert_charstring_to_normalstring), (cb_eq B_force_single_line_table); [reflexivity|exact (fun x => x)..].
  Qed.
  (** what reads none of the other options is the same *)
  Ltac via f := change (f c' = f c); transitivity (f (nf c')); [reflexivity|]; rewrite nf_eq; reflexivity.
  Lemma on_eq k : ~ idle c k -> on c' k = on c k.
  Proof. intros H. unfold on. now rewrite cb_eq. Qed.
  Lemma nsome_eq k : nsome c' k = nsome c k.
  Proof. unfold nsome. now rewrite (proj1 A). Qed.
  Lemma nis_eq k v : nis c' k v = nis c k v.
  Proof. unfold nis. now rewrite (proj1 A). Qed.
  Lemma H_eq src : H c' src = H c src.
  Proof. via (fun d => H d src). Qed.
  Lemma nl_eq : if_newline c' = if_newline c.
  Proof. via (fun d => if_newline d). Qed.
  Lemma clause_eq n : clause_of c' n = clause_of c n.
  Proof. via (fun d => clause_of d n). Qed.
  Lemma list_need_eq n : list_need_newlines c' n = list_need_newlines c n.
  Proof. via (fun d => list_need_newlines d n). Qed.
  Lemma sep_need_eq n : sep_need_newlines c' n = sep_need_newlines c n.
  Proof. via (fun d => sep_need_newlines d n). Qed.
  Lemma separator_eq n : separator c' n = separator c n.
  Proof. via (fun d => separator d n). Qed.
  Lemma trailing_eq n : trailing_separator c' n = trailing_separator c n.
  Proof. via (fun d => trailing_separator d n). Qed.
  Lemma table_hint_eq : table_hint c' = table_hint c.
  Proof. via (fun d => table_hint d). Qed.
  Lemma recon_same n s : reconstruct c' n s = reconstruct c n s.
  Proof. via (fun d => reconstruct d n s). Qed.
  Lemma list_eq {T} src (LH : loc -> hinted) (W : T -> M unit) b f g ph l : write_list c' src LH W b f g ph l = write_list c src LH W b f g ph l.
  Proof. via (fun d => write_list d src LH W b f g ph l). Qed.
  Lemma seps_eq {T} src (LH : loc -> hinted) (W : T -> M unit) b f g sep t e l : write_seps c' src LH W b f g sep t e l = write_seps c src LH W b f g sep t e l.
  Proof. via (fun d => write_seps d src LH W b f g sep t e l). Qed.
  Lemma fits_eq n : fits_twice c' n = fits_twice c n.
  Proof. via (fun d => fits_twice d n). Qed.
  Lemma test_eq ms : test_oneline c' ms = test_oneline c ms.
  Proof. via (fun d => test_oneline d ms). Qed.
  Lemma test_no_nl_eq ms : test_oneline_no_nl c' ms = test_oneline_no_nl c ms.
  Proof. via (fun d => test_oneline_no_nl d ms). Qed.

  (** ** tests *)
  Lemma all_weq ms ks : Forall2 weq ms ks -> forall b w, run_all ms b w = run_all ks b w.
  Proof.
    induction 1 as [|m k ms ks Hm _ IH]; intros b w; [reflexivity|]. cbn [run_all]. rewrite (Hm w). destruct (k w) as [[] w']; auto.
  Qed.
  Lemma test_weq d ms ks : Forall2 weq ms ks -> weq (test_oneline d ms) (test_oneline d ks).
  Proof. intros H w. unfold test_oneline. now rewrite (all_weq _ _ H). Qed.
  Lemma test_no_nl_weq d ms ks : Forall2 weq ms ks -> weq (test_oneline_no_nl d ms) (test_oneline_no_nl d ks).
  Proof. intros H. apply weq_bind; [now apply test_weq|]. intros. apply weq_refl. Qed.
  Lemma isnone_weq {T} (m k : M (option T)) : weq m k -> weq (isnone m) (isnone k).
  Proof. intros H. apply weq_bind; [exact H|]. intros. apply weq_refl. Qed.
  Lemma issome_weq {T} (m k : M (option T)) : weq m k -> weq (issome m) (issome k).
  Proof. intros H. apply weq_bind; [exact H|]. intros. apply weq_refl. Qed.

  Section Body.
    Variables (src : str) (W1 W2 : config -> node -> M unit).
    Hypothesis HW : forall d d', agree d d' -> line_range d' = line_range d -> forall n, weq (W1 d' n) (W2 d n).
    Lemma now n : weq (W1 c' n) (W2 c n).
    Proof. apply HW; [exact A|exact Er]. Qed.
    Lemma one n : Forall2 weq [W1 c' n] [W2 c n].
    Proof. constructor; [apply now|constructor]. Qed.
    Lemma item_same n x : weq (run_item c' src W1 n x) (run_item c src W2 n x).
    Proof.
      induction x as [s|i|i h|b i h|i|o| | | |b y IH]; cbn [run_item]; rewrite ?H_eq, ?nl_eq; try apply weq_refl; [apply now|destruct b; [exact IH|apply weq_refl]].
    Qed.
    Lemma items_same n l : weq (run_items c' src W1 n l) (run_items c src W2 n l).
    Proof. induction l as [|x l IH]; [apply weq_refl|]. cbn [run_items]. apply weq_bind; [apply item_same|]. intros _. exact IH. Qed.
    Lemma suffix_same x : weq (suffix_newline c' src W1 x) (suffix_newline c src W2 x).
    Proof.
      assert (P : weq (isnone (test_oneline c' [W1 c' x])) (isnone (test_oneline c [W2 c x]))) by (rewrite test_eq; apply isnone_weq, test_weq, one).
      assert (Q : weq (isnone (test_oneline c' [emit (s2l ":"); H c' src (nloc x 0) []; W1 c' (kid x 0)])) (isnone (test_oneline c [emit (s2l ":"); H c src (nloc x 0) []; W2 c (kid x 0)]))).
      { rewrite test_eq, H_eq. apply isnone_weq, test_weq. constructor; [apply weq_refl|]. constructor; [apply weq_refl|]. apply one. }
      unfold suffix_newline. destruct (n_kind x); try apply weq_refl; rewrite !nsome_eq.
      all: destruct (nsome c N_newline_format_var_suffix) eqn:E1; [|apply weq_refl]; cbn [negb].
      all: rewrite on_eq by (unfold idle, nsome in *; intros E; rewrite E in E1; discriminate).
      all: destruct (on c B_force_single_line_var_suffix); [|apply weq_refl].
      - exact P.
      - destruct (n_kind (kid x 1)); auto. destruct (nsome c N_newline_format_exp_list_first); auto.
    Qed.
    Lemma field_same x : weq (test_oneline_table_field c' W1 x) (test_oneline_table_field c W2 x).
    Proof.
      unfold test_oneline_table_field. rewrite !nsome_eq, fits_eq, test_no_nl_eq. destruct (n_kind x); try apply weq_refl; (destruct (_ && _); [apply test_no_nl_weq, one|apply weq_refl]).
    Qed.
    Lemma exp_on : nis c N_newline_format_exp_list 1 = true \/ nis c N_newline_format_exp_list_first 1 = true -> on c' B_force_single_line_exp_list = on c B_force_single_line_exp_list.
    Proof.
      intros E. apply on_eq. cbn [idle]. unfold nis in E. intros [I1 I2]. destruct E as [E|E].
      - destruct (cn c N_newline_format_exp_list) as [x|]; [|discriminate]. apply N.eqb_eq in E. congruence.
      - destruct (cn c N_newline_format_exp_list_first) as [x|]; [|discriminate]. apply N.eqb_eq in E. congruence.
    Qed.
    Lemma need_same m x y : weq (need_newline c' src W1 m x y) (need_newline c src W2 m x y).
    Proof.
      unfold need_newline. destruct (n_kind m); rewrite ?nsome_eq, ?nis_eq; try apply weq_refl; [| |apply suffix_same].
      - destruct (nsome c N_newline_format_table_field) eqn:E1; [|apply weq_refl]. cbn [negb].
        rewrite (on_eq B_force_single_line_table) by exact (fun x => x).
        rewrite (on_eq B_force_single_line_iv_table_field), (on_eq B_force_single_line_kv_table_field) by (unfold idle, nsome in *; intros E; rewrite E in E1; discriminate).
        destruct (_ && _); [|destruct (_ && _); [apply isnone_weq, field_same|apply weq_refl]].
        destruct (_ && _); [|apply weq_refl]. rewrite test_no_nl_eq. pose proof (test_no_nl_weq c _ _ (one y)) as T. destruct (is_kind _ _); [|now apply isnone_weq].
        apply weq_bind; [apply weq_refl|]. intros []; [apply weq_refl|now apply issome_weq].
      - rewrite (on_eq B_write_newline_at_explist_multiline_table), (cb_eq B_write_newline_at_multiline_table) by exact (fun x => x).
        destruct (_ && _); [apply weq_refl|]. destruct (nis c N_newline_format_exp_list 1) eqn:E1; [|apply weq_refl]. rewrite exp_on, test_eq by auto.
        destruct (on c B_force_single_line_exp_list); [apply isnone_weq, test_weq, one|apply weq_refl].
    Qed.
    Lemma first_same m x : weq (need_first_newline c' src W1 m x) (need_first_newline c src W2 m x).
    Proof.
      unfold need_first_newline. destruct (n_kind m); rewrite ?nsome_eq, ?nis_eq; try apply weq_refl; [| |apply suffix_same].
      - destruct (nsome c N_newline_format_table_field) eqn:E1; [|apply weq_refl]. cbn [negb].
        rewrite (on_eq B_force_single_line_table) by exact (fun x => x).
        rewrite (on_eq B_force_single_line_iv_table_field), (on_eq B_force_single_line_kv_table_field) by (unfold idle, nsome in *; intros E; rewrite E in E1; discriminate).
        destruct (_ && _); [apply weq_refl|]. destruct (_ || _); [apply isnone_weq, field_same|apply weq_refl].
      - destruct (nis c N_newline_format_exp_list_first 1) eqn:E1; [|apply weq_refl]. rewrite exp_on, test_eq by auto.
        destruct (on c B_force_single_line_exp_list); [apply isnone_weq, test_weq, one|apply weq_refl].
    Qed.
    Lemma lua_list_same n : weq (lua_list c' src W1 n) (lua_list c src W2 n).
    Proof.
      unfold lua_list. rewrite list_eq, list_need_eq, H_eq.
      exact (list_weq c src (H c src) (W1 c') (W2 c) _ _ _ _ _ (fun _ => True) (fun x _ => now x) (fun x _ => first_same n x) (fun x y _ => need_same n x y) list_prefix_hint (n_items n) (fun _ _ => Logic.I)).
    Qed.
    Lemma lua_seps_same n : weq (lua_seps c' src W1 n) (lua_seps c src W2 n).
    Proof.
      unfold lua_seps. rewrite seps_eq, sep_need_eq, separator_eq, trailing_eq, H_eq.
      exact (seps_weq c src (H c src) (W1 c') (W2 c) _ _ _ _ _ (fun _ => True) (fun x _ => now x) (fun x _ => first_same n x) (fun x y _ => need_same n x y) (separator c n) (trailing_separator c n) (elem_prefix_hint n) (n_seps n) (fun _ _ => Logic.I)).
    Qed.
    Lemma refined a b : ~ idle c a -> (on c a = true -> ~ idle c b) -> forall T (x y z : T), (if on c' a then if on c' b then x else y else z) = (if on c a then if on c b then x else y else z).
    Proof. intros Ha Hb T x y z. rewrite (on_eq a Ha). destruct (on c a); [|reflexivity]. now rewrite (on_eq b (Hb eq_refl)). Qed.
    Lemma exp_refined : on c B_indent_exp_list = true -> ~ idle c B_indent_one_line_exp_list.
    Proof. intros E I. apply I. exact (on_true c _ E). Qed.
    Lemma suffix_refined : on c B_indent_var_suffix = true -> ~ idle c B_indent_one_line_var_suffix.
    Proof. intros E I. apply I. exact (on_true c _ E). Qed.
    Lemma indent_same n l h : weq (test_indent c' src W1 n l h) (test_indent c src W2 n l h).
    Proof.
      unfold test_indent. rewrite H_eq, nsome_eq. destruct (n_kind n); try apply weq_refl.
      - destruct (n_seps n); [apply weq_refl|]. apply weq_copy, weq_bind; [apply weq_refl|]. intros _. apply lua_seps_same.
      - rewrite (refined B_indent_exp_list B_indent_one_line_exp_list (fun x => x) exp_refined).
        assert (E : on c' B_indent_exp_list && on c' B_indent_one_line_exp_list = on c B_indent_exp_list && on c B_indent_one_line_exp_list).
        { rewrite (on_eq B_indent_exp_list) by exact (fun x => x). destruct (on c B_indent_exp_list) eqn:E; [|reflexivity]. now rewrite (on_eq _ (exp_refined E)). }
        rewrite E.
        assert (B : weq (on_copy (H c src l h ;;; (if on c B_indent_exp_list then if on c B_indent_one_line_exp_list then ret true else lua_seps c' src W1 n else ret false)))
                        (on_copy (H c src l h ;;; (if on c B_indent_exp_list then if on c B_indent_one_line_exp_list then ret true else lua_seps c src W2 n else ret false)))).
        { apply weq_copy, weq_bind; [apply weq_refl|]. intros _. destruct (on c B_indent_exp_list); [|apply weq_refl]. destruct (on c B_indent_one_line_exp_list); [apply weq_refl|apply lua_seps_same]. }
        destruct (n_seps n) as [|? [|]]; [apply weq_refl| |exact B]. destruct (negb _); [apply weq_refl|exact B].
      - destruct (n_items n); [apply weq_refl|]. apply weq_copy, weq_bind; [apply weq_refl|]. intros _.
        rewrite (refined B_indent_var_suffix B_indent_one_line_var_suffix (fun x => x) suffix_refined).
        destruct (on c B_indent_var_suffix); [|apply weq_refl]. destruct (on c B_indent_one_line_var_suffix); [apply weq_refl|apply lua_list_same].
    Qed.
    Lemma range_same n m k : weq m k -> weq (range_or c' src W1 n m) (range_or c src W2 n k).
    Proof.
      intros Q. unfold range_or. apply weq_bind; [apply weq_refl|]. intros s. destruct (test_out_of_range _ _); [apply weq_refl|]. destruct (raw_items n); [|exact Q].
      destruct (test_not_completely_contained _ _); [apply items_same|exact Q].
    Qed.
    Lemma clause_same n : weq (run_clause c' src W1 n (clause_of c' n)) (run_clause c src W2 n (clause_of c n)).
    Proof.
      rewrite clause_eq. unfold run_clause. apply weq_bind; [apply items_same|]. intros _. apply weq_bind; [|intros; apply items_same].
      destruct (cl_test _) as [[[]]|]; [apply indent_same|apply weq_refl].
    Qed.
    (** *** the same trials on one line *)
    Definition trials (t t' : option config) : Prop :=
      t = None /\ t' = None \/ exists d d', t = Some d /\ t' = Some d' /\ agree d d' /\ line_range d' = line_range d.
    Lemma agree_n k : agree (set_n k None c) (set_n k None c').
    Proof.
      destruct A as (N1 & S1 & B1). split; [|split].
      - intros j. cbn. destruct (nopt_beq j k); auto.
      - intros j. exact (S1 j).
      - intros j. destruct (B1 j) as [E|I]; [left; exact E|]. right. destruct j; try exact (False_ind _ I); try exact I; cbn -[nopt_beq] in *; repeat match goal with |- context [nopt_beq ?x k] => destruct (nopt_beq x k) end; intuition (try discriminate).
    Qed.
    Lemma table_trials n : trials (oneline_table_cfg c n) (oneline_table_cfg c' n).
    Proof.
      unfold oneline_table_cfg. rewrite !nsome_eq, fits_eq, (on_eq B_force_single_line_table) by exact (fun x => x). destruct (_ && _); [right|left; auto]. do 2 eexists. split; [reflexivity|].
      split; [reflexivity|]. split; [|exact Er]. destruct A as (N1 & S1 & B1). split; [|split].
      - intros j. cbn. rewrite N1. reflexivity.
      - intros j. exact (S1 j).
      - intros j. destruct (B1 j) as [E|I]; [left; cbn; rewrite E; reflexivity|]. right. destruct j; try exact (False_ind _ I); cbn in *; tauto.
    Qed.
    Lemma if_trials n : trials (oneline_if_cfg c n) (oneline_if_cfg c' n).
    Proof.
      unfold oneline_if_cfg. rewrite !nsome_eq, fits_eq. unfold nsome at 1 2 3 4.
      destruct (cn c N_max_width) as [mw|] eqn:E1; [|left; cbn; rewrite andb_false_r; auto]. destruct (cn c N_newline_format_if) as [v|] eqn:E2; [|left; cbn; rewrite !andb_false_r; auto].
      rewrite (on_eq B_force_single_line_if) by (cbn; intros [I|I]; congruence).
      destruct (_ && _); [right|left; auto]. do 2 eexists. split; [reflexivity|]. split; [reflexivity|]. split; [apply agree_n|exact Er].
    Qed.
    Lemma function_trials s n : trials (oneline_function_cfg c s n) (oneline_function_cfg c' s n).
    Proof.
      unfold oneline_function_cfg. rewrite !nsome_eq, fits_eq. unfold nsome at 1 2 3 4.
      destruct (cn c N_max_width) as [mw|] eqn:E1; [|left; cbn; rewrite andb_false_r; auto]. destruct (cn c N_newline_format_function) as [v|] eqn:E2; [|left; cbn; rewrite !andb_false_r; auto].
      rewrite (on_eq B_force_single_line_top_level_function), (on_eq B_force_single_line_scoped_function) by (cbn; intros [I|I]; congruence).
      destruct (_ && _); [right|left; auto]. do 2 eexists. split; [reflexivity|]. split; [reflexivity|]. split; [apply agree_n|exact Er].
    Qed.
    Lemma oneline_same t t' n done m k : trials t t' -> weq m k -> weq (oneline_or W1 t' n done m) (oneline_or W2 t n done k).
    Proof.
      intros [[-> ->]|(d & d' & -> & -> & D & Rd)] Q; [exact Q|]. cbn [oneline_or]. apply weq_bind.
      - assert (E : forall ms, test_oneline_no_nl d' ms = test_oneline_no_nl d ms).
        { intros ms. unfold test_oneline_no_nl, test_oneline. now rewrite (proj1 D). }
        rewrite E. apply test_no_nl_weq. constructor; [now apply HW|constructor].
      - intros [line|]; [apply weq_refl|exact Q].
    Qed.
    Lemma table_same n : weq (write_table c' src W1 n) (write_table c src W2 n).
    Proof.
      unfold write_table. apply oneline_same; [apply table_trials|].
      rewrite H_eq, nl_eq, table_hint_eq, (on_eq B_write_newline_at_multiline_table), (on_eq B_force_single_line_table) by exact (fun x => x).
      apply weq_bind; [apply weq_refl|]. intros one. apply weq_bind; [apply weq_refl|]. intros _. apply weq_bind; [apply items_same|]. intros _.
      apply weq_bind; [destruct (_ && _); [apply indent_same|apply weq_refl]|]. intros ind. apply weq_bind; [apply weq_refl|]. intros _.
      apply weq_bind; [apply items_same|]. intros _. apply weq_bind; [apply weq_refl|]. intros f. rewrite nis_eq, (proj1 A). apply items_same.
    Qed.
    Lemma binary_same n : weq (write_binary c' src W1 n) (write_binary c src W2 n).
    Proof.
      unfold write_binary. apply weq_bind; [apply items_same|]. intros _. rewrite !nis_eq, H_eq, test_eq.
      apply weq_bind; [|intros; apply items_same]. destruct (nis c N_newline_format_binary_op 1 || nis c N_newline_format_binary_op 2) eqn:E; [|apply weq_refl]. cbn [andb].
      rewrite on_eq.
      - destruct (on c B_force_single_line_binary_op); [|apply weq_refl]. apply issome_weq, test_weq. constructor; [apply weq_refl|]. constructor; [apply weq_refl|].
        constructor; [apply weq_refl|]. apply one.
      - cbn [idle]. unfold nis in E. intros [I1 I2]. destruct (cn c N_newline_format_binary_op) as [x|]; [|discriminate].
        apply orb_true_iff in E as [E|E]; apply N.eqb_eq in E; congruence.
    Qed.
    Lemma body_same n : weq (write_body c' src W1 n) (write_body c src W2 n).
    Proof.
      assert (B : weq (range_or c' src W1 n (s <- get_st ;; oneline_or W1 (match oneline_if_cfg c' n with Some d => Some d | None => oneline_function_cfg c' s n end) n (ret tt) (run_clause c' src W1 n (clause_of c' n))))
                      (range_or c src W2 n (s <- get_st ;; oneline_or W2 (match oneline_if_cfg c n with Some d => Some d | None => oneline_function_cfg c s n end) n (ret tt) (run_clause c src W2 n (clause_of c n))))).
      { apply range_same, weq_bind; [apply weq_refl|]. intros s. apply oneline_same; [|apply clause_same].
        destruct (if_trials n) as [[-> ->]|(d & d' & E1 & E2 & D)]; [apply function_trials|]. rewrite E1, E2. right. exists d, d'. auto. }
      assert (S : weq (range_or c' src W1 n (lua_seps c' src W1 n ;;; ret tt)) (range_or c src W2 n (lua_seps c src W2 n ;;; ret tt))).
      { apply range_same, weq_bind; [apply lua_seps_same|]. intros _. apply weq_refl. }
      assert (L : weq (range_or c' src W1 n (lua_list c' src W1 n ;;; ret tt)) (range_or c src W2 n (lua_list c src W2 n ;;; ret tt))).
      { apply range_same, weq_bind; [apply lua_list_same|]. intros _. apply weq_refl. }
      unfold write_body. destruct (n_kind n); try exact B; try exact S; try exact L; try apply clause_same; try apply weq_refl.
      - apply range_same, binary_same.
      - apply range_same, table_same.
      - apply range_same. unfold write_empty_table. rewrite H_eq, table_hint_eq. apply weq_bind; [apply weq_refl|]. intros t. apply items_same.
      - apply range_same, weq_bind; [apply lua_seps_same|]. intros _. apply items_same.
    Qed.
  End Body.
End Idle.
Lemma write_same src fuel : forall c c', agree c c' -> line_range c' = line_range c -> forall n, weq (write fuel src c' n) (write fuel src c n).
Proof. induction fuel as [|k IH]; intros c c' A Er n; [apply weq_refl|]. cbn [write]. apply body_same; [exact A|exact Er|exact IH]. Qed.
Theorem idle_unused src c c' : line_range c' = line_range c -> (forall k, cn c' k = cn c k) -> (forall k, cs c' k = cs c k) ->
  (forall k, cb c' k = cb c k \/ idle c k) -> process_buffer src c' = process_buffer src c.
Proof.
  intros Er N1 S1 B1. assert (A : agree c c') by (split; [exact N1|split; [exact S1|exact B1]]). unfold process_buffer. destruct (parse_lua src); [|reflexivity..].
  rewrite Er, (recon_same c c' A Er). destruct (reconstruct c _ _) as [t pr]. now rewrite (write_same src _ c c' A Er).
Qed.

(** With what the option refines it makes a difference. *)
Definition acting : list (bopt * list string) :=
  [ (B_force_single_line_binary_op, ["--newline_format_binary_op=1"; "--max_width=60"]);
    (B_force_single_line_binary_op, ["--newline_format_binary_op=2"; "--max_width=60"]);
    (B_force_single_line_exp_list, ["--newline_format_exp_list=1"; "--max_width=60"]);
    (B_force_single_line_exp_list, ["--newline_format_exp_list_first=1"; "--max_width=60"]);
    (B_force_single_line_var_suffix, ["--newline_format_var_suffix=7"; "--max_width=60"]);
    (B_force_single_line_iv_table_field, ["--newline_format_table_field=7"; "--max_width=60"]);
    (B_force_single_line_kv_table_field, ["--newline_format_table_field=7"; "--max_width=60"]);
    (B_force_single_line_if, ["--newline_format_if=1"; "--max_width=60"]);
    (B_force_single_line_top_level_function, ["--newline_format_function=1"; "--max_width=60"]);
    (B_force_single_line_scoped_function, ["--newline_format_function=1"; "--max_width=60"]);
    (B_indent_one_line_var_suffix, ["--indent_var_suffix=true"; "--newline_format_function=1"; "--indentation_string=  "]);
    (B_indent_one_line_exp_list, ["--indent_exp_list=true"; "--newline_format_function=1"; "--indentation_string=  "]) ]%string.
Ltac differs t := exists (s2l t); do 2 eexists; split; [vm_compute; reflexivity|]; split; [vm_compute; reflexivity|]; discriminate.
Ltac acts := let I := fresh in intros I; vm_compute in I; intuition discriminate.
Lemma idle_used : forall k l, In (k, l) acting -> let c := with_options l in
  ~ idle c k /\ exists src o1 o2, process_buffer src (set_b k (Some true) c) = Formatted o1 /\ process_buffer src c = Formatted o2 /\ o1 <> o2.
Proof.
  intros k l Hl. repeat (destruct Hl as [[= <- <-]|Hl]; [cbv zeta; split; [acts|]|]); [..|destruct Hl].
  - differs "x=1+2"%string.
  - differs "x=1+2"%string.
  - differs "f(1,2)"%string.
  - differs "f(1,2)"%string.
  - differs "a.b.c=1"%string.
  - differs "x={1,2}"%string.
  - differs "x={a=1,b=2}"%string.
  - differs "if a then b() end"%string.
  - differs "function f() g() end"%string.
  - differs "x={function() g() end}"%string.
  - differs "a.b(function() g() end)"%string.
  - differs "f(function() g() end)"%string.
Qed.
Lemma table_option_used : exists src o1 o2, process_buffer src (set_b B_force_single_line_table (Some true) default_config) = Formatted o1
  /\ process_buffer src default_config = Formatted o2 /\ o1 <> o2.
Proof. differs "x={1,}"%string. Qed.
