(** What the writer has written it does not take back, except one trailing blank. *)
From Verif Require Import Base Lib Config State Ast CommentParser WriterBase LuaWriter.

Definition starts (p f : str) : Prop := exists x, f = p ++ x.
(** [p] does not end with a blank or a tab *)
Definition firm (p : str) : Prop := match lastc p with Some c => is_sp_tab c = false | None => True end.

Lemma starts_app p f s : starts p f -> starts p (f ++ s).
Proof. intros [x ->]. exists (x ++ s). now rewrite app_assoc. Qed.
Lemma starts_refl p : starts p p.
Proof. exists []. now rewrite app_nil_r. Qed.
Lemma pop_snoc f a : pop_blank (f ++ [a]) = f ++ [a] \/ (is_sp_tab a = true /\ pop_blank (f ++ [a]) = f).
Proof.
  unfold pop_blank. destruct (1 <? blen (f ++ [a])); [|auto]. rewrite rev_app_distr. cbn [rev app].
  destruct (is_sp_tab a) eqn:E; [|auto]. rewrite rev_involutive. auto.
Qed.
Lemma starts_pop p f : firm p -> starts p f -> starts p (pop_blank f).
Proof.
  intros Hp [x ->]. destruct (rev x) as [|a r] eqn:E.
  - apply (f_equal (@rev _)) in E. rewrite rev_involutive in E. cbn in E. subst x. rewrite app_nil_r.
    destruct (rev p) as [|b q] eqn:F.
    + apply (f_equal (@rev _)) in F. rewrite rev_involutive in F. cbn in F. subst p. exists []. reflexivity.
    + apply (f_equal (@rev _)) in F. rewrite rev_involutive in F. cbn in F. subst p.
      destruct (pop_snoc (rev q) b) as [->|[Hb _]]; [apply starts_refl|]. unfold firm in Hp. unfold lastc in Hp.
      rewrite rev_app_distr in Hp. cbn in Hp. congruence.
  - apply (f_equal (@rev _)) in E. rewrite rev_involutive in E. cbn in E. subst x. rewrite app_assoc.
    destruct (pop_snoc (p ++ rev r) a) as [->|[_ ->]]; [rewrite <- app_assoc|]; eexists; reflexivity.
Qed.

Section Keep.
  Variable p : str.
  Hypothesis Hp : firm p.
  Definition keeps {A} (m : M A) : Prop := forall w a w', m w = (ROk a, w') -> starts p (w_f w) -> starts p (w_f w').
  Definition quiet {A} (m : M A) : Prop := forall w a w', m w = (ROk a, w') -> w_f w' = w_f w.

  Lemma k_quiet {A} (m : M A) : quiet m -> keeps m.
  Proof. intros H w a w' E. now rewrite (H _ _ _ E). Qed.
  Lemma q_ret {A} (a : A) : quiet (ret a).
  Proof. intros w b w' [= _ <-]. reflexivity. Qed.
  Lemma q_bind {A B} (m : M A) (f : A -> M B) : quiet m -> (forall a, quiet (f a)) -> quiet (bind m f).
  Proof.
    intros Hm Hf w b w'. unfold bind. destruct (m w) as [[a| | |] w1] eqn:E; try discriminate.
    intros E2. rewrite (Hf _ _ _ _ E2). eapply Hm; eauto.
  Qed.
  Lemma k_bind {A B} (m : M A) (f : A -> M B) : keeps m -> (forall a, keeps (f a)) -> keeps (bind m f).
  Proof.
    intros Hm Hf w b w'. unfold bind. destruct (m w) as [[a| | |] w1] eqn:E; try discriminate.
    intros E2 S. eapply Hf; eauto.
  Qed.
  Lemma k_ret {A} (a : A) : keeps (ret a). Proof. apply k_quiet, q_ret. Qed.
  Lemma k_fail {A} (m : M A) : (forall w, match m w with (ROk _, _) => False | _ => True end) -> keeps m.
  Proof. intros H w a w' E. specialize (H w). rewrite E in H. contradiction. Qed.
  Lemma k_emit s : keeps (emit s).
  Proof. intros w a w' [= _ <-]. apply starts_app. Qed.
  Lemma k_emit_opt o : keeps (emit_opt o).
  Proof. destruct o; [apply k_emit|now apply k_fail]. Qed.
  Lemma q_get_st : quiet get_st. Proof. now intros w a w' [= _ <-]. Qed.
  Lemma q_get_f : quiet get_f. Proof. now intros w a w' [= _ <-]. Qed.
  Lemma q_put_st s : quiet (put_st s). Proof. now intros w a w' [= _ <-]. Qed.
  Lemma q_buffer s m : quiet (in_buffer s m).
  Proof. intros w a w'. unfold in_buffer. destruct (m _) as [[?| | |] w1]; try discriminate. now intros [= _ <-]. Qed.
  Lemma q_test c ms : quiet (test_oneline c ms).
  Proof.
    intros w a w'. unfold test_oneline. destruct (run_all _ _ _) as [[[]| | |] w1]; try discriminate; [now intros [= _ <-]|].
    destruct (cn c N_max_width); [|discriminate]. now intros [= _ <-].
  Qed.
  Lemma q_test_no_nl c ms : quiet (test_oneline_no_nl c ms).
  Proof. apply q_bind; [apply q_test|]. intros. apply q_ret. Qed.
  Lemma q_copy m : quiet (on_copy m).
  Proof. intros w a w'. unfold on_copy. destruct (m w) as [[?| | |] w1]; try discriminate; now intros [= _ <-]. Qed.
  Lemma q_isnone {A} (m : M (option A)) : quiet m -> quiet (isnone m).
  Proof. intros H. apply q_bind; [exact H|]. intros. apply q_ret. Qed.
  Lemma q_issome {A} (m : M (option A)) : quiet m -> quiet (issome m).
  Proof. intros H. apply q_bind; [exact H|]. intros. apply q_ret. Qed.
  Lemma q_get_oneline n : quiet (get_oneline n). Proof. now intros w a w' [= _ <-]. Qed.
  Lemma q_set_oneline n : quiet (set_oneline n). Proof. now intros w a w' [= _ <-]. Qed.
  Lemma q_get_indent n : quiet (get_indent n). Proof. now intros w a w' [= _ <-]. Qed.
  Lemma q_set_indent n b : quiet (set_indent_cell n b). Proof. now intros w a w' [= _ <-]. Qed.
  Lemma k_loc buf l : keeps (write_loc buf l).
  Proof. apply k_bind; [apply k_quiet, q_get_st|]. intros. apply k_emit_opt. Qed.
  Lemma k_if_newline c b (H : hinted) h : keeps (H h) -> keeps (if_newline c b H h).
  Proof.
    intros Hh. unfold if_newline. destruct b; [|exact Hh]. cbn [negb]. apply k_bind; [apply k_quiet, q_buffer|]. intros t.
    apply k_bind; [|intros; apply k_bind; [apply k_quiet, q_get_st|intros; apply k_emit]].
    destruct (negb _).
    - apply k_bind; [apply k_emit|]. intros. destruct (ends_nl _); [apply k_ret|apply k_emit].
    - intros w a w' [= _ <-] S. cbn [set_f w_f]. apply (starts_pop _ _ Hp) in S.
      destruct (ends_nl _); [exact S|now apply starts_app].
  Qed.
  Lemma k_hint c buf l h : keeps (comment_hint c buf l h).
  Proof.
    apply k_bind; [apply k_quiet, q_get_st|]. intros s. destruct (test_out_of_range _ _); [apply k_emit_opt|].
    destruct (substr l buf s 0); [|now apply k_fail]. apply k_bind; [apply k_quiet, q_put_st|]. intros _.
    destruct (parse_comment _); [|now apply k_fail]. apply k_bind; [apply k_quiet, q_get_f|]. intros f.
    apply k_bind; [apply k_quiet, q_buffer|]. intros b. destruct (bslice _ _ _); [apply k_emit|now apply k_fail].
  Qed.

  Section Lists.
    Context {node : Type}.
    Variables (c : config) (buf : str) (W : node -> M unit) (nn : bool) (first_nl : node -> M bool)
      (nl : node -> node -> M bool) (ph : node -> str).
    Hypothesis HW : forall x, keeps (W x).
    Hypothesis Hf : forall x, quiet (first_nl x).
    Hypothesis Hn : forall x y, quiet (nl x y).
    Lemma q_lazy b m : quiet m -> quiet (lazy_and b m).
    Proof. destruct b; [auto|]. intros _. apply q_ret. Qed.
    Lemma k_gap p0 h b x y : keeps (s <- get_st ;;
      (if test_out_of_range (pos_range s) p0 then write_loc buf p0 ;;; ret (b : bool)
       else b' <- lazy_and nn (nl x y) ;; if_newline c b' (comment_hint c buf p0) h ;;; ret (b || b'))).
    Proof.
      apply k_bind; [apply k_quiet, q_get_st|]. intros s. destruct (test_out_of_range _ _).
      - apply k_bind; [apply k_loc|]. intros. apply k_ret.
      - apply k_bind; [apply k_quiet, q_lazy, Hn|]. intros b'. apply k_bind; [apply k_if_newline, k_hint|]. intros. apply k_ret.
    Qed.
    Lemma k_list_rest l : forall b prev, keeps (write_list_rest c buf (comment_hint c buf) W nn nl ph b prev l).
    Proof.
      induction l as [|[q x] l IH]; intros b prev; [apply k_ret|]. cbn [write_list_rest].
      intros w a w' E. refine (k_bind (s <- get_st ;; _) (fun i => W x ;;; write_list_rest c buf (comment_hint c buf) W nn nl ph i x l) (k_gap q (ph x) b prev x) _ w a w' E).
      intros i. apply k_bind; [apply HW|]. intros _. apply IH.
    Qed.
    Lemma k_list l : keeps (write_list c buf (comment_hint c buf) W nn first_nl nl ph l).
    Proof.
      destruct l as [|[q x] l]; [apply k_ret|]. cbn [write_list]. apply k_bind; [apply k_quiet, q_lazy, Hf|]. intros b.
      apply k_bind; [apply k_if_newline, k_hint|]. intros _. apply k_bind; [apply HW|]. intros _. apply k_list_rest.
    Qed.
    Variables (sep : option str) (trailing : M (option bool)) (eh : str).
    Hypothesis Ht : quiet trailing.
    Lemma k_seps_rest l : forall b prev z, keeps (write_seps_rest c buf (comment_hint c buf) W nn nl sep eh b prev z l).
    Proof.
      induction l as [|[[[q x] q2] z2] l IH]; intros b prev z; [apply k_ret|]. cbn [write_seps_rest].
      apply k_bind; [apply k_emit|]. intros _.
      intros w a w' E. refine (k_bind (s <- get_st ;; _) (fun i => W x ;;; comment_hint c buf q2 [] ;;; write_seps_rest c buf (comment_hint c buf) W nn nl sep eh i x z2 l) (k_gap q eh b prev x) _ w a w' E).
      intros i. apply k_bind; [apply HW|]. intros _. apply k_bind; [apply k_hint|]. intros _. apply IH.
    Qed.
    Lemma k_seps l : keeps (write_seps c buf (comment_hint c buf) W nn first_nl nl sep trailing eh l).
    Proof.
      destruct l as [|[[[q x] q2] z] l]; [apply k_ret|]. cbn [write_seps]. apply k_bind; [apply k_quiet, q_lazy, Hf|]. intros b.
      apply k_bind; [apply k_if_newline, k_hint|]. intros _. apply k_bind; [apply HW|]. intros _. apply k_bind; [apply k_hint|]. intros _.
      apply k_bind; [apply k_seps_rest|]. intros r. apply k_bind; [apply k_quiet, Ht|]. intros t.
      apply k_bind; [destruct (_ || _); [apply k_emit|apply k_ret]|]. intros. apply k_ret.
    Qed.
  End Lists.

  Section Body.
    Variables (c : config) (buf : str) (W : config -> node -> M unit).
    Hypothesis HW : forall c x, keeps (W c x).
    Lemma k_item n x : keeps (run_item c buf W n x).
    Proof.
      induction x; cbn [run_item].
      - apply k_emit.
      - apply k_loc.
      - apply k_hint.
      - apply k_if_newline, k_hint.
      - apply HW.
      - apply k_quiet. apply q_bind; [apply q_get_st|]. intros. apply q_put_st.
      - apply k_quiet. apply q_bind; [apply q_get_st|]. intros. apply q_put_st.
      - apply k_quiet. apply q_bind; [apply q_get_st|]. intros. apply q_put_st.
      - apply k_quiet. apply q_bind; [apply q_get_st|]. intros. apply q_put_st.
      - destruct b; [exact IHx|apply k_ret].
    Qed.
    Lemma k_items n l : keeps (run_items c buf W n l).
    Proof. induction l as [|x l IH]; [apply k_ret|]. apply k_bind; [apply k_item|]. intros _. exact IH. Qed.
    Lemma q_suffix x : quiet (suffix_newline c buf W x).
    Proof.
      unfold suffix_newline. destruct (n_kind x); try apply q_ret; destruct (negb _); try apply q_ret; destruct (on c _); try apply q_ret;
        repeat match goal with |- quiet (match ?k with _ => _ end) => destruct k end;
        apply q_isnone, q_test.
    Qed.
    Lemma q_field x : quiet (test_oneline_table_field c W x).
    Proof.
      unfold test_oneline_table_field. destruct (n_kind x); try apply q_ret; destruct (_ && _); try apply q_ret; apply q_test_no_nl.
    Qed.
    Lemma q_need m x y : quiet (need_newline c buf W m x y).
    Proof.
      unfold need_newline. destruct (n_kind m); try apply q_ret; try apply q_suffix;
        repeat match goal with |- quiet (if ?b then _ else _) => destruct b end;
        try apply q_ret; try apply q_isnone; try apply q_test; try apply q_test_no_nl; try apply q_field.
      apply q_bind; [apply q_get_oneline|]. intros []; [apply q_ret|]. apply q_issome, q_test_no_nl.
    Qed.
    Lemma q_first m y : quiet (need_first_newline c buf W m y).
    Proof.
      unfold need_first_newline. destruct (n_kind m); try apply q_ret; try apply q_suffix;
        repeat match goal with |- quiet (if ?b then _ else _) => destruct b end;
        try apply q_ret; try apply q_isnone; try apply q_test; try apply q_field.
      apply q_bind; [apply q_get_indent|]. intros. apply q_ret.
    Qed.
    Lemma k_lua_list n : keeps (lua_list c buf W n).
    Proof. apply k_list; [apply HW|apply q_first|apply q_need]. Qed.
    Lemma q_trailing n : quiet (trailing_separator c n).
    Proof.
      unfold trailing_separator.
      repeat match goal with |- quiet (match ?k with _ => _ end) => destruct k end; try apply q_ret;
      (apply q_bind; [first [apply q_get_f|apply q_get_oneline|apply q_get_indent]|]); intros;
        repeat match goal with |- quiet (match ?k with _ => _ end) => destruct k end; try apply q_ret.
    Qed.
    Lemma k_lua_seps n : keeps (lua_seps c buf W n).
    Proof. apply k_seps; [apply HW|apply q_first|apply q_need|apply q_trailing]. Qed.
    Lemma q_indent n l h : quiet (test_indent c buf W n l h).
    Proof.
      unfold test_indent. destruct (n_kind n); try apply q_ret;
        repeat match goal with |- quiet (match ?k with _ => _ end) => destruct k end; try apply q_ret; apply q_copy.
    Qed.
    Lemma k_clause n cl : keeps (run_clause c buf W n cl).
    Proof.
      apply k_bind; [apply k_items|]. intros _. apply k_bind; [|intros; apply k_items].
      apply k_quiet. destruct (cl_test cl) as [[[k q] h]|]; [apply q_indent|apply q_ret].
    Qed.
    Lemma k_oneline tc n d m : keeps d -> keeps m -> keeps (oneline_or W tc n d m).
    Proof.
      intros Hd Hm. unfold oneline_or. destruct tc; [|exact Hm]. apply k_bind; [apply k_quiet, q_test_no_nl|].
      intros [t|]; [|exact Hm]. apply k_bind; [exact Hd|]. intros. apply k_emit.
    Qed.
    Lemma k_range n m : keeps m -> keeps (range_or c buf W n m).
    Proof.
      intros Hm. apply k_bind; [apply k_quiet, q_get_st|]. intros s. destruct (test_out_of_range _ _); [apply k_loc|].
      destruct (raw_items n); [|exact Hm]. destruct (test_not_completely_contained _ _); [apply k_items|exact Hm].
    Qed.
    Lemma k_body n : keeps (write_body c buf W n).
    Proof.
      assert (A : keeps (range_or c buf W n (s <- get_st ;; oneline_or W (match oneline_if_cfg c n with Some c' => Some c' | None => oneline_function_cfg c s n end)
         n (ret tt) (run_clause c buf W n (clause_of c n))))).
      { apply k_range. apply k_bind; [apply k_quiet, q_get_st|]. intros s. apply k_oneline; [apply k_ret|apply k_clause]. }
      unfold write_body. destruct (n_kind n); try exact A; try apply k_clause; try apply k_emit; try apply k_range;
        try (apply k_bind; [apply k_lua_seps|intros; apply k_ret]); try (apply k_bind; [apply k_lua_list|intros; apply k_ret]).
      - apply k_bind; [apply k_items|]. intros _. apply k_bind; [|intros; apply k_items].
        apply k_quiet. destruct (_ && _); [apply q_issome, q_test|apply q_ret].
      - apply k_oneline; [apply k_quiet, q_set_oneline|]. apply k_bind; [apply k_quiet, q_get_oneline|]. intros one.
        apply k_bind; [apply k_if_newline, k_hint|]. intros _. apply k_bind; [apply k_items|]. intros _.
        apply k_bind; [apply k_quiet; destruct (_ && _); [apply q_indent|apply q_ret]|]. intros ind.
        apply k_bind; [apply k_quiet; destruct (is_kind _ _); [apply q_set_indent|apply q_ret]|]. intros _.
        apply k_bind; [apply k_items|]. intros _. apply k_bind; [apply k_quiet, q_get_f|]. intros. apply k_items.
      - apply k_bind; [apply k_quiet, q_buffer|]. intros. apply k_items.
      - apply k_bind; [apply k_lua_seps|]. intros _. apply k_items.
    Qed.
  End Body.
  Theorem write_keeps fuel buf : forall c n, keeps (write fuel buf c n).
  Proof.
    induction fuel as [|k IH]; intros c n; [now apply k_fail|]. cbn [write]. apply k_body. exact IH.
  Qed.
End Keep.
