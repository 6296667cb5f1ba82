(** The range of lines is no option of the writer: only the state knows it. *)
From Verif Require Import Base Lib Config State Ast LuaLexer WriterBase LuaWriter.

(** ** the range itself is no option of the writer *)
Section Range.
  Variable r : option (N * N).
  Notation slr := (set_line_range r).
  Lemma table_cfg_range c n : oneline_table_cfg (slr c) n = option_map slr (oneline_table_cfg c n).
  Proof. unfold oneline_table_cfg. change (nsome (slr c)) with (nsome c). change (on (slr c)) with (on c). change (fits_twice (slr c) n) with (fits_twice c n). destruct (_ && _); reflexivity. Qed.
  Lemma if_cfg_range c n : oneline_if_cfg (slr c) n = option_map slr (oneline_if_cfg c n).
  Proof. unfold oneline_if_cfg. change (nsome (slr c)) with (nsome c). change (on (slr c)) with (on c). change (fits_twice (slr c) n) with (fits_twice c n). destruct (_ && _); reflexivity. Qed.
  Lemma function_cfg_range c s n : oneline_function_cfg (slr c) s n = option_map slr (oneline_function_cfg c s n).
  Proof. unfold oneline_function_cfg. change (nsome (slr c)) with (nsome c). change (on (slr c)) with (on c). change (fits_twice (slr c) n) with (fits_twice c n). destruct (_ && _); reflexivity. Qed.
  Section Body.
    Variables (c : config) (buf : str) (W : config -> node -> M unit).
    Notation W' := (fun c' x => W (slr c') x).
    Lemma hint_range l h : H (slr c) buf l h = H c buf l h.
    Proof. reflexivity. Qed.
    Lemma item_range n x : run_item (slr c) buf W n x = run_item c buf W' n x.
    Proof. induction x; cbn [run_item]; try reflexivity. Qed.
    Lemma items_range n l : run_items (slr c) buf W n l = run_items c buf W' n l.
    Proof. induction l as [|x l IH]; cbn [run_items]; [reflexivity|]. now rewrite item_range, IH. Qed.
    Lemma suffix_range x : suffix_newline (slr c) buf W x = suffix_newline c buf W' x.
    Proof. unfold suffix_newline. destruct (n_kind x); reflexivity. Qed.
    Lemma first_range m : need_first_newline (slr c) buf W m = need_first_newline c buf W' m.
    Proof. unfold need_first_newline. destruct (n_kind m); try reflexivity; try apply suffix_range. Qed.
    Lemma need_range m : need_newline (slr c) buf W m = need_newline c buf W' m.
    Proof. unfold need_newline. destruct (n_kind m); try reflexivity; try apply suffix_range. Qed.
    Lemma list_range n : lua_list (slr c) buf W n = lua_list c buf W' n.
    Proof.
      unfold lua_list. rewrite first_range, need_range. change (H (slr c) buf) with (H c buf). change (list_need_newlines (slr c) n) with (list_need_newlines c n). reflexivity.
    Qed.
    Lemma seps_range n : lua_seps (slr c) buf W n = lua_seps c buf W' n.
    Proof.
      unfold lua_seps. rewrite first_range, need_range. change (H (slr c) buf) with (H c buf). change (sep_need_newlines (slr c) n) with (sep_need_newlines c n).
      change (separator (slr c) n) with (separator c n).
      change (trailing_separator (slr c) n) with (trailing_separator c n). reflexivity.
    Qed.
    Lemma indent_range n l h : test_indent (slr c) buf W n l h = test_indent c buf W' n l h.
    Proof.
      unfold test_indent. change (H (slr c) buf) with (H c buf). change (on (slr c)) with (on c). change (nis (slr c)) with (nis c). change (nsome (slr c)) with (nsome c). now rewrite list_range, seps_range.
    Qed.
    Lemma bind_ext A B (m m' : M A) (k k' : A -> M B) : m = m' -> (forall a w, k a w = k' a w) -> forall w, bind m k w = bind m' k' w.
    Proof. intros <- E w. unfold bind. destruct (m w) as [[a| | |] w']; auto. Qed.
    Lemma clause_range n : forall w, run_clause (slr c) buf W n (clause_of (slr c) n) w = run_clause c buf W' n (clause_of c n) w.
    Proof.
      change (clause_of (slr c) n) with (clause_of c n). unfold run_clause. apply bind_ext; [apply items_range|]. intros _. apply bind_ext.
      - destruct (cl_test (clause_of c n)) as [[[i p] h]|]; [apply indent_range|reflexivity].
      - intros b w. now rewrite items_range.
    Qed.
    Lemma range_range n m m' : (forall w, m w = m' w) -> forall w, range_or (slr c) buf W n m w = range_or c buf W' n m' w.
    Proof.
      intros E. unfold range_or. apply bind_ext; [reflexivity|]. intros s w. destruct (test_out_of_range _ _); [reflexivity|]. destruct (raw_items n); [|apply E].
      destruct (test_not_completely_contained _ _); [now rewrite items_range|apply E].
    Qed.
    Lemma oneline_range tc n done m m' : (forall w, m w = m' w) -> forall w, oneline_or W (option_map slr tc) n done m w = oneline_or W' tc n done m' w.
    Proof. intros E. destruct tc as [c'|]; [|exact E]. apply bind_ext; [reflexivity|]. intros [x|]; [reflexivity|exact E]. Qed.
    Lemma table_range n w : write_table (slr c) buf W n w = write_table c buf W' n w.
    Proof.
      unfold write_table. change (table_hint (slr c)) with (table_hint c). rewrite table_cfg_range. revert w. apply oneline_range.
      apply bind_ext; [reflexivity|]. intros one. apply bind_ext; [reflexivity|]. intros _. apply bind_ext; [apply items_range|]. intros _.
      apply bind_ext; [change (on (slr c)) with (on c); rewrite indent_range; reflexivity|]. intros ind. apply bind_ext; [reflexivity|]. intros _.
      apply bind_ext; [apply items_range|]. intros _. apply bind_ext; [reflexivity|]. intros f w. now rewrite items_range.
    Qed.
    Lemma body_range n w : write_body (slr c) buf W n w = write_body c buf W' n w.
    Proof.
      unfold write_body.
      assert (A : forall w, run_clause (slr c) buf W n (clause_of (slr c) n) w = run_clause c buf W' n (clause_of c n) w) by apply clause_range.
      assert (B : forall w, range_or (slr c) buf W n (s <- get_st ;; oneline_or W (match oneline_if_cfg (slr c) n with Some c' => Some c' | None => oneline_function_cfg (slr c) s n end) n (ret tt)
                    (run_clause (slr c) buf W n (clause_of (slr c) n))) w
                  = range_or c buf W' n (s <- get_st ;; oneline_or W' (match oneline_if_cfg c n with Some c' => Some c' | None => oneline_function_cfg c s n end) n (ret tt)
                    (run_clause c buf W' n (clause_of c n))) w).
      { apply range_range. apply bind_ext; [reflexivity|]. intros s. rewrite if_cfg_range, function_cfg_range.
        replace (match option_map slr (oneline_if_cfg c n) with Some c' => Some c' | None => option_map slr (oneline_function_cfg c s n) end)
          with (option_map slr (match oneline_if_cfg c n with Some c' => Some c' | None => oneline_function_cfg c s n end)) by (destruct (oneline_if_cfg c n); reflexivity).
        now apply oneline_range. }
      assert (Sp : forall w, range_or (slr c) buf W n (lua_seps (slr c) buf W n ;;; ret tt) w = range_or c buf W' n (lua_seps c buf W' n ;;; ret tt) w).
      { apply range_range. apply bind_ext; [apply seps_range|reflexivity]. }
      assert (Li : forall w, range_or (slr c) buf W n (lua_list (slr c) buf W n ;;; ret tt) w = range_or c buf W' n (lua_list c buf W' n ;;; ret tt) w).
      { apply range_range. apply bind_ext; [apply list_range|reflexivity]. }
      destruct (n_kind n); try (apply A); try (apply B); try (apply Li); try (apply Sp).
      - revert w. apply range_range. unfold write_binary. apply bind_ext; [apply items_range|]. intros _. apply bind_ext; [reflexivity|]. intros b w. now rewrite items_range.
      - reflexivity.
      - revert w. apply range_range. apply table_range.
      - revert w. apply range_range. unfold write_empty_table. apply bind_ext; [reflexivity|]. intros t w. now rewrite items_range.
      - revert w. apply range_range. apply bind_ext; [apply seps_range|]. intros _ w. now rewrite items_range.
      - reflexivity.
    Qed.
  End Body.
End Range.

(** ** all lines, with and without a range *)
From Verif Require Import LexSpec LayoutSpec RangeKeepSpec RenderProofs TotalProofs BlindFrame BlindGap BlindProofs.
Section Write.
  Variables (c0 : config) (src : str) (r : option (N * N)).
  Hypothesis void_gap : slot_ok src (SGap (0, 0)).
  Theorem write_sees fuel : forall c n, reach c0 c -> okn c0 src n -> sees (lua_S src) (write fuel src (set_line_range r c) n) (write fuel src c n).
  Proof.
    induction fuel as [|k IH]; intros c n Hc Hn; cbn [write]; [apply sees_nofuel|]. intros w v R. rewrite body_range.
    revert w v R. apply (body_sees c0 src void_gap c _ _ n Hc); [|exact Hn]. intros c' x Hc' Hx. now apply IH.
  Qed.
End Write.
