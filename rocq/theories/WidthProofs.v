(** Without measuring, the width changes nothing. *)
From Coq Require Import ZArith.
From Verif Require Import Base Lib Config State LuaLexer Ast LuaParser Recon WriterBase LuaWriter Formatter RefuteSpec LayoutSpec SpanProofs ReconProofs BlindTree WholeSpec WidthSpec.

Definition weq {A} (m k : M A) : Prop := forall w, m w = k w.
Lemma weq_refl {A} (m : M A) : weq m m. Proof. intros w. reflexivity. Qed.
Lemma weq_bind {A B} (m m' : M A) (k k' : A -> M B) : weq m m' -> (forall a, weq (k a) (k' a)) -> weq (bind m k) (bind m' k').
Proof. intros H1 H2 w. unfold bind. rewrite (H1 w). destruct (m' w) as [[] w']; auto. apply H2. Qed.
Lemma weq_copy m m' : weq m m' -> weq (on_copy m) (on_copy m').
Proof. intros H w. unfold on_copy. now rewrite (H w). Qed.

Section Lists.
  Context {node : Type}.
  Variables (c : config) (buf : str) (LH : loc -> hinted) (W1 W2 : node -> M unit) (b : bool) (f1 f2 : node -> M bool) (n1 n2 : node -> node -> M bool).
  Variable P : node -> Prop.
  Hypothesis HW : forall x, P x -> weq (W1 x) (W2 x).
  Hypothesis Hf : forall x, P x -> weq (f1 x) (f2 x).
  Hypothesis Hn : forall x y, P y -> weq (n1 x y) (n2 x y).
  Lemma lazy_weq m k : weq m k -> weq (lazy_and b m) (lazy_and b k).
  Proof. intros H. unfold lazy_and. destruct b; [exact H|apply weq_refl]. Qed.
  Lemma list_weq ph l : (forall x, In x l -> P (snd x)) -> weq (write_list c buf LH W1 b f1 n1 ph l) (write_list c buf LH W2 b f2 n2 ph l).
  Proof.
    intros Q.
    assert (R : forall l i x, (forall y, In y l -> P (snd y)) -> weq (write_list_rest c buf LH W1 b n1 ph i x l) (write_list_rest c buf LH W2 b n2 ph i x l)).
    { clear l Q. intros l. induction l as [|[p y] l IH]; intros i x Q; [apply weq_refl|]. pose proof (Q _ (or_introl eq_refl)) as Py. cbn in Py. cbn [write_list_rest]. apply weq_bind; [apply weq_refl|]. intros s. apply weq_bind.
      - destruct (test_out_of_range _ _); [apply weq_refl|]. apply weq_bind; [apply lazy_weq, Hn; exact Py|]. intros. apply weq_refl.
      - intros i'. apply weq_bind; [apply HW; exact Py|]. intros _. apply IH. intros; apply Q; now right. }
    destruct l as [|[p x] l]; [apply weq_refl|]. pose proof (Q _ (or_introl eq_refl)) as Px. cbn in Px. cbn [write_list]. apply weq_bind; [apply lazy_weq, Hf; exact Px|]. intros i. apply weq_bind; [apply weq_refl|]. intros _.
    apply weq_bind; [apply HW; exact Px|]. intros _. apply R. intros; apply Q; now right.
  Qed.
  Lemma seps_weq sep t e l : (forall x, In x l -> P (snd (fst (fst x)))) -> weq (write_seps c buf LH W1 b f1 n1 sep t e l) (write_seps c buf LH W2 b f2 n2 sep t e l).
  Proof.
    intros Q.
    assert (R : forall l i x z, (forall y, In y l -> P (snd (fst (fst y)))) -> weq (write_seps_rest c buf LH W1 b n1 sep e i x z l) (write_seps_rest c buf LH W2 b n2 sep e i x z l)).
    { clear l Q. intros l. induction l as [|[[[p y] q] z'] l IH]; intros i x z Q; [apply weq_refl|]. pose proof (Q _ (or_introl eq_refl)) as Py. cbn in Py. cbn [write_seps_rest]. apply weq_bind; [apply weq_refl|]. intros _.
      apply weq_bind; [apply weq_refl|]. intros s. apply weq_bind.
      - destruct (test_out_of_range _ _); [apply weq_refl|]. apply weq_bind; [apply lazy_weq, Hn; exact Py|]. intros. apply weq_refl.
      - intros i'. apply weq_bind; [apply HW; exact Py|]. intros _. apply weq_bind; [apply weq_refl|]. intros _. apply IH. intros; apply Q; now right. }
    destruct l as [|[[[p x] q] z] l]; [apply weq_refl|]. pose proof (Q _ (or_introl eq_refl)) as Px. cbn in Px. cbn [write_seps]. apply weq_bind; [apply lazy_weq, Hf; exact Px|]. intros i. apply weq_bind; [apply weq_refl|]. intros _.
    apply weq_bind; [apply HW; exact Px|]. intros _. apply weq_bind; [apply weq_refl|]. intros _. apply weq_bind; [apply R; intros; apply Q; now right|]. intros. apply weq_refl.
  Qed.
End Lists.

(** ** trees without filled tables *)
Inductive tableless : node -> Prop :=
| tableless_intro : forall n, n_kind n <> KTableConstructor -> (forall x, In x (n_kids n) -> tableless x) ->
    (forall x, In x (n_items n) -> tableless (snd x)) -> (forall x, In x (n_seps n) -> tableless (si_node x)) -> tableless n.
Lemma tableless_kid n i : tableless n -> tableless (kid n i).
Proof.
  intros H. unfold kid. destruct (nth_in_or_default i (n_kids n) dummy_node) as [Hi| ->]; [inversion H; auto|].
  constructor; [discriminate|intros x []..].
Qed.
Lemma tableless_children n : n_kind n <> KTableConstructor -> (forall x, In x (children n) -> tableless x) -> tableless n.
Proof.
  intros Hk H. constructor; [exact Hk| | |]; intros x Hx; apply H; unfold children; rewrite !in_app_iff; auto using in_map.
Qed.
Lemma placed_tableless ts n : empty_tables ts -> placed ts n -> tableless n.
Proof.
  intros E. induction 1 as [n A B Hch IH]. pose proof (placed_unvoid ts n E (placed_intro ts n A B Hch)) as V.
  apply tableless_children; [|exact IH]. intros Ek. destruct n as [k sp ls t lv ks is ss o]. cbn [n_kind] in Ek. subst k. cbn [layout] in V. inversion V as [|? ? V1 _]. now apply V1.
Qed.
Lemma root_tableless src n : parse_lua src = Parsed n -> (forall ts, lex src = LexOk ts -> empty_tables ts) -> tableless n.
Proof.
  intros P E. destruct (tree_placed src n P) as (ts & Lx & [[Ei Es] C]). specialize (E ts Lx).
  assert (Ec : children n = n_kids n) by (unfold children; now rewrite Es, Ei, app_nil_r).
  apply tableless_children; rewrite ?Ec.
  - destruct C as [[-> _]|[[-> _]|[-> _]]]; discriminate.
  - intros x Hx. destruct C as [(_ & e & Ek)|[(_ & b & q & r & Ek & _ & _ & _ & Pb)|(_ & a & b & q & r & Ek & _ & _ & _ & _ & Pa & Pb)]]; rewrite Ek in Hx; cbn in Hx.
    + destruct Hx as [<-|[]]. constructor; [discriminate|intros x []..].
    + destruct Hx as [<-|[]]. exact (placed_tableless _ _ E Pb).
    + destruct Hx as [<-|[<-|[]]]; [exact (placed_tableless _ _ E Pa)|exact (placed_tableless _ _ E Pb)].
Qed.
Section Recon.
  Variable c : config.
  Notation kept n := (forall sc s, tableless (fst (recon c sc n s))).
  Lemma rkids_tableless l : (forall x, In x l -> kept x) -> forall sc s x, In x (fst (rkids c sc l s)) -> tableless x.
  Proof.
    induction l as [|y l IH]; intros H sc s x; [intros []|]. cbn [rkids]. pose proof (H y (or_introl eq_refl) sc s) as Hy. destruct (recon c sc y s) as [y' s1].
    specialize (IH (fun z Hz => H z (or_intror Hz)) sc s1 x). destruct (rkids c sc l s1). cbn in *. intros [<-|Hx]; auto.
  Qed.
  Lemma ritems_tableless l : (forall x, In x l -> kept (snd x)) -> forall s x, In x (fst (ritems c l s)) -> tableless (snd x).
  Proof.
    induction l as [|[p y] l IH]; intros H s x; [intros []|]. cbn [ritems]. pose proof (H _ (or_introl eq_refl) None s) as Hy. cbn [snd] in Hy. destruct (recon c None y s) as [y' s1].
    specialize (IH (fun z Hz => H z (or_intror Hz)) s1 x). destruct (ritems c l s1). cbn in *. intros [<-|Hx]; auto.
  Qed.
  Lemma rseps_tableless l : (forall x, In x l -> kept (si_node x)) -> forall sc s x, In x (fst (rseps c sc l s)) -> tableless (si_node x).
  Proof.
    induction l as [|[[[p y] q] z] l IH]; intros H sc s x; [intros []|]. cbn [rseps]. pose proof (H _ (or_introl eq_refl) sc s) as Hy. cbn in Hy. destruct (recon c sc y s) as [y' s1].
    specialize (IH (fun z Hz => H z (or_intror Hz)) sc s1 x). destruct (rseps c sc l s1). cbn in *. intros [<-|Hx]; auto.
  Qed.
  Lemma recon_tableless n : tableless n -> kept n.
  Proof.
    induction 1 as [n Hk Hks IHk His IHi Hss IHs]. intros sc s. destruct n as [k sp ls t lv ks is ss o]. cbn [n_kind n_kids n_items n_seps] in *.
    pose proof (rkids_tableless ks IHk) as K. pose proof (ritems_tableless is IHi) as I. pose proof (rseps_tableless ss IHs) as S.
    assert (A : tableless (fst (let '(ks', s1) := rkids c (match k with KFieldSequential => sc | _ => None end) ks (update_pos_range sp s) in
        let '(is', s2) := ritems c is s1 in
        let '(ss', s3) := rseps c None ss s2 in
        (Nd k sp ls t lv ks' is' ss' o, s3)))).
    { specialize (K (match k with KFieldSequential => sc | _ => None end) (update_pos_range sp s)). destruct (rkids _ _ _ _) as [ks' s1]. specialize (I s1). destruct (ritems _ _ _) as [is' s2].
      specialize (S None s2). destruct (rseps _ _ _ _) as [ss' s3]. cbn in *. constructor; auto. }
    rewrite recon_eq. destruct k; try exact A; clear A; try congruence.
    - destruct (on c _); cbn; (constructor; cbn; [discriminate|auto..]).
    - specialize (S (Some (List.length ss =? 1)) s). destruct (rseps _ _ _ _). cbn in *. constructor; cbn; auto; discriminate.
    - specialize (S None (update_pos_range sp s)). destruct (rseps _ _ _ _) as [ss' s1]. specialize (K None s1). destruct (rkids _ _ _ _). cbn in *. constructor; cbn; auto; discriminate.
    - specialize (I ((fst s + 1)%Z, snd s)). destruct (ritems _ _ _). cbn in *. constructor; cbn; auto; discriminate.
  Qed.
End Recon.
Section Width.
  Variables (c : config) (v : option N) (src : str).
  Let c' := set_n N_max_width v c.
  Hypothesis U : ~ uses_width c.
  Lemma on_true k : on c k = true -> cb c k = Some true.
  Proof. unfold on. destruct (cb c k) as [[]|]; [reflexivity|discriminate..]. Qed.
  Lemma nsome_true k : nsome c k = true -> cn c k <> None.
  Proof. unfold nsome. destruct (cn c k); discriminate. Qed.
  Lemma nis_true k x : nis c k x = true -> cn c k = Some x.
  Proof. unfold nis. destruct (cn c k); [|discriminate]. intros E. apply N.eqb_eq in E. now subst. Qed.
  Definition calm_tree (n : node) : Prop := cn c N_newline_format_table_constructor = Some 1%N \/ tableless n.
  Lemma calm_kid n i : calm_tree n -> calm_tree (kid n i).
  Proof. intros [H|H]; [now left|right; now apply tableless_kid]. Qed.
  Lemma calm_item n x : calm_tree n -> In x (n_items n) -> calm_tree (snd x).
  Proof. intros [H|H] Hx; [now left|right; inversion H; auto]. Qed.
  Lemma calm_sep n x : calm_tree n -> In x (n_seps n) -> calm_tree (snd (fst (fst x))).
  Proof. intros [H|H] Hx; [now left|right; inversion H as [? _ _ _ K]; exact (K x Hx)]. Qed.
  Section Body.
    Variables (W1 W2 : config -> node -> M unit).
    Hypothesis HW : forall n, calm_tree n -> weq (W1 c' n) (W2 c n).
    Lemma item_weq n x : calm_tree n -> weq (run_item c' src W1 n x) (run_item c src W2 n x).
    Proof. intros Q. induction x as [s|i|i h|b i h|i|o| | | |b y IH]; cbn [run_item]; try apply weq_refl; [apply HW; now apply calm_kid|destruct b; [exact IH|apply weq_refl]]. Qed.
    Lemma items_weq n l : calm_tree n -> weq (run_items c' src W1 n l) (run_items c src W2 n l).
    Proof. intros Q. induction l as [|x l IH]; [apply weq_refl|]. cbn [run_items]. apply weq_bind; [now apply item_weq|]. intros _. exact IH. Qed.
    Ltac absurd_width k := exfalso; apply U; k; first [now apply on_true | now apply nsome_true | left; now apply nis_true | right; now apply nis_true | left; now apply on_true | right; now apply on_true].
    Lemma suffix_weq x : weq (suffix_newline c' src W1 x) (suffix_newline c src W2 x).
    Proof.
      unfold suffix_newline. destruct (n_kind x); try apply weq_refl.
      all: change (nsome c' N_newline_format_var_suffix) with (nsome c N_newline_format_var_suffix); change (on c' B_force_single_line_var_suffix) with (on c B_force_single_line_var_suffix).
      all: destruct (nsome c N_newline_format_var_suffix) eqn:E1; [|apply weq_refl]; cbn [negb]; destruct (on c B_force_single_line_var_suffix) eqn:E2; [|apply weq_refl].
      all: exfalso; apply U, uw_suffix; [now apply on_true|now apply nsome_true].
    Qed.
    Lemma need_weq m x y : weq (need_newline c' src W1 m x y) (need_newline c src W2 m x y).
    Proof.
      unfold need_newline. destruct (n_kind m); try apply weq_refl; [| |apply suffix_weq].
      - change (nsome c' N_newline_format_table_field) with (nsome c N_newline_format_table_field). destruct (nsome c N_newline_format_table_field) eqn:E1; [|apply weq_refl]. cbn [negb].
        change (on c' ?k) with (on c k).
        assert (I : on c B_force_single_line_iv_table_field = false).
        { destruct (on c B_force_single_line_iv_table_field) eqn:E; [|reflexivity]. exfalso. apply U, uw_fields; [left; now apply on_true|now apply nsome_true]. }
        assert (K : on c B_force_single_line_kv_table_field = false).
        { destruct (on c B_force_single_line_kv_table_field) eqn:E; [|reflexivity]. exfalso. apply U, uw_fields; [right; now apply on_true|now apply nsome_true]. }
        rewrite I, K, andb_false_r. apply weq_refl.
      - change (on c' ?k) with (on c k). change (nis c' N_newline_format_exp_list 1) with (nis c N_newline_format_exp_list 1). change (cb c' ?k) with (cb c k).
        destruct (_ && _); [apply weq_refl|]. destruct (nis c N_newline_format_exp_list 1) eqn:E1; [|apply weq_refl].
        destruct (on c B_force_single_line_exp_list) eqn:E2; [|apply weq_refl]. exfalso. apply U, uw_exp_list; [now apply on_true|left; now apply nis_true].
    Qed.
    Lemma first_weq m x : weq (need_first_newline c' src W1 m x) (need_first_newline c src W2 m x).
    Proof.
      unfold need_first_newline. destruct (n_kind m); try apply weq_refl; [| |apply suffix_weq].
      - change (nsome c' N_newline_format_table_field) with (nsome c N_newline_format_table_field). destruct (nsome c N_newline_format_table_field) eqn:E1; [|apply weq_refl]. cbn [negb].
        change (on c' ?k) with (on c k).
        assert (I : on c B_force_single_line_iv_table_field = false).
        { destruct (on c B_force_single_line_iv_table_field) eqn:E; [|reflexivity]. exfalso. apply U, uw_fields; [left; now apply on_true|now apply nsome_true]. }
        assert (K : on c B_force_single_line_kv_table_field = false).
        { destruct (on c B_force_single_line_kv_table_field) eqn:E; [|reflexivity]. exfalso. apply U, uw_fields; [right; now apply on_true|now apply nsome_true]. }
        rewrite I, K, andb_false_r. apply weq_refl.
      - change (on c' ?k) with (on c k). change (nis c' N_newline_format_exp_list_first 1) with (nis c N_newline_format_exp_list_first 1).
        destruct (nis c N_newline_format_exp_list_first 1) eqn:E1; [|apply weq_refl].
        destruct (on c B_force_single_line_exp_list) eqn:E2; [|apply weq_refl]. exfalso. apply U, uw_exp_list; [now apply on_true|right; now apply nis_true].
    Qed.
    Lemma lua_list_weq n : calm_tree n -> weq (lua_list c' src W1 n) (lua_list c src W2 n).
    Proof.
      intros Q. unfold lua_list. change (list_need_newlines c' n) with (list_need_newlines c n).
      exact (list_weq c src (H c src) (W1 c') (W2 c) _ _ _ _ _ calm_tree HW (fun x _ => first_weq n x) (fun x y _ => need_weq n x y) list_prefix_hint (n_items n) (fun x => calm_item n x Q)).
    Qed.
    Lemma lua_seps_weq n : calm_tree n -> weq (lua_seps c' src W1 n) (lua_seps c src W2 n).
    Proof.
      intros Q. unfold lua_seps. change (sep_need_newlines c' n) with (sep_need_newlines c n). change (separator c' n) with (separator c n). change (trailing_separator c' n) with (trailing_separator c n).
      exact (seps_weq c src (H c src) (W1 c') (W2 c) _ _ _ _ _ calm_tree HW (fun x _ => first_weq n x) (fun x y _ => need_weq n x y) (separator c n) (trailing_separator c n) (elem_prefix_hint n) (n_seps n) (fun x => calm_sep n x Q)).
    Qed.
    Lemma indent_weq n l h : calm_tree n -> weq (test_indent c' src W1 n l h) (test_indent c src W2 n l h).
    Proof.
      intros Q. unfold test_indent. destruct (n_kind n); try apply weq_refl.
      - destruct (n_seps n); [apply weq_refl|]. apply weq_copy, weq_bind; [apply weq_refl|]. intros _. now apply lua_seps_weq.
      - change (on c' ?k) with (on c k). change (nsome c' N_newline_format_exp_list_first) with (nsome c N_newline_format_exp_list_first).
        assert (A : weq (on_copy (H c' src l h ;;; (if on c B_indent_exp_list then if on c B_indent_one_line_exp_list then ret true else lua_seps c' src W1 n else ret false)))
                        (on_copy (H c src l h ;;; (if on c B_indent_exp_list then if on c B_indent_one_line_exp_list then ret true else lua_seps c src W2 n else ret false)))).
        { apply weq_copy, weq_bind; [apply weq_refl|]. intros _. destruct (on c B_indent_exp_list); [|apply weq_refl]. destruct (on c B_indent_one_line_exp_list); [apply weq_refl|now apply lua_seps_weq]. }
        destruct (n_seps n) as [|? [|]]; [apply weq_refl| |exact A]. destruct (negb _); [apply weq_refl|exact A].
      - destruct (n_items n); [apply weq_refl|]. apply weq_copy, weq_bind; [apply weq_refl|]. intros _. change (on c' ?k) with (on c k).
        destruct (on c B_indent_var_suffix); [|apply weq_refl]. destruct (on c B_indent_one_line_var_suffix); [apply weq_refl|now apply lua_list_weq].
    Qed.
    Lemma range_weq n m k : calm_tree n -> weq m k -> weq (range_or c' src W1 n m) (range_or c src W2 n k).
    Proof.
      intros Q H. unfold range_or. apply weq_bind; [apply weq_refl|]. intros s. destruct (test_out_of_range _ _); [apply weq_refl|]. destruct (raw_items n); [|exact H].
      destruct (test_not_completely_contained _ _); [now apply items_weq|exact H].
    Qed.
    Lemma clause_weq n : calm_tree n -> weq (run_clause c' src W1 n (clause_of c' n)) (run_clause c src W2 n (clause_of c n)).
    Proof.
      intros Q. change (clause_of c' n) with (clause_of c n). unfold run_clause. apply weq_bind; [now apply items_weq|]. intros _. apply weq_bind; [|intros; now apply items_weq].
      destruct (cl_test _) as [[[]]|]; [apply indent_weq; now apply calm_kid|apply weq_refl].
    Qed.
    Lemma table_cfg_none d n : (d = c \/ d = c') -> oneline_table_cfg d n = None.
    Proof.
      intros D. assert (E : on d B_force_single_line_table = on c B_force_single_line_table) by now destruct D as [-> | ->].
      assert (E' : nsome d N_newline_format_table_constructor = nsome c N_newline_format_table_constructor) by now destruct D as [-> | ->].
      unfold oneline_table_cfg. rewrite E, E'. destruct (on c B_force_single_line_table) eqn:E2; [|now rewrite andb_false_r].
      destruct (nsome c N_newline_format_table_constructor) eqn:E3; [|now rewrite andb_false_r]. exfalso. apply U, uw_table; [now apply on_true|now apply nsome_true].
    Qed.
    Lemma if_cfg_none d n : (d = c \/ d = c') -> oneline_if_cfg d n = None.
    Proof.
      intros D. assert (E : on d B_force_single_line_if = on c B_force_single_line_if) by now destruct D as [-> | ->].
      assert (E' : nsome d N_newline_format_if = nsome c N_newline_format_if) by now destruct D as [-> | ->].
      unfold oneline_if_cfg. rewrite E, E'. destruct (on c B_force_single_line_if) eqn:E2; [|now rewrite andb_false_r]. destruct (nsome c N_newline_format_if) eqn:E3; [|now rewrite andb_false_r].
      exfalso. apply U, uw_if; [now apply on_true|now apply nsome_true].
    Qed.
    Lemma function_cfg_none d s n : (d = c \/ d = c') -> oneline_function_cfg d s n = None.
    Proof.
      intros D. assert (E : forall k, on d k = on c k) by now destruct D as [-> | ->].
      assert (E' : nsome d N_newline_format_function = nsome c N_newline_format_function) by now destruct D as [-> | ->].
      unfold oneline_function_cfg. rewrite !E, E'. destruct (nsome c N_newline_format_function) eqn:E3; [|now rewrite andb_false_r].
      destruct (on c B_force_single_line_top_level_function) eqn:E1; [exfalso; apply U, uw_function; [left; now apply on_true|now apply nsome_true]|].
      destruct (on c B_force_single_line_scoped_function) eqn:E2; [exfalso; apply U, uw_function; [right; now apply on_true|now apply nsome_true]|].
      now rewrite !andb_false_r.
    Qed.
    Lemma table_weq n : calm_tree n -> n_kind n = KTableConstructor -> weq (write_table c' src W1 n) (write_table c src W2 n).
    Proof.
      intros Q Ek. assert (T : cn c N_newline_format_table_constructor = Some 1%N) by (destruct Q as [Q|Q]; [exact Q|inversion Q; contradiction]). unfold write_table. rewrite (table_cfg_none c n), (table_cfg_none c' n) by auto. cbn [oneline_or].
      apply weq_bind; [apply weq_refl|]. intros one. apply weq_bind; [apply weq_refl|]. intros _. apply weq_bind; [now apply items_weq|]. intros _.
      apply weq_bind; [change (on c' ?k) with (on c k); destruct (_ && _); [apply indent_weq; now apply calm_kid|apply weq_refl]|]. intros ind. apply weq_bind; [apply weq_refl|]. intros _.
      apply weq_bind; [now apply items_weq|]. intros _. apply weq_bind; [apply weq_refl|]. intros f. change (nis c' N_newline_format_table_constructor 1) with (nis c N_newline_format_table_constructor 1).
      assert (E : nis c N_newline_format_table_constructor 1 = true) by (unfold nis; now rewrite T). rewrite E. cbn [orb]. now apply items_weq.
    Qed.
    Lemma binary_weq n : calm_tree n -> weq (write_binary c' src W1 n) (write_binary c src W2 n).
    Proof.
      intros Q. unfold write_binary. apply weq_bind; [now apply items_weq|]. intros _. change (on c' ?k) with (on c k). change (nis c' N_newline_format_binary_op ?x) with (nis c N_newline_format_binary_op x).
      apply weq_bind; [|intros; now apply items_weq]. destruct (on c B_force_single_line_binary_op) eqn:E1; [|rewrite andb_false_r; apply weq_refl].
      destruct (nis c N_newline_format_binary_op 1) eqn:E2; [exfalso; apply U, uw_operator; [now apply on_true|left; now apply nis_true]|].
      destruct (nis c N_newline_format_binary_op 2) eqn:E3; [exfalso; apply U, uw_operator; [now apply on_true|right; now apply nis_true]|]. apply weq_refl.
    Qed.
    Lemma body_weq n : calm_tree n -> weq (write_body c' src W1 n) (write_body c src W2 n).
    Proof.
      intros Q. assert (B : weq (range_or c' src W1 n (s <- get_st ;; oneline_or W1 (match oneline_if_cfg c' n with Some d => Some d | None => oneline_function_cfg c' s n end) n (ret tt) (run_clause c' src W1 n (clause_of c' n))))
                      (range_or c src W2 n (s <- get_st ;; oneline_or W2 (match oneline_if_cfg c n with Some d => Some d | None => oneline_function_cfg c s n end) n (ret tt) (run_clause c src W2 n (clause_of c n))))).
      { apply range_weq; [exact Q|]. apply weq_bind; [apply weq_refl|]. intros s. rewrite (if_cfg_none c n), (if_cfg_none c' n), (function_cfg_none c s n), (function_cfg_none c' s n) by auto. now apply clause_weq. }
      assert (S : weq (range_or c' src W1 n (lua_seps c' src W1 n ;;; ret tt)) (range_or c src W2 n (lua_seps c src W2 n ;;; ret tt))).
      { apply range_weq; [exact Q|]. apply weq_bind; [now apply lua_seps_weq|]. intros _. apply weq_refl. }
      assert (L : weq (range_or c' src W1 n (lua_list c' src W1 n ;;; ret tt)) (range_or c src W2 n (lua_list c src W2 n ;;; ret tt))).
      { apply range_weq; [exact Q|]. apply weq_bind; [now apply lua_list_weq|]. intros _. apply weq_refl. }
      unfold write_body. destruct (n_kind n) eqn:Ek; try exact B; try exact S; try exact L; try (apply clause_weq; exact Q); try apply weq_refl.
      - apply range_weq; [exact Q|now apply binary_weq].
      - apply range_weq; [exact Q|now apply table_weq].
      - apply range_weq; [exact Q|]. unfold write_empty_table. apply weq_bind; [apply weq_refl|]. intros t. now apply items_weq.
      - apply range_weq; [exact Q|]. apply weq_bind; [now apply lua_seps_weq|]. intros _. now apply items_weq.
    Qed.
  End Body.
  Lemma write_weq fuel : forall n, calm_tree n -> weq (write fuel src c' n) (write fuel src c n).
  Proof. induction fuel as [|k IH]; intros n Q; [apply weq_refl|]. cbn [write]. apply body_weq; [exact IH|exact Q]. Qed.
  Theorem width_unused : brace_settled src c -> process_buffer src c' = process_buffer src c.
  Proof.
    intros B. unfold process_buffer. destruct (parse_lua src) as [n| |] eqn:P; [|reflexivity..]. change (line_range c') with (line_range c). change (reconstruct c' ?x ?y) with (reconstruct c x y).
    unfold reconstruct. pose proof (fun H => recon_tableless c n H None (0%Z, line_range_to_pos_range src (line_range c))) as R. destruct (recon c None n _) as [t pr]. cbn [fst] in R.
    rewrite write_weq; [reflexivity|]. destruct B as [B|B]; [now left|]. right. apply R. apply (root_tableless src n P). intros ts E a l r x b Et. exact (B ts a l r x b E Et).
  Qed.
End Width.

(** ** every such option measures something *)
Definition measured : list (list string) :=
  [ ["--force_single_line_exp_list=true"; "--newline_format_exp_list=1"];
    ["--force_single_line_exp_list=true"; "--newline_format_exp_list_first=1"];
    ["--force_single_line_var_suffix=true"; "--newline_format_var_suffix=7"];
    ["--force_single_line_binary_op=true"; "--newline_format_binary_op=1"];
    ["--force_single_line_binary_op=true"; "--newline_format_binary_op=2"];
    ["--force_single_line_iv_table_field=true"; "--newline_format_table_field=7"];
    ["--force_single_line_kv_table_field=true"; "--newline_format_table_field=7"];
    ["--force_single_line_table=true"];
    ["--force_single_line_if=true"; "--newline_format_if=1"];
    ["--force_single_line_top_level_function=true"; "--newline_format_function=1"];
    ["--force_single_line_scoped_function=true"; "--newline_format_function=1"] ]%string.
Ltac shown w := exists (s2l w); do 2 eexists; split; [vm_compute; reflexivity|]; split; [vm_compute; reflexivity|]; discriminate.
Lemma width_used : forall l, In l measured ->
  let c := with_options ("--newline_format_table_constructor=1"%string :: l) in
  uses_width c /\ exists src o1 o2, process_buffer src (set_n N_max_width (Some 5%N) c) = Formatted o1
    /\ process_buffer src (set_n N_max_width (Some 60%N) c) = Formatted o2 /\ o1 <> o2.
Proof.
  intros l Hl. repeat (destruct Hl as [<-|Hl]; [cbv zeta|]); [..|destruct Hl].
  - split; [apply uw_exp_list; [reflexivity|left; reflexivity]|]. shown "f(aaaaaa,bbbbbb)"%string.
  - split; [apply uw_exp_list; [reflexivity|right; reflexivity]|]. shown "f(aaaaaa,bbbbbb)"%string.
  - split; [apply uw_suffix; [reflexivity|discriminate]|]. shown "x=a.bbbbbbbb"%string.
  - split; [apply uw_operator; [reflexivity|left; reflexivity]|]. shown "x=aaaaaa+bbbbbb"%string.
  - split; [apply uw_operator; [reflexivity|right; reflexivity]|]. shown "x=aaaaaa+bbbbbb"%string.
  - split; [apply uw_fields; [left; reflexivity|discriminate]|]. shown "x={aaaaaa,bbbbbb}"%string.
  - split; [apply uw_fields; [right; reflexivity|discriminate]|]. shown "x={a=aaaaaa,b=bbbbbb}"%string.
  - split; [apply uw_table; [reflexivity|discriminate]|]. shown "x={a=aaaaaa,b=bbbbbb}"%string.
  - split; [apply uw_if; [reflexivity|discriminate]|]. shown "if a then b() end"%string.
  - split; [apply uw_function; [left; reflexivity|discriminate]|]. shown "function f() b() end"%string.
  - split; [apply uw_function; [right; reflexivity|discriminate]|]. shown "x={function() b() end}"%string.
Qed.
Lemma brace_width : exists src c o1 o2, ~ uses_width c /\ process_buffer src (set_n N_max_width (Some 5%N) c) = Formatted o1
  /\ process_buffer src (set_n N_max_width (Some 60%N) c) = Formatted o2 /\ o1 <> o2.
Proof.
  exists (s2l "x={aaaaaa,bbbbbb}"), default_config. do 2 eexists. split; [intros H; inversion H as [A B|A B|A B|[A|A] B|A B|A B|[A|A] B]; discriminate A|].
  split; [vm_compute; reflexivity|]. split; [vm_compute; reflexivity|]. discriminate.
Qed.
