(** The outcomes of writing a tree. *)
From Verif Require Import Base Lib Config State Ast LuaLexer WriterBase LuaWriter LexSpec LayoutSpec RenderSpec RangeKeepSpec WriterFrame GapProofs
  RenderProofs TotalFrame.

(** ** configurations reached by self tests *)
Definition reach (c0 c : config) : Prop := kin c0 c /\ cn c N_max_width = cn c0 N_max_width.
Definition b2n (b : bool) : nat := if b then 1 else 0.
(** the self tests still possible *)
Definition selfs (c : config) : nat :=
  b2n (nsome c N_newline_format_table_constructor) + b2n (nsome c N_newline_format_if) + b2n (nsome c N_newline_format_function).
Lemma selfs_max c : selfs c <= 3.
Proof. unfold selfs, b2n. repeat destruct (nsome _ _); lia. Qed.
Lemma reach_refl c : reach c c. Proof. split; [apply kin_refl|reflexivity]. Qed.
Lemma reach_table c0 c n c' : reach c0 c -> oneline_table_cfg c n = Some c' ->
  reach c0 c' /\ selfs c' < selfs c /\ cn c' N_max_width <> None.
Proof.
  intros [K M] E. split; [split; [eapply kin_table; eauto|]|]; unfold oneline_table_cfg in E; destruct (_ && _) eqn:B in E; try discriminate;
    injection E as <-; [exact M|]. rewrite !andb_true_iff in B. destruct B as ((((_ & B1) & B2) & _) & _).
  unfold selfs, nsome in *. cbn. split; [|now destruct (cn c N_max_width)]. destruct (cn c N_newline_format_table_constructor); [|discriminate].
  cbn. lia.
Qed.
Lemma reach_if c0 c n c' : reach c0 c -> oneline_if_cfg c n = Some c' ->
  reach c0 c' /\ selfs c' < selfs c /\ cn c' N_max_width <> None.
Proof.
  intros [K M] E. split; [split; [eapply kin_if; eauto|]|]; unfold oneline_if_cfg in E; destruct (_ && _) eqn:B in E; try discriminate;
    injection E as <-; [exact M|]. rewrite !andb_true_iff in B. destruct B as ((((_ & B1) & _) & B2) & _).
  unfold selfs, nsome in *. cbn. split; [|now destruct (cn c N_max_width)]. destruct (cn c N_newline_format_if); [|discriminate].
  cbn. lia.
Qed.
Lemma reach_function c0 c s n c' : reach c0 c -> oneline_function_cfg c s n = Some c' ->
  reach c0 c' /\ selfs c' < selfs c /\ cn c' N_max_width <> None.
Proof.
  intros [K M] E. split; [split; [eapply kin_function; eauto|]|]; unfold oneline_function_cfg in E; destruct (_ && _) eqn:B in E; try discriminate;
    injection E as <-; [exact M|]. rewrite !andb_true_iff in B. destruct B as ((((_ & B1) & B2) & _) & _).
  unfold selfs, nsome in *. cbn. split; [|now destruct (cn c N_max_width)]. destruct (cn c N_newline_format_function); [|discriminate].
  cbn. lia.
Qed.

(** ** heights *)
Lemma max_in {A} (f : A -> nat) l x : In x l -> f x <= fold_right Nat.max 0 (map f l).
Proof. induction l as [|a l IH]; cbn; [contradiction|]. intros [-> | H]; [lia|]. apply IH in H. lia. Qed.
Lemma height_pos n : 1 <= height n. Proof. destruct n. cbn. lia. Qed.
Lemma height_item n x : In x (n_items n) -> height (snd x) < height n.
Proof.
  destruct n as [k s ls t lv ks is ss o]. cbn [n_items]. intros H. apply (max_in (fun x => height (snd x))) in H.
  apply Nat.lt_succ_r. etransitivity; [exact H|]. etransitivity; [|apply Nat.le_max_r]. apply Nat.le_max_l.
Qed.
Lemma height_sep n x : In x (n_seps n) -> height (snd (fst (fst x))) < height n.
Proof.
  destruct n as [k s ls t lv ks is ss o]. cbn [n_seps]. intros H. apply (max_in (fun x : sitem => height (snd (fst (fst x))))) in H.
  apply Nat.lt_succ_r. etransitivity; [exact H|]. etransitivity; [|apply Nat.le_max_r]. apply Nat.le_max_r.
Qed.
Lemma kid_cases n i : height (kid n i) < height n \/ kid n i = dummy_node.
Proof.
  unfold kid. destruct (nth_in_or_default i (n_kids n) dummy_node) as [H|H]; [left|now right].
  destruct n as [k s ls t lv ks is ss o]. cbn [n_kids] in *. apply (max_in height) in H.
  apply Nat.lt_succ_r. etransitivity; [exact H|]. apply Nat.le_max_l.
Qed.
Lemma height_kid n i : height (kid n i) <= height n.
Proof. destruct (kid_cases n i) as [H| ->]; [lia|]. apply height_pos. Qed.

(** ** the parts of a layout *)
Definition n_gaps (k : kind) : nat :=
  match k with
  | KBinaryOp => 2 | KUnaryOp => 1 | KFuncNameSelf => 2 | KChunk => 2 | KSheBangChunk => 3
  | _ => pred (List.length (template k))
  end.
Definition n_subs (k : kind) : nat :=
  match k with
  | KBinaryOp => 2 | KUnaryOp => 1 | KFuncNameSelf => 1 | KChunk => 1 | KSheBangChunk => 2
  | _ => List.length (filter (fun p => match p with TK => true | _ => false end) (template k))
  end.
Section Parts.
  Variables (Q : slot -> Prop) (R : loc -> Prop).
  (** the places of the parts that may be copied *)
  Definition fair (n : node) : Prop := forall x, within n x -> range_kind (n_kind x) = true -> R (n_span x).
  Definition good (n : node) : Prop := Forall Q (layout n) /\ fair n.
  Lemma fair_child n x : fair n -> In x (children n) -> fair x.
  Proof. intros H Hx y Hy. apply H. eapply wi_part; eauto. Qed.
  Lemma fair_kid n i : fair n -> fair (kid n i).
  Proof.
    intros H. unfold kid. destruct (nth_in_or_default i (n_kids n) dummy_node) as [Hi| ->].
    - eapply fair_child; eauto. unfold children. rewrite !in_app_iff. auto.
    - intros x Hx. inversion Hx as [|? m ? Hm]; subst; [discriminate|destruct Hm].
  Qed.
  Lemma fill_gap ls ks ps : forall i0 j i, i0 <= i < i0 + pred (List.length ps) -> Forall Q (fill ls ks i0 j ps) -> Q (SGap (nth i ls dummy_loc)).
  Proof.
    induction ps as [|p ps IH]; intros i0 j i Hi F; [cbn in Hi; lia|]. cbn [fill] in F. apply Forall_app in F as [_ F].
    destruct ps as [|q ps]; [cbn in Hi; lia|]. inversion F as [|? ? F1 F2]; subst. destruct (Nat.eq_dec i i0) as [->|Ne]; [exact F1|].
    eapply (IH (S i0)); [|exact F2]. cbn in *. lia.
  Qed.
  Lemma fill_sub ls ks ps : forall i j0 j,
    j0 <= j < j0 + List.length (filter (fun p => match p with TK => true | _ => false end) ps) ->
    Forall Q (fill ls ks i j0 ps) -> Forall Q (nth j ks nil_slots).
  Proof.
    induction ps as [|p ps IH]; intros i j0 j Hj F; [cbn in Hj; lia|]. cbn [fill] in F. apply Forall_app in F as [F0 F].
    assert (F' : forall j1, match ps with [] => [] | _ => SGap (nth i ls dummy_loc) :: fill ls ks (S i) j1 ps end =
                  match ps with [] => [] | _ => [SGap (nth i ls dummy_loc)] end ++ fill ls ks (S i) j1 ps) by (intros; now destruct ps).
    rewrite F' in F. apply Forall_app in F as [_ F]. destruct p.
    - eapply IH; [|exact F]. cbn in Hj. exact Hj.
    - destruct (Nat.eq_dec j j0) as [->|Ne]; [exact F0|]. eapply IH; [|exact F]. cbn in Hj. lia.
  Qed.
  Lemma good_gap n i : good n -> i < n_gaps (n_kind n) -> Q (SGap (nloc n i)).
  Proof.
    destruct n as [k s ls t lv ks is ss o]. unfold good, nloc. cbn [n_locs n_kind]. intros [F _] Hi.
    assert (Hr : Forall Q (fill ls (map layout ks) 0 0 (template k)) -> i < pred (List.length (template k)) -> Q (SGap (nth i ls dummy_loc))).
    { intros F' Hi'. eapply (fill_gap _ _ _ 0); [|exact F']. lia. }
    destruct k; cbn [layout] in F; try (cbn in Hi; lia); try (apply Hr; [exact F|exact Hi]).
    - apply Forall_app in F as [_ F]. cbn in F. inversion F as [|? ? F1 F2]; subst. inversion F2 as [|? ? _ F3]; subst. inversion F3 as [|? ? F4 _]; subst.
      cbn in Hi. destruct i as [|[|]]; [exact F1|exact F4|lia].
    - cbn in F. inversion F as [|? ? _ F1]; subst. inversion F1 as [|? ? F2 _]; subst. cbn in Hi. destruct i; [exact F2|lia].
    - inversion F as [|? ? _ F1]; subst. apply Hr; [exact F1|exact Hi].
    - apply Forall_app in F as [_ F]. cbn in F. inversion F as [|? ? F1 F2]; subst. inversion F2 as [|? ? _ F3]; subst. inversion F3 as [|? ? F4 _]; subst.
      cbn in Hi. destruct i as [|[|]]; [exact F1|exact F4|lia].
    - inversion F as [|? ? F1 F2]; subst. apply Forall_app in F2 as [_ F2]. inversion F2 as [|? ? F3 _]; subst.
      cbn in Hi. destruct i as [|[|]]; [exact F1|exact F3|lia].
    - inversion F as [|? ? F1 F2]; subst. apply Forall_app in F2 as [_ F2]. inversion F2 as [|? ? F3 F4]; subst.
      apply Forall_app in F4 as [_ F4]. inversion F4 as [|? ? F5 _]; subst.
      cbn in Hi. destruct i as [|[|[|]]]; [exact F1|exact F3|exact F5|lia].
  Qed.
  Lemma good_kid n i : good n -> i < n_subs (n_kind n) -> good (kid n i).
  Proof.
    intros [F Hf] Hi. split; [|now apply fair_kid]. clear Hf. revert F Hi.
    destruct n as [k s ls t lv ks is ss o]. unfold kid. cbn [n_kids n_kind]. intros F Hi.
    assert (En : forall j, layout (nth j ks dummy_node) = nth j (map layout ks) nil_slots).
    { intros j. change nil_slots with (layout dummy_node). symmetry. apply map_nth. }
    rewrite En.
    assert (Hr : Forall Q (fill ls (map layout ks) 0 0 (template k)) ->
      i < List.length (filter (fun p => match p with TK => true | _ => false end) (template k)) -> Forall Q (nth i (map layout ks) nil_slots)).
    { intros F' Hi'. eapply (fill_sub _ _ _ 0 0); [|exact F']. lia. }
    destruct k; cbn [layout] in F; try (cbn in Hi; lia); try (apply Hr; [exact F|exact Hi]).
    - apply Forall_app in F as [F0 F]. apply Forall_app in F as [_ F]. cbn in Hi. destruct i as [|[|]]; [exact F0|exact F|lia].
    - apply Forall_app in F as [_ F]. cbn in Hi. destruct i; [exact F|lia].
    - inversion F as [|? ? _ F1]; subst. apply Hr; [exact F1|exact Hi].
    - apply Forall_app in F as [_ F]. apply Forall_app in F as [_ F]. cbn in Hi. destruct i; [exact F|lia].
    - inversion F as [|? ? F1 F2]; subst. apply Forall_app in F2 as [F2 _]. cbn in Hi. destruct i; [exact F2|lia].
    - inversion F as [|? ? F1 F2]; subst. apply Forall_app in F2 as [F2 F3]. inversion F3 as [|? ? _ F4]; subst. apply Forall_app in F4 as [F4 _].
      cbn in Hi. destruct i as [|[|]]; [exact F2|exact F4|lia].
  Qed.
  Lemma listed_parts l : Forall Q (listed (map (fun x => (fst x, layout (snd x))) l)) -> Forall (fun x : loc * node => Q (SGap (fst x)) /\ Forall Q (layout (snd x))) l.
  Proof.
    induction l as [|[p x] l IH]; cbn; intros F; constructor; inversion F as [|? ? F1 F2]; subst; apply Forall_app in F2 as [F2 F3]; [split; auto|auto].
  Qed.
  Definition sl4 (x : loc * node * loc * str) := (fst (fst (fst x)), layout (snd (fst (fst x))), snd (fst x), snd x).
  Definition parts4 (x : loc * node * loc * str) := Q (SGap (fst (fst (fst x)))) /\ Forall Q (layout (snd (fst (fst x)))) /\ Q (SGap (snd (fst x))).
  Lemma commas_parts t l : Forall Q (commas t (map sl4 l)) -> Forall parts4 l.
  Proof.
    induction l as [|[[[p x] q] z] l IH]; cbn; intros F; constructor; inversion F as [|? ? F1 F2]; subst; apply Forall_app in F2 as [F2 F3];
      inversion F3 as [|? ? F4 F5]; subst; [repeat split; auto|].
    destruct l as [|y l]; [constructor|]. apply IH. cbn [map] in *. now inversion F5.
  Qed.
  Lemma fields_parts l : Forall Q (fields (map sl4 l)) -> Forall (fun x => parts4 x /\ (Q (SSep (snd x)) \/ Q (STrail (snd x)))) l.
  Proof.
    induction l as [|[[[p x] q] z] l IH]; cbn; intros F; constructor; inversion F as [|? ? F1 F2]; subst; apply Forall_app in F2 as [F2 F3];
      inversion F3 as [|? ? F4 F5]; subst.
    - split; [repeat split; auto|]. destruct l as [|y l]; cbn in F5; inversion F5; subst; auto.
    - destruct l as [|y l]; [constructor|]. apply IH. cbn [map] in *. now inversion F5.
  Qed.
End Parts.

(** options under which the writer measures a text on one line, whether or not there is a width *)
Definition tries (c : config) : Prop :=
  (on c B_force_single_line_exp_list = true /\ (nis c N_newline_format_exp_list 1 = true \/ nis c N_newline_format_exp_list_first 1 = true))
  \/ (on c B_force_single_line_var_suffix = true /\ nsome c N_newline_format_var_suffix = true)
  \/ (on c B_force_single_line_binary_op = true /\ (nis c N_newline_format_binary_op 1 = true \/ nis c N_newline_format_binary_op 2 = true))
  \/ (on c B_force_single_line_iv_table_field = true /\ on c B_force_single_line_table = true /\ nsome c N_newline_format_table_field = true).
Lemma kin_nis c0 c k v : kin c0 c -> nis c k v = true -> nis c0 k v = true.
Proof. intros (_ & _ & H). unfold nis. destruct (H k) as [->| ->]; [auto|discriminate]. Qed.
Lemma kin_nsome c0 c k : kin c0 c -> nsome c k = true -> nsome c0 k = true.
Proof. intros (_ & _ & H). unfold nsome. destruct (H k) as [->| ->]; [auto|discriminate]. Qed.
Lemma kin_tries c0 c : kin c0 c -> tries c -> tries c0.
Proof.
  intros K. pose proof (fun k => kin_on c0 c k K) as A. pose proof (fun k v => kin_nis c0 c k v K) as B. pose proof (fun k => kin_nsome c0 c k K) as C.
  intros [(X & [Y|Y])|[(X & Y)|[(X & [Y|Y])|(X & Y & Z)]]]; [left|left|right; left|do 2 right; left|do 2 right; left|do 3 right]; auto.
Qed.

Section Lua.
  Variables (Ef Pf Ff : Prop) (T : str -> Prop) (I : state -> Prop) (Q : slot -> Prop) (R : loc -> Prop) (c0 : config) (buf : str).
  Hypothesis T_nil : T [].
  Hypothesis T_app : forall a b, T a -> T b -> T (a ++ b).
  Hypothesis T_nl : forall a, T (a ++ [ch_nl]).
  Hypothesis T_ascii : forall s, forallb (fun a => N.ltb a 128) s = true -> T s.
  Hypothesis I_indent : forall s lv sk, I s -> I (set_indent lv sk s).
  Hypothesis I_func : forall s z, I s -> I (set_func_level z s).
  Hypothesis Ef_T : Ef -> forall t, T t.
  Hypothesis Ef_I : Ef -> forall s, I s.
  Hypothesis tok_T : forall t, Q (STok t) -> T (tok_text t).
  Hypothesis sep_T : forall z, Q (SSep z) \/ Q (STrail z) -> T z.
  Hypothesis cfg_T : forall k t, cs c0 k = Some t -> T t.
  Notation run := (TotalFrame.run Ef Pf Ff T I).
  Notation okq := (TotalFrame.okq Ef Pf Ff T I).
  Notation ok := (TotalFrame.ok Ef Pf Ff T I).
  Hypothesis hint_ok : forall c l h, reach c0 c -> Q (SGap l) -> T h -> ok (comment_hint c buf l h).
  Hypothesis void_Q : Q (SGap (0, 0)).
  Hypothesis gap_R : forall l, Q (SGap l) -> R l.
  Hypothesis raw_ok : forall s l, I s -> pos_range s <> None -> R l -> ok (write_loc buf l).
  Hypothesis width : Pf \/ (tries c0 -> cn c0 N_max_width <> None).

  Lemma T_sp : T sp. Proof. apply T_ascii. reflexivity. Qed.
  Lemma T_indent c s : reach c0 c -> T (indent_text c s).
  Proof.
    intros [[K _] _]. unfold indent_text. rewrite K. destruct (cs c0 S_indentation_string) as [t|] eqn:E; [|exact T_nil].
    apply cfg_T in E. induction (Z.to_nat (indent_level s)) as [|m IH]; cbn; auto.
  Qed.
  Lemma T_table c : reach c0 c -> T (table_hint c).
  Proof.
    intros [[K _] _]. unfold table_hint, sopt_or. rewrite K. destruct (cs c0 S_hint_table_constructor) as [t|] eqn:E; [|exact T_nil]. eauto.
  Qed.
  Lemma T_prefix x : T (list_prefix_hint x).
  Proof. unfold list_prefix_hint. destruct (n_kind x); auto using T_sp. Qed.
  Lemma T_elem x : T (elem_prefix_hint x).
  Proof. unfold elem_prefix_hint. destruct (n_kind x); auto using T_sp. Qed.
  Lemma width_c c : reach c0 c -> tries c -> Pf \/ cn c N_max_width <> None.
  Proof. intros [K M] E. destruct width as [P|Hw]; [now left|right]. rewrite M. apply Hw. eapply kin_tries; eauto. Qed.

  (** *** items *)
  Fixpoint move (x : item) (d : nat * nat) : option (nat * nat) :=
    match x with
    | IInc _ => Some (S (fst d), snd d)
    | IDec => match fst d with S d' => Some (d', snd d) | O => None end
    | IIncF => Some (fst d, S (snd d))
    | IDecF => match snd d with S k' => Some (fst d, k') | O => None end
    | IIf b y => if b then move y d else Some d
    | _ => Some d
    end.
  Fixpoint moves (l : list item) (d : nat * nat) : option (nat * nat) :=
    match l with [] => Some d | x :: r => match move x d with Some d' => moves r d' | None => None end end.
  (** the level does not fall under the one at the start *)
  Fixpoint item_in (ranged : Prop) (k : kind) (x : item) : Prop :=
    match x with
    | ITok s => T s
    | IRaw i => ranged /\ i < n_gaps k
    | IHint i h => i < n_gaps k /\ T h
    | INl _ i h => i < n_gaps k /\ T h
    | IKid i => i < n_subs k
    | IIf _ y => item_in ranged k y
    | _ => True
    end.

  Section Body.
    Variables (c : config) (W : config -> node -> M unit) (n : node).
    Hypothesis Hc : reach c0 c.
    Hypothesis W_ok : forall c' x, reach c0 c' -> good Q R x -> height x + selfs c' < height n + selfs c -> ok (W c' x).
    Hypothesis W_dummy : forall c', ok (W c' dummy_node).

    Lemma W_below x : good Q R x -> height x < height n -> ok (W c x).
    Proof. intros H1 H2. apply W_ok; auto. lia. Qed.
    Lemma W_kid i : good Q R n -> i < n_subs (n_kind n) -> ok (W c (kid n i)).
    Proof.
      intros Hg Hi. pose proof (good_kid Q R n i Hg Hi) as Hk. destruct (kid_cases n i) as [Hh|E]; [now apply W_below|]. rewrite E. apply W_dummy.
    Qed.
    Lemma H_ok l h : Q (SGap l) -> T h -> ok (H c buf l h).
    Proof. intros. now apply hint_ok. Qed.
    Lemma nl_ok b l h : Q (SGap l) -> T h -> ok (if_newline c b (H c buf l) h).
    Proof. intros Hl Hh. apply ok_if_newline; auto using T_indent, H_ok. Qed.

    Lemma item_ok (ranged : Prop) x d k d' k' : good Q R n -> (ranged -> forall l, R l -> ok (write_loc buf l)) -> item_in ranged (n_kind n) x ->
      move x (d, k) = Some (d', k') -> run d k (run_item c buf W n x) (fun _ => True) d' k'.
    Proof.
      intros Hg Hr. revert d k d' k'. induction x as [s|i|i h|b i h|i|o| | | |b y IH]; intros d k d' k' Hx Hm; cbn [run_item item_in move fst snd] in *.
      - injection Hm as <- <-. apply ok_emit; auto.
      - injection Hm as <- <-. apply Hr; [apply Hx|]. apply gap_R. now apply (good_gap Q R).
      - injection Hm as <- <-. destruct Hx. apply H_ok; auto. now apply (good_gap Q R).
      - injection Hm as <- <-. destruct Hx. apply nl_ok; auto. now apply (good_gap Q R).
      - injection Hm as <- <-. now apply W_kid.
      - injection Hm as <- <-. now apply run_inc.
      - destruct d as [|d]; [discriminate|]. injection Hm as <- <-. now apply run_dec.
      - injection Hm as <- <-. now apply run_incf.
      - destruct k as [|k]; [discriminate|]. injection Hm as <- <-. now apply run_decf.
      - destruct b; [now apply IH|]. injection Hm as <- <-. now apply ok_ret.
    Qed.
    Lemma items_ok (ranged : Prop) l : good Q R n -> (ranged -> forall l, R l -> ok (write_loc buf l)) -> Forall (item_in ranged (n_kind n)) l -> forall d k d' k',
      moves l (d, k) = Some (d', k') -> run d k (run_items c buf W n l) (fun _ => True) d' k'.
    Proof.
      intros Hg Hr. induction 1 as [|x l Hx Hl IH]; intros d k d' k' Hm; cbn [moves run_items] in *.
      - injection Hm as <- <-. now apply ok_ret.
      - destruct (move x (d, k)) as [[d1 k1]|] eqn:E; [|discriminate].
        eapply run_bind; [eapply item_ok; eauto|]. intros _ _. now apply IH.
    Qed.

    (** *** tests *)
    Definition below (x : node) : Prop := good Q R x /\ height x < height n.
    Lemma suffix_ok x : below x -> ok (suffix_newline c buf W x).
    Proof.
      intros [Hg Hh]. unfold suffix_newline.
      assert (Hk : n_subs (n_kind x) <> 0 -> ok (W c (kid x 0))).
      { intros Hn. apply W_below; [apply good_kid; [exact Hg|lia]|]. pose proof (height_kid x 0). lia. }
      assert (Hl : n_gaps (n_kind x) <> 0 -> ok (H c buf (nloc x 0) [])).
      { intros Hn. apply H_ok; [|exact T_nil]. apply (good_gap Q R); [exact Hg|lia]. }
      pose proof (W_below x Hg Hh) as Hx.
      destruct (n_kind x) eqn:Ek; try (now apply ok_ret).
      - destruct (nsome c N_newline_format_var_suffix) eqn:En; [cbn [negb]|now apply ok_ret].
        destruct (on c B_force_single_line_var_suffix) eqn:E; [|now apply ok_ret].
        eapply ok_isnone. apply ok_test; auto; [apply width_c; [exact Hc|right; now left]|]. intros m [<-|[]]. exact Hx.
      - destruct (nsome c N_newline_format_var_suffix) eqn:En; [cbn [negb]|now apply ok_ret].
        destruct (on c B_force_single_line_var_suffix) eqn:E; [|now apply ok_ret].
        assert (Hw : Pf \/ cn c N_max_width <> None) by (apply width_c; [exact Hc|right; now left]).
        assert (A1 : ok (isnone (test_oneline c [W c x]))).
        { eapply ok_isnone. apply ok_test; auto. intros m [<-|[]]. exact Hx. }
        assert (A2 : ok (isnone (test_oneline c [emit (s2l ":"); H c buf (nloc x 0) []; W c (kid x 0)]))).
        { eapply ok_isnone. apply ok_test; auto. intros m [<-|[<-|[<-|[]]]].
          - apply ok_emit; auto.
          - apply Hl. cbn. lia.
          - apply Hk. cbn. lia. }
        destruct (n_kind (kid x 1)); auto. destruct (nsome c N_newline_format_exp_list_first); auto.
    Qed.
    Lemma field_ok x : below x -> okq (topt T) (test_oneline_table_field c W x).
    Proof.
      intros [Hg Hh]. unfold test_oneline_table_field.
      assert (A : okq (topt T) (if nsome c N_max_width && nsome c N_newline_format_table_field && fits_twice c x
                                then test_oneline_no_nl c [W c x] else ret None)).
      { destruct (nsome c N_max_width) eqn:E; cbn [andb]; [|now apply ok_ret]. destruct (_ && _); [|now apply ok_ret].
        apply ok_test_no_nl; auto; [right; unfold nsome in E; now destruct (cn c N_max_width)|]. intros m [<-|[]]. now apply W_below. }
      destruct (n_kind x); try exact A; now apply ok_ret.
    Qed.
    Lemma try_ok x : below x -> tries c -> okq (topt T) (test_oneline c [W c x]).
    Proof. intros [Hg Hh] E. apply ok_test; auto; [eapply width_c; eauto|]. intros m [<-|[]]. now apply W_below. Qed.
    Lemma try_no_nl_ok x : below x -> tries c -> okq (topt T) (test_oneline_no_nl c [W c x]).
    Proof. intros [Hg Hh] E. apply ok_test_no_nl; auto; [eapply width_c; eauto|]. intros m [<-|[]]. now apply W_below. Qed.
    Lemma need_newline_ok m x y : below y -> ok (need_newline c buf W m x y).
    Proof.
      intros Hy. unfold need_newline. destruct (n_kind m); try (now apply ok_ret); [| |now apply suffix_ok].
      - destruct (nsome c N_newline_format_table_field) eqn:En; [cbn [negb]|now apply ok_ret]. destruct (obool_is (o_iv (n_opts m)) true); cbn [andb].
        + destruct (on c B_force_single_line_iv_table_field) eqn:E.
          * destruct (on c B_force_single_line_table) eqn:E2; cbn [andb]; [|now apply ok_ret]. destruct (is_kind KFieldSequential x); [|now apply ok_ret].
            assert (A : okq (topt T) (test_oneline_no_nl c [W c y])) by (apply try_no_nl_ok; [exact Hy|do 3 right; auto]).
            destruct (is_kind _ _); [|eapply ok_isnone; eauto]. apply ok_seq; [apply ok_get_oneline|]. intros []; [now apply ok_ret|eapply ok_issome; eauto].
          * destruct (_ && _); [eapply ok_isnone, field_ok; eauto|now apply ok_ret].
        + destruct (_ && _); [eapply ok_isnone, field_ok; eauto|now apply ok_ret].
      - destruct (_ && _); [now apply ok_ret|]. destruct (nis _ _ _) eqn:En; [|now apply ok_ret].
        destruct (on c B_force_single_line_exp_list) eqn:E; [|now apply ok_ret]. eapply ok_isnone, try_ok; eauto. left; auto.
    Qed.
    Lemma first_newline_ok m y : below y -> ok (need_first_newline c buf W m y).
    Proof.
      intros Hy. unfold need_first_newline. destruct (n_kind m); try (now apply ok_ret); [| |now apply suffix_ok].
      - destruct (negb _); [now apply ok_ret|]. destruct (_ && _); [apply ok_seq; [apply ok_get_indent|]; intros; now apply ok_ret|].
        destruct (_ || _); [eapply ok_isnone, field_ok; eauto|now apply ok_ret].
      - destruct (nis _ _ _) eqn:En; [|now apply ok_ret].
        destruct (on c B_force_single_line_exp_list) eqn:E; [|now apply ok_ret]. eapply ok_isnone, try_ok; eauto. left; auto.
    Qed.
    Lemma trailing_ok m : ok (trailing_separator c m).
    Proof. unfold trailing_separator. destruct (n_kind m); try (now apply ok_ret). apply ok_seq; [apply ok_get_indent|]. intros. now apply ok_ret. Qed.

    (** *** lists *)
    Definition is_list (k : kind) : bool := match k with KStatementList | KVarSuffixList | KElseIfThenVec => true | _ => false end.
    Definition is_seps (k : kind) : bool :=
      match k with KFields | KExpList | KNameList | KVarList | KParList | KFuncName | KFuncNameSelf => true | _ => false end.
    Lemma lua_list_ok m : good Q R m -> is_list (n_kind m) = true -> height m <= height n -> ok (lua_list c buf W m).
    Proof.
      intros Hg Hk Hh. unfold lua_list.
      apply (ok_list Ef Pf Ff T I T_nil T_app T_nl c buf (H c buf) (W c) _ _ _ _ (fun l => Q (SGap l)) below).
      - intros s. now apply T_indent.
      - intros p h. apply H_ok.
      - intros x [Hx1 Hx2]. now apply W_below.
      - intros x Hx. now apply first_newline_ok.
      - intros x y _ Hy. now apply need_newline_ok.
      - apply T_prefix.
      - intros s l Hs Hp Hl. apply (raw_ok s); auto.
      - assert (F : Forall (fun x : loc * node => Q (SGap (fst x)) /\ Forall Q (layout (snd x))) (n_items m)).
        { apply listed_parts. apply proj1 in Hg. destruct m as [k s ls t lv ks is ss o]. cbn [n_kind n_items] in *. destruct k; try discriminate; exact Hg. }
        rewrite Forall_forall in F |- *. intros x Hx. destruct (F x Hx). split; [assumption|]. split; [split; [assumption|]|].
        + eapply fair_child; [exact (proj2 Hg)|]. unfold children. rewrite !in_app_iff. right; right. now apply in_map.
        + apply height_item in Hx. lia.
    Qed.
    Lemma lua_seps_ok m : good Q R m -> is_seps (n_kind m) = true -> height m <= height n -> ok (lua_seps c buf W m).
    Proof.
      intros Hg Hk Hh. unfold lua_seps.
      apply (ok_seps Ef Pf Ff T I T_nil T_app T_nl c buf (H c buf) (W c) _ _ _ (fun l => Q (SGap l)) below).
      - intros s. now apply T_indent.
      - intros p h. apply H_ok.
      - intros x [Hx1 Hx2]. now apply W_below.
      - intros x Hx. now apply first_newline_ok.
      - intros x y _ Hy. now apply need_newline_ok.
      - intros s l Hs Hp Hl. apply (raw_ok s); auto.
      - apply T_elem.
      - apply trailing_ok.
      - assert (F : Forall (fun x => parts4 Q x /\ T (get_sep (separator c m) (snd x))) (n_seps m)).
        { apply proj1 in Hg. destruct m as [k s ls t lv ks is ss o]. cbn [n_kind n_seps separator] in *.
          assert (P : forall x, get_sep (Some x) = fun _ => x) by reflexivity.
          assert (C : forall t x, Forall Q (commas t (map sl4 ss)) -> T x -> Forall (fun y => parts4 Q y /\ T (get_sep (Some x) (snd y))) ss).
          { intros t0 x F Tx. apply commas_parts in F. eapply Forall_impl; [|exact F]. intros y Hy. split; [exact Hy|exact Tx]. }
          destruct k; try discriminate; cbn [layout] in Hg; try (apply (C Comma); [exact Hg|apply T_ascii; reflexivity]).
          - apply fields_parts in Hg. eapply Forall_impl; [|exact Hg]. intros y [Hy Hz]. split; [exact Hy|].
            unfold get_sep, separator. cbn [n_kind]. destruct Hc as [[K _] _]. rewrite K. destruct (cs c0 S_field_separator) eqn:E; [eauto|]. apply sep_T. tauto.
          - apply (C Period); [exact Hg|apply T_ascii; reflexivity].
          - apply Forall_app in Hg as [Hg _]. apply (C Period); [exact Hg|apply T_ascii; reflexivity]. }
        rewrite Forall_forall in F |- *. intros x Hx. destruct (F x Hx) as [(F1 & F2 & F3) F4].
        assert (Hs : height (snd (fst (fst x))) < height n) by (apply height_sep in Hx; lia).
        repeat split; auto. eapply fair_child; [exact (proj2 Hg)|]. unfold children. rewrite !in_app_iff. left.
        change (snd (fst (fst x))) with (si_node x). now apply in_map.
    Qed.
    Lemma test_indent_ok m l h : good Q R m -> height m <= height n -> Q (SGap l) -> T h -> ok (test_indent c buf W m l h).
    Proof.
      intros Hg Hh Hl Th. unfold test_indent. pose proof (H_ok l h Hl Th) as A.
      destruct (n_kind m) eqn:Ek; try (now apply ok_ret).
      - destruct (n_seps m); [now apply ok_ret|]. apply ok_on_copy; auto. apply ok_seq; [exact A|]. intros _. apply lua_seps_ok; auto. now rewrite Ek.
      - assert (B : ok (on_copy (H c buf l h ;;; (if on c B_indent_exp_list then if on c B_indent_one_line_exp_list then ret true else lua_seps c buf W m
                                                  else ret false)))).
        { apply ok_on_copy; auto. apply ok_seq; [exact A|]. intros _. destruct (on c B_indent_exp_list); [|now apply ok_ret].
          destruct (on c B_indent_one_line_exp_list); [now apply ok_ret|]. apply lua_seps_ok; auto. now rewrite Ek. }
        destruct (n_seps m) as [|? [|]]; [now apply ok_ret| |exact B]. destruct (negb _); [now apply ok_ret|exact B].
      - destruct (n_items m); [now apply ok_ret|]. apply ok_on_copy; auto. apply ok_seq; [exact A|]. intros _.
        destruct (on c B_indent_var_suffix); [|now apply ok_ret]. destruct (on c B_indent_one_line_var_suffix); [now apply ok_ret|].
        apply lua_list_ok; auto. now rewrite Ek.
    Qed.

    (** *** arms *)
    Lemma raw_all s : I s -> pos_range s <> None -> forall l, R l -> ok (write_loc buf l).
    Proof. intros Hi Hp l Hl. eapply raw_ok; eauto. Qed.
    Lemma text_T : good Q R n ->
      match n_kind n with
      | KName | KNumeral | KUnaryOp | KBinaryOp => T (n_text n)
      | KNormalStringLiteral => T ([ch_quot] ++ n_text n ++ [ch_quot])
      | KCharStringLiteral => T ([ch_apos] ++ n_text n ++ [ch_apos])
      | KMultiLineStringLiteral => T (open_long (n_level n) ++ n_text n ++ close_long (n_level n))
      | KSheBang => T (n_text n ++ [ch_nl])
      | _ => True
      end.
    Proof.
      clear W_ok W_dummy. destruct n as [k s ls t lv ks is ss o]. unfold good. cbn [n_kind n_text n_level].
      destruct k; cbn [layout]; intros [F _]; try exact Logic.I; try exact (T_nl _);
        try (inversion F as [|? ? F1 _]; subst; exact (tok_T _ F1)).
      - apply Forall_app in F as [_ F]. inversion F as [|? ? _ F1]; subst. inversion F1 as [|? ? F2 _]; subst. apply tok_T in F2. now rewrite op_text in F2.
      - inversion F as [|? ? F2 _]; subst. apply tok_T in F2. now rewrite op_text in F2.
      - inversion F as [|? ? F1 _]; subst. apply tok_T in F1. cbn [tok_text spelling] in F1. unfold long, opening, closing, brackets in F1.
        unfold open_long, close_long. rewrite repeat_eqs. exact F1.
    Qed.
    Ltac side := solve [exact Logic.I | apply T_ascii; reflexivity | assumption | split; [exact Logic.I|cbn; lia] | split; [cbn; lia|solve [exact T_nil | apply T_ascii; reflexivity | now apply T_table]] | cbn; lia].
    Ltac sides := repeat (apply Forall_cons; [cbn [item_in]; side|]); apply Forall_nil.
    Lemma clause_items : good Q R n -> irregular (n_kind n) = false ->
      Forall (item_in False (n_kind n)) (cl_pre (clause_of c n))
      /\ (forall d, moves (cl_pre (clause_of c n)) d = Some d)
      /\ match cl_test (clause_of c n) with
         | Some (k, p, h) => k < n_subs (n_kind n) /\ p < n_gaps (n_kind n) /\ T h
         | None => True
         end
      /\ (forall b, Forall (item_in False (n_kind n)) (cl_post (clause_of c n) b))
      /\ (forall b d, moves (cl_post (clause_of c n) b) d = Some d).
    Proof.
      intros Hg. pose proof (text_T Hg) as Ht. clear Hg. revert Ht. destruct (n_kind n) eqn:Ek; intros Ht; try discriminate; intros _;
        unfold clause_of; rewrite Ek; cbn [plain tested cl_pre cl_post cl_test];
        (split; [sides|]; split; [intros [d k]; reflexivity|];
         split; [first [exact Logic.I|repeat split; first [cbn; lia|exact T_nil|exact T_sp]]|];
         split; [intros []; sides|intros [] [d k]; reflexivity]).
    Qed.
    Lemma clause_ok : good Q R n -> irregular (n_kind n) = false -> ok (run_clause c buf W n (clause_of c n)).
    Proof.
      intros Hg Hk. destruct (clause_items Hg Hk) as (A1 & A2 & A3 & A4 & A5). intros d k. unfold run_clause.
      assert (Hf : False -> forall l, R l -> ok (write_loc buf l)) by contradiction.
      eapply run_bind; [apply (items_ok False); eauto|]. intros _ _. eapply run_bind.
      - assert (B : ok (match cl_test (clause_of c n) with Some (k, p, h) => test_indent c buf W (kid n k) (nloc n p) h | None => ret false end)).
        { destruct (cl_test (clause_of c n)) as [[[i p] h]|]; [|now apply ok_ret]. destruct A3 as (A6 & A7 & A8).
          apply test_indent_ok; auto; [now apply good_kid|apply height_kid|now apply (good_gap Q R)]. }
        apply B.
      - intros b _. apply (items_ok False); auto.
    Qed.
    Lemma raw_items_in l : raw_items n = Some l -> good Q R n -> Forall (item_in True (n_kind n)) l /\ forall d, moves l d = Some d.
    Proof.
      intros El Hg. pose proof (text_T Hg) as Ht. clear Hg. revert Ht El. unfold raw_items. destruct (n_kind n) eqn:Ek; intros Ht [= <-];
        (split; [sides|intros [d k]; reflexivity]).
    Qed.
    Lemma range_ok m : good Q R n -> range_kind (n_kind n) = true -> ok m -> ok (range_or c buf W n m).
    Proof.
      intros Hg Hk Hm. unfold range_or. apply ok_get_st. intros s Hs. destruct (test_out_of_range _ _) eqn:E.
      - eapply raw_all; eauto; [intros E2; now rewrite E2 in E|]. exact (proj2 Hg n (wi_here n) Hk).
      - destruct (raw_items n) as [l|] eqn:El; [|exact Hm]. destruct (test_not_completely_contained _ _) eqn:E2; [|exact Hm].
        assert (A : forall l, R l -> ok (write_loc buf l)) by (eapply raw_all; eauto; intros E3; now rewrite E3 in E2).
        destruct (raw_items_in _ El Hg) as [B1 B2]. intros d k. apply (items_ok True); auto.
    Qed.
    Lemma oneline_ok tc done m : good Q R n ->
      (forall c', tc = Some c' -> reach c0 c' /\ selfs c' < selfs c /\ cn c' N_max_width <> None) ->
      ok done -> ok m -> ok (oneline_or W tc n done m).
    Proof.
      intros Hg Ht Hd Hm. unfold oneline_or. destruct tc as [c'|]; [|exact Hm]. destruct (Ht c' eq_refl) as (T1 & T2 & T3).
      eapply ok_bind; [apply ok_test_no_nl; auto|].
      - intros x [<-|[]]. apply W_ok; auto. lia.
      - intros [line|] Hl; [|exact Hm]. apply ok_seq; [exact Hd|]. intros _. apply ok_emit; auto.
    Qed.
    Lemma binary_ok : good Q R n -> n_kind n = KBinaryOp -> ok (write_binary c buf W n).
    Proof.
      intros Hg Ek d k. pose proof (text_T Hg) as Ht. rewrite Ek in Ht. unfold write_binary.
      assert (Hf : False -> forall l, R l -> ok (write_loc buf l)) by contradiction.
      eapply run_bind; [apply (items_ok False _ Hg Hf); [rewrite Ek; sides|reflexivity]|]. intros _ _. eapply run_bind.
      - assert (B : ok (if (nis c N_newline_format_binary_op 1 || nis c N_newline_format_binary_op 2) && on c B_force_single_line_binary_op
            then issome (test_oneline c [H c buf (nloc n 0) sp; emit (n_text n); H c buf (nloc n 1) sp; W c (kid n 1)]) else ret false)).
        { destruct (_ || _) eqn:En; cbn [andb]; [|now apply ok_ret]. destruct (on c B_force_single_line_binary_op) eqn:E; [|now apply ok_ret].
          apply Bool.orb_prop in En. eapply ok_issome. apply ok_test; auto; [apply width_c; [exact Hc|do 2 right; now left]|]. intros m [<-|[<-|[<-|[<-|[]]]]].
          - apply H_ok; auto using T_sp. apply (good_gap Q R); [exact Hg|]. rewrite Ek. cbn. lia.
          - apply ok_emit; auto.
          - apply H_ok; auto using T_sp. apply (good_gap Q R); [exact Hg|]. rewrite Ek. cbn. lia.
          - apply W_kid; [exact Hg|]. rewrite Ek. cbn. lia. }
        apply B.
      - intros b _. apply (items_ok False _ Hg Hf); [rewrite Ek; sides|reflexivity].
    Qed.
    Lemma table_ok : good Q R n -> n_kind n = KTableConstructor -> ok (write_table c buf W n).
    Proof.
      intros Hg Ek. unfold write_table. assert (Hf : False -> forall l, R l -> ok (write_loc buf l)) by contradiction.
      apply oneline_ok; auto; [intros c' E; eapply reach_table; eauto|apply ok_set_oneline|].
      apply ok_seq; [apply ok_get_oneline|]. intros one. apply ok_seq; [apply nl_ok; auto; now apply T_table|]. intros _ d k.
      eapply run_bind; [apply (items_ok False _ Hg Hf); [rewrite Ek; sides|reflexivity]|]. intros _ _. eapply run_bind.
      - assert (B : ok (if on c B_force_single_line_table && obool_is (o_iv (n_opts n)) true && obool_is (o_single (n_opts n)) true
                        then test_indent c buf W (kid n 0) (nloc n 0) (table_hint c) else ret true)).
        { destruct (_ && _); [|now apply ok_ret]. apply test_indent_ok; auto; [|apply height_kid| |now apply T_table].
          - apply good_kid; [exact Hg|]. rewrite Ek. cbn. lia.
          - apply (good_gap Q R); [exact Hg|]. rewrite Ek. cbn. lia. }
        apply B.
      - intros ind _. eapply run_bind.
        + assert (B : ok (if is_kind KFields (kid n 0) then set_indent_cell (kid n 0) ind else ret tt)).
          { destruct (is_kind _ _); [apply ok_set_indent|now apply ok_ret]. }
          apply B.
        + intros _ _. eapply (run_bind _ _ _ _ _ _ _ _ _ _ _ (if ind then S d else d) (S k)).
          * apply (items_ok False _ Hg Hf); [rewrite Ek; sides|]. destruct ind; reflexivity.
          * intros _ _ s0 w Hw1 Hw2 Hw3. unfold bind at 1, get_f at 1. revert Hw1 Hw2 Hw3. revert s0 w. intros s0 w Hw1 Hw2 Hw3.
            refine (items_ok False [IIf ind IDec; IDecF; INl _ 1 (table_hint c); ITok (s2l "}")] Hg Hf _ (if ind then S d else d) (S k) d k _ s0 w Hw1 Hw2 Hw3).
            -- rewrite Ek. sides.
            -- destruct ind; reflexivity.
    Qed.
    Lemma empty_ok : good Q R n -> n_kind n = KTableConstructorEmpty -> ok (write_empty_table c buf W n).
    Proof.
      intros Hg Ek. unfold write_empty_table. assert (Hf : False -> forall l, R l -> ok (write_loc buf l)) by contradiction.
      eapply ok_bind; [apply ok_buffer; [exact T_nil|]; apply H_ok; [|now apply T_table]; apply (good_gap Q R); [exact Hg|]; rewrite Ek; cbn; lia|].
      intros t _ d k. apply (items_ok False _ Hg Hf); [rewrite Ek; sides|reflexivity].
    Qed.
    Lemma body_ok : good Q R n -> ok (write_body c buf W n).
    Proof.
      intros Hg. pose proof (text_T Hg) as Ht. unfold write_body.
      assert (Hf : False -> forall l, R l -> ok (write_loc buf l)) by contradiction.
      assert (A : irregular (n_kind n) = false -> ok (run_clause c buf W n (clause_of c n))) by (intros; now apply clause_ok).
      assert (B : irregular (n_kind n) = false -> range_kind (n_kind n) = true -> ok (range_or c buf W n
          (s <- get_st ;; oneline_or W (match oneline_if_cfg c n with Some c' => Some c' | None => oneline_function_cfg c s n end) n (ret tt)
             (run_clause c buf W n (clause_of c n))))).
      { intros Hi Hr. apply range_ok; [exact Hg|exact Hr|]. apply ok_get_st. intros s _. apply oneline_ok; auto; [|now apply ok_ret].
        intros c' E. destruct (oneline_if_cfg c n) eqn:E1; [injection E as <-; eapply reach_if; eauto|eapply reach_function; eauto]. }
      assert (L : is_list (n_kind n) = true -> ok (range_or c buf W n (lua_list c buf W n ;;; ret tt))).
      { intros Hl. apply range_ok; [exact Hg|destruct (n_kind n); auto; discriminate|]. apply ok_seq; [now apply lua_list_ok|]. intros _. now apply ok_ret. }
      assert (S : is_seps (n_kind n) = true -> ok (range_or c buf W n (lua_seps c buf W n ;;; ret tt))).
      { intros Hl. apply range_ok; [exact Hg|destruct (n_kind n); auto; discriminate|]. apply ok_seq; [now apply lua_seps_ok|]. intros _. now apply ok_ret. }
      destruct (n_kind n) eqn:Ek; try (apply A; reflexivity); try (apply B; reflexivity); try (apply L; reflexivity); try (apply S; reflexivity).
      - apply range_ok; [exact Hg|now rewrite Ek|]. now apply binary_ok.
      - apply ok_emit; auto.
      - apply range_ok; [exact Hg|now rewrite Ek|]. now apply table_ok.
      - apply range_ok; [exact Hg|now rewrite Ek|]. now apply empty_ok.
      - apply range_ok; [exact Hg|now rewrite Ek|]. apply ok_seq; [apply lua_seps_ok; auto; now rewrite Ek|]. intros _ d k.
        apply (items_ok False _ Hg Hf); [rewrite Ek; sides|reflexivity].
      - apply ok_emit; auto.
    Qed.
  End Body.

  Theorem write_ok fuel : forall c n, reach c0 c -> good Q R n -> Ff \/ height n + selfs c < fuel -> ok (write fuel buf c n).
  Proof.
    induction fuel as [|fuel IH]; intros c n Hc Hg Hf; cbn [write].
    - destruct Hf as [Hf|Hf]; [now apply ok_nofuel|lia].
    - apply body_ok; auto.
      + intros c' x Hc' Hx Hh. apply IH; auto. destruct Hf as [Hf|Hf]; [now left|right; lia].
      + intros c'. destruct fuel as [|fuel]; cbn [write].
        * apply ok_nofuel. destruct Hf as [Hf|Hf]; [exact Hf|]. pose proof (height_pos n). lia.
        * unfold write_body, run_clause, clause_of. cbn. apply ok_seq; [apply ok_seq; [apply ok_emit; auto|intros; now apply ok_ret]|].
          intros _. apply ok_seq; [now apply ok_ret|]. intros _. now apply ok_ret.
  Qed.
End Lua.
