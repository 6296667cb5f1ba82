(** Writing a tree gives its layout. *)
From Verif Require Import Base Lib Config State Ast LuaLexer WriterBase LuaWriter LexSpec LayoutSpec RenderSpec WriterFrame GapProofs.

(** ** the layout with the hint of each gap *)
Notation rs := (slot * str)%type.
Definition items_of (k : kind) : list item :=
  let cl := clause_of default_config (Nd k (0, 0) [] [] 0 [] [] [] no_opts) in cl_pre cl ++ cl_post cl false.
Fixpoint find_hint (i : nat) (l : list item) : str :=
  match l with
  | [] => []
  | IHint j h :: r => if Nat.eqb i j then h else find_hint i r
  | INl _ j h :: r => if Nat.eqb i j then h else find_hint i r
  | _ :: r => find_hint i r
  end.
Definition gap_hint (k : kind) (i : nat) : str := find_hint i (items_of k).

Definition nil_h : list rs := [(STok Nil, [])].
Definition ht (t : token) : rs := (STok t, []).
Definition hg (l : loc) (h : str) : rs := (SGap l, h).
Fixpoint hfill (hint : nat -> str) (ls : list loc) (ks : list (list rs)) (i j : nat) (ps : list part) : list rs :=
  match ps with
  | [] => []
  | p :: r =>
      let j' := match p with TT _ => j | TK => S j end in
      match p with TT t => [ht t] | TK => nth j ks nil_h end
      ++ match r with [] => [] | _ => hg (nth i ls dummy_loc) (hint i) :: hfill hint ls ks (S i) j' r end
  end.

Section HLayout.
  Variable mk : loc -> str.   (* a mark for the strings *)
  Variable th : str.   (* the hint for tables *)
  Fixpoint hlayout (n : node) : list rs :=
    let '(Nd k span ls t lv ks is ss _) := n in
    let K := map hlayout ks in
    let gap i h := hg (nth i ls dummy_loc) h in
    let sub i := nth i K nil_h in
    let commas x h := seps_slots hg hlayout h (fun _ => [ht x]) (fun _ => []) ss in
    match k with
    | KBinaryOp => sub 0 ++ [gap 0 sp; ht (op_token t); gap 1 sp] ++ sub 1
    | KUnaryOp => [ht (op_token t); gap 0 []] ++ sub 0
    | KName => [ht (Variable_ t)]
    | KNumeral => [ht (Numeral t)]
    | KNormalStringLiteral => [(STok (NormalStringLiteral t), mk span)]
    | KCharStringLiteral => [(STok (CharStringLiteral t), mk span)]
    | KMultiLineStringLiteral => [ht (MultiLineStringLiteral lv t)]
    | KSheBang => [ht (SheBang t)]
    | KStatementList | KVarSuffixList | KElseIfThenVec => list_slots list_prefix_hint hg hlayout is
    | KExpList | KNameList | KVarList | KParList => commas Comma sp
    | KFuncName => commas Period []
    | KFuncNameSelf => commas Period [] ++ [gap 0 []; ht Colon; gap 1 []] ++ sub 0
    | KFields => seps_slots hg hlayout sp (fun z => [(SSep z, [])]) (fun z => [(STrail z, [])]) ss
    | KChunk => gap 0 [] :: sub 0 ++ [gap 1 []; ht EOF]
    | KSheBangChunk => gap 0 [] :: sub 0 ++ gap 1 [] :: sub 1 ++ [gap 2 []; ht EOF]
    | KTableConstructor => (SVoid, th) :: hfill (fun _ => th) ls K 0 0 (template k)
    | KTableConstructorEmpty => hfill (fun _ => th) ls K 0 0 (template k)
    | _ => hfill (gap_hint k) ls K 0 0 (template k)
    end.
End HLayout.

Lemma node_rect' (P : node -> Prop) :
  (forall k s ls t lv ks is ss o, Forall P ks -> Forall (fun x => P (snd x)) is -> Forall (fun x => P (snd (fst (fst x)))) ss ->
     P (Nd k s ls t lv ks is ss o)) -> forall n, P n.
Proof.
  intros H. fix F 1. intros [k s ls t lv ks is ss o]. apply H.
  - induction ks as [|x l IH]; constructor; [apply F|exact IH].
  - induction is as [|x l IH]; constructor; [apply F|exact IH].
  - induction ss as [|x l IH]; constructor; [apply F|exact IH].
Qed.

Lemma hfill_fst h ls ks ps : forall i j, map fst (hfill h ls ks i j ps) = fill ls (map (map fst) ks) i j ps.
Proof.
  induction ps as [|p ps IH]; intros i j; [reflexivity|]. cbn [hfill fill]. rewrite map_app.
  destruct p.
  - cbn [map fst ht app]. f_equal. destruct ps as [|q ps]; [reflexivity|]. cbn [map fst hg]. f_equal. apply IH.
  - f_equal; [change nil_slots with (map fst nil_h); now rewrite map_nth|].
    destruct ps as [|q ps]; [reflexivity|]. cbn [map fst hg]. f_equal. apply IH.
Qed.
Notation no_mark := (fun _ : loc => @nil char).
Lemma hlayout_fst mk th n : map fst (hlayout mk th n) = layout n.
Proof.
  induction n as [k s ls t lv ks is ss o Hk Hi Hs] using node_rect'.
  assert (Ek : map (map fst) (map (hlayout mk th) ks) = map layout ks).
  { rewrite map_map. apply map_ext_in. rewrite Forall_forall in Hk. auto. }
  assert (En : forall i, map fst (nth i (map (hlayout mk th) ks) nil_h) = nth i (map layout ks) nil_slots).
  { intros i. rewrite <- Ek. change nil_slots with (map fst nil_h). symmetry. apply map_nth. }
  assert (Ec : forall x h, map fst (seps_slots hg (hlayout mk th) h (fun _ => [ht x]) (fun _ => []) ss) =
    commas x (map (fun x => (fst (fst (fst x)), layout (snd (fst (fst x))), snd (fst x), snd x)) ss)).
  { intros x h. destruct ss as [|[[[p y] q] z] ss]; [reflexivity|]. inversion Hs as [|? ? Hy Hs']; subst. cbn in Hy.
    cbn [seps_slots map commas fst snd]. rewrite map_app, Hy. cbn [hg fst]. do 3 f_equal. cbn [map fst]. f_equal.
    clear - Hs'. revert z Hs'. induction ss as [|[[[p' y'] q'] z'] ss IH]; intros z Hs; [reflexivity|]. inversion Hs as [|? ? Hy Hs']; subst. cbn in Hy.
    cbn [rest_sslots map commas fst snd app ht]. f_equal. rewrite map_app, Hy. cbn [hg fst map]. do 3 f_equal. now apply IH. }
  assert (Ef : map fst (seps_slots hg (hlayout mk th) sp (fun z => [(SSep z, [])]) (fun z => [(STrail z, [])]) ss) =
    fields (map (fun x => (fst (fst (fst x)), layout (snd (fst (fst x))), snd (fst x), snd x)) ss)).
  { destruct ss as [|[[[p y] q] z] ss]; [reflexivity|]. inversion Hs as [|? ? Hy Hs']; subst. cbn in Hy.
    cbn [seps_slots map fields fst snd]. rewrite map_app, Hy. cbn [hg fst]. do 3 f_equal. cbn [map fst]. f_equal.
    clear - Hs'. revert z Hs'. induction ss as [|[[[p' y'] q'] z'] ss IH]; intros z Hs; [reflexivity|]. inversion Hs as [|? ? Hy Hs']; subst. cbn in Hy.
    cbn [rest_sslots map fields fst snd app ht]. f_equal. rewrite map_app, Hy. cbn [hg fst map]. do 3 f_equal. now apply IH. }
  assert (El : map fst (list_slots list_prefix_hint hg (hlayout mk th) is) = listed (map (fun x => (fst x, layout (snd x))) is)).
  { assert (Er : forall l, Forall (fun x => map fst (hlayout mk th (snd x)) = layout (snd x)) l ->
      map fst (rest_slots list_prefix_hint hg (hlayout mk th) l) = listed (map (fun x => (fst x, layout (snd x))) l)).
    { intros l Hl. induction Hl as [|[p x] l Hx Hl IH]; [reflexivity|]. cbn in *. rewrite map_app, Hx. do 2 f_equal. exact IH. }
    destruct is as [|[p x] is]; [reflexivity|]. inversion Hi as [|? ? Hx Hi']; subst. cbn in *. rewrite map_app, Hx. do 2 f_equal. now apply Er. }
  destruct k; cbn [hlayout layout]; try reflexivity; try apply Ec; try apply Ef; try apply El;
    try (rewrite hfill_fst, Ek; reflexivity).
  - rewrite map_app, En. cbn [app map fst hg ht]. now rewrite En.
  - cbn [app map fst hg ht]. now rewrite En.
  - cbn [map fst]. rewrite hfill_fst, Ek. reflexivity.
  - rewrite map_app, Ec. cbn [app map fst hg ht]. now rewrite En.
  - cbn [map fst hg]. rewrite map_app, En. reflexivity.
  - cbn [map fst hg]. rewrite map_app, En. cbn [map fst hg]. rewrite map_app, En. reflexivity.
Qed.

(** ** configurations reached from [c0] by self tests *)
Definition kin (c0 c : config) : Prop :=
  (forall k, cs c k = cs c0 k)
  /\ (forall k, cb c k = cb c0 k \/
        (on c0 B_force_single_line_table = true /\ cb c k = Some false /\
         In k [B_write_newline_at_explist_multiline_table; B_write_newline_at_multiline_table; B_write_trailing_field_separator]))
  /\ (forall k, cn c k = cn c0 k \/ cn c k = None).
Lemma kin_refl c : kin c c. Proof. repeat split; auto. Qed.
Lemma kin_on c0 c k : kin c0 c -> on c k = true -> on c0 k = true.
Proof. intros (_ & H & _). unfold on. destruct (H k) as [->|(_ & -> & _)]; [auto|discriminate]. Qed.
Lemma kin_fst c0 c : kin c0 c -> on c B_force_single_line_table = on c0 B_force_single_line_table.
Proof. intros (_ & H & _). unfold on. destruct (H B_force_single_line_table) as [->|(_ & _ & Hi)]; [auto|]. cbn in Hi. decompose [or] Hi; try discriminate; contradiction. Qed.
Lemma kin_breaks c0 c : kin c0 c -> breaks_lines c -> breaks_lines c0.
Proof.
  intros K [(k & H)|[H|[H|H]]]; unfold breaks_lines.
  - left. exists k. destruct K as (_ & _ & K). destruct (K k) as [<-|E]; congruence.
  - right; left. eapply kin_on; eauto.
  - right; right; left. eapply kin_on; eauto.
  - right; right; right. eapply kin_on; eauto.
Qed.
Lemma kin_n c0 c k : kin c0 c -> kin c0 (set_n k None c).
Proof.
  intros (H1 & H2 & H3). repeat split; auto. intros j. cbn. destruct (nopt_beq j k); auto.
Qed.

Lemma kin_b c0 c k : kin c0 c -> on c0 B_force_single_line_table = true ->
  In k [B_write_newline_at_explist_multiline_table; B_write_newline_at_multiline_table; B_write_trailing_field_separator] ->
  kin c0 (set_b k (Some false) c).
Proof.
  intros (H1 & H2 & H3) Hf Hk. repeat split; auto. intros j. cbn [set_b cb]. destruct (bopt_beq j k) eqn:E; [|auto].
  apply internal_bopt_dec_bl in E as ->. auto.
Qed.
Lemma kin_table c0 c n c' : kin c0 c -> oneline_table_cfg c n = Some c' -> kin c0 c'.
Proof.
  unfold oneline_table_cfg. intros K. destruct (_ && _) eqn:E; [|discriminate]. intros [= <-].
  rewrite !andb_true_iff in E. destruct E as ((((_ & _) & _) & E) & _). apply (kin_on _ _ _ K) in E.
  repeat first [apply kin_b; [|exact E|cbn; tauto] | apply kin_n]. exact K.
Qed.
Lemma kin_if c0 c n c' : kin c0 c -> oneline_if_cfg c n = Some c' -> kin c0 c'.
Proof. unfold oneline_if_cfg. intros K. destruct (_ && _) eqn:E; [|discriminate]. intros [= <-]. now apply kin_n. Qed.
Lemma kin_function c0 c s n c' : kin c0 c -> oneline_function_cfg c s n = Some c' -> kin c0 c'.
Proof. unfold oneline_function_cfg. intros K. destruct (_ && _) eqn:E; [|discriminate]. intros [= <-]. now apply kin_n. Qed.

Definition tok_text (t : token) : str :=
  match t with SheBang s => s ++ [ch_nl] | EOF => [] | _ => spelling t end.

Lemma nsome_breaks c k : nsome c k = true -> breaks_lines c.
Proof. unfold nsome. intros H. left. exists k. now destruct (cn c k). Qed.
Lemma nis_breaks c k v : nis c k v = true -> breaks_lines c.
Proof. unfold nis. intros H. left. exists k. now destruct (cn c k). Qed.
Lemma eof_breaks c : on c B_write_newline_at_eof = true -> breaks_lines c.
Proof. intros H. right. now left. Qed.

(** the kinds that never stand for a whole text *)
Definition range_kind (k : kind) : bool := match k with KNil | KChunk | KSheBangChunk | KSheBang => false | _ => true end.

(** ** the tree *)
Section Render.
  Variables (c0 : config) (buf : str) (mk : loc -> str) (R L : rs -> str -> Prop) (nlc : bool) (IS : state -> Prop) (G : list slot -> Prop) (okn : node -> Prop).
  Hypothesis RL : forall s x, R s x -> L s x.
  Hypothesis closed : nlc = true -> forall s x c, L s (x ++ [c]) -> blankc c -> L s x.
  Let th := table_hint c0.
  Notation wr := (WriterFrame.wr R L nlc IS).
  Notation quiet := (WriterFrame.quiet IS).
  Hypothesis IS_indent : forall s i st, IS s -> IS (set_indent i st s).
  Hypothesis IS_func : forall s k, IS s -> IS (set_func_level k s).
  Hypothesis okn_kid : forall n i, okn n -> okn (kid n i).
  Hypothesis okn_item : forall n x, okn n -> In x (n_items n) -> okn (snd x).
  Hypothesis okn_sep : forall n x, okn n -> In x (n_seps n) -> okn (snd (fst (fst x))).
  Hypothesis G_part : forall a b d, G (a ++ b ++ d) -> G b.
  Hypothesis tok_r : forall t z, G [STok t] -> R (STok t, z) (tok_text t).
  Hypothesis comma_r : R (ht Comma) (s2l ",").
  Hypothesis period_r : R (ht Period) (s2l ".").
  Hypothesis gap_r : forall c l h, kin c0 c -> G [SGap l] -> In h [[]; sp; th] -> wr (comment_hint c buf l h) [hg l h].
  Hypothesis gap_loose : forall l h h' x, nlc = true -> L (hg l h) x -> L (hg l h') x.
  Hypothesis gap_brk : forall c l h, kin c0 c -> breaks_lines c -> breakable L nlc c (hg l h).
  Hypothesis void_r : forall c h, kin c0 c -> In h [[]; th] -> wr (comment_hint c buf (0, 0) h) [(SVoid, h)].
  Hypothesis void_loose : forall h h' x, nlc = true -> L (SVoid, h) x -> L (SVoid, h') x.
  Hypothesis void_brk : forall c h, kin c0 c -> breaks_lines c -> breakable L nlc c (SVoid, h).
  Hypothesis sep_r : forall z, R (SSep z, []) (get_sep (cs c0 S_field_separator) z).
  Hypothesis trail_r : forall z t,
    t = cb c0 B_write_trailing_field_separator \/ (on c0 B_force_single_line_table = true /\ t = Some false) ->
    R (STrail z, []) (if (is_none t && negb (is_empty z)) || obool_is t true then get_sep (cs c0 S_field_separator) z else []).
  Hypothesis empty_wr : forall c W n, kin c0 c -> n_kind n = KTableConstructorEmpty -> G (layout n) ->
    wr (write_empty_table c buf W n) (hlayout mk th n).
  (** with a range of lines *)
  Definition ranged : Prop := exists s, IS s /\ pos_range s <> None.
  Hypothesis raw_r : forall l h, ranged -> G [SGap l] -> wr (write_loc buf l) [hg l h].
  Hypothesis void_raw : forall h, ranged -> R (SVoid, h) [].
  Hypothesis span_r : forall s n, IS s -> test_out_of_range (pos_range s) (n_span n) = true -> okn n -> G (layout n) ->
    range_kind (n_kind n) = true -> wr (write_loc buf (n_span n)) (hlayout mk th n).
  Hypothesis round_r : forall s n, IS s -> okn n -> n_kind n = KVarRoundSuffix ->
    test_not_completely_contained (pos_range s) (n_span n) = true -> False.

  Lemma G_pre a b : G (a ++ b) -> G a. Proof. intros H. apply (G_part [] a b). exact H. Qed.
  Lemma G_post a b : G (a ++ b) -> G b. Proof. intros H. apply (G_part a b []). now rewrite app_nil_r. Qed.

  Lemma gap_nl c b l h : kin c0 c -> G [SGap l] -> In h [[]; sp; th] -> (b = true -> breaks_lines c) ->
    wr (if_newline c b (H c buf l) h) [hg l h].
  Proof.
    intros K Hl Hh Hb. apply (wr_if_newline _ _ _ RL closed _ c b (H c buf l) h (hg l h) (hg l [])).
    - intros E. pose proof (gap_brk c l h K (Hb E)) as B. split; [exact B|]. intros x. apply gap_loose. exact (proj1 B).
    - intros _. now apply gap_r.
    - intros _. apply gap_r; cbn; auto.
  Qed.

  Section Cov.
    Variables (c : config) (W : config -> node -> M unit) (n : node).
    Hypothesis K : kin c0 c.
    Hypothesis On : okn n.
    Hypothesis W_wr : forall m, okn m -> G (layout m) -> wr (W c m) (hlayout mk th m).
    Definition silent (x : item) : Prop :=
      match x with IInc _ | IDec | IIncF | IDecF | IIf _ (IInc _) | IIf _ IDec => True | _ => False end.
    Inductive cov : list item -> list rs -> list rs -> Prop :=
    | cov_nil : forall ss, cov [] ss ss
    | cov_eof : cov [] [ht EOF] []
    | cov_tok : forall s t z its ss r, tok_text t = s -> cov its ss r -> cov (ITok s :: its) ((STok t, z) :: ss) r
    | cov_hint : forall i h its ss r, In h [[]; sp; th] -> cov its ss r -> cov (IHint i h :: its) (hg (nloc n i) h :: ss) r
    | cov_nl : forall b i h its ss r, In h [[]; sp; th] -> (b = true -> breaks_lines c) -> cov its ss r ->
        cov (INl b i h :: its) (hg (nloc n i) h :: ss) r
    | cov_raw : forall i h its ss r, ranged -> cov its ss r -> cov (IRaw i :: its) (hg (nloc n i) h :: ss) r
    | cov_kid : forall i its ss r, cov its ss r -> cov (IKid i :: its) (hlayout mk th (kid n i) ++ ss) r
    | cov_silent : forall x its ss r, silent x -> cov its ss r -> cov (x :: its) ss r.

    Lemma quiet_inc o : quiet (inc_indent o).
    Proof. unfold inc_indent. apply quiet_get_st. intros s Hs. apply quiet_put_st. now apply IS_indent. Qed.
    Lemma quiet_dec : quiet dec_indent.
    Proof.
      unfold dec_indent. apply quiet_get_st. intros s Hs. apply quiet_put_st. unfold dec_indent_st. destruct (stack_indent s); [exact Hs|now apply IS_indent].
    Qed.
    Lemma quiet_incf : quiet inc_func_level.
    Proof. unfold inc_func_level. apply quiet_get_st. intros s Hs. apply quiet_put_st. now apply IS_func. Qed.
    Lemma quiet_decf : quiet dec_func_level.
    Proof. unfold dec_func_level. apply quiet_get_st. intros s Hs. apply quiet_put_st. now apply IS_func. Qed.
    Lemma silent_quiet x : silent x -> quiet (run_item c buf W n x).
    Proof.
      destruct x as [| | | | | | | | |b [| | | | | | | | |]]; cbn; intros S; try contradiction;
        try destruct b; auto using quiet_inc, quiet_dec, quiet_incf, quiet_decf; apply quiet_ret.
    Qed.
    Lemma cov_wr its ss r : cov its ss r -> G (map fst ss) -> exists s1, ss = s1 ++ r /\ wr (run_items c buf W n its) s1.
    Proof.
      induction 1 as [ss| |s t z its ss r Ht C IH|i h its ss r Hh C IH|b i h its ss r Hh Hb C IH|i h its ss r Hr C IH|i its ss r C IH|x its ss r S C IH]; intros HG;
        cbn [run_items run_item].
      - exists []. split; [reflexivity|apply wr_ret].
      - exists [ht EOF]. split; [reflexivity|]. intros w a w' I [= _ <-]. split; [exact I|].
        rewrite <- (app_nil_r (w_f w)) at 2. apply adds_render, renders_one. exact (tok_r EOF [] HG).
      - cbn in HG. destruct IH as (s1 & -> & IH); [exact (G_post [_] _ HG)|]. exists ((STok t, z) :: s1). split; [reflexivity|].
        change ((STok t, z) :: s1) with ([(STok t, z)] ++ s1). apply (wr_bind _ _ _ RL closed); [|intros; exact IH]. rewrite <- Ht.
        apply wr_emit, tok_r. exact (G_pre [_] _ HG).
      - cbn in HG. destruct IH as (s1 & -> & IH); [exact (G_post [_] _ HG)|]. exists (hg (nloc n i) h :: s1). split; [reflexivity|].
        change (hg (nloc n i) h :: s1) with ([hg (nloc n i) h] ++ s1). apply (wr_bind _ _ _ RL closed); [|intros; exact IH].
        apply gap_r; auto. exact (G_pre [_] _ HG).
      - cbn in HG. destruct IH as (s1 & -> & IH); [exact (G_post [_] _ HG)|]. exists (hg (nloc n i) h :: s1). split; [reflexivity|].
        change (hg (nloc n i) h :: s1) with ([hg (nloc n i) h] ++ s1). apply (wr_bind _ _ _ RL closed); [|intros; exact IH].
        apply gap_nl; auto. exact (G_pre [_] _ HG).
      - cbn in HG. destruct IH as (s1 & -> & IH); [exact (G_post [_] _ HG)|]. exists (hg (nloc n i) h :: s1). split; [reflexivity|].
        change (hg (nloc n i) h :: s1) with ([hg (nloc n i) h] ++ s1). apply (wr_bind _ _ _ RL closed); [|intros; exact IH].
        apply raw_r; auto. exact (G_pre [_] _ HG).
      - rewrite map_app in HG. destruct IH as (s1 & -> & IH); [exact (G_post _ _ HG)|]. exists (hlayout mk th (kid n i) ++ s1). rewrite app_assoc.
        split; [reflexivity|]. apply (wr_bind _ _ _ RL closed); [|intros; exact IH]. apply W_wr; [now apply okn_kid|]. rewrite <- (hlayout_fst mk th). exact (G_pre _ _ HG).
      - destruct (IH HG) as (s1 & -> & IH1). exists s1. split; [reflexivity|]. apply (wr_quiet R L nlc); [|intros; exact IH1].
        now apply silent_quiet.
    Qed.
    Lemma cov_all its ss : cov its ss [] -> G (map fst ss) -> wr (run_items c buf W n its) ss.
    Proof. intros C HG. destruct (cov_wr _ _ _ C HG) as (s1 & -> & H). now rewrite app_nil_r. Qed.

    Definition irregular (k : kind) : bool :=
      match k with
      | KFields | KExpList | KNameList | KVarList | KParList | KFuncName | KStatementList | KVarSuffixList | KElseIfThenVec
      | KFuncNameSelf | KBinaryOp | KTableConstructor | KTableConstructorEmpty | KMultiLineStringLiteral | KSheBang => true
      | _ => false
      end.
    Lemma kid_h k s ls t lv ks is ss o i :
      nth i (map (hlayout mk th) ks) nil_h = hlayout mk th (kid (Nd k s ls t lv ks is ss o) i).
    Proof. unfold kid. cbn [n_kids]. change nil_h with (hlayout mk th dummy_node). apply map_nth. Qed.
    Lemma op_text t : tok_text (op_token t) = t.
    Proof.
      unfold op_token. destruct (find _ _) as [x|] eqn:E; [|reflexivity]. apply find_some in E as [Hin E]. apply str_eqb_true in E.
      cbn in Hin. decompose [or] Hin; try contradiction; subst x; exact E.
    Qed.
  End Cov.

  Ltac cov_step :=
    match goal with
    | |- cov _ _ [] (?a :: _) [] => apply cov_eof
    | |- cov _ _ [] _ _ => apply cov_nil
    | |- cov _ _ (ITok _ :: _) _ _ => apply cov_tok; [first [reflexivity|apply op_text]|]
    | |- cov _ _ (IRaw _ :: _) _ _ => apply cov_raw; [assumption|]
    | |- cov _ _ (IHint _ _ :: _) _ _ => apply cov_hint; [cbn; tauto|]
    | |- cov _ _ (INl _ _ _ :: _) _ _ => apply cov_nl; [cbn; tauto|eauto using nis_breaks, nsome_breaks, eof_breaks|]
    | |- cov _ _ (IKid _ :: _) (_ ++ _) _ => apply cov_kid
    | |- cov _ _ (IKid _ :: _) (hlayout ?m ?a ?b) _ => rewrite <- (app_nil_r (hlayout m a b)); apply cov_kid
    | |- cov _ _ (_ :: _) _ _ => apply cov_silent; [exact I|]
    end.
  Lemma clause_cov c n : irregular (n_kind n) = false ->
    exists r, cov c n (cl_pre (clause_of c n)) (hlayout mk th n) r /\ forall ind, cov c n (cl_post (clause_of c n) ind) r [].
  Proof.
    destruct n as [k s ls t lv ks is ss o]. pose proof (kid_h k s ls t lv ks is ss o) as Hk. destruct k; try discriminate; intros _;
      cbn [clause_of n_kind plain tested cl_pre cl_post hlayout template hfill n_text app]; rewrite ?Hk;
      try (eexists; split; [repeat cov_step|intros ind; repeat cov_step]; fail).
  Qed.

  (** *** tests *)
  Lemma quiet_restore {A} (m : M A) (f : world -> res A * world) :
    (forall w, m w = (let '(r, w') := f w in (r, restore w w'))) -> quiet m.
  Proof. intros H w a w' I. rewrite H. destruct (f w) as [r w1]. intros [= _ <-]. auto. Qed.
  Lemma quiet_test_oneline c ms : quiet (test_oneline c ms).
  Proof.
    apply (quiet_restore _ (fun w => match run_all ms false (set_f [] w) with
      | (ROk true, w') => (ROk None, w')
      | (ROk false, w') => (match cn c N_max_width with
          | Some mw => ROk (if N.ltb (N.of_nat (get_len_after_newline (w_f w) + get_len_till_newline (w_f w'))) mw then Some (w_f w') else None)
          | None => RPanic end, w')
      | (RErr, w') => (RErr, w') | (RPanic, w') => (RPanic, w') | (RFuel, w') => (RFuel, w') end)).
    intros w. unfold test_oneline. destruct (run_all ms false (set_f [] w)) as [[[]| | |] w1]; try reflexivity.
    now destruct (cn c N_max_width).
  Qed.
  Lemma quiet_ret_bind {A B} (m : M A) (f : A -> B) : quiet m -> quiet (x <- m ;; ret (f x)).
  Proof. intros H. apply quiet_bind; [exact H|]. intros x. apply quiet_ret. Qed.
  Lemma quiet_no_nl c ms : quiet (test_oneline_no_nl c ms).
  Proof. apply quiet_ret_bind, quiet_test_oneline. Qed.
  Lemma quiet_on_copy m : quiet (on_copy m).
  Proof.
    apply (quiet_restore _ (fun w => match m w with
      | (ROk b, w') => (ROk b, w') | (RErr, w') => (ROk false, w') | (RPanic, w') => (RPanic, w') | (RFuel, w') => (RFuel, w') end)).
    intros w. unfold on_copy. now destruct (m w) as [[]].
  Qed.
  Lemma quiet_get_oneline n : quiet (get_oneline n). Proof. intros w a w' I [= _ <-]. auto. Qed.
  Lemma quiet_set_oneline n : quiet (set_oneline n). Proof. intros w a w' I [= _ <-]. auto. Qed.
  Lemma quiet_get_indent n : quiet (get_indent n). Proof. intros w a w' I [= _ <-]. auto. Qed.
  Lemma quiet_set_indent n b : quiet (set_indent_cell n b). Proof. intros w a w' I [= _ <-]. auto. Qed.
  Ltac qt := repeat first
    [ apply quiet_ret | apply quiet_ret_bind | apply quiet_test_oneline | apply quiet_no_nl | apply quiet_on_copy
    | apply quiet_get_oneline | apply quiet_get_indent
    | match goal with |- WriterFrame.quiet _ (if ?b then _ else _) => destruct b end
    | match goal with |- WriterFrame.quiet _ (match ?b with _ => _ end) => destruct b end
    | apply quiet_bind; [|intros] ].
  Lemma quiet_suffix c W x : quiet (suffix_newline c buf W x).
  Proof. unfold suffix_newline, isnone. qt. Qed.
  Lemma quiet_field c W x : quiet (test_oneline_table_field c W x).
  Proof. unfold test_oneline_table_field. qt. Qed.
  Lemma quiet_need_newline c W n x y : quiet (need_newline c buf W n x y).
  Proof. unfold need_newline, isnone, issome. destruct (n_kind n); qt; auto using quiet_suffix, quiet_field. Qed.
  Lemma quiet_first_newline c W n x : quiet (need_first_newline c buf W n x).
  Proof. unfold need_first_newline, isnone, issome. destruct (n_kind n); qt; auto using quiet_suffix, quiet_field. Qed.
  Lemma quiet_test_indent c W n l h : quiet (test_indent c buf W n l h).
  Proof. unfold test_indent. destruct (n_kind n); qt. Qed.
  Lemma quiet_trailing c n : quiet (trailing_separator c n).
  Proof. unfold trailing_separator. destruct (n_kind n); qt. Qed.

  Lemma list_nn_breaks c n : list_need_newlines c n = true -> breaks_lines c.
  Proof. unfold list_need_newlines. destruct (n_kind n); try discriminate; apply nsome_breaks. Qed.
  Lemma seps_nn_breaks c n : sep_need_newlines c n = true -> breaks_lines c.
  Proof.
    unfold sep_need_newlines. destruct (n_kind n); try discriminate; try apply nsome_breaks.
    rewrite orb_true_iff. intros [|]; eauto using nsome_breaks.
  Qed.

  Lemma prefix_hints x : In (list_prefix_hint x) [[]; sp; th].
  Proof. unfold list_prefix_hint. destruct (n_kind x); cbn; auto. Qed.

  Section Body.
    Variables (c : config) (W : config -> node -> M unit).
    Hypothesis K : kin c0 c.
    Hypothesis W_wr : forall c n, kin c0 c -> okn n -> G (layout n) -> wr (W c n) (hlayout mk th n).

    Lemma G_items l : G (listed (map (fun x : loc * node => (fst x, layout (snd x))) l)) ->
      Forall (fun x => G [SGap (fst x)] /\ G (layout (snd x))) l.
    Proof.
      induction l as [|[p x] l IH]; cbn; intros HG; constructor; cbn.
      - split; [exact (G_pre [_] _ HG)|]. exact (G_pre _ _ (G_post [_] _ HG)).
      - apply IH. exact (G_post _ _ (G_post [_] _ HG)).
    Qed.
    Lemma lua_list_wr n : okn n -> G (listed (map (fun x => (fst x, layout (snd x))) (n_items n))) ->
      wr (lua_list c buf W n) (list_slots list_prefix_hint hg (hlayout mk th) (n_items n)).
    Proof.
      intros On HG. unfold lua_list.
      apply (wr_write_list R L nlc RL closed IS c buf (H c buf) (W c) (list_need_newlines c n) _ _ list_prefix_hint hg (hlayout mk th)
               (fun p => G [SGap p]) (fun x => okn x /\ G (layout x))).
      - intros s p h Is Ho Hp Hh. apply raw_r; [|exact Hp]. exists s. split; [exact Is|]. intros E. rewrite E in Ho. discriminate.
      - intros p h Hp [->|(x & ->)]; apply gap_r; auto; [cbn; auto|apply prefix_hints].
      - intros x [Ox Hx]. now apply W_wr.
      - exact gap_loose.
      - intros x _. apply quiet_first_newline.
      - intros x y _ _. apply quiet_need_newline.
      - intros p h x w w' _ Hn _. apply gap_brk; [exact K|eapply list_nn_breaks; eauto].
      - intros p h x y w w' _ Hn _. apply gap_brk; [exact K|eapply list_nn_breaks; eauto].
      - apply G_items in HG. rewrite Forall_forall in *. intros x Hx. destruct (HG x Hx). repeat split; auto. eapply okn_item; eauto.
    Qed.

    Definition sl4 (x : loc * node * loc * str) := (fst (fst (fst x)), layout (snd (fst (fst x))), snd (fst x), snd x).
    Definition okl (x : loc * node * loc * str) := ok4 (fun p => G [SGap p]) (fun x => G (layout x)) x.
    Definition okln (x : loc * node * loc * str) := ok4 (fun p => G [SGap p]) (fun x => okn x /\ G (layout x)) x.
    Lemma okl_n n : okn n -> Forall okl (n_seps n) -> Forall okln (n_seps n).
    Proof.
      intros On H. rewrite Forall_forall in *. intros x Hx. destruct (H x Hx) as (A & B & D). repeat split; auto. eapply okn_sep; eauto.
    Qed.
    Lemma G_commas t l : G (commas t (map sl4 l)) -> Forall okl l.
    Proof.
      induction l as [|[[[p x] q] z] l IH]; cbn; intros HG; constructor; cbn.
      - split; cbn; [exact (G_pre [_] _ HG)|]. split; [exact (G_pre _ _ (G_post [_] _ HG))|].
        exact (G_pre [_] _ (G_post _ _ (G_post [_] _ HG))).
      - destruct l as [|y l]; [constructor|]. apply IH. cbn [map] in *. exact (G_post [_; _] _ (G_post _ _ (G_post [_] _ HG))).
    Qed.
    Lemma G_fields l : G (fields (map sl4 l)) -> Forall okl l.
    Proof.
      induction l as [|[[[p x] q] z] l IH]; cbn; intros HG; constructor; cbn.
      - split; cbn; [exact (G_pre [_] _ HG)|]. split; [exact (G_pre _ _ (G_post [_] _ HG))|].
        exact (G_pre [_] _ (G_post _ _ (G_post [_] _ HG))).
      - destruct l as [|y l]; [constructor|]. apply IH. cbn [map] in *. exact (G_post [_; _] _ (G_post _ _ (G_post [_] _ HG))).
    Qed.
    Lemma lua_seps_wr n sps tr : okn n -> Forall okl (n_seps n) ->
      (forall z, renders R L nlc (sps z) (get_sep (separator c n) z)) ->
      (forall z w t w', trailing_separator c n w = (ROk t, w') ->
        renders R L nlc (tr z) (if (is_none t && negb (is_empty z)) || obool_is t true then get_sep (separator c n) z else [])) ->
      wr (lua_seps c buf W n) (seps_slots hg (hlayout mk th) (elem_prefix_hint n) sps tr (n_seps n)).
    Proof.
      intros On HG Hs Ht. apply (okl_n n On) in HG. unfold lua_seps.
      apply (wr_write_seps R L nlc RL closed IS c buf (H c buf) (W c) (sep_need_newlines c n) _ _ list_prefix_hint hg (hlayout mk th)
               (fun p => G [SGap p]) (fun x => okn x /\ G (layout x))); auto.
      - intros s p h Is Ho Hp Hh. apply raw_r; [|exact Hp]. exists s. split; [exact Is|]. intros E. rewrite E in Ho. discriminate.
      - intros p h Hp [->|(x & ->)]; apply gap_r; auto; [cbn; auto|apply prefix_hints].
      - intros x [Ox Hx]. now apply W_wr.
      - intros x _. apply quiet_first_newline.
      - intros x y _ _. apply quiet_need_newline.
      - intros p h x w w' _ Hn _. apply gap_brk; [exact K|eapply seps_nn_breaks; eauto].
      - intros p h x y w w' _ Hn _. apply gap_brk; [exact K|eapply seps_nn_breaks; eauto].
      - unfold elem_prefix_hint. destruct (n_kind n); auto; right; now exists dummy_node.
      - apply quiet_trailing.
    Qed.
    Lemma comma_list n t : okn n -> (t = Comma \/ t = Period) -> separator c n = Some (spelling t) -> trailing_separator c n = ret (Some false) ->
      Forall okl (n_seps n) ->
      wr (lua_seps c buf W n) (seps_slots hg (hlayout mk th) (elem_prefix_hint n) (fun _ => [ht t]) (fun _ => []) (n_seps n)).
    Proof.
      intros On Ht Es Et HG. apply lua_seps_wr; auto.
      - intros z. rewrite Es. apply renders_one. destruct Ht as [-> | ->]; [exact comma_r|exact period_r].
      - intros z w t0 w'. rewrite Et. intros [= <- _]. apply renders_nil.
    Qed.
    Lemma field_list n : okn n -> n_kind n = KFields -> Forall okl (n_seps n) ->
      wr (lua_seps c buf W n) (seps_slots hg (hlayout mk th) sp (fun z => [(SSep z, [])]) (fun z => [(STrail z, [])]) (n_seps n)).
    Proof.
      intros On Hn HG.
      assert (Es : separator c n = cs c0 S_field_separator) by (unfold separator; rewrite Hn; apply K).
      replace sp with (elem_prefix_hint n) by (unfold elem_prefix_hint; now rewrite Hn). apply lua_seps_wr; auto.
      - intros z. rewrite Es. now apply renders_one.
      - intros z w t w' E. rewrite Es. apply renders_one, trail_r. unfold trailing_separator in E. rewrite Hn in E.
        unfold bind, get_indent, ret in E. injection E as <- _.
        destruct (on c B_force_single_line_table && _) eqn:Ef.
        + right. apply andb_true_iff in Ef as [Ef _]. rewrite <- (kin_fst _ _ K). auto.
        + destruct K as (_ & Kb & _). destruct (Kb B_write_trailing_field_separator) as [->|(Hf & -> & _)]; auto.
    Qed.

    Lemma regular_wr n : okn n -> irregular (n_kind n) = false -> G (layout n) -> wr (run_clause c buf W n (clause_of c n)) (hlayout mk th n).
    Proof.
      intros On Hn HG. destruct (clause_cov c n Hn) as (r & C1 & C2). rewrite <- (hlayout_fst mk th) in HG.
      destruct (cov_wr c W n K On (fun m => W_wr c m K) _ _ _ C1 HG) as (s1 & E & H1). rewrite E in HG |- *. rewrite map_app in HG.
      unfold run_clause. apply (wr_bind _ _ _ RL closed); [exact H1|intros _]. apply (wr_quiet R L nlc).
      - destruct (cl_test (clause_of c n)) as [[[k p] h]|]; [apply quiet_test_indent|apply quiet_ret].
      - intros ind. apply (cov_all c W n K On (fun m => W_wr c m K)); [apply C2|exact (G_post _ _ HG)].
    Qed.

    Lemma no_nl_line c' m w w1 line : test_oneline_no_nl c' [m] w = (ROk (Some line), w1) ->
      exists a w2, m (set_f [] w) = (ROk a, w2) /\ w1 = restore w w2 /\ line = w_f w2 /\ has_newlines line = false.
    Proof.
      unfold test_oneline_no_nl, test_oneline, bind. cbn [run_all].
      destruct (m (set_f [] w)) as [[a| | |] w2] eqn:E; cbn; try discriminate.
      destruct (cn c' N_max_width); [|discriminate]. destruct (N.ltb _ _); [|discriminate].
      destruct (has_newlines (w_f w2)) eqn:En; intros [= <- <-]. exists a, w2. auto.
    Qed.
    Lemma oneline_wr tc n done m : (forall c', tc = Some c' -> kin c0 c') -> quiet done -> okn n -> G (layout n) -> wr m (hlayout mk th n) ->
      wr (oneline_or W tc n done m) (hlayout mk th n).
    Proof.
      intros K' Hd On HG Hm. unfold oneline_or. destruct tc as [c'|]; [|exact Hm]. specialize (K' c' eq_refl).
      intros w a w' I. unfold bind at 1.
      destruct (test_oneline_no_nl c' [W c' n] w) as [[[line|]| | |] w1] eqn:E; try discriminate.
      - apply no_nl_line in E as (u & w2 & E & -> & -> & _). destruct (W_wr c' n K' On HG _ _ _ (I : IS (w_st (set_f [] w))) E) as [_ A].
        apply adds_from_nil in A. intros E2.
        assert (Q : wr (done ;;; emit (w_f w2)) (hlayout mk th n)) by (apply (wr_quiet R L nlc); [exact Hd|intros _; now apply wr_emits]).
        exact (Q (restore w w2) a w' I E2).
      - intros E2. destruct (quiet_no_nl c' [W c' n] _ _ _ I E) as [I1 <-]. exact (Hm _ _ _ I1 E2).
    Qed.

    Lemma void_nl b : (b = true -> breaks_lines c) -> wr (if_newline c b (H c buf (0, 0)) (table_hint c)) [(SVoid, th)].
    Proof.
      intros Hb. assert (E : table_hint c = th) by (unfold table_hint, th; now rewrite (proj1 K)). rewrite E.
      apply (wr_if_newline _ _ _ RL closed _ c b (H c buf (0, 0)) th (SVoid, th) (SVoid, [])).
      - intros E1. pose proof (void_brk c th K (Hb E1)) as B. split; [exact B|]. intros x. apply void_loose. exact (proj1 B).
      - intros _. apply void_r; cbn; auto.
      - intros _. apply void_r; cbn; auto.
    Qed.

    Lemma raw_cov n l : raw_items n = Some l -> n_kind n <> KVarRoundSuffix -> n_kind n <> KTableConstructor -> ranged ->
      cov c n l (hlayout mk th n) [].
    Proof.
      destruct n as [k s ls t lv ks is ss o]. pose proof (kid_h k s ls t lv ks is ss o) as Hk. intros E H1 H2 Hr.
      destruct k; try discriminate E; try (elim H1; reflexivity); try (elim H2; reflexivity); injection E as <-;
        cbn [hlayout template hfill n_text app]; rewrite ?Hk; repeat cov_step.
    Qed.
    Lemma raw_wr n l : raw_items n = Some l -> n_kind n <> KVarRoundSuffix -> ranged -> okn n -> G (layout n) ->
      wr (run_items c buf W n l) (hlayout mk th n).
    Proof.
      intros E H1 Hr On HG. rewrite <- (hlayout_fst mk th) in HG.
      assert (D : n_kind n = KTableConstructor \/ n_kind n <> KTableConstructor) by (destruct (n_kind n); (now left) || (right; discriminate)).
      destruct D as [Hk|Hk]; [|apply (cov_all c W n K On (fun m => W_wr c m K)); [now apply raw_cov|exact HG]].
      destruct n as [k s ls t lv ks is ss o]. cbn [n_kind] in Hk. subst k. injection E as <-. cbn [hlayout hfill template app] in *.
      rewrite !(kid_h KTableConstructor s ls t lv ks is ss o) in *. set (n := Nd KTableConstructor s ls t lv ks is ss o) in *.
      cbn [map] in HG. apply (G_post [_]) in HG. change (wr ?m (?a :: ?l)) with (wr m ([a] ++ l)).
      refine (wr_bind _ _ _ RL closed _ (ret tt) (fun _ => run_items c buf W n _) [(SVoid, th)] _ _ _).
      - apply wr_ret_r. apply renders_one. now apply void_raw.
      - intros _. apply (cov_all c W n K On (fun m => W_wr c m K)); [repeat cov_step|exact HG].
    Qed.
    Lemma range_wr n m : okn n -> G (layout n) -> range_kind (n_kind n) = true -> wr m (hlayout mk th n) -> wr (range_or c buf W n m) (hlayout mk th n).
    Proof.
      intros On HG Hk Hm. unfold range_or. apply wr_get_st. intros s Is.
      destruct (test_out_of_range (pos_range s) (n_span n)) eqn:Eo; [eapply span_r; eauto|].
      destruct (raw_items n) as [l|] eqn:El; [|exact Hm].
      destruct (test_not_completely_contained (pos_range s) (n_span n)) eqn:Ec; [|exact Hm]. apply raw_wr; auto.
      - intros E. eapply round_r; eauto.
      - exists s. split; [exact Is|]. intros E. rewrite E in Ec. discriminate.
    Qed.

    Lemma binary_wr n : okn n -> n_kind n = KBinaryOp -> G (layout n) -> wr (write_binary c buf W n) (hlayout mk th n).
    Proof.
      destruct n as [k s ls t lv ks is ss o]. cbn [n_kind]. intros On -> HG. rewrite <- (hlayout_fst mk th) in HG.
      unfold write_binary. cbn [hlayout] in *. rewrite !(kid_h KBinaryOp s ls t lv ks is ss o) in *. cbn [n_text].
      set (n := Nd KBinaryOp s ls t lv ks is ss o) in *. rewrite map_app in HG.
      apply (wr_bind _ _ _ RL closed); [|intros _].
      - apply (cov_all c W n K On (fun m => W_wr c m K)); [|exact (G_pre _ _ HG)]. repeat cov_step.
      - apply (wr_quiet R L nlc). { unfold issome. qt. } intros short.
        apply (cov_all c W n K On (fun m => W_wr c m K)); [|exact (G_post _ _ HG)]. cbn [app].
        apply cov_nl; [cbn; tauto|rewrite andb_true_iff; intros [E _]; eapply nis_breaks; eauto|]. cov_step.
        apply cov_nl; [cbn; tauto|rewrite andb_true_iff; intros [E _]; eapply nis_breaks; eauto|]. repeat cov_step.
    Qed.

    Lemma table_wr n : okn n -> n_kind n = KTableConstructor -> G (layout n) -> wr (write_table c buf W n) (hlayout mk th n).
    Proof.
      intros On Hk HG. unfold write_table. apply oneline_wr; auto.
      { intros c' E. eapply kin_table; eauto. }
      { apply quiet_set_oneline. }
      destruct n as [k s ls t lv ks is ss o]. cbn [n_kind] in Hk. subst k. rewrite <- (hlayout_fst mk th) in HG.
      cbn [hlayout hfill template app] in *. rewrite !(kid_h KTableConstructor s ls t lv ks is ss o) in *.
      set (n := Nd KTableConstructor s ls t lv ks is ss o) in *.
      assert (E : table_hint c = th) by (unfold table_hint, th; now rewrite (proj1 K)).
      apply (wr_quiet R L nlc); [apply quiet_get_oneline|intros one].
      change (wr ?m (?a :: ?l)) with (wr m ([a] ++ l)).
      apply (wr_bind _ _ _ RL closed).
      { apply void_nl. rewrite andb_true_iff. intros [E1 _]. right; right; now left. }
      intros _. cbn [map] in HG. apply (G_post [_]) in HG.
      change (ht OpenCurlyBracket :: ?l) with ([ht OpenCurlyBracket] ++ l) in *.
      apply (wr_bind _ _ _ RL closed); [|intros _].
      { apply (cov_all c W n K On (fun m => W_wr c m K)); [repeat cov_step|exact (G_pre [_] _ HG)]. }
      cbn [map app] in HG. apply (G_post [_]) in HG.
      apply (wr_quiet R L nlc). { destruct (_ && _); [apply quiet_test_indent|apply quiet_ret]. } intros ind.
      apply (wr_quiet R L nlc). { destruct (is_kind _ _); [apply quiet_set_indent|apply quiet_ret]. } intros _.
      rewrite E.
      change (hg (nth 0 ls dummy_loc) th :: hlayout mk th (kid n 0) ++ ?l) with ((hg (nth 0 ls dummy_loc) th :: hlayout mk th (kid n 0)) ++ l) in *.
      change (wr ?m (hg ?a th :: hlayout mk th (kid n 0) ++ ?l)) with (wr m ((hg a th :: hlayout mk th (kid n 0)) ++ l)).
      rewrite map_app in HG. change (fst ?a :: ?x ++ ?y) with ((fst a :: x) ++ y) in HG.
      apply (wr_bind _ _ _ RL closed); [|intros _].
      { apply (cov_all c W n K On (fun m => W_wr c m K)); [|exact (G_pre _ _ HG)]. repeat cov_step. }
      apply wr_get_f. intros f. apply (cov_all c W n K On (fun m => W_wr c m K)); [|exact (G_post _ _ HG)].
      do 2 cov_step. apply cov_nl; [cbn; tauto| |repeat cov_step].
      rewrite andb_true_iff, orb_true_iff. intros [[E1|E1] _]; [eapply nis_breaks; eauto|].
      left. exists N_max_width. destruct (cn c N_max_width); [discriminate|discriminate E1].
    Qed.

    Lemma body_wr n : okn n -> G (layout n) -> wr (write_body c buf W n) (hlayout mk th n).
    Proof.
      intros On HG. unfold write_body.
      assert (Hreg : irregular (n_kind n) = false -> wr (run_clause c buf W n (clause_of c n)) (hlayout mk th n)) by (intros; now apply regular_wr).
      assert (Hrange : irregular (n_kind n) = false -> range_kind (n_kind n) = true ->
        wr (range_or c buf W n (s <- get_st ;; oneline_or W match oneline_if_cfg c n with Some c' => Some c' | None => oneline_function_cfg c s n end n (ret tt)
            (run_clause c buf W n (clause_of c n)))) (hlayout mk th n)).
      { intros Hi Hk. apply range_wr; auto. apply wr_get_st. intros s Is. apply oneline_wr; auto; [|apply quiet_ret].
        intros c' E. destruct (oneline_if_cfg c n) as [c1|] eqn:E1; [injection E as <-; eapply kin_if; eauto|eapply kin_function; eauto]. }
      destruct (n_kind n) eqn:Hn; try (exact (Hreg eq_refl)); try (exact (Hrange eq_refl eq_refl));
        try (apply range_wr; [exact On|exact HG|now rewrite Hn|]; first [now apply binary_wr|now apply table_wr|now apply empty_wr]).
      all: destruct n as [k s ls t lv ks is ss o]; cbn [n_kind] in Hn; subst k; clear Hreg Hrange.
      all: try (apply range_wr; [exact On|exact HG|reflexivity|]; apply (wr_then_ret _ _ _ RL closed); cbn [hlayout layout] in *;
                match goal with |- WriterFrame.wr _ _ _ _ (_ _ _ _ ?n) _ => first
                      [ exact (comma_list n Comma On (or_introl eq_refl) eq_refl eq_refl (G_commas _ _ HG))
                      | exact (comma_list n Period On (or_intror eq_refl) eq_refl eq_refl (G_commas _ _ HG))
                      | apply (field_list (Nd _ s ls t lv ks is ss o)); auto; eapply G_fields; exact HG
                      | apply (lua_list_wr (Nd _ s ls t lv ks is ss o)); [exact On|exact HG] ] end).
      - apply wr_emit.
        assert (El : open_long lv ++ t ++ close_long lv = tok_text (MultiLineStringLiteral lv t)).
        { cbn [tok_text spelling]. unfold long, open_long, close_long, opening, closing. now rewrite !repeat_eqs. }
        cbn [n_level n_text]. rewrite El. exact (tok_r _ _ HG).
      - apply range_wr; [exact On|exact HG|reflexivity|]. cbn [hlayout]. rewrite !(kid_h KFuncNameSelf s ls t lv ks is ss o). apply (wr_bind _ _ _ RL closed).
        + cbn [layout] in HG. apply G_pre in HG. exact (comma_list (Nd KFuncNameSelf s ls t lv ks is ss o) Period On (or_intror eq_refl) eq_refl eq_refl (G_commas _ _ HG)).
        + intros _. rewrite <- (hlayout_fst mk th) in HG. cbn [hlayout] in HG. rewrite !(kid_h KFuncNameSelf s ls t lv ks is ss o), map_app in HG.
          apply G_post in HG. apply (cov_all c W _ K On (fun m => W_wr c m K)); [|exact HG]. cbn [app]. repeat cov_step.
      - apply wr_emit. exact (tok_r _ _ HG).
    Qed.
  End Body.

  Theorem write_wr fuel : forall c n, kin c0 c -> okn n -> G (layout n) -> wr (write fuel buf c n) (hlayout mk th n).
  Proof.
    induction fuel as [|fuel IH]; intros c n K On HG; cbn [write]; [apply wr_nofuel|]. apply body_wr; auto.
  Qed.
End Render.
