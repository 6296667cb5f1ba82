(** The regular constructs under every configuration. *)
From Coq Require Import Lia.
From Verif Require Import Base Lib Config State LuaLexer Ast WriterBase LuaWriter LexSpec LayoutSpec TotalSpec TotalResults PrettySpec PrettyGap OneLineSpec OneLineResults TotalFrame OutcomeProofs
  OperatorSpec OperatorResults TableSpec TableResults ListSpec ListResults ConstructSpec GapProofs.

(** clauses as lists of steps *)
Inductive step := SI (x : item) | ST (k p : nat) (h : str).
Inductive runs (fuel : nat) (src : str) (c : config) (n : node) (hung : bool) : list step -> world -> world -> Prop :=
| r_nil w : runs fuel src c n hung [] w w
| r_item x l w w1 w' : run_item c src (write fuel src) n x w = (ROk tt, w1) -> runs fuel src c n hung l w1 w' -> runs fuel src c n hung (SI x :: l) w w'
| r_test k p h l w w1 w' : same_place w1 w ->
    list_indented c (comment_hint c src) (write fuel src c) (write (S fuel) src c) (kid n k) (comment_hint c src (nloc n p) h) w hung ->
    runs fuel src c n hung l w1 w' -> runs fuel src c n hung (ST k p h :: l) w w'.
Definition steps_of (cl : clause) (hung : bool) : list step :=
  map SI (cl_pre cl) ++ match cl_test cl with Some (k, p, h) => [ST k p h] | None => [] end ++ map SI (cl_post cl hung).

Lemma items_runs fuel src c n hung l r w w1 w' : run_items c src (write fuel src) n l w = (ROk tt, w1) -> runs fuel src c n hung r w1 w' -> runs fuel src c n hung (map SI l ++ r) w w'.
Proof.
  revert w. induction l as [|x l IH]; cbn [run_items map app]; intros w E R; [injection E as <-; exact R|].
  apply seq_in in E; [|now exists tt]. destruct E as (w2 & E1 & E). econstructor; [exact E1|]. now apply IH.
Qed.
Lemma clause_runs fuel src c n cl w w' : pos_range (w_st w) = None -> (cl_test cl <> None -> forallb quiet_item (cl_pre cl) = true) ->
  run_clause c src (write fuel src) n cl w = (ROk tt, w') -> exists hung, runs fuel src c n hung (steps_of cl hung) w w'.
Proof.
  intros R Q E. unfold run_clause in E. apply seq_in in E; [|now exists tt]. destruct E as (w1 & E1 & E). unfold steps_of. destruct (cl_test cl) as [[[k p] h]|].
  - destruct (pre_steps _ _ _ _ _ (Q ltac:(discriminate)) _ _ E1) as (_ & R1 & _). unfold bind at 1 in E. destruct (test_indent _ _ _ _ _ _ w1) as [[b| | |] w2] eqn:Et; try discriminate.
    apply indent_run in Et; [|congruence]. destruct Et as [P T]. exists b. eapply items_runs; [exact E1|]. cbn [app]. econstructor; [exact P|exact T|].
    rewrite <- (app_nil_r (map SI _)). eapply items_runs; [exact E|constructor].
  - unfold bind at 1, ret at 1 in E. exists false. eapply items_runs; [exact E1|]. cbn [app]. rewrite <- (app_nil_r (map SI _)). eapply items_runs; [exact E|constructor].
Qed.

(** the steps write the parts [ps] with [gl] between them; [deep]: the current depth; [expect]: a part is next; [fresh]: nothing since the last part or
    gap *)
Definition glue_is (n : node) (hung deep : bool) (tst : option (nat * nat * str)) (i j : nat) (b : bool) (h : str) (g : glue) : Prop :=
  let '(pl, b', h') := g in
  b = b' /\ h = h' /\ deeper hung pl = deep /\ match pl with Hanging k => k = j -> tst = Some (k, tried_gap n i, h') | _ => True end.
Fixpoint follows (n : node) (hung deep expect fresh : bool) (tst : option (nat * nat * str)) (l : list step) (i j : nat) (gl : list glue) (ps : list part) : Prop :=
  match l with
  | [] => expect = false /\ deep = false /\ ps = []
  | SI (IInc None) :: r => deep = false /\ follows n hung true expect false tst r i j gl ps
  | SI IDec :: r => deep = true /\ follows n hung false expect false tst r i j gl ps
  | SI (IIf true (IInc None)) :: r => deep = false /\ follows n hung true expect false tst r i j gl ps
  | SI (IIf true IDec) :: r => deep = true /\ follows n hung false expect false tst r i j gl ps
  | SI (IIf false _) :: r => follows n hung deep expect fresh tst r i j gl ps
  | SI IIncF :: r | SI IDecF :: r => follows n hung deep expect false tst r i j gl ps
  | SI (ITok s) :: r => expect = true /\ match ps with TT t :: ps' => s = spelling t /\ follows n hung deep false true None r i j gl ps' | _ => False end
  | SI (IKid k) :: r => expect = true /\ fresh = true /\ match ps with TK :: ps' => k = j /\ follows n hung deep false true None r i (S j) gl ps' | _ => False end
  | SI (IHint q h) :: r => expect = false /\ ps <> [] /\ q = i /\ match gl with g :: gl' => glue_is n hung deep tst i j false h g /\ follows n hung deep true true None r (S i) j gl' ps | [] => False end
  | SI (INl b q h) :: r => expect = false /\ ps <> [] /\ q = i /\ match gl with g :: gl' => glue_is n hung deep tst i j b h g /\ follows n hung deep true true None r (S i) j gl' ps | [] => False end
  | ST k p h :: r => expect = false /\ fresh = true /\ follows n hung deep expect false (Some (k, p, h)) r i j gl ps
  | _ => False
  end.

Definition at_level (d : Z) (deep : bool) (w : world) : Prop :=
  indent_level (w_st w) = (d + if deep then 1 else 0)%Z /\ (deep = true -> exists r, stack_indent (w_st w) = None :: r).
Lemma level_same d deep w w1 : indent_level (w_st w1) = indent_level (w_st w) -> stack_indent (w_st w1) = stack_indent (w_st w) -> at_level d deep w -> at_level d deep w1.
Proof. intros A B [C D]. split; [congruence|]. now rewrite B. Qed.
Lemma inc_level d w w1 : inc_indent None w = (ROk tt, w1) -> at_level d false w -> w_f w1 = w_f w /\ at_level d true w1.
Proof. unfold inc_indent, bind, get_st, put_st. intros [= <-] [L _]. split; [reflexivity|]. split; cbn in *; [lia|eauto]. Qed.
Lemma dec_level d w w1 : dec_indent w = (ROk tt, w1) -> at_level d true w -> w_f w1 = w_f w /\ at_level d false w1.
Proof.
  unfold dec_indent, bind, get_st, put_st. intros [= <-] [L S]. destruct (S eq_refl) as [r S']. split; [reflexivity|]. unfold dec_indent_st. split; [|discriminate]. cbn [w_st]. rewrite S'. cbn in *. lia.
Qed.

Lemma gap_glue fuel src c n d hung deep tst i j b h g gl ps w w1 w2 w' : glue_is n hung deep tst i j b h g -> ps <> [] -> at_level d deep w -> w_f w = w_f w1 ->
  (forall k p h, tst = Some (k, p, h) -> list_indented c (comment_hint c src) (write fuel src c) (write (S fuel) src c) (kid n k) (comment_hint c src (nloc n p) h) w1 hung) ->
  if_newline c b (H c src (nloc n i)) h w = (ROk tt, w2) ->
  (at_level d deep w2 -> woven c (comment_hint c src) (write fuel src c) (write (S fuel) src c) n d hung (S i) j gl ps w2 w') ->
  joined c (comment_hint c src) (write fuel src c) (write (S fuel) src c) n d hung i j (g :: gl) ps w1 w'.
Proof.
  intros G P L F T E K. destruct g as [[pl b'] h']. destruct G as (-> & -> & Dp & Tr).
  assert (B : indent_level (w_st w2) = indent_level (w_st w) /\ stack_indent (w_st w2) = stack_indent (w_st w)).
  { eapply ok_base; [|exact E]. apply ok_if_newline; auto; intros; apply hint_ok. }
  destruct B as [B1 B2]. apply jn_more with (w2 := w) (w3 := w2); auto.
  - intros k -> Ek. apply T. now apply Tr.
  - rewrite Dp. exact (proj1 L).
  - eapply line_or_gap_by; [|exact E]. reflexivity.
  - apply K. eapply level_same; eauto.
Qed.

Lemma follows_woven fuel src c n d hung l w w' : runs fuel src c n hung l w w' -> forall deep expect fresh tst i j gl ps, follows n hung deep expect fresh tst l i j gl ps -> at_level d deep w ->
  forall w1, w_f w = w_f w1 -> (fresh = true -> w = w1) ->
  let gap := comment_hint c src in
  let x := write fuel src c in
  let y := write (S fuel) src c in
  (expect = true -> woven c gap x y n d hung i j gl ps w1 w') /\
  (expect = false -> (forall k p h, tst = Some (k, p, h) -> list_indented c gap x y (kid n k) (gap (nloc n p) h) w1 hung) -> joined c gap x y n d hung i j gl ps w1 w').
Proof.
  intros R. induction R as [w|x l w wa w' E R IH|k p h l w wa w' P T R IH]; intros deep expect fresh tst i j gl ps Fo L w1 Fw Fr; cbv zeta.
  - destruct Fo as (-> & -> & ->). split; [discriminate|]. intros _ _. constructor; [exact Fw|]. destruct L as [L _]. cbn in L. lia.
  - assert (Silent : forall deep' fresh', follows n hung deep' expect fresh' tst l i j gl ps -> at_level d deep' wa -> w_f wa = w_f w -> (fresh' = true -> wa = w1) ->
      (expect = true -> woven c (comment_hint c src) (write fuel src c) (write (S fuel) src c) n d hung i j gl ps w1 w') /\
      (expect = false -> (forall k p h, tst = Some (k, p, h) -> list_indented c (comment_hint c src) (write fuel src c) (write (S fuel) src c) (kid n k) (comment_hint c src (nloc n p) h) w1 hung) ->
         joined c (comment_hint c src) (write fuel src c) (write (S fuel) src c) n d hung i j gl ps w1 w')).
    { intros deep' fresh' Fo' L' F' Fr'. apply (IH _ _ _ _ _ _ _ _ Fo' L'); [congruence|exact Fr']. }
    destruct x as [s|q|q h|b q h|q|[o|]| | | |b y]; cbn [follows] in Fo; try contradiction; cbn [run_item] in E.
    + destruct Fo as [-> Fo]. split; [|discriminate]. intros _. destruct ps as [|[t|] ps]; try contradiction. destruct Fo as [-> Fo].
      apply wv_part with (w1 := w) (w2 := wa); [exact Fw|discriminate|econstructor; [exact E|constructor]|].
      unfold emit in E. injection E as <-. refine (proj2 (IH _ _ _ _ _ _ _ _ Fo _ _ eq_refl _) eq_refl _); [exact L|reflexivity|discriminate].
    + destruct Fo as (-> & Hp & -> & Fo). split; [discriminate|]. intros _ Ts. destruct gl as [|g gl]; [contradiction|]. destruct Fo as [G Fo].
      eapply (gap_glue fuel src c n d hung deep tst i j false h); eauto. intros L2. exact (proj1 (IH _ _ _ _ _ _ _ _ Fo L2 _ eq_refl (fun _ => eq_refl)) eq_refl).
    + destruct Fo as (-> & Hp & -> & Fo). split; [discriminate|]. intros _ Ts. destruct gl as [|g gl]; [contradiction|]. destruct Fo as [G Fo].
      eapply (gap_glue fuel src c n d hung deep tst i j b h); eauto. intros L2. exact (proj1 (IH _ _ _ _ _ _ _ _ Fo L2 _ eq_refl (fun _ => eq_refl)) eq_refl).
    + destruct Fo as (-> & -> & Fo). split; [|discriminate]. intros _. destruct ps as [|[t|] ps]; try contradiction. destruct Fo as [-> Fo]. specialize (Fr eq_refl). subst w1.
      apply wv_part with (w1 := w) (w2 := wa); [reflexivity|reflexivity|econstructor; [exact E|constructor]|].
      destruct (write_keeps_indent _ _ _ _ _ _ _ E) as (X1 & X2 & _).
      refine (proj2 (IH _ _ _ _ _ _ _ _ Fo _ _ eq_refl _) eq_refl _); [eapply level_same; eauto|reflexivity|discriminate].
    + destruct Fo as [-> Fo]. destruct (inc_level _ _ _ E L) as [F' L']. eapply Silent; eauto. discriminate.
    + destruct Fo as [-> Fo]. destruct (dec_level _ _ _ E L) as [F' L']. eapply Silent; eauto. discriminate.
    + unfold inc_func_level, bind, get_st, put_st in E. injection E as <-. eapply Silent; eauto; discriminate.
    + unfold dec_func_level, bind, get_st, put_st in E. injection E as <-. eapply Silent; eauto; discriminate.
    + destruct b.
      * destruct y as [| | | | |[]| | | |]; try contradiction; destruct Fo as [-> Fo]; cbn [run_item] in E.
        -- destruct (inc_level _ _ _ E L) as [F' L']. eapply Silent; eauto. discriminate.
        -- destruct (dec_level _ _ _ E L) as [F' L']. eapply Silent; eauto. discriminate.
      * unfold ret in E. injection E as <-. eapply Silent; eauto.
  - cbn [follows] in Fo. destruct Fo as (-> & -> & Fo). specialize (Fr eq_refl). subst w1. split; [discriminate|]. intros _ _.
    destruct P as [P1 P2]. refine (proj2 (IH _ _ _ _ _ _ _ _ Fo _ w _ _) eq_refl _); [|exact P1|discriminate|intros k' p' h' [= <- <- <-]; exact T].
    destruct L as [L1 L2]. unfold at_level. rewrite P2. auto.
Qed.

Lemma regular_follows c n hung : regular (n_kind n) -> follows n hung false true true None (steps_of (clause_of c n) hung) 0 0 (glues c (n_kind n)) (template (n_kind n)).
Proof.
  intros [K1 K2]. unfold clause_of. destruct (n_kind n) eqn:K; cbn in K1, K2; try (exfalso; tauto);
    cbn [steps_of plain tested cl_pre cl_test cl_post map app template glues]; destruct hung; cbn; unfold tried_gap; rewrite ?K;
    repeat match goal with |- _ /\ _ => split | |- _ <> _ => discriminate | |- _ -> _ => intros | |- True => exact Logic.I | |- _ => reflexivity || discriminate end.
Qed.
Lemma regular_quiet c n : cl_test (clause_of c n) <> None -> forallb quiet_item (cl_pre (clause_of c n)) = true.
Proof. unfold clause_of. destruct (n_kind n); cbn; intros; reflexivity || congruence. Qed.

Theorem constructs_laid fuel src c n w w' : regular (n_kind n) -> pos_range (w_st w) = None -> write (S fuel) src c n w = (ROk tt, w') ->
  (exists k mw line, on_one_line c (function_nested_level (w_st w)) n k mw /\ ~ In 10%N line /\ w_f w' = w_f w ++ line) \/
  exists wa hung, same_place wa w /\
    woven c (comment_hint c src) (write fuel src c) (write (S fuel) src c) n (indent_level (w_st w)) hung 0 0 (glues c (n_kind n)) (template (n_kind n)) wa w'.
Proof.
  intros K R E. set (W := write fuel src) in *.
  assert (Done : forall wa, same_place wa w -> run_clause c src W n (clause_of c n) wa = (ROk tt, w') -> exists wa hung, same_place wa w /\
    woven c (comment_hint c src) (W c) (write (S fuel) src c) n (indent_level (w_st w)) hung 0 0 (glues c (n_kind n)) (template (n_kind n)) wa w').
  { intros wa [P1 P2] Er. apply clause_runs in Er; [|congruence|apply regular_quiet]. destruct Er as [hung Er]. exists wa, hung. split; [split; assumption|].
    refine (proj1 (follows_woven _ _ _ _ (indent_level (w_st w)) _ _ _ _ Er _ _ _ _ _ _ _ _ (regular_follows c n hung K) _ wa eq_refl (fun _ => eq_refl)) eq_refl).
    split; [rewrite P2; lia|discriminate]. }
  assert (Sr : same_place w w) by (split; reflexivity).
  change (write (S fuel) src c n) with (write_body c src W n) in E.
  assert (D : run_clause c src W n (clause_of c n) w = (ROk tt, w') \/ 
    oneline_or W (match oneline_if_cfg c n with Some c' => Some c' | None => oneline_function_cfg c (w_st w) n end) n (ret tt) (run_clause c src W n (clause_of c n)) w = (ROk tt, w')).
  { destruct K as [K1 K2]. unfold write_body, range_or in E. destruct (n_kind n) eqn:Kn; cbn in K1, K2; try (exfalso; tauto); try (left; exact E); right; unfold bind at 1, get_st at 1 in E; rewrite R in E;
      cbn [test_out_of_range test_not_completely_contained] in E; destruct (raw_items n); unfold bind at 1, get_st at 1 in E; exact E. }
  clear E. destruct D as [E|E]; [right; now apply (Done w)|].
  assert (O : match oneline_if_cfg c n with Some c' => Some c' | None => oneline_function_cfg c (w_st w) n end = None \/
    exists c' k mw, match oneline_if_cfg c n with Some c' => Some c' | None => oneline_function_cfg c (w_st w) n end = Some c' /\ on_one_line c (function_nested_level (w_st w)) n k mw).
  { clear - n. unfold oneline_if_cfg, oneline_function_cfg.
    destruct (is_if n && nsome c N_max_width && on c B_force_single_line_if && nsome c N_newline_format_if && fits_twice c n) eqn:X.
    - right. rewrite !andb_true_iff in X. destruct X as ((((X1 & X2) & X3) & X4) & X5). unfold fits_twice in X5. destruct (cn c N_max_width) as [mw|] eqn:X6; [|discriminate].
      eexists. exists N_newline_format_if, mw. split; [reflexivity|]. split; [left|split; [exact X6|split; [now apply nsome_is|now apply N.ltb_lt]]].
      split; [unfold is_if in X1; destruct (n_kind n); try discriminate; cbn; tauto|]. split; [reflexivity|now apply on_is].
    - destruct (is_func_body n && nsome c N_max_width && nsome c N_newline_format_function && fits_twice c n && _) eqn:Y; [|left; reflexivity]. right.
      rewrite !andb_true_iff, orb_true_iff, !andb_true_iff in Y. destruct Y as ((((X1 & X2) & X4) & X5) & X3). unfold fits_twice in X5. destruct (cn c N_max_width) as [mw|] eqn:X6; [|discriminate].
      eexists. exists N_newline_format_function, mw. split; [reflexivity|]. split; [right|split; [exact X6|split; [now apply nsome_is|now apply N.ltb_lt]]].
      split; [unfold is_func_body in X1; destruct (n_kind n); try discriminate; cbn; tauto|]. split; [reflexivity|]. rewrite Z.eqb_eq, Z.ltb_lt, !on_is in X3. exact X3. }
  destruct O as [O|(c' & k & mw & O & Hk)]; rewrite O in E; cbn [oneline_or] in E; [right; now apply (Done w)|].
  unfold bind at 1 in E. unfold test_oneline_no_nl, test_oneline, bind in E. destruct (run_all [W c' n] false (set_f [] w)) as [[[]| | |] wt]; try discriminate.
  - right. apply (Done (restore w wt)); [split; reflexivity|exact E].
  - destruct (cn c' N_max_width); [|discriminate]. unfold ret at 1 in E. destruct (N.ltb _ _); [destruct (has_newlines (w_f wt)) eqn:Nl|].
    + right. apply (Done (restore w wt)); [split; reflexivity|exact E].
    + left. exists k, mw, (w_f wt). split; [exact Hk|]. split; [now apply no_nl_in|]. cbn in E. unfold emit in E. now injection E as <-.
    + right. apply (Done (restore w wt)); [split; reflexivity|exact E].
Qed.

Lemma one_step (m : M unit) w w' : m w = (ROk tt, w') -> in_turn [m] w w'.
Proof. intros E. econstructor; [exact E|constructor]. Qed.
Lemma inc_operator n w w0 : inc_indent (Some (n_text n)) w = (ROk tt, w0) -> w_f w0 = w_f w /\ same_operator n w0 /\
  (same_operator n w /\ indent_level (w_st w0) = indent_level (w_st w) \/ ~ same_operator n w /\ indent_level (w_st w0) = (indent_level (w_st w) + 1)%Z).
Proof.
  unfold inc_indent, bind, get_st, put_st, same_operator. intros [= <-]. split; [reflexivity|]. split; [cbn; eauto|]. cbn [w_st]. unfold inc_indent_st. cbn [is_none orb set_indent indent_level].
  destruct (stack_indent (w_st w)) as [|t r] eqn:S; cbn; [right; split; [intros [r X]; discriminate|reflexivity]|].
  destruct t as [t|]; cbn; [|right; split; [intros [r' X]; discriminate|reflexivity]].
  destruct (str_eqb t (n_text n)) eqn:D; cbn.
  - apply str_eqb_true in D. subst. left. split; eauto.
  - right. split; [|reflexivity]. intros [r' X]. injection X as -> ->. rewrite (proj2 (str_eqb_true _ _) eq_refl) in D. discriminate.
Qed.

Lemma fits_decides c ms (b : bool) w r w1 : (if b then issome (test_oneline c ms) else ret false) w = (ROk r, w1) -> same_place w1 w /\ (r = true <-> b = true /\ fits_width c ms w).
Proof.
  destruct b; intros E.
  - unfold issome, bind in E. destruct (test_oneline c ms w) as [[o| | |] w2] eqn:Et; try discriminate. injection E as <- <-.
    assert (X : isnone (test_oneline c ms) w = (ROk (is_none o), w2)) by (unfold isnone, bind; now rewrite Et).
    apply test_width in X. destruct X as [P X]. split; [exact P|]. destruct o; cbn [is_some is_none] in *.
    + split; [|reflexivity]. intros _. split; [reflexivity|]. destruct (cn c N_max_width) as [mw|] eqn:Hm.
      * exists mw. split; [exact Hm|]. now apply (proj2 (test_fits _ _ _ _ _ _ Hm Et)).
      * unfold test_oneline in Et. destruct (run_all ms false (set_f [] w)) as [[[]| | |] wt]; try discriminate. rewrite Hm in Et. discriminate.
    + split; [discriminate|]. intros [_ F]. exfalso. now apply X.
  - injection E as <- <-. split; [apply same_refl|]. intuition discriminate.
Qed.
Lemma items_steps c src W n l w w' : run_items c src W n l w = (ROk tt, w') -> in_turn (map (run_item c src W n) l) w w'.
Proof.
  revert w. induction l as [|x l IH]; cbn [run_items map]; intros w E; [injection E as <-; constructor|]. apply seq_in in E; [|now exists tt]. destruct E as (w1 & E1 & E). econstructor; [exact E1|]. now apply IH.
Qed.
Lemma plain_steps c src W n l w w' : run_clause c src W n (clause_of c n) w = (ROk tt, w') -> clause_of c n = plain l -> in_turn (map (run_item c src W n) l) w w'.
Proof.
  intros E X. rewrite X in E. unfold run_clause in E. cbn [cl_pre cl_test cl_post plain] in E. apply seq_in in E; [|now exists tt]. destruct E as (w1 & E1 & E). cbn in E. injection E as <-. now apply items_steps.
Qed.
Theorem others_laid fuel src c n w w' : In (n_kind n) other_kinds -> pos_range (w_st w) = None -> write (S fuel) src c n w = (ROk tt, w') ->
  other_laid c (comment_hint c src) (write fuel src c) n w w'.
Proof.
  intros K R E. pose proof (proj1 (write_keeps_indent _ _ _ _ _ _ _ E)) as Il. set (W := write fuel src) in *. change (write (S fuel) src c n) with (write_body c src W n) in E.
  assert (Rr : forall m : M unit, range_or c src W n m w = (ROk tt, w') -> m w = (ROk tt, w')).
  { intros m Em. unfold range_or, bind, get_st in Em. rewrite R in Em. cbn [test_out_of_range test_not_completely_contained] in Em. destruct (raw_items n); exact Em. }
  unfold other_laid. cbv zeta. unfold write_body in E. cbn in K.
  destruct (n_kind n) eqn:Kn; try (exfalso; clear - K; intuition discriminate).
  - (* binary *)
    apply Rr in E. unfold write_binary in E. cbv zeta in E.
    apply seq_in in E; [|now exists tt]. destruct E as (wl & El & E). cbn [run_items run_item] in El.
    apply seq_in in El; [|now exists tt]. destruct El as (w0 & E0 & El). apply seq_in in El; [|now exists tt]. destruct El as (wl' & El & [= ->]).
    destruct (inc_operator _ _ _ E0) as (F0 & S0 & L0). unfold bind at 1 in E.
    match type of E with match ?t with _ => _ end = _ => destruct t as [[b| | |] w1] eqn:Et end; try discriminate. apply fits_decides in Et. destruct Et as [P1 D]. cbn [run_items run_item] in E.
    apply seq_in in E; [|now exists tt]. destruct E as (wa & Ea & E). apply seq_in in E; [|now exists tt]. destruct E as (wb & Eb & E).
    apply seq_in in E; [|now exists tt]. destruct E as (wc & Ec & E). apply seq_in in E; [|now exists tt]. destruct E as (wd & Ed & E).
    assert (Fd : w_f w' = w_f wd) by (unfold dec_indent, bind, get_st, put_st, ret in E; now injection E as <-).
    change sp with [32%N] in *.
    assert (N2 : nis c N_newline_format_binary_op 2 = true <-> cn c N_newline_format_binary_op = Some 2%N).
    { unfold nis. destruct (cn c N_newline_format_binary_op); [rewrite N.eqb_eq; split; congruence|split; discriminate]. }
    assert (D' : (cn c N_newline_format_binary_op = Some 1%N \/ cn c N_newline_format_binary_op = Some 2%N) -> (b = true <-> operator_fits c (comment_hint c src) (W c) n wl)).
    { intros X. rewrite D, andb_true_iff, orb_true_iff, on_is, nis_is, N2. unfold operator_fits. unfold H. tauto. }
    exists w0, wl, w1, wa, wb, wc, wd. split; [exact F0|]. split; [exact S0|]. split; [exact L0|]. split; [now apply one_step|]. split; [exact P1|].
    split; [eapply line_or_gap_by; [|exact Ea]|].
    { rewrite andb_true_iff, nis_is, negb_true_iff, <- not_true_iff_false. split; intros [X Y]; (split; [exact X|]); specialize (D' (or_introl X)); tauto. }
    split; [now apply one_step|]. split; [eapply line_or_gap_by; [|exact Ec]|].
    { rewrite andb_true_iff, N2, negb_true_iff, <- not_true_iff_false. split; intros [X Y]; (split; [exact X|]); specialize (D' (or_intror X)); tauto. }
    split; [now apply one_step|]. split; [exact Fd|exact Il].
  - (* unary *) apply Rr in E. unfold bind at 1, get_st at 1 in E. cbn [oneline_if_cfg] in E. unfold oneline_if_cfg, oneline_function_cfg, is_if, is_func_body in E. rewrite Kn in E. cbn [andb oneline_or] in E.
    eapply plain_steps in E; [|unfold clause_of; rewrite Kn; reflexivity]; exact E.
  - (* numeral *) eapply plain_steps in E; [|unfold clause_of; rewrite Kn; reflexivity]; exact E.
  - eapply plain_steps in E; [|unfold clause_of; rewrite Kn; reflexivity]; exact E.
  - eapply plain_steps in E; [|unfold clause_of; rewrite Kn; reflexivity]; exact E.
  - apply one_step. replace (long (n_level n) (n_text n)) with (open_long (n_level n) ++ n_text n ++ close_long (n_level n)); [exact E|]. unfold long, open_long, close_long, opening, closing. now rewrite !repeat_eqs.
  - (* empty table *) apply Rr in E. unfold write_empty_table in E. unfold bind at 1 in E. destruct (in_buffer [] _ w) as [[t| | |] w1] eqn:Eb; try discriminate.
    unfold in_buffer in Eb. destruct (H c src (nloc n 0) (LuaWriter.table_hint c) (set_f [] w)) as [[[]| | |] wg] eqn:Eg; try discriminate. injection Eb as <- <-.
    cbn [run_items run_item] in E. apply seq_in in E; [|now exists tt]. destruct E as (w2 & E2 & E). apply seq_in in E; [|now exists tt]. destruct E as (w3 & E3 & E). apply seq_in in E; [|now exists tt]. destruct E as (w4 & E4 & [= ->]).
    exists (set_f (w_f w) wg), w2, w3. split; [reflexivity|]. split; [exact (proj1 (ok_base _ _ _ _ (hint_ok _ _ _ _) Eg))|]. split; [now apply one_step|]. split; [|now apply one_step].
    eapply line_or_gap_by; [|exact E3]. unfold gap_breaks. split.
    + intros X. exists wg. split; [now apply one_step|]. destruct (in_dec N.eq_dec 10%N (w_f wg)) as [I|I]; [exact I|]. apply no_nl_in in I. congruence.
    + intros (wx & X1 & X2). inversion X1 as [|? ? ? wy ? Y1 Y2]. subst. inversion Y2. subst. unfold H in Eg. change (LuaWriter.table_hint c) with (brace_hint c) in Eg. rewrite Y1 in Eg. injection Eg as ->.
      destruct (has_newlines (w_f wg)) eqn:Nl; [reflexivity|]. apply no_nl_in in Nl. contradiction.
  - (* name of a method *) apply Rr in E. unfold bind at 1 in E. destruct (lua_seps c src W n w) as [[b| | |] w1] eqn:Es; try discriminate.
    assert (Eq : lua_seps c src W n = lua_seps c src W (name_before n)).
    { unfold lua_seps, sep_need_newlines, need_first_newline, need_newline, separator, trailing_separator, elem_prefix_hint, name_before. rewrite Kn. reflexivity. }
    rewrite Eq in Es. apply seps_run in Es; [|cbn; tauto|exact R]. destruct Es as (bs & L & _). exists bs, w1. split; [exact L|]. now apply items_steps in E.
  - (* name *) eapply plain_steps in E; [|unfold clause_of; rewrite Kn; reflexivity]; exact E.
  - (* chunk *) unfold run_clause, clause_of in E. rewrite Kn in E. cbn [cl_pre cl_test cl_post plain run_items run_item] in E. apply seq_in in E; [|now exists tt]. destruct E as (w2 & E2 & E).
    unfold bind, ret in E. injection E as ->. apply seq_in in E2; [|now exists tt]. destruct E2 as (wa & Ea & E2). apply seq_in in E2; [|now exists tt]. destruct E2 as (wb & Eb & E2).
    apply seq_in in E2; [|now exists tt]. destruct E2 as (wc & Ec & [= ->]). exists wb. split; [econstructor; [exact Ea|]; now apply one_step|]. eapply line_or_gap_by; [|exact Ec]. apply on_is.
  - (* chunk with a first line *) unfold run_clause, clause_of in E. rewrite Kn in E. cbn [cl_pre cl_test cl_post plain run_items run_item] in E. apply seq_in in E; [|now exists tt]. destruct E as (w2 & E2 & E).
    unfold bind, ret in E. injection E as ->. apply seq_in in E2; [|now exists tt]. destruct E2 as (wa & Ea & E2). apply seq_in in E2; [|now exists tt]. destruct E2 as (wb & Eb & E2).
    apply seq_in in E2; [|now exists tt]. destruct E2 as (wa' & Ea' & E2). apply seq_in in E2; [|now exists tt]. destruct E2 as (wb' & Eb' & E2).
    apply seq_in in E2; [|now exists tt]. destruct E2 as (wc & Ec & [= ->]). exists wb'. split; [econstructor; [exact Ea|]; econstructor; [exact Eb|]; econstructor; [exact Ea'|]; now apply one_step|]. eapply line_or_gap_by; [|exact Ec]. apply on_is.
  - apply one_step. exact E.
Qed.

Lemma every_kind k : regular k \/ In k (plain_lists ++ separated_lists) \/ k = KTableConstructor \/ In k other_kinds.
Proof. unfold regular. destruct k; cbn; try (right; tauto); left; (split; [discriminate|]); intuition discriminate. Qed.
