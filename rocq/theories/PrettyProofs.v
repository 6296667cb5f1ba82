(** The writer follows the specification of the layout. *)
From Verif Require Import Base Lib Config State Ast LuaLexer LuaParser Recon WriterBase LuaWriter Formatter LexSpec LayoutSpec UtilProofs RenderProofs
  GapProofs ReconProofs LayoutText PrettySpec PrettyGap PrettyUnique.

Definition gapok (buf : str) (l : loc) : Prop := exists g, gap_text_at buf l g.
Lemma slot_gapok buf l : slot_ok buf (SGap l) -> gapok buf l.
Proof. destruct l as [a b]. intros (H1 & H2 & g & H3 & H4). exists g. repeat split; auto. Qed.
Lemma prints_app c src f ps f1 qs f2 : prints c src f ps f1 -> prints c src f1 qs f2 -> prints c src f (ps ++ qs) f2.
Proof. induction 1; intros H2; cbn; [exact H2|econstructor; eauto ..]. Qed.

Lemma map_pieces c ks i : nth i (map (pieces c) ks) no_printer = pieces c (nth i ks dummy_node).
Proof. change no_printer with (pieces c dummy_node). apply map_nth. Qed.

Section Body.
  Variables (c : config) (buf : str).
  Hypothesis NF : no_forcing c.

  Definition ctx := (nat * list (option str))%type.
  Definition top (s : ctx) : option str := match snd s with t :: _ => t | [] => None end.
  Definition CX (s : ctx) (w : world) : Prop :=
    IS buf (w_st w) /\ indent_level (w_st w) = Z.of_nat (fst s) /\ stack_indent (w_st w) = snd s /\ w_oneline w = [].
  Definition does {A} (m : M A) (s s1 : ctx) (ps : list piece) (P : A -> Prop) : Prop :=
    forall w, CX s w ->
    match m w with
    | (ROk a, w') => CX s1 w' /\ P a /\ prints c buf (w_f w) ps (w_f w')
    | (RErr, _) => False
    | _ => True
    end.
  Definition any {A} (_ : A) : Prop := True.

  Lemma does_ret {A} (a : A) s (P : A -> Prop) : P a -> does (ret a) s s [] P.
  Proof. intros Hp w I. cbn. split; [exact I|]. split; [exact Hp|constructor]. Qed.
  Lemma does_bind {A B} (m : M A) (k : A -> M B) s s1 s2 ps qs P Q :
    does m s s1 ps P -> (forall a, P a -> does (k a) s1 s2 qs Q) -> does (bind m k) s s2 (ps ++ qs) Q.
  Proof.
    intros Hm Hk w I. unfold bind. specialize (Hm w I). destruct (m w) as [[a| | |] w1]; auto.
    destruct Hm as (I1 & Pa & P1). specialize (Hk a Pa w1 I1). destruct (k a w1) as [[b| | |] w2]; auto.
    destruct Hk as (I2 & Qb & P2). repeat split; try apply I2; auto. eapply prints_app; eauto.
  Qed.
  Lemma does_eq {A} (m : M A) s s1 s1' ps ps' (P P' : A -> Prop) :
    does m s s1 ps P -> ps = ps' -> s1 = s1' -> (forall a, P a -> P' a) -> does m s s1' ps' P'.
  Proof.
    intros H -> -> HP w I. specialize (H w I). destruct (m w) as [[]]; auto. destruct H as (? & ? & ?). auto.
  Qed.
  Lemma does_get {A} (k : state -> M A) s s1 ps P :
    (forall st, pos_range st = None -> does (k st) s s1 ps P) -> does (bind get_st k) s s1 ps P.
  Proof. intros H w I. exact (H (w_st w) (proj2 (proj1 I)) w I). Qed.
  Lemma does_val {A B} (v : A) (k : A -> M B) s s1 ps P : does (k v) s s1 ps P -> does (bind (ret v) k) s s1 ps P.
  Proof. intros H. exact H. Qed.
  Lemma does_emit t s : does (emit t) s s [PTok t] any.
  Proof. intros w I. cbn. split; [exact I|]. split; [exact Logic.I|]. apply pr_tok, pr_nil. Qed.
  Lemma does_hint l h s : gapok buf l -> does (H c buf l h) s s [PGap l (fst s) h] any.
  Proof.
    intros (g & Hg) w (I1 & I2 & I3 & I4). pose proof (comment_hint_exact c buf l h g (fst s) w Hg I1 I2) as E. unfold H.
    destruct (comment_hint c buf l h w) as [[]]; auto. subst. split; [repeat split; auto; apply I1|].
    split; [exact Logic.I|]. cbn. eapply pr_gap; [exact Hg|apply pr_nil].
  Qed.
  Lemma hint_block l h s w g : gap_text_at buf l g -> CX s w ->
    match in_buffer [] (H c buf l h) w with
    | (ROk b, w') => b = dressed c h (block c (fst s) 32%N g) /\ CX s w' /\ w_f w' = w_f w
    | (RErr, _) => False
    | _ => True
    end.
  Proof.
    intros Hg (I1 & I2 & I3 & I4). unfold in_buffer. pose proof (comment_hint_exact c buf l h g (fst s) (set_f [] w) Hg I1 I2) as E. unfold H.
    destruct (comment_hint c buf l h (set_f [] w)) as [[]]; auto. subst. split; [reflexivity|]. split; [repeat split; auto; apply I1|reflexivity].
  Qed.
  Lemma does_nl b l h s : gapok buf l -> does (if_newline c b (H c buf l) h) s s [gap_or_line b l (fst s) h] any.
  Proof.
    intros Hl. destruct b; [|now apply does_hint]. destruct Hl as (g & Hg). intros w I.
    pose proof (hint_block l [] s w g Hg I) as E. destruct (in_buffer [] (H c buf l []) w) as [[b| | |] w1] eqn:Eb.
    - destruct E as (Eb' & I1 & Ef). rewrite (if_newline_true c (H c buf l) h w b w1 (fst s) Eb Ef (proj1 (proj2 I1))).
      split; [exact I1|]. split; [exact Logic.I|]. cbn. eapply pr_line; [exact Hg|]. unfold put_line. rewrite <- Eb'. apply pr_nil.
    - destruct E.
    - unfold if_newline. cbn [negb]. unfold bind at 1. now rewrite Eb.
    - unfold if_newline. cbn [negb]. unfold bind at 1. now rewrite Eb.
  Qed.
  Lemma nl_at b l h g s w : gap_text_at buf l g -> CX s w ->
    match if_newline c b (H c buf l) h w with
    | (ROk _, w') => CX s w' /\ w_f w' = if b then put_line c (fst s) (w_f w) g else put_gap c (fst s) h (w_f w) g
    | (RErr, _) => False
    | _ => True
    end.
  Proof.
    intros Hg I. destruct b.
    - pose proof (hint_block l [] s w g Hg I) as E. destruct (in_buffer [] (H c buf l []) w) as [[b| | |] w1] eqn:Eb.
      + destruct E as (Eb' & I1 & Ef). rewrite (if_newline_true c (H c buf l) h w b w1 (fst s) Eb Ef (proj1 (proj2 I1))).
        split; [exact I1|]. cbn. unfold put_line. now rewrite <- Eb'.
      + destruct E.
      + unfold if_newline. cbn [negb]. unfold bind at 1. now rewrite Eb.
      + unfold if_newline. cbn [negb]. unfold bind at 1. now rewrite Eb.
    - change (if_newline c false (H c buf l) h w) with (comment_hint c buf l h w). destruct I as (I1 & I2 & I3 & I4). pose proof (comment_hint_exact c buf l h g (fst s) w Hg I1 I2) as E.
      destruct (comment_hint c buf l h w) as [[]]; auto. subst. split; [repeat split; auto; apply I1|reflexivity].
  Qed.
  Lemma does_copy (m : M bool) s s1 ps P : does m s s1 ps P -> does (on_copy m) s s [] P.
  Proof.
    intros Hm w I. unfold on_copy. specialize (Hm w I). destruct (m w) as [[b| | |] w1]; auto.
    - destruct Hm as (I1 & Pb & _). split; [|split; [exact Pb|apply pr_nil]]. destruct I as (A1 & A2 & A3 & A4), I1 as (B1 & B2 & B3 & B4).
      repeat split; auto; apply A1.
    - destruct Hm.
  Qed.

  (** indentation *)
  Definition inc (o : option str) (s : ctx) : ctx :=
    (match o with
     | None => S (fst s)
     | Some _ => if match snd s with t :: _ => opt_str_eqb t o | [] => false end then fst s else S (fst s)
     end, o :: snd s).
  Definition dec (s : ctx) : ctx :=
    match snd s with
    | [] => s
    | None :: r => (pred (fst s), r)
    | Some o :: r => (if match r with t :: _ => opt_str_eqb t (Some o) | [] => false end then fst s else pred (fst s), r)
    end.
  Lemma does_inc o s : does (inc_indent o) s (inc o s) [] any.
  Proof.
    intros w (I1 & I2 & I3 & I4). cbn. split; [|split; [exact Logic.I|apply pr_nil]].
    split; [exact I1|]. cbn. rewrite I3. split; [|auto]. unfold inc. cbn [fst].
    rewrite I2. destruct o as [o|]; cbn -[Z.of_nat Z.add Z.sub opt_str_eqb]; [|lia]. destruct (snd s) as [|t r]; [lia|]. destruct (opt_str_eqb t (Some o)); cbn [negb]; lia.
  Qed.
  Lemma does_dec o s : does dec_indent (inc o s) s [] any.
  Proof.
    intros w (I1 & I2 & I3 & I4). cbn. split; [|split; [exact Logic.I|apply pr_nil]].
    unfold dec_indent_st. rewrite I3. cbn [inc snd]. split; [exact I1|]. cbn. split; [|auto].
    revert I2. unfold inc. cbn [fst]. destruct o as [o|]; cbn -[Z.of_nat Z.add Z.sub opt_str_eqb]; [|lia].
    destruct (snd s) as [|t r]; cbn [orb]; [lia|]. destruct (opt_str_eqb t (Some o)); cbn [negb]; lia.
  Qed.
  Lemma does_func z s : does (st <- get_st ;; put_st (set_func_level (z st) st)) s s [] any.
  Proof. intros w I. cbn. split; [|split; [exact Logic.I|apply pr_nil]]. exact I. Qed.

  Lemma forced k : In k [B_force_single_line_table; B_force_single_line_var_suffix; B_force_single_line_exp_list;
                  B_force_single_line_iv_table_field; B_force_single_line_kv_table_field; B_force_single_line_binary_op;
                  B_force_single_line_if; B_force_single_line_top_level_function; B_force_single_line_scoped_function] -> on c k = false.
  Proof. apply NF. Qed.
  Ltac nf := repeat match goal with |- context [on c ?k] =>
    match k with
    | B_force_single_line_table => idtac | B_force_single_line_var_suffix => idtac | B_force_single_line_exp_list => idtac
    | B_force_single_line_iv_table_field => idtac | B_force_single_line_kv_table_field => idtac | B_force_single_line_binary_op => idtac
    | B_force_single_line_if => idtac | B_force_single_line_top_level_function => idtac | B_force_single_line_scoped_function => idtac
    end; rewrite (forced k) by (cbn; tauto) end; rewrite ?andb_false_r, ?andb_false_l, ?orb_false_l.

  Section Nodes.
    Variable W : config -> node -> M unit.
    Definition slotp (s : slot) : Prop := slot_ok buf s /\ conv c s = s.
    Definition G (n : node) : Prop := Forall slotp (layout n).
    Definition follows (n : node) : Prop := forall s, does (W c n) s s (pieces c n (fst s) (top s)) any.
    Hypothesis HW : forall n, G n -> follows n.

    (** the decisions *)
    Lemma first_eq n x : lazy_and (list_need_newlines c n || sep_need_newlines c n) (need_first_newline c buf W n x) = ret (starts_line c (n_kind n) true x).
    Proof.
      unfold list_need_newlines, sep_need_newlines, need_first_newline, starts_line, suffix_newline. destruct (n_kind n); cbn [lazy_and orb negb andb]; try reflexivity.
      all: nf; unfold nsome, nis; repeat match goal with |- context [cn c ?k] => destruct (cn c k) end; cbn [is_some negb orb andb lazy_and]; try reflexivity.
      all: repeat match goal with |- context [N.eqb ?a 1] => destruct (N.eqb a 1) end; try reflexivity; destruct (n_kind x); reflexivity.
    Qed.
    Lemma next_eq n p x : lazy_and (list_need_newlines c n || sep_need_newlines c n) (need_newline c buf W n p x) = ret (starts_line c (n_kind n) false x).
    Proof.
      unfold list_need_newlines, sep_need_newlines, need_newline, starts_line, suffix_newline, is_kind. destruct (n_kind n); cbn [lazy_and orb negb andb]; try reflexivity.
      all: nf; unfold nsome, nis; repeat match goal with |- context [cn c ?k] => destruct (cn c k) end; cbn [is_some negb orb andb lazy_and]; try reflexivity.
      all: repeat match goal with |- context [N.eqb ?a 1] => destruct (N.eqb a 1) end; try reflexivity; destruct (n_kind x); try reflexivity.
      all: cbn; destruct (on c _); try reflexivity; destruct (cb c _) as [[]|]; try reflexivity.
    Qed.

    (** lists *)
    Definition okitem (x : loc * node) : Prop := gapok buf (fst x) /\ G (snd x).
    Lemma list_rest_does nn n : (forall p x, lazy_and nn (need_newline c buf W n p x) = ret (starts_line c (n_kind n) false x)) ->
      forall l, Forall okitem l -> forall i p s,
      does (write_list_rest c buf (H c buf) (W c) nn (need_newline c buf W n) list_prefix_hint i p l) s s
        (items_from c (n_kind n) false (fst s) (top s) (map (fun x => (x, pieces c (snd x))) l))
        (eq (i || any_line c (n_kind n) false (map snd l))).
    Proof.
      intros Hn. induction 1 as [|[q x] l [H1 H2] Hl IH]; intros i p s; cbn [write_list_rest items_from map any_line fst snd] in *.
      - apply does_ret. now rewrite orb_false_r.
      - apply does_get. intros st ->. cbn [test_out_of_range]. rewrite Hn.
        match goal with |- does _ _ _ (?a :: ?b ++ ?r) _ => change (a :: b ++ r) with ([a] ++ b ++ r) end.
        apply does_bind with (s1 := s) (P := eq (i || starts_line c (n_kind n) false x)).
        + apply does_val. eapply does_eq; [eapply does_bind; [now apply does_nl|intros _ _; apply (does_ret _ _ _ (eq_refl _))] | |reflexivity|auto].
          cbn. reflexivity.
        + intros b <-. apply does_bind with (s1 := s) (P := any); [now apply HW|]. intros _ _.
          eapply does_eq; [apply IH|reflexivity|reflexivity|]. intros b <-. now rewrite orb_assoc.
    Qed.
    Lemma list_does nn n : (forall p x, lazy_and nn (need_newline c buf W n p x) = ret (starts_line c (n_kind n) false x)) ->
      (forall x, lazy_and nn (need_first_newline c buf W n x) = ret (starts_line c (n_kind n) true x)) ->
      forall l, Forall okitem l -> forall s,
      does (write_list c buf (H c buf) (W c) nn (need_first_newline c buf W n) (need_newline c buf W n) list_prefix_hint l) s s
        (items_from c (n_kind n) true (fst s) (top s) (map (fun x => (x, pieces c (snd x))) l))
        (eq (any_line c (n_kind n) true (map snd l))).
    Proof.
      intros Hn Hf l [|[q x] l' [H1 H2] Hl] s; cbn [write_list items_from map any_line fst snd] in *; [now apply does_ret|].
      rewrite Hf. apply does_val.
      match goal with |- does _ _ _ (?a :: ?b ++ ?r) _ => change (a :: b ++ r) with ([a] ++ b ++ r) end.
      apply does_bind with (s1 := s) (P := any); [now apply does_nl|intros _ _].
      apply does_bind with (s1 := s) (P := any); [now apply HW|intros _ _].
      now apply list_rest_does.
    Qed.
    Definition listk (k : kind) : Prop := k = KStatementList \/ k = KVarSuffixList \/ k = KElseIfThenVec.
    Lemma lua_list_does n s : listk (n_kind n) -> Forall okitem (n_items n) ->
      does (lua_list c buf W n) s s (items_from c (n_kind n) true (fst s) (top s) (map (fun x => (x, pieces c (snd x))) (n_items n)))
        (eq (any_line c (n_kind n) true (map snd (n_items n)))).
    Proof.
      intros Hk Hl. unfold lua_list.
      assert (E : list_need_newlines c n = list_need_newlines c n || sep_need_newlines c n).
      { unfold sep_need_newlines. destruct Hk as [-> |[-> | ->]]; now rewrite orb_false_r. }
      rewrite E. apply list_does; [intros; apply next_eq|intros; apply first_eq|exact Hl].
    Qed.

    Definition okseps (x : loc * node * loc * str) : Prop := gapok buf (fst (fst (fst x))) /\ G (snd (fst (fst x))) /\ gapok buf (snd (fst x)).
    Definition sepP (x : loc * node * loc * str) := (x, pieces c (snd (fst (fst x)))).
    Fixpoint rest_pieces (k : kind) (d : nat) (op : option str) (h : str) (sep trail : str -> str) (z0 : str)
        (l : list (loc * node * loc * str * printer)) : list piece :=
      match l with
      | [] => [PTok (trail z0)]
      | (p, x, q, z, P) :: r =>
          PTok (sep z0) :: gap_or_line (starts_line c k false x) p d h :: P d op ++ PGap q d [] :: rest_pieces k d op h sep trail z r
      end.
    Lemma seps_pieces k b d op h sep trail p x q z P r :
      seps_from c k b d op h sep trail ((p, x, q, z, P) :: r) =
      gap_or_line (starts_line c k b x) p d (if b then [] else h) :: P d op ++ PGap q d [] :: rest_pieces k d op h sep trail z r.
    Proof.
      revert b p x q z P. induction r as [|[[[[p' x'] q'] z'] P'] r IH]; intros b p x q z P; [reflexivity|].
      change (seps_from c k b d op h sep trail ((p, x, q, z, P) :: (p', x', q', z', P') :: r)) with
        (gap_or_line (starts_line c k b x) p d (if b then [] else h) :: P d op ++ PGap q d [] :: PTok (sep z) ::
         seps_from c k false d op h sep trail ((p', x', q', z', P') :: r)).
      rewrite IH. reflexivity.
    Qed.
    Definition last_of (z : str) (l : list (loc * node * loc * str)) : str := fold_left (fun _ x => snd x) l z.
    Fixpoint rest_only (k : kind) (d : nat) (op : option str) (h : str) (sep : str -> str) (z0 : str)
        (l : list (loc * node * loc * str)) : list piece :=
      match l with
      | [] => []
      | (p, x, q, z) :: r =>
          PTok (sep z0) :: gap_or_line (starts_line c k false x) p d h :: pieces c x d op ++ PGap q d [] :: rest_only k d op h sep z r
      end.
    Lemma rest_split k d op h sep trail l : forall z0,
      rest_pieces k d op h sep trail z0 (map sepP l) = rest_only k d op h sep z0 l ++ [PTok (trail (last_of z0 l))].
    Proof.
      induction l as [|[[[p x] q] z] l IH]; intros z0; cbn [map sepP rest_pieces rest_only fst snd app last_of fold_left]; [reflexivity|].
      unfold sepP at 1. cbn [fst snd]. rewrite IH, <- app_assoc. reflexivity.
    Qed.
    Lemma seps_rest_does nn n so h : (forall p x, lazy_and nn (need_newline c buf W n p x) = ret (starts_line c (n_kind n) false x)) ->
      forall l, Forall okseps l -> forall i p z s,
      does (write_seps_rest c buf (H c buf) (W c) nn (need_newline c buf W n) so h i p z l) s s
        (rest_only (n_kind n) (fst s) (top s) h (get_sep so) z l)
        (eq (i || any_line c (n_kind n) false (map si_node l), last_of z l)).
    Proof.
      intros Hn. induction 1 as [|[[[q x] q'] z'] l (H1 & H2 & H3) Hl IH]; intros i p z s;
        cbn [write_seps_rest rest_only map any_line fst snd] in *.
      - apply does_ret. now rewrite orb_false_r.
      - match goal with |- does _ _ _ (?t :: ?a :: ?b ++ ?g :: ?r) _ => change (t :: a :: b ++ g :: r) with ([t] ++ [a] ++ b ++ [g] ++ r) end.
        apply does_bind with (s1 := s) (P := any); [apply does_emit|intros _ _].
        apply does_get. intros st ->. cbn [test_out_of_range]. rewrite Hn.
        apply does_bind with (s1 := s) (P := eq (i || starts_line c (n_kind n) false x)).
        + apply does_val. eapply does_eq; [eapply does_bind; [now apply does_nl|intros _ _; apply (does_ret _ _ _ (eq_refl _))] | |reflexivity|auto].
          cbn. reflexivity.
        + intros b <-. apply does_bind with (s1 := s) (P := any); [now apply HW|intros _ _].
          apply does_bind with (s1 := s) (P := any); [now apply does_hint|intros _ _].
          eapply does_eq; [apply IH|reflexivity|reflexivity|]. intros b <-. unfold last_of. cbn [fold_left snd]. now rewrite orb_assoc.
    Qed.
    Lemma seps_does nn n so tr h trail :
      (forall p x, lazy_and nn (need_newline c buf W n p x) = ret (starts_line c (n_kind n) false x)) ->
      (forall x, lazy_and nn (need_first_newline c buf W n x) = ret (starts_line c (n_kind n) true x)) ->
      (forall z s, does (t <- tr ;; (if (is_none t && negb (is_empty z)) || obool_is t true then emit (get_sep so z) else ret tt)) s s [PTok (trail z)] any) ->
      forall l, Forall okseps l -> forall s,
      does (write_seps c buf (H c buf) (W c) nn (need_first_newline c buf W n) (need_newline c buf W n) so tr h l) s s
        (seps_from c (n_kind n) true (fst s) (top s) h (get_sep so) trail (map sepP l))
        (eq (any_line c (n_kind n) true (map si_node l))).
    Proof.
      intros Hn Hf Ht l [|[[[q x] q'] z'] l' (H1 & H2 & H3) Hl] s; cbn [write_seps map any_line fst snd] in *; [now apply does_ret|].
      rewrite Hf. apply does_val. unfold sepP at 1. cbn [fst snd]. rewrite seps_pieces, rest_split.
      match goal with |- does _ _ _ (?a :: ?b ++ ?g :: ?r) _ => change (a :: b ++ g :: r) with ([a] ++ b ++ [g] ++ r) end.
      apply does_bind with (s1 := s) (P := any); [now apply does_nl|intros _ _].
      apply does_bind with (s1 := s) (P := any); [now apply HW|intros _ _].
      apply does_bind with (s1 := s) (P := any); [now apply does_hint|intros _ _].
      eapply does_bind; [now apply seps_rest_does|]. intros a <-. cbn [fst snd].
      specialize (Ht (last_of z' l') s). intros w I. specialize (Ht w I). unfold bind in *. destruct (tr w) as [[t| | |] w1]; auto.
      match goal with |- context [(if ?b then emit ?x else ret tt) w1] => destruct ((if b then emit x else ret tt) w1) as [[]] end; auto. cbn. destruct Ht as (T1 & _ & T3). auto.
    Qed.

    Definition sepk (k : kind) : Prop :=
      In k [KFields; KExpList; KNameList; KVarList; KParList; KFuncName; KFuncNameSelf].
    Definition sep_of (k : kind) : str -> str :=
      match k with KFields => field_separator c | KFuncName | KFuncNameSelf => fun _ => s2l "." | _ => fun _ => s2l "," end.
    Definition trail_of (k : kind) : str -> str := match k with KFields => last_separator c | _ => fun _ => [] end.
    Definition hint_of (k : kind) : str := match k with KFuncName | KFuncNameSelf => [] | _ => space end.
    Lemma does_skip s : does (ret tt) s s [PTok []] any.
    Proof. intros w I. cbn. split; [exact I|]. split; [exact Logic.I|]. apply pr_tok. rewrite app_nil_r. apply pr_nil. Qed.
    Lemma trailing_does n z s : sepk (n_kind n) ->
      does (t <- trailing_separator c n ;; (if (is_none t && negb (is_empty z)) || obool_is t true then emit (get_sep (separator c n) z) else ret tt)) s s
        [PTok (trail_of (n_kind n) z)] any.
    Proof.
      intros Hk. unfold trailing_separator, separator. destruct Hk as [E|[E|[E|[E|[E|[E|[E|[]]]]]]]]; rewrite <- E; cbn [trail_of]; try (apply does_val; cbn; apply does_skip).
      nf. unfold get_indent, get_sep, last_separator, field_separator. intros w I. unfold bind, ret at 1. cbn [fst snd].
      revert w I. change (does (if (is_none (cb c B_write_trailing_field_separator) && negb (is_empty z)) || obool_is (cb c B_write_trailing_field_separator) true
        then emit (match cs c S_field_separator with Some s0 => s0 | None => z end) else ret tt) s s
        [PTok match cb c B_write_trailing_field_separator with
             | Some true => match cs c S_field_separator with Some s0 => s0 | None => z end
             | Some false => []
             | None => if is_empty z then [] else match cs c S_field_separator with Some s0 => s0 | None => z end end] any).
      destruct (cb c B_write_trailing_field_separator) as [[]|]; cbn [is_none is_some negb andb orb obool_is];
        [apply does_emit|apply does_skip|]. destruct (is_empty z); cbn; [apply does_skip|apply does_emit].
    Qed.
    Lemma lua_seps_does n s : sepk (n_kind n) -> Forall okseps (n_seps n) ->
      does (lua_seps c buf W n) s s
        (seps_from c (n_kind n) true (fst s) (top s) (hint_of (n_kind n)) (sep_of (n_kind n)) (trail_of (n_kind n)) (map sepP (n_seps n)))
        (eq (any_line c (n_kind n) true (map si_node (n_seps n)))).
    Proof.
      intros Hk Hl. unfold lua_seps.
      assert (E : sep_need_newlines c n = list_need_newlines c n || sep_need_newlines c n).
      { unfold list_need_newlines. destruct Hk as [E|[E|[E|[E|[E|[E|[E|[]]]]]]]]; now rewrite <- E. }
      rewrite E. eapply does_eq; [apply seps_does with (trail := trail_of (n_kind n)); [intros; apply next_eq|intros; apply first_eq| |exact Hl]| |reflexivity|auto].
      - intros z s0. now apply trailing_does.
      - unfold separator, elem_prefix_hint. destruct Hk as [E'|[E'|[E'|[E'|[E'|[E'|[E'|[]]]]]]]]; rewrite <- E'; reflexivity.
    Qed.

    (** items *)
    Fixpoint item_ok (n : node) (x : item) : Prop :=
      match x with
      | IRaw _ => False
      | IHint i _ | INl _ i _ => gapok buf (nloc n i)
      | IKid i => G (kid n i)
      | IIf _ y => item_ok n y
      | _ => True
      end.
    Fixpoint item_ctx (s : ctx) (x : item) : ctx :=
      match x with IInc o => inc o s | IDec => dec s | IIf b y => if b then item_ctx s y else s | _ => s end.
    Fixpoint item_pieces (n : node) (s : ctx) (x : item) : list piece :=
      match x with
      | ITok t => [PTok t]
      | IHint i h => [PGap (nloc n i) (fst s) h]
      | INl b i h => [gap_or_line b (nloc n i) (fst s) h]
      | IKid i => pieces c (kid n i) (fst s) (top s)
      | IIf b y => if b then item_pieces n s y else []
      | _ => []
      end.
    (** [IDec] only after [IInc] *)
    Definition dec_ok (s : ctx) : Prop := exists o s0, s = inc o s0.
    Fixpoint item_balanced (s : ctx) (x : item) : Prop :=
      match x with IDec => dec_ok s | IIf b y => if b then item_balanced s y else True | _ => True end.
    Lemma dec_inc o s : dec (inc o s) = s.
    Proof.
      destruct s as [d st]. unfold dec, inc. cbn [fst snd]. destruct o as [o|]; [|reflexivity].
      destruct st as [|t r]; [reflexivity|]. destruct (opt_str_eqb t (Some o)); reflexivity.
    Qed.
    Lemma item_does n x s : item_ok n x -> item_balanced s x -> does (run_item c buf W n x) s (item_ctx s x) (item_pieces n s x) any.
    Proof.
      revert s. induction x as [t|i|i h|b i h|i|o| | | |b y IH]; intros s Hx Hb; cbn in Hx; cbn [run_item item_ctx item_pieces].
      - apply does_emit.
      - destruct Hx.
      - now apply does_hint.
      - now apply does_nl.
      - now apply HW.
      - apply does_inc.
      - destruct Hb as (o & s0 & ->). rewrite dec_inc. apply does_dec.
      - apply does_func.
      - apply does_func.
      - cbn [item_balanced] in Hb. destruct b; [now apply IH|now apply does_ret].
    Qed.
    Fixpoint items_ctx (s : ctx) (l : list item) : ctx := match l with [] => s | x :: r => items_ctx (item_ctx s x) r end.
    Fixpoint items_pieces (n : node) (s : ctx) (l : list item) : list piece :=
      match l with [] => [] | x :: r => item_pieces n s x ++ items_pieces n (item_ctx s x) r end.
    Fixpoint items_balanced (s : ctx) (l : list item) : Prop :=
      match l with [] => True | x :: r => item_balanced s x /\ items_balanced (item_ctx s x) r end.
    Lemma items_does n l s : Forall (item_ok n) l -> items_balanced s l -> does (run_items c buf W n l) s (items_ctx s l) (items_pieces n s l) any.
    Proof.
      intros Hl. revert s. induction Hl as [|x l Hx Hl IH]; intros s Hb; cbn [run_items items_ctx items_pieces]; [now apply does_ret|].
      destruct Hb as [B1 B2]. eapply does_bind; [now apply item_does|intros _ _]. now apply IH.
    Qed.

    (** the tests *)
    Lemma test_does n l h s : gapok buf l -> Forall okitem (n_items n) \/ n_kind n <> KVarSuffixList ->
      Forall okseps (n_seps n) \/ (n_kind n <> KExpList /\ n_kind n <> KFields) ->
      does (test_indent c buf W n l h) s s [] (eq (hangs c n)).
    Proof.
      intros Hl Hi Hs. unfold test_indent, hangs. destruct (n_kind n) eqn:Ek; try (now apply does_ret).
      - (* KFields *)
        destruct (n_seps n) as [|y r] eqn:Es; [now apply does_ret|]. rewrite <- Es in *. destruct Hs as [Hs|[_ Hs]]; [|congruence].
        eapply does_copy. eapply does_bind; [now apply does_hint|intros _ _]. rewrite <- Ek. apply lua_seps_does; [rewrite Ek; cbn; tauto|exact Hs].
      - (* KExpList *)
        destruct (n_seps n) as [|y r] eqn:Es; [now apply does_ret|]. rewrite <- Es in *. destruct Hs as [Hs|[Hs _]]; [|congruence].
        assert (A : does (on_copy (H c buf l h ;;; (if on c B_indent_exp_list then if on c B_indent_one_line_exp_list then ret true else lua_seps c buf W n else ret false))) s s []
          (eq (on c B_indent_exp_list && (on c B_indent_one_line_exp_list || any_line c KExpList true (map si_node (n_seps n)))))).
        { destruct (on c B_indent_exp_list); [destruct (on c B_indent_one_line_exp_list)|]; cbn [andb orb].
          - eapply does_copy. eapply does_bind; [now apply does_hint|intros _ _]. now apply does_ret.
          - eapply does_copy. eapply does_bind; [now apply does_hint|intros _ _]. rewrite <- Ek. apply lua_seps_does; [rewrite Ek; cbn; tauto|exact Hs].
          - eapply does_copy. eapply does_bind; [now apply does_hint|intros _ _]. now apply does_ret. }
        rewrite Es in A |- *. destruct r; [|exact A]. destruct (nsome c N_newline_format_exp_list_first) eqn:En; [exact A|]. cbn [negb].
        apply does_ret. cbn. unfold nis, nsome in *. destruct (cn c N_newline_format_exp_list_first); [discriminate|]. now rewrite !orb_false_r.
      - (* KVarSuffixList *)
        destruct (n_items n) as [|y r] eqn:Es; [now apply does_ret|]. rewrite <- Es in *. destruct Hi as [Hi|Hi]; [|congruence].
        destruct (on c B_indent_var_suffix); [destruct (on c B_indent_one_line_var_suffix)|]; cbn [andb orb].
        + eapply does_copy. eapply does_bind; [now apply does_hint|intros _ _]. now apply does_ret.
        + eapply does_copy. eapply does_bind; [now apply does_hint|intros _ _]. rewrite <- Ek. apply lua_list_does; [rewrite Ek; unfold listk; tauto|exact Hi].
        + eapply does_copy. eapply does_bind; [now apply does_hint|intros _ _]. now apply does_ret.
    Qed.

    (** what the slots say about the parts *)
    Lemma layout_nth ks i : nth i (map layout ks) nil_slots = layout (nth i ks dummy_node).
    Proof. change nil_slots with (layout dummy_node). apply map_nth. Qed.
    Lemma gap_cons l r : Forall slotp (SGap l :: r) -> gapok buf l /\ Forall slotp r.
    Proof. intros H. inversion H as [|? ? [A _] B]; subst. split; [now apply slot_gapok|exact B]. Qed.
    Lemma list_G n : listk (n_kind n) -> G n -> Forall okitem (n_items n).
    Proof.
      destruct n as [k sp ls t lv ks is ss o]. unfold G. cbn [n_kind n_items]. intros Hk H.
      assert (A : Forall slotp (listed (map (fun x => (fst x, layout (snd x))) is))) by (destruct Hk as [-> |[-> | ->]]; exact H).
      clear - A. induction is as [|[p x] l IH]; [constructor|]. cbn in A. apply gap_cons in A as [A1 A2]. apply Forall_app in A2 as [A2 A3].
      constructor; [split; [exact A1|exact A2]|now apply IH].
    Qed.
    Lemma commas_G t l : Forall slotp (commas t (map (fun x => (fst (fst (fst x)), layout (snd (fst (fst x))), snd (fst x), snd x)) l)) -> Forall okseps l.
    Proof.
      induction l as [|[[[p x] q] z] l IH]; intros A; [constructor|]. cbn [map commas fst snd] in A. apply gap_cons in A as [A1 A2].
      apply Forall_app in A2 as [A2 A3]. apply gap_cons in A3 as [A3 A4]. constructor; [repeat split; [exact A1|exact A2|exact A3]|].
      destruct l as [|y l]; [constructor|]. cbn [map] in A4. inversion A4; subst. now apply IH.
    Qed.
    Lemma fields_G l : Forall slotp (fields (map (fun x => (fst (fst (fst x)), layout (snd (fst (fst x))), snd (fst x), snd x)) l)) -> Forall okseps l.
    Proof.
      induction l as [|[[[p x] q] z] l IH]; intros A; [constructor|]. cbn [map fields fst snd] in A. apply gap_cons in A as [A1 A2].
      apply Forall_app in A2 as [A2 A3]. apply gap_cons in A3 as [A3 A4]. constructor; [repeat split; [exact A1|exact A2|exact A3]|].
      destruct l as [|y l]; [constructor|]. cbn [map] in A4. inversion A4; subst. now apply IH.
    Qed.
    Lemma seps_G n : sepk (n_kind n) -> G n -> Forall okseps (n_seps n).
    Proof.
      destruct n as [k sp ls t lv ks is ss o]. unfold G. cbn [n_kind n_seps]. intros Hk H.
      destruct Hk as [<-|[<-|[<-|[<-|[<-|[<-|[<-|[]]]]]]]]; cbn [layout] in H; try (now apply commas_G in H); try (now apply fields_G in H).
      apply Forall_app in H as [H _]. now apply commas_G in H.
    Qed.
    Lemma test_G n l h s : gapok buf l -> G n -> does (test_indent c buf W n l h) s s [] (eq (hangs c n)).
    Proof.
      intros Hl Hg. apply test_does; [exact Hl| |].
      - destruct (kind_beq (n_kind n) KVarSuffixList) eqn:E.
        + left. apply list_G; [|exact Hg]. unfold listk. destruct (n_kind n); try discriminate. tauto.
        + right. intros Ek. rewrite Ek in E. discriminate.
      - destruct (n_kind n) eqn:E; try (right; split; congruence); left; (apply seps_G; [rewrite E; cbn; tauto|exact Hg]).
    Qed.

    Ltac parts := repeat match goal with
      | H : Forall slotp (SGap _ :: _) |- _ => apply gap_cons in H as [? H]
      | H : Forall slotp (_ :: _) |- _ => apply Forall_inv_tail in H
      | H : Forall slotp (_ ++ _) |- _ => apply Forall_app in H as [? H]
      | H : Forall slotp [] |- _ => clear H
      end.
    Ltac balanced := cbn; repeat split; try (exists None; eexists (_, _); reflexivity).
    Definition regular (k : kind) : Prop :=
      match k with
      | KFields | KExpList | KNameList | KVarList | KParList | KFuncName | KStatementList | KVarSuffixList | KElseIfThenVec
      | KFuncNameSelf | KBinaryOp | KTableConstructor | KTableConstructorEmpty | KMultiLineStringLiteral | KSheBang => False
      | _ => True
      end.
    Lemma clause_does n s : regular (n_kind n) -> G n ->
      does (run_clause c buf W n (clause_of c n)) s s (pieces c n (fst s) (top s)) any.
    Proof.
      destruct n as [k sp ls t lv ks is ss o], s as [d st]. unfold G. cbn [n_kind fst]. intros R Hg.
      assert (Hc : k = KCharStringLiteral -> on c B_convert_charstring_to_normalstring = false).
      { intros ->. cbn in Hg. apply Forall_inv in Hg as [_ Hg]. cbn in Hg. destruct (on c _); [discriminate|reflexivity]. }
      destruct k; try contradiction; cbn [layout fill template app] in Hg; rewrite ?layout_nth in Hg; parts.
      all: unfold run_clause, clause_of; cbn [n_kind plain tested cl_pre cl_test cl_post].
      all: try (eapply does_eq;
        [eapply does_bind; [apply items_does; [repeat constructor; assumption|balanced]|intros _ _; apply does_val; apply (does_ret tt _ any Logic.I)]
        |cbn; rewrite ?map_pieces, ?app_nil_r; cbn; rewrite <- ?app_assoc; cbn; rewrite ?app_nil_r; reflexivity|reflexivity|auto]).
      all: try (eapply does_eq;
        [eapply does_bind; [apply items_does; [repeat constructor; assumption|balanced]|intros _ _;
           eapply does_bind; [apply test_G; assumption|intros ind <-; apply items_does; [repeat constructor; assumption|]]]
        | | |auto]).
      all: try (cbn -[hangs]; match goal with |- context [hangs c ?x] => destruct (hangs c x) end;
        solve [balanced|reflexivity|
          cbn; rewrite ?map_pieces, ?app_nil_r; cbn; rewrite <- ?app_assoc; cbn; rewrite ?app_nil_r; reflexivity]).
      (* KCharStringLiteral *)
      eapply does_eq; [eapply does_bind; [apply items_does; [repeat constructor; assumption|balanced]|intros _ _; apply does_val; apply (does_ret tt _ any Logic.I)]| |reflexivity|auto].
      cbn. now rewrite (Hc eq_refl).
    Qed.
    Lemma hint_eq : LuaWriter.table_hint c = PrettySpec.table_hint c.
    Proof. unfold LuaWriter.table_hint, PrettySpec.table_hint, sopt_or, text. now destruct (cs c _). Qed.
    Lemma top_inc t s : (match top s with Some o => if str_eqb o t then fst s else S (fst s) | None => S (fst s) end) = fst (inc (Some t) s).
    Proof. destruct s as [d [|[o|] st]]; reflexivity. Qed.
    Lemma binary_does n s : n_kind n = KBinaryOp -> G n -> does (write_binary c buf W n) s s (pieces c n (fst s) (top s)) any.
    Proof.
      destruct n as [k sp ls t lv ks is ss o]. unfold G. cbn [n_kind]. intros -> Hg. cbn [layout app] in Hg. rewrite !layout_nth in Hg. parts.
      unfold write_binary. nf. cbn [n_text].
      set (d' := fst (inc (Some t) s)). eapply does_eq.
      - eapply does_bind; [apply items_does; [repeat constructor; assumption|cbn; tauto]|intros _ _]. apply does_val.
        apply items_does; [repeat constructor; assumption|]. cbn [items_ctx item_ctx items_balanced item_balanced]. repeat split. unfold dec_ok. eauto.
      - cbn [pieces]. rewrite top_inc. cbn [items_pieces item_pieces items_ctx item_ctx kid nloc n_kids n_locs app negb andb]. rewrite !map_pieces, !andb_true_r.
        unfold kid, nloc. cbn [n_kids n_locs]. rewrite !app_nil_r. cbn [app]. reflexivity.
      - cbn [items_ctx item_ctx]. apply dec_inc.
      - auto.
    Qed.
    Lemma zero_gap : gapok buf (0, 0).
    Proof. exists []. repeat split; cbn; try lia. left. constructor. Qed.
    Lemma full_eq f : (match cn c N_max_width with Some mw => N.leb mw (N.of_nat (get_len_after_newline f)) | None => false end) = full c f.
    Proof. unfold full. now rewrite line_length_eq. Qed.
    Lemma table_does n s : n_kind n = KTableConstructor -> G n -> does (write_table c buf W n) s s (pieces c n (fst s) (top s)) any.
    Proof.
      destruct n as [k sp ls t lv ks is ss o]. unfold G. cbn [n_kind]. intros -> Hg. cbn [layout fill template app] in Hg. rewrite !layout_nth in Hg. parts.
      unfold write_table, oneline_table_cfg. rewrite !(forced B_force_single_line_table) by (cbn; tauto). rewrite ?andb_false_r, ?andb_false_l. cbn [oneline_or]. rewrite !hint_eq.
      set (n := Nd KTableConstructor sp ls t lv ks is ss o) in *.
      assert (A : does (one <- get_oneline n ;; if_newline c (on c B_write_newline_at_multiline_table && negb one) (LuaWriter.H c buf (0, 0)) (table_hint c)) s s
        [gap_or_line (on c B_write_newline_at_multiline_table) (0, 0) (fst s) (table_hint c)] any).
      { intros w I. unfold bind, get_oneline. rewrite (proj2 (proj2 (proj2 I))). cbn [existsb negb]. rewrite andb_true_r. now apply does_nl; [apply zero_gap|]. }
      assert (B : does (f <- get_f ;;
         let wide := match cn c N_max_width with Some mw => N.leb mw (N.of_nat (get_len_after_newline f)) | None => false end in
         let nl := (nis c N_newline_format_table_constructor 1 || wide) && true in
         run_items c buf W n [IIf true IDec; IDecF; INl nl 1 (table_hint c); ITok (s2l "}")]) (inc None s) s
        [if nis c N_newline_format_table_constructor 1 then PLine (nloc n 1) (fst s) else PFull (nloc n 1) (fst s) (table_hint c); PTok (s2l "}")] any).
      { intros w I. unfold bind at 1, get_f at 1. cbv zeta. rewrite full_eq, andb_true_r. set (b := _ || _).
        assert (E : does (run_items c buf W n [IIf true IDec; IDecF; INl b 1 (table_hint c); ITok (s2l "}")]) (inc None s) s
           [gap_or_line b (nloc n 1) (fst s) (table_hint c); PTok (s2l "}")] any).
        { eapply does_eq; [apply items_does; [repeat constructor; assumption|]| | |auto].
          - cbn. repeat split. unfold dec_ok. eauto.
          - destruct s; reflexivity.
          - destruct s; reflexivity. }
        specialize (E w I). destruct (run_items c buf W n _ w) as [[]]; auto. destruct E as (E1 & _ & E2). split; [exact E1|]. split; [exact Logic.I|].
        unfold b in E2. destruct (nis c N_newline_format_table_constructor 1); [exact E2|]. cbn [orb] in E2.
        destruct (full c (w_f w)) eqn:Ef; cbn [gap_or_line] in E2; inversion E2; subst; eapply pr_full; try eassumption; unfold put_full; now rewrite Ef. }
      assert (C : does (if is_kind KFields (kid n 0) then set_indent_cell (kid n 0) true else ret tt) (fst s, snd s) (fst s, snd s) [] any).
      { destruct (is_kind KFields (kid n 0)); [|now apply does_ret]. intros w I. cbn. split; [exact I|]. split; [exact Logic.I|apply pr_nil]. }
      rewrite <- surjective_pairing in C.
      assert (D : does (if_newline c (on c B_write_newline_at_multiline_table && negb false) (LuaWriter.H c buf (0, 0)) (table_hint c)) s s
        [gap_or_line (on c B_write_newline_at_multiline_table) (0, 0) (fst s) (table_hint c)] any).
      { cbn [negb]. rewrite andb_true_r. apply does_nl, zero_gap. }
      assert (E : forall (one : bool) (K : M unit) ps, does K s s ps any ->
        does (one <- get_oneline n ;; (if_newline c (on c B_write_newline_at_multiline_table && negb one) (LuaWriter.H c buf (0, 0)) (table_hint c) ;;; K)) s s
          (gap_or_line (on c B_write_newline_at_multiline_table) (0, 0) (fst s) (table_hint c) :: ps) any).
      { intros one K ps HK w I. pose proof (does_bind _ (fun _ => K) _ _ _ _ _ _ _ D (fun _ _ => HK) w I) as R.
        unfold bind at 1, get_oneline. rewrite (proj2 (proj2 (proj2 I))). exact R. }
      eapply does_eq; [apply (E true)| |reflexivity|auto].
      - eapply does_bind; [apply items_does; [repeat constructor|cbn; tauto]|intros _ _]. apply does_val.
        eapply does_bind; [exact C|intros _ _].
        eapply does_bind; [apply items_does; [repeat constructor; assumption|cbn; tauto]|intros _ _]. exact B.
      - cbn. rewrite ?map_pieces, ?app_nil_r. unfold nloc, kid. cbn [n n_locs n_kids]. destruct s as [d st]. cbn. rewrite <- ?app_assoc. reflexivity.
    Qed.
    Lemma empty_does n s : n_kind n = KTableConstructorEmpty -> G n -> does (write_empty_table c buf W n) s s (pieces c n (fst s) (top s)) any.
    Proof.
      destruct n as [k sp ls t lv ks is ss o]. unfold G. cbn [n_kind]. intros -> Hg. cbn [layout fill template app] in Hg. parts.
      set (n := Nd KTableConstructorEmpty sp ls t lv ks is ss o) in *. unfold write_empty_table. rewrite hint_eq. match goal with H : gapok buf _ |- _ => rename H into Hl end.
      assert (Hl' := Hl). destruct Hl' as (g & Hg'). intros w I. unfold bind at 1.
      pose proof (hint_block (nth 0 ls dummy_loc) (table_hint c) s w g Hg' I) as A. change (nloc n 0) with (nth 0 ls dummy_loc).
      destruct (in_buffer [] _ w) as [[b| | |] w1]; auto. destruct A as (Eb & I1 & Ef).
      cbn [run_items run_item]. unfold bind at 1, emit at 1. set (w2 := set_f _ w1). assert (I2 : CX s w2) by exact I1.
      pose proof (nl_at (has_newlines b) (nth 0 ls dummy_loc) (table_hint c) g s w2 Hg' I2) as A. change (nloc n 0) with (nth 0 ls dummy_loc).
      unfold bind at 1. destruct (if_newline _ _ _ _ w2) as [[u| | |] w3]; auto. destruct A as (I3 & E3). cbn.
      split; [exact I3|]. split; [exact Logic.I|]. apply pr_tok. eapply pr_empty; [exact Hg'|]. apply pr_tok. rewrite E3. unfold put_empty. cbn [w2 set_f w_f].
      rewrite Ef, <- Eb, <- has_newlines_eq. destruct (has_newlines b); apply pr_nil.
    Qed.
    Lemma body_does n s : G n -> does (write_body c buf W n) s s (pieces c n (fst s) (top s)) any.
    Proof.
      intros Hg. unfold write_body.
      assert (Hr : forall m ps, does m s s ps any -> does (range_or c buf W n m) s s ps any).
      { intros m ps Hm. unfold range_or. apply does_get. intros st ->. cbn [test_out_of_range test_not_completely_contained].
        destruct (raw_items n); exact Hm. }
      assert (Ho : forall st, match oneline_if_cfg c n with Some c' => Some c' | None => oneline_function_cfg c st n end = None).
      { intros st. unfold oneline_if_cfg, oneline_function_cfg. nf. reflexivity. }
      assert (HL : listk (n_kind n) -> does (lua_list c buf W n ;;; ret tt) s s (pieces c n (fst s) (top s)) any).
      { intros Hk. eapply does_eq; [eapply does_bind; [apply lua_list_does; [exact Hk|now apply list_G]|intros; apply (does_ret tt _ any Logic.I)]| |reflexivity|auto].
        rewrite app_nil_r. destruct n as [k sp ls t lv ks is ss o]. cbn [n_kind n_items] in *. destruct Hk as [-> |[-> | ->]]; reflexivity. }
      assert (HS : sepk (n_kind n) -> n_kind n <> KFuncNameSelf -> does (lua_seps c buf W n ;;; ret tt) s s (pieces c n (fst s) (top s)) any).
      { intros Hk Hk'. eapply does_eq; [eapply does_bind; [apply lua_seps_does; [exact Hk|now apply seps_G]|intros; apply (does_ret tt _ any Logic.I)]| |reflexivity|auto].
        rewrite app_nil_r. destruct n as [k sp ls t lv ks is ss o]. cbn [n_kind n_seps] in *.
        destruct Hk as [<-|[<-|[<-|[<-|[<-|[<-|[<-|[]]]]]]]]; try reflexivity. congruence. }
      assert (HC : regular (n_kind n) -> does (run_clause c buf W n (clause_of c n)) s s (pieces c n (fst s) (top s)) any) by (intros; now apply clause_does).
      destruct (n_kind n) eqn:Ek;
        try (apply HC; exact Logic.I);
        try (apply Hr, HL; unfold listk; tauto); try (apply Hr, HS; [cbn; tauto|discriminate]);
        try (apply Hr, does_get; intros st _; rewrite Ho; cbn [oneline_or]; apply HC; exact Logic.I).
      - (* KBinaryOp *) apply Hr. now apply binary_does.
      - (* KMultiLineStringLiteral *) destruct n as [k sp ls t lv ks is ss o]. cbn [n_kind] in Ek. subst k. cbn [pieces n_level n_text].
        replace (long lv t) with (open_long lv ++ t ++ close_long lv); [apply does_emit|].
        unfold long, open_long, close_long, opening, closing. now rewrite !repeat_eqs.
      - (* KTableConstructor *) apply Hr. now apply table_does.
      - (* KTableConstructorEmpty *) apply Hr. now apply empty_does.
      - (* KFuncNameSelf *) apply Hr. destruct n as [k sp ls t lv ks is ss o]. cbn [n_kind] in Ek. subst k. assert (Hg' := Hg). unfold G in Hg'.
        cbn [layout] in Hg'. rewrite layout_nth in Hg'. apply Forall_app in Hg' as [_ Hg']. cbn [app] in Hg'. parts.
        eapply does_eq; [eapply does_bind; [apply lua_seps_does; [cbn; tauto|now apply seps_G; [cbn; tauto|]]|intros; apply items_does; [repeat constructor; assumption|cbn; tauto]]| |reflexivity|auto].
        cbn. rewrite map_pieces, app_nil_r. reflexivity.
      - (* KSheBang *) destruct n as [k sp ls t lv ks is ss o]. cbn [n_kind] in Ek. subst k. apply does_emit.
    Qed.
  End Nodes.

  Theorem write_follows fuel n : G n -> follows (write fuel buf) n.
  Proof.
    revert n. induction fuel as [|k IH]; intros n Hg s.
    - intros w I. exact Logic.I.
    - change (write (S k) buf c n) with (write_body c buf (write k buf) n). now apply body_does.
  Qed.
End Body.

(** ** the pass before writing *)
Section Alike.
  Variable c : config.
  Record alike (a b : node) : Prop := mk_alike {
    al_pieces : forall d op, pieces c a d op = pieces c b d op;
    al_starts : forall k f, starts_line c k f a = starts_line c k f b;
    al_hint : item_hint a = item_hint b;
    al_hangs : hangs c a = hangs c b }.
  Lemma alike_refl a : alike a a. Proof. now constructor. Qed.
  Lemma alike_trans a b d : alike a b -> alike b d -> alike a d.
  Proof. intros [A1 A2 A3 A4] [B1 B2 B3 B4]. constructor; intros; [now rewrite A1|now rewrite A2|now rewrite A3|now rewrite A4]. Qed.
  Definition alike_i (a b : loc * node) : Prop := fst a = fst b /\ alike (snd a) (snd b).
  Definition alike_s (a b : sitem) : Prop :=
    fst (fst (fst a)) = fst (fst (fst b)) /\ alike (snd (fst (fst a))) (snd (fst (fst b))) /\ snd (fst a) = snd (fst b) /\ snd a = snd b.
  Lemma nth_alike ks ks' : Forall2 alike ks ks' -> forall j, alike (nth j ks dummy_node) (nth j ks' dummy_node).
  Proof. induction 1; intros [|j]; cbn; auto using alike_refl. Qed.
  Lemma weave_ext K K' h h' ls d op : (forall j d op, nth j K no_printer d op = nth j K' no_printer d op) -> (forall j, h j = h' j) ->
    forall ps gl i j at_, weave K h ls d op i j at_ gl ps = weave K' h' ls d op i j at_ gl ps.
  Proof.
    intros HK Hh. induction ps as [|p ps IH]; intros gl i j at_; cbn [weave]; [reflexivity|].
    destruct p as [t|]; rewrite ?HK; f_equal; destruct ps as [|q ps]; try reflexivity; destruct (hd tight gl) as [[w b] x];
      (destruct w as [| |y]; [| |rewrite Hh]); f_equal; apply IH.
  Qed.
  Lemma items_ext k is is' : Forall2 alike_i is is' -> forall f d op,
    items_from c k f d op (map (fun x => (x, pieces c (snd x))) is) = items_from c k f d op (map (fun x => (x, pieces c (snd x))) is').
  Proof.
    induction 1 as [|[p x] [p' x'] l l' [E A] F IH]; intros f d op; [reflexivity|]. cbn in E. subst p'. cbn [map items_from snd fst] in *.
    now rewrite (al_pieces _ _ A), (al_starts _ _ A), (al_hint _ _ A), IH.
  Qed.
  Lemma seps_ext k h sep trail ss ss' : Forall2 alike_s ss ss' -> forall f d op,
    seps_from c k f d op h sep trail (map (fun x => (x, pieces c (snd (fst (fst x))))) ss) =
    seps_from c k f d op h sep trail (map (fun x => (x, pieces c (snd (fst (fst x))))) ss').
  Proof.
    induction 1 as [|[[[p x] q] z] [[[p' x'] q'] z'] l l' (E1 & A & E2 & E3) F IH]; intros f d op; [reflexivity|]. cbn in E1, E2, E3. subst p' q' z'.
    cbn [map seps_from snd fst] in *. rewrite (al_pieces _ _ A), (al_starts _ _ A), IH. destruct F; reflexivity.
  Qed.
  Lemma any_ext k l l' : Forall2 alike l l' -> forall f, any_line c k f l = any_line c k f l'.
  Proof. induction 1 as [|x x' l l' A F IH]; intros f; cbn; [reflexivity|]. now rewrite (al_starts _ _ A), IH. Qed.
  Lemma alike_node k sp ls t lv ks is ss o sp' ks' is' ss' o' :
    Forall2 alike ks ks' -> Forall2 alike_i is is' -> Forall2 alike_s ss ss' ->
    alike (Nd k sp ls t lv ks is ss o) (Nd k sp' ls t lv ks' is' ss' o').
  Proof.
    intros Fk Fi Fs.
    assert (K : forall j d op, nth j (map (pieces c) ks) no_printer d op = nth j (map (pieces c) ks') no_printer d op).
    { intros. rewrite !map_pieces. apply al_pieces, nth_alike, Fk. }
    assert (Hh : forall j, hangs c (nth j ks dummy_node) = hangs c (nth j ks' dummy_node)) by (intros; apply al_hangs, nth_alike, Fk).
    assert (Fi' : Forall2 alike (map snd is) (map snd is')) by (clear - Fi; induction Fi as [|x y l l' [_ A]]; cbn; constructor; auto).
    assert (Fs' : Forall2 alike (map si_node ss) (map si_node ss')).
    { clear - Fs; induction Fs as [|x y l l' (_ & A & _)]; cbn; constructor; auto. }
    constructor.
    - intros d op. destruct k; cbn [pieces]; try (apply weave_ext; [exact K|exact Hh]); try (now rewrite !K); try (now apply items_ext); try (now apply seps_ext).
      all: try reflexivity.
      rewrite K. f_equal. now apply seps_ext.
    - reflexivity.
    - reflexivity.
    - unfold hangs. cbn [n_kind n_items n_seps]. destruct k; try reflexivity.
      + now rewrite (any_ext KFields _ _ Fs').
      + destruct ss as [|x ss], ss' as [|x' ss']; try (now inversion Fs). now rewrite (any_ext KExpList _ _ Fs').
      + destruct is as [|x is], is' as [|x' is']; try (now inversion Fi). now rewrite (any_ext KVarSuffixList _ _ Fi').
  Qed.
  Lemma requote_eq t : charstring_to_normalstring t = requote t.
  Proof.
    unfold charstring_to_normalstring. induction t as [t IH] using (well_founded_induction (well_founded_ltof _ (@List.length char))).
    destruct t as [|x r]; [reflexivity|]. cbn [charstring_loop requote negb]. unfold ceq, ch_quot, ch_bsl. rewrite andb_true_r. cbn [andb].
    destruct (N.eqb_spec x 92) as [->|Hx].
    - cbn. destruct r as [|y r]; [reflexivity|]. cbn [charstring_loop negb andb]. rewrite andb_false_r. cbn [app]. f_equal. f_equal.
      apply IH. unfold ltof. cbn. lia.
    - rewrite IH by (unfold ltof; cbn; lia). destruct (N.eqb x 34); reflexivity.
  Qed.
  Lemma single_alike v n : alike (set_single v n) n.
  Proof. destruct n as [k sp ls t lv ks is ss o]. destruct k; try apply alike_refl. now constructor. Qed.
  Definition rlike (n : node) : Prop := forall sc s, alike (fst (recon c sc n s)) n.
  Lemma rkids_like l : Forall rlike l -> forall sc s, Forall2 alike (fst (rkids c sc l s)) l.
  Proof.
    induction 1 as [|x l Hx Hl IH]; intros sc s; [constructor|]. cbn [rkids]. specialize (Hx sc s). destruct (recon c sc x s) as [x' s1].
    specialize (IH sc s1). destruct (rkids c sc l s1). cbn in *. now constructor.
  Qed.
  Lemma ritems_like l : Forall (fun x => rlike (snd x)) l -> forall s, Forall2 alike_i (fst (ritems c l s)) l.
  Proof.
    induction 1 as [|[p x] l Hx Hl IH]; intros s; [constructor|]. cbn [ritems]. cbn in Hx. specialize (Hx None s). destruct (recon c None x s) as [x' s1].
    specialize (IH s1). destruct (ritems c l s1). cbn in *. constructor; [split; auto|exact IH].
  Qed.
  Lemma rseps_like l : Forall (fun x => rlike (snd (fst (fst x)))) l -> forall sc s, Forall2 alike_s (fst (rseps c sc l s)) l.
  Proof.
    induction 1 as [|[[[p x] q] z] l Hx Hl IH]; intros sc s; [constructor|]. cbn [rseps]. cbn in Hx. specialize (Hx sc s). destruct (recon c sc x s) as [x' s1].
    specialize (IH sc s1). destruct (rseps c sc l s1). cbn [fst] in *. constructor; [unfold alike_s; cbn; auto|exact IH].
  Qed.
  Lemma Forall2_same {A} (R : A -> A -> Prop) l : (forall x, R x x) -> Forall2 R l l.
  Proof. intros H. induction l; constructor; auto. Qed.
  Lemma alike_is l : Forall2 alike_i l l. Proof. apply Forall2_same. intros x. split; [reflexivity|apply alike_refl]. Qed.
  Lemma alike_ss l : Forall2 alike_s l l. Proof. apply Forall2_same. intros x. repeat split; auto. Qed.
  Lemma alike_ks l : Forall2 alike l l. Proof. apply Forall2_same, alike_refl. Qed.
  Lemma recon_like n : rlike n.
  Proof.
    induction n as [k sp ls t lv ks is ss o Hk Hi Hs] using node_rect'. intros sc s.
    assert (A : alike (fst (let '(ks', s1) := rkids c (match k with KFieldSequential => sc | _ => None end) ks (update_pos_range sp s) in
        let '(is', s2) := ritems c is s1 in
        let '(ss', s3) := rseps c None ss s2 in
        (Nd k sp ls t lv ks' is' ss' o, s3))) (Nd k sp ls t lv ks is ss o)).
    { pose proof (rkids_like _ Hk (match k with KFieldSequential => sc | _ => None end) (update_pos_range sp s)) as A1. destruct (rkids _ _ _ _) as [ks' s1].
      pose proof (ritems_like _ Hi s1) as A2. destruct (ritems _ _ _) as [is' s2].
      pose proof (rseps_like _ Hs None s2) as A3. destruct (rseps _ _ _ _) as [ss' s3]. now apply alike_node. }
    rewrite recon_eq. destruct k; try exact A; clear A.
    - destruct (on c B_convert_charstring_to_normalstring) eqn:E; [|apply alike_refl]. constructor; try reflexivity.
      intros d op. cbn [fst pieces]. now rewrite E, requote_eq.
    - pose proof (rkids_like _ Hk None (update_pos_range sp s)) as A. destruct (rkids _ _ _ _) as [ks' s1]. cbn [fst] in *.
      apply alike_node; [|apply alike_is|apply alike_ss]. clear - A. induction A as [|x y l l' Hx F IH]; constructor; [|exact IH].
      eapply alike_trans; [apply single_alike|exact Hx].
    - pose proof (rseps_like _ Hs (Some (List.length ss =? 1)) s) as A. destruct (rseps _ _ _ _). cbn [fst] in *. apply alike_node; [apply alike_ks|apply alike_is|exact A].
    - pose proof (rseps_like _ Hs None (update_pos_range sp s)) as A. destruct (rseps _ _ _ _) as [ss' s1].
      pose proof (rkids_like _ Hk None s1) as B. destruct (rkids _ _ _ _). cbn [fst] in *. apply alike_node; [exact B|apply alike_is|exact A].
    - pose proof (ritems_like _ Hi ((fst s + 1)%Z, snd s)) as A. destruct (ritems _ _ _). cbn [fst] in *. apply alike_node; [apply alike_ks|exact A|apply alike_ss].
  Qed.
End Alike.

Theorem format_prints src c n o : no_forcing c -> line_range c = None -> parse_lua src = Parsed n -> process_buffer src c = Formatted o ->
  prints c src [] (pieces c n 0 None) o.
Proof.
  intros NF Hl P E. unfold process_buffer in E. rewrite P, Hl in E. cbn [line_range_to_pos_range] in E. unfold reconstruct in E.
  pose proof (recon_layout c n None (0%Z, None)) as El. pose proof (recon_pos c n None (0%Z, None) eq_refl) as Ep.
  pose proof (recon_like c n None (0%Z, None)) as Ea.
  destruct (recon c None n (0%Z, None)) as [n' [z pr]]. cbn [fst snd] in *. subst pr.
  assert (Hg : G c src n').
  { unfold G. rewrite El. pose proof (proj2 (tree_reads src n P)) as F. clear - F. induction F as [|s ss Hs F IH]; cbn; constructor; [|exact IH].
    split; [apply (Forall_inv (conv_ok c src [s] (Forall_cons _ Hs (Forall_nil _))))|].
    destruct s as [t| | | |]; try reflexivity. destruct t; try reflexivity. cbn. destruct (on c _) eqn:Ec; cbn; rewrite ?Ec; reflexivity. }
  pose proof (write_follows c src NF (write_fuel n') n' Hg (0, [])) as A. specialize (A (mk_world [] (start_state src None) [] [])).
  destruct (write _ _ _ _ _) as [[]]; try discriminate. injection E as <-. cbn [fst top snd w_f] in A. rewrite <- (al_pieces _ _ _ Ea).
  apply A. repeat split.
Qed.
Theorem format_layout src c n o : no_forcing c -> line_range c = None -> parse_lua src = Parsed n -> process_buffer src c = Formatted o ->
  prints c src [] (pieces c n 0 None) o /\ forall o', prints c src [] (pieces c n 0 None) o' -> o' = o.
Proof.
  intros NF Hl P E. pose proof (format_prints src c n o NF Hl P E) as A. split; [exact A|]. intros o' A'. symmetry. exact (prints_unique _ _ _ _ _ A _ A').
Qed.
