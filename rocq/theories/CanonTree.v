(** The tree of a program depends on its tokens only, up to positions: it is the tree of the tokens at symbolic
    positions, relabelled. *)
From Coq Require Import Lia.
From Verif Require Import Base LuaLexer Ast LexSpec LayoutSpec RenderProofs LayoutProofs SafeSpec LR LRSpec LuaGrammar.

(** ** relabelling *)
Section Relabel.
  Variable f : nat -> nat.
  Definition rl (p : loc) : loc := (f (fst p), f (snd p)).
  Fixpoint relabel (n : node) : node :=
    let '(Nd k sp ls t lv ks is ss o) := n in
    Nd k (rl sp) (map rl ls) t lv (map relabel ks) (map (fun x => (rl (fst x), relabel (snd x))) is)
       (map (fun x => match x with (p, y, q, z) => (rl p, relabel y, rl q, z) end) ss) o.
  Definition rval (v : val) : val :=
    match v with
    | VNode n => VNode (relabel n)
    | VItems l => VItems (map (fun x => (rl (fst x), relabel (snd x))) l)
    | VSeps l => VSeps (map (fun x => match x with (p, y, q, z) => (rl p, relabel y, rl q, z) end) l)
    | v => v
    end.
  Definition rarg (x : located val) : located val := match x with (l, v, r) => (f l, rval v, f r) end.
  Definition rtok (x : ptok) : ptok := match x with (l, t, r) => (f l, t, f r) end.
  Hypothesis f0 : f 0 = 0.

  Lemma r_start a : a_start (map rarg a) = f (a_start a). Proof. destruct a as [|[[l v] r] a]; cbn; auto. Qed.
  Lemma r_end a : a_end (map rarg a) = f (a_end a).
  Proof. induction a as [|[[l v] r] a IH]; cbn; auto. destruct a as [|[[l1 v1] r1] a]; cbn in *; auto. Qed.
  Lemma r_span a : span (map rarg a) = rl (span a). Proof. unfold span. now rewrite r_start, r_end. Qed.
  Lemma r_gaps a : gaps (map rarg a) = map rl (gaps a).
  Proof. induction a as [|[[l v] r] a IH]; [reflexivity|]. destruct a as [|[[l1 v1] r1] a]; [reflexivity|]. cbn in *. now rewrite IH. Qed.
  Lemma r_dummy : rl dummy_loc = dummy_loc. Proof. unfold rl. cbn. now rewrite f0. Qed.
  Lemma r_dummy_node : relabel dummy_node = dummy_node. Proof. cbn. unfold rl. cbn. now rewrite f0. Qed.
  Lemma r_gap i a : gap i (map rarg a) = rl (gap i a).
  Proof. unfold gap. rewrite r_gaps. rewrite <- r_dummy at 1. apply map_nth. Qed.
  Lemma r_val i a : arg_val i (map rarg a) = rval (arg_val i a).
  Proof.
    unfold arg_val. rewrite <- (map_nth rval), !map_map. f_equal. apply map_ext. now intros [[l v] r].
  Qed.
  Lemma r_node i a : arg_node i (map rarg a) = relabel (arg_node i a).
  Proof. unfold arg_node. rewrite r_val. destruct (arg_val i a); cbn [rval]; try reflexivity; now rewrite r_dummy_node. Qed.
  Lemma r_items i a : arg_items i (map rarg a) = map (fun x => (rl (fst x), relabel (snd x))) (arg_items i a).
  Proof. unfold arg_items. rewrite r_val. now destruct (arg_val i a). Qed.
  Lemma r_seps i a : arg_seps i (map rarg a) = map (fun x => match x with (p, y, q, z) => (rl p, relabel y, rl q, z) end) (arg_seps i a).
  Proof. unfold arg_seps. rewrite r_val. now destruct (arg_val i a). Qed.
  Lemma r_lstart a : lstart (map rarg a) = rl (lstart a). Proof. unfold lstart, rl. cbn. now rewrite r_start. Qed.
  Lemma r_lend a : lend (map rarg a) = rl (lend a). Proof. unfold lend, rl. cbn. now rewrite r_end. Qed.
  Lemma r_sepstr v : sep_string (rval v) = sep_string v. Proof. destruct v as [[]| | | |]; reflexivity. Qed.
  Lemma r_set_first l v : set_first (rl l) (map (fun x => (rl (fst x), relabel (snd x))) v)
    = map (fun x => (rl (fst x), relabel (snd x))) (set_first l v).
  Proof. now destruct v as [|[p y] v]. Qed.
  Lemma r_sset_first l v : sset_first (rl l) (map (fun x : sitem => match x with (p, y, q, z) => (rl p, relabel y, rl q, z) end) v)
    = map (fun x : sitem => match x with (p, y, q, z) => (rl p, relabel y, rl q, z) end) (sset_first l v).
  Proof. now destruct v as [|[[[p y] q] z] v]. Qed.
  Lemma r_flat a : flat_map (fun x : located val => val_nodes (snd (fst x))) (map rarg a)
    = map relabel (flat_map (fun x : located val => val_nodes (snd (fst x))) a).
  Proof. induction a as [|[[l v] r] a IH]; [reflexivity|]. cbn [map flat_map]. rewrite IH, map_app. f_equal. now destruct v. Qed.

  Definition natural (act : args -> val) : Prop := forall a, act (map rarg a) = rval (act a).
  Lemma n_mkn k : natural (mkn k).
  Proof. intros a. unfold mkn, nd. rewrite r_span, r_gaps, r_flat. reflexivity. Qed.
  Lemma n_pass : natural pass. Proof. intros a. apply r_val. Qed.
  Lemma n_mkbin op : natural (mkbin op).
  Proof. intros a. unfold mkbin. rewrite r_span, r_gaps, !r_node. reflexivity. Qed.
  Lemma n_mkun op : natural (mkun op).
  Proof. intros a. unfold mkun. rewrite r_span, r_gaps, !r_node. reflexivity. Qed.
  Lemma n_mkleaf k : natural (mkleaf k).
  Proof. intros a. unfold mkleaf. rewrite r_val, r_span. destruct (arg_val 0 a) as [[]| | | |]; reflexivity. Qed.
  Lemma n_list1 k : natural (act_list1 k).
  Proof. intros a. unfold act_list1, nlist. rewrite r_span, r_lstart, r_node. reflexivity. Qed.
  Lemma n_list_cons k : natural (act_list_cons k).
  Proof. intros a. unfold act_list_cons, nlist. rewrite r_span, r_lstart, r_node, r_gap, r_items, r_set_first. reflexivity. Qed.
  Lemma n_list k : natural (act_list k).
  Proof. intros a. unfold act_list, nlist. rewrite r_span, r_items. reflexivity. Qed.
  Lemma n_list2 k : natural (act_list2 k).
  Proof. intros a. unfold act_list2, nlist. rewrite r_span, r_lstart, !r_node, r_gap. reflexivity. Qed.
  Lemma n_seps k : natural (act_seps k).
  Proof. intros a. unfold act_seps, nseps. rewrite r_span, r_seps. reflexivity. Qed.
  Lemma n_funcnameself : natural act_funcnameself.
  Proof. intros a. unfold act_funcnameself. rewrite r_span, r_gaps, r_node, r_seps. reflexivity. Qed.
  Lemma n_varlist1 : natural act_varlist1.
  Proof. intros a. unfold act_varlist1, nseps. rewrite r_span, r_lstart, r_node, r_lend. reflexivity. Qed.
  Lemma n_varlist_cons : natural act_varlist_cons.
  Proof. intros a. unfold act_varlist_cons, nseps. rewrite r_span, r_lstart, r_node, !r_gap, r_seps, r_sset_first. reflexivity. Qed.
  Lemma n_tlist1 : natural act_tlist1.
  Proof. intros a. unfold act_tlist1. rewrite r_lstart, r_node. reflexivity. Qed.
  Lemma n_tlist_snoc : natural act_tlist_snoc.
  Proof. intros a. unfold act_tlist_snoc. rewrite r_items, r_node, r_gap. cbn [rval]. now rewrite map_app. Qed.
  Lemma n_sep1 : natural act_sep1.
  Proof. intros a. unfold act_sep1. rewrite r_lstart, r_node, r_lend. reflexivity. Qed.
  Lemma n_sep_cons : natural act_sep_cons.
  Proof. intros a. unfold act_sep_cons. rewrite r_lstart, r_node, !r_gap, r_val, r_sepstr, r_seps, r_sset_first. reflexivity. Qed.
  Lemma n_sepend1 : natural act_sepend1.
  Proof. intros a. unfold act_sepend1. rewrite r_lstart, r_node, !r_gap, r_val, r_sepstr. reflexivity. Qed.
  Lemma n_chunk_empty : natural act_chunk_empty.
  Proof. intros a. unfold act_chunk_empty, nlist, nd. rewrite r_start. cbn [rval relabel map]. unfold rl. cbn [fst snd]. now rewrite f0. Qed.
  Lemma n_chunk : natural act_chunk.
  Proof. intros a. unfold act_chunk, nd. rewrite r_start, r_gap, r_node. cbn [rval relabel map]. unfold rl. cbn [fst snd]. now rewrite f0. Qed.
  Lemma n_shebang_chunk : natural act_shebang_chunk.
  Proof. intros a. unfold act_shebang_chunk, nd. rewrite r_start, !r_gap, !r_node. cbn [rval relabel map]. unfold rl. cbn [fst snd]. now rewrite f0. Qed.

  Lemma prods_natural : Forall (fun p => natural (p_act p)) lua_prods.
  Proof.
    unfold lua_prods. repeat apply Forall_cons; try apply Forall_nil; cbn [p_act];
      first [apply n_mkn|apply n_pass|apply n_mkbin|apply n_mkun|apply n_mkleaf|apply n_list1|apply n_list_cons|apply n_list|apply n_list2|apply n_seps
            |apply n_funcnameself|apply n_varlist1|apply n_varlist_cons|apply n_tlist1|apply n_tlist_snoc|apply n_sep1|apply n_sep_cons|apply n_sepend1
            |apply n_chunk_empty|apply n_chunk|apply n_shebang_chunk].
  Qed.

  Lemma derives_relabel : (forall x w v, derives lua_grammar x w v -> derives lua_grammar x (map rtok w) (rarg v)) /\
    (forall xs w vs, derives_list lua_grammar xs w vs -> derives_list lua_grammar xs (map rtok w) (map rarg vs)).
  Proof.
    apply (derives_both _ _ lua_grammar (fun x w v _ => derives lua_grammar x (map rtok w) (rarg v))
             (fun xs w vs _ => derives_list lua_grammar xs (map rtok w) (map rarg vs))).
    - intros l t r. exact (d_tok lua_grammar (f l) t (f r)).
    - intros p w a Hp _ IH. pose proof (proj1 (Forall_forall _ _) prods_natural p Hp a) as E. cbn beta in E.
      cbn [rarg]. rewrite <- E, <- r_start, <- r_end. exact (d_prod lua_grammar _ _ _ Hp IH).
    - constructor.
    - intros x xs w1 w2 v vs _ IH1 _ IH2. rewrite map_app. cbn [map]. now constructor.
  Qed.
End Relabel.

(** ** a derivation depends on the tokens only *)
Lemma derives_tokens : (forall x w v, derives lua_grammar x w v -> forall w', tokens_of w' = tokens_of w -> exists v', derives lua_grammar x w' v') /\
  (forall xs w vs, derives_list lua_grammar xs w vs -> forall w', tokens_of w' = tokens_of w -> exists vs', derives_list lua_grammar xs w' vs').
Proof.
  apply (derives_both _ _ lua_grammar (fun x w v _ => forall w', tokens_of w' = tokens_of w -> exists v', derives lua_grammar x w' v')
           (fun xs w vs _ => forall w', tokens_of w' = tokens_of w -> exists vs', derives_list lua_grammar xs w' vs')).
  - intros l t r w' E. destruct w' as [|[[l' t'] r'] [|]]; try discriminate. injection E as ->. eexists. exact (d_tok lua_grammar l' t r').
  - intros p w a Hp _ IH w' E. destruct (IH w' E) as (a' & D). eexists. exact (d_prod lua_grammar _ _ _ Hp D).
  - intros w' E. destruct w'; [|discriminate]. eexists. constructor.
  - intros x xs w1 w2 v vs _ IH1 _ IH2 w' E. unfold tokens_of in E. rewrite map_app in E. apply map_eq_app in E. destruct E as (a & b & -> & A & B).
    destruct (IH1 a A) as (v' & D1). destruct (IH2 b B) as (vs' & D2). eexists. constructor; eassumption.
Qed.

(** ** symbolic positions *)
(** token number [i] goes from [2 * i + 1] to [2 * i + 2] *)
Fixpoint symbolic (i : nat) (ts : list token) : list ptok :=
  match ts with
  | [] => []
  | t :: r => (2 * i + 1, t, 2 * i + 2) :: symbolic (S i) r
  end.
Lemma symbolic_tokens ts : forall i, tokens_of (symbolic i ts) = ts.
Proof. induction ts as [|t ts IH]; intros i; [reflexivity|]. unfold tokens_of in *. cbn [symbolic map fst snd]. now rewrite IH. Qed.
Lemma symbolic_app ts : forall i w1 w2, symbolic i ts = w1 ++ w2 ->
  exists a b, ts = a ++ b /\ w1 = symbolic i a /\ w2 = symbolic (i + List.length a) b.
Proof.
  induction ts as [|t ts IH]; intros i w1 w2 E.
  - symmetry in E. apply app_eq_nil in E. destruct E as [-> ->]. exists [], []. auto.
  - destruct w1 as [|x w1].
    + exists [], (t :: ts). cbn [app] in E. rewrite <- E. cbn [List.length]. rewrite Nat.add_0_r. auto.
    + cbn [symbolic app] in E. injection E as <- E. destruct (IH _ _ _ E) as (a & b & -> & -> & ->). exists (t :: a), b.
      cbn [app List.length]. split; [reflexivity|]. split; [reflexivity|]. f_equal. lia.
Qed.
Lemma symbolic_span i ts l r : wspan l (symbolic i ts) r -> l = 2 * i + 1 /\ r = 2 * (i + List.length ts).
Proof.
  intros [B (w & l' & t & E)]. split.
  - destruct ts; [now destruct w|]. destruct B as (t1 & r1 & w1 & B). cbn [symbolic] in B. now injection B.
  - symmetry in E. destruct (symbolic_app ts i w _ (eq_sym E)) as (a & b & -> & _ & E2). destruct b as [|t' [|]]; try discriminate.
    cbn in E2. rewrite app_length. cbn [List.length]. injection E2. lia.
Qed.

(** the positions inside a value *)
Section Locs.
  Variable P : loc -> Prop.
  Inductive nall : node -> Prop :=
  | na_node : forall k sp ls t lv ks is ss o,
      Forall P ls -> Forall nall ks -> Forall (fun x => P (fst x) /\ nall (snd x)) is ->
      Forall (fun x => P (si_loc x) /\ nall (si_node x) /\ P (si_loc2 x)) ss -> nall (Nd k sp ls t lv ks is ss o).
  Definition vall (v : val) : Prop :=
    match v with
    | VNode n => nall n
    | VItems l => Forall (fun x => P (fst x) /\ nall (snd x)) l
    | VSeps l => Forall (fun x => P (si_loc x) /\ nall (si_node x) /\ P (si_loc2 x)) l
    | _ => True
    end.
  Hypothesis P0 : forall x, P (x, x).
  Lemma nall_dummy : nall dummy_node. Proof. constructor; constructor. Qed.

  Section Acts.
    Variable a : args.
    Hypothesis G : Forall P (gaps a).
    Hypothesis V : Forall (fun x : located val => vall (snd (fst x))) a.
    Lemma a_gap i : P (gap i a).
    Proof. unfold gap. destruct (Nat.lt_ge_cases i (List.length (gaps a))) as [Hi|Hi]; [|rewrite nth_overflow; [apply P0|lia]]. exact (proj1 (Forall_forall _ _) G _ (nth_In _ _ Hi)). Qed.
    Lemma a_val i : vall (arg_val i a).
    Proof.
      unfold arg_val. destruct (Nat.lt_ge_cases i (List.length a)) as [Hi|Hi]; [|rewrite nth_overflow; [exact Logic.I|now rewrite map_length]].
      assert (E : In (nth i (map (fun x : located val => snd (fst x)) a) VBad) (map (fun x : located val => snd (fst x)) a)) by (apply nth_In; now rewrite map_length).
      apply in_map_iff in E. destruct E as (x & E & Hx). pose proof (proj1 (Forall_forall _ _) V x Hx) as Q. cbn beta in Q. rewrite E in Q. exact Q.
    Qed.
    Lemma a_node i : nall (arg_node i a).
    Proof. unfold arg_node. pose proof (a_val i) as H. destruct (arg_val i a); cbn in H; auto using nall_dummy. Qed.
    Lemma a_items i : Forall (fun x => P (fst x) /\ nall (snd x)) (arg_items i a).
    Proof. unfold arg_items. pose proof (a_val i) as H. destruct (arg_val i a); cbn in H; auto. Qed.
    Lemma a_seps i : Forall (fun x => P (si_loc x) /\ nall (si_node x) /\ P (si_loc2 x)) (arg_seps i a).
    Proof. unfold arg_seps. pose proof (a_val i) as H. destruct (arg_val i a); cbn in H; auto. Qed.
    Lemma a_lstart : P (lstart a). Proof. apply P0. Qed.
    Lemma a_lend : P (lend a). Proof. apply P0. Qed.
    Lemma a_first l v : P l -> Forall (fun x => P (fst x) /\ nall (snd x)) v -> Forall (fun x => P (fst x) /\ nall (snd x)) (set_first l v).
    Proof. intros Hl [|[p y] v' [_ Hy] Hv]; constructor; auto. Qed.
    Lemma a_sfirst l v : P l -> Forall (fun x => P (si_loc x) /\ nall (si_node x) /\ P (si_loc2 x)) v ->
      Forall (fun x => P (si_loc x) /\ nall (si_node x) /\ P (si_loc2 x)) (sset_first l v).
    Proof. intros Hl [|[[[p y] q] z] v' (_ & Hy & Hq) Hv]; constructor; auto. Qed.
    Lemma a_flat : Forall nall (flat_map (fun x : located val => val_nodes (snd (fst x))) a).
    Proof. clear G. induction V as [|[[l v] r] a' Hv V' IH]; [constructor|]. cbn [flat_map]. apply Forall_app. split; [|exact (IH V')]. destruct v; cbn in *; constructor; auto. Qed.

    Definition keeps_locs (p : prod val) : Prop := (p_lhs p = n_Chunk_ -> P (0, a_start a)) -> vall (p_act p a).
    Lemma prods_locs : Forall keeps_locs lua_prods.
    Proof.
      assert (B : forall k, vall (mkleaf k a)).
      { intros k. unfold mkleaf. destruct (arg_val 0 a) as [[]| | | |]; constructor; constructor. }
      unfold lua_prods. repeat apply Forall_cons; try apply Forall_nil; unfold keeps_locs; cbn [p_act p_lhs]; intros C;
        try first [apply B|apply a_val].
      all: try specialize (C eq_refl).
      all: unfold mkn, mkbin, mkun, act_chunk, act_chunk_empty, act_shebang_chunk, act_list1, act_list_cons, act_list, act_list2, act_seps, act_funcnameself,
        act_varlist1, act_varlist_cons, act_tlist1, act_tlist_snoc, act_sep1, act_sep_cons, act_sepend1, nd, nlist, nseps; cbn [vall].
      all: try apply na_node; repeat first [apply Forall_app; split|apply Forall_cons|apply Forall_nil|split]; cbn [si_loc si_node si_loc2 fst snd];
        auto using a_gap, a_node, a_items, a_seps, a_lstart, a_lend, a_first, a_sfirst, a_flat.
      all: repeat constructor; auto.
    Qed.
  End Acts.
End Locs.

(** empty, or between two tokens (or before the first) *)
Definition hole (k : nat) (p : loc) : Prop := fst p = snd p \/ exists i, i < k /\ p = (2 * i, 2 * i + 1).

Lemma symbolic_gaps k xs w vs : vals_ok xs w vs -> forall i ts, w = symbolic i ts -> i + List.length ts <= k -> Forall (hole k) (gaps vs).
Proof.
  induction 1 as [|x xs w1 w2 [[l v] r] vs Hv Hvs IH]; intros i ts E Hk; [constructor|].
  symmetry in E. destruct (symbolic_app _ _ _ _ E) as (a & b & -> & -> & ->). rewrite app_length in Hk.
  specialize (IH _ _ eq_refl ltac:(lia)). destruct Hv as (Hs & _). apply symbolic_span in Hs.
  destruct vs as [|[[l2 v2] r2] vs]; [constructor|]. change (gaps ((l, v, r) :: (l2, v2, r2) :: vs)) with ((r, l2) :: gaps ((l2, v2, r2) :: vs)).
  constructor; [|exact IH]. right. clear IH.
  inversion Hvs as [|x2 xs2 w3 w4 v3 vs3 Hv2 Hvs2 E1 E2 E3]; subst. destruct Hv2 as (Hs2 & _).
  destruct (symbolic_app _ _ _ _ (eq_sym E2)) as (a2 & b2 & -> & -> & ->). pose proof (symbolic_span _ _ _ _ Hs2) as Hs3.
  destruct a2 as [|t2 a2]; [destruct Hs2 as [_ (w & l' & t' & Ew)]; now destruct w|]. rewrite app_length in Hk. cbn [List.length] in Hk.
  exists (i + List.length a). split; [lia|]. f_equal; lia.
Qed.

Lemma symbolic_holes k : (forall x w v, derives lua_grammar x w v -> forall i ts, w = symbolic i ts -> i + List.length ts <= k ->
    (x = NT n_Chunk_ -> i = 0) -> vall (hole k) (snd (fst v))) /\
  (forall xs w vs, derives_list lua_grammar xs w vs -> forall i ts, w = symbolic i ts -> i + List.length ts <= k ->
    has_chunk xs = false -> Forall (fun x : located val => vall (hole k) (snd (fst x))) vs).
Proof.
  apply (derives_both _ _ lua_grammar
    (fun x w v _ => forall i ts, w = symbolic i ts -> i + List.length ts <= k -> (x = NT n_Chunk_ -> i = 0) -> vall (hole k) (snd (fst v)))
    (fun xs w vs _ => forall i ts, w = symbolic i ts -> i + List.length ts <= k -> has_chunk xs = false -> Forall (fun x : located val => vall (hole k) (snd (fst x))) vs)).
  - intros l t r i ts _ _ _. exact Logic.I.
  - intros p w a Hp D IH i ts E Hk Hc. cbn [fst snd]. change (In p lua_prods) in Hp.
    assert (Hch : has_chunk (p_rhs p) = false).
    { assert (G : forallb (fun p => negb (has_chunk (p_rhs p))) lua_prods = true) by (vm_compute; reflexivity).
      rewrite forallb_forall in G. apply G in Hp. now apply Bool.negb_true_iff. }
    pose proof (proj2 shapes _ _ _ D) as Ok.
    refine (proj1 (Forall_forall _ _) (prods_locs (hole k) (fun x => or_introl eq_refl) a (symbolic_gaps k _ _ _ Ok _ _ E Hk) (IH _ _ E Hk Hch)) p Hp _).
    intros El. right. exists 0. rewrite El in Hc. rewrite (Hc eq_refl) in E, Hk.
    assert (Hn : a <> []) by (pose proof (rhs_nonempty p Hp); destruct (p_rhs p); [congruence|]; intros ->; inversion Ok).
    pose proof (vals_span _ _ _ Ok Hn) as Hs. rewrite E in Hs. pose proof (symbolic_span _ _ _ _ Hs) as [E1 _].
    destruct ts as [|t ts]; [destruct Hs as [_ (w' & l' & t' & Ew)]; now destruct w'|]. cbn [List.length] in Hk. split; [lia|]. f_equal; lia.
  - constructor.
  - intros x xs w1 w2 v vs _ IH1 _ IH2 i ts E Hk Hc. symmetry in E. destruct (symbolic_app _ _ _ _ E) as (a & b & -> & -> & ->). rewrite app_length in Hk.
    cbn [has_chunk existsb] in Hc. apply Bool.orb_false_iff in Hc. destruct Hc as [Hx Hc]. constructor.
    + apply (IH1 i a eq_refl ltac:(lia)). intros ->. discriminate.
    + apply (IH2 _ b eq_refl ltac:(lia) Hc).
Qed.
