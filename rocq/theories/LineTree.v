(** The lines of a tree among its pieces. *)
From Coq Require Import Lia.
From Verif Require Import Base Lib Config State LuaLexer Ast LR LRSpec LuaGrammar LuaParser ParserProofs LexSpec LayoutSpec LayoutProofs SafeSpec PrettySpec SettleSpec SettleWalk SettleProds LineSpec LineProofs.

Definition ends_tok (ps : list piece) : Prop := exists A w, ps = A ++ [PTok w].
Definition plain_start (ps : list piece) : Prop := exists G w R, ps = G ++ PTok w :: R /\ Forall free_gap G.
Lemma ends_app a b : ends_tok b -> ends_tok (a ++ b).
Proof. intros (A & w & ->). exists (a ++ A), w. now rewrite app_assoc. Qed.
Lemma plain_app a b : plain_start a -> plain_start (a ++ b).
Proof. intros (G & w & R & -> & H). exists G, w, (R ++ b). now rewrite <- app_assoc. Qed.
Lemma plain_tok w R : plain_start (PTok w :: R). Proof. exists [], w, R. split; [reflexivity|constructor]. Qed.
Lemma plain_gap l d R : plain_start R -> plain_start (PGap l d [] :: R).
Proof. intros (G & w & R0 & -> & H). exists (PGap l d [] :: G), w, R0. split; [reflexivity|]. constructor; [now exists l, d|exact H]. Qed.
Lemma walk_ends c a ps b : walk c a ps b -> forall s, fst (fst (fst b)) = QA s -> (ps = [] /\ a = b) \/ ends_tok ps.
Proof.
  assert (T : forall w z, z = [] \/ ends_tok z -> ends_tok (PTok w :: z)).
  { intros w z [->|H]; [now exists [], w|]. exact (ends_app [_] _ H). }
  induction 1; intros s' E; [auto|..]; right;
    try (apply T; destruct (IHwalk s' E) as [[-> _]|K]; auto; fail);
    (destruct (IHwalk s' E) as [[-> X]|K]; [subst; try (destruct q); discriminate|exact (ends_app [_] _ K)]).
Qed.

(** ** lines among pieces *)
(** a line break between a token and another one *)
Definition line_in (P : list piece) (q d : nat) : Prop :=
  exists A p B, P = A ++ PLine p d :: B /\ snd p = q /\ ends_tok A /\ plain_start B.
Lemma line_in_context X P Y q d : line_in P q d -> line_in (X ++ P ++ Y) q d.
Proof.
  intros (A & p & B & -> & E & HA & HB). exists (X ++ A), p, (B ++ Y). repeat split; auto; [now rewrite <- !app_assoc|now apply ends_app|now apply plain_app].
Qed.

(** ** regular constructs *)
Section Weave.
  Variable K : list printer.
  Variable hung : nat -> bool.
  Variable ls : list loc.
  Variable d : nat.
  Variable op : option str.
  Definition there (g : PrettySpec.glue) : nat * option str :=
    let '(w, b, h) := g in if match w with Here => false | Deeper => true | Hanging k => hung k end then (S d, None) else (d, op).
  Definition entry (here : nat * option str) (gl : list PrettySpec.glue) (t : nat) : nat * option str :=
    match t with 0 => here | S t => there (nth t gl tight) end.
  Definition kids_before (t : nat) (ps : list part) : nat := List.length (filter is_kid (firstn t ps)).
  Definition part_pieces (j : nat) (ps : list part) (t : nat) (h : nat * option str) : list piece :=
    match nth t ps TK with TT s => [PTok (spelling s)] | TK => nth (j + kids_before t ps) K no_printer (fst h) (snd h) end.
  Definition glue_piece (g : PrettySpec.glue) (p : loc) : piece := let '(w, b, h) := g in gap_or_line b p (fst (there g)) h.
  Lemma hd_nth gl : hd tight gl = nth 0 gl tight. Proof. now destruct gl. Qed.
  Lemma tl_nth gl t : nth t (tl gl) tight = nth (S t) gl tight. Proof. destruct gl; [now destruct t|reflexivity]. Qed.
  Lemma weave_head i j here gl p r : exists B, weave K hung ls d op i j here gl (p :: r) = part_pieces j (p :: r) 0 here ++ B
    /\ (r <> [] -> B = glue_piece (nth 0 gl tight) (nth i ls dummy_loc) ::
          weave K hung ls d op (S i) (match p with TT _ => j | TK => S j end) (there (nth 0 gl tight)) (tl gl) r).
  Proof.
    cbn [weave]. eexists. split.
    - unfold part_pieces. cbn [nth]. replace (j + kids_before 0 (p :: r)) with j by (unfold kids_before; cbn; lia). reflexivity.
    - intros R. destruct r; [congruence|]. rewrite hd_nth. unfold glue_piece, there. destruct (nth 0 gl tight) as [[w b] h]. reflexivity.
  Qed.
  Lemma weave_split t : forall i j here gl ps, t < List.length ps ->
    exists A B, weave K hung ls d op i j here gl ps = A ++ part_pieces j ps t (entry here gl t) ++ B
      /\ (S t < List.length ps -> exists B', B = glue_piece (nth t gl tight) (nth (i + t) ls dummy_loc)
             :: part_pieces j ps (S t) (there (nth t gl tight)) ++ B').
  Proof.
    induction t as [|t IH]; intros i j here gl [|p r] H; cbn [List.length] in H; try lia.
    - destruct (weave_head i j here gl p r) as (B & E & HB). exists [], B. split; [exact E|]. cbn [List.length]. intros R.
      destruct r as [|p' r]; cbn [List.length] in R; [lia|]. rewrite HB by discriminate. rewrite Nat.add_0_r.
      destruct (weave_head (S i) (match p with TT _ => j | TK => S j end) (there (nth 0 gl tight)) (tl gl) p' r) as (B1 & E1 & _).
      exists B1. rewrite E1. f_equal. f_equal. unfold part_pieces. cbn [nth].
      replace (match p with TT _ => j | TK => S j end + kids_before 0 (p' :: r)) with (j + kids_before 1 (p :: p' :: r)); [reflexivity|].
      unfold kids_before. destruct p; cbn; lia.
    - destruct (weave_head i j here gl p r) as (B & E & HB). destruct r as [|p' r]; [cbn in H; lia|].
      specialize (HB ltac:(discriminate)). rewrite E, HB. clear E HB B.
      destruct (IH (S i) (match p with TT _ => j | TK => S j end) (there (nth 0 gl tight)) (tl gl) (p' :: r)) as (A & B & E & HB); [lia|].
      assert (Q : forall u h, part_pieces (match p with TT _ => j | TK => S j end) (p' :: r) u h = part_pieces j (p :: p' :: r) (S u) h).
      { intros u h. unfold part_pieces. change (nth (S u) (p :: p' :: r) TK) with (nth u (p' :: r) TK).
        replace (match p with TT _ => j | TK => S j end + kids_before u (p' :: r)) with (j + kids_before (S u) (p :: p' :: r)); [reflexivity|].
        unfold kids_before. change (firstn (S u) (p :: p' :: r)) with (p :: firstn u (p' :: r)). destruct p; cbn [filter is_kid List.length]; lia. }
      exists (part_pieces j (p :: p' :: r) 0 here ++ glue_piece (nth 0 gl tight) (nth i ls dummy_loc) :: A), B. split.
      + rewrite E, Q. rewrite <- !app_assoc. cbn [app]. do 3 f_equal. f_equal. f_equal. destruct t; cbn [entry]; [reflexivity|]. now rewrite tl_nth.
      + intros R. destruct HB as (B' & HB); [cbn [List.length] in *; lia|]. exists B'. rewrite HB, Q, tl_nth. now rewrite <- Nat.add_succ_comm.
  Qed.
End Weave.

(** the statements and the [return] of a block; the body of a function with its parameters *)
Definition others (k : kind) : list nat :=
  match k with KStatsRetStat => [0; 1] | KFuncDecl => [2] | KLocalFuncDecl => [3] | _ => [] end.
Definition plain_parts (k : kind) : list nat := bodies k ++ branches k ++ (match k with KStatsRetStat => [0; 1] | _ => [] end).
Definition is_chunk (k : kind) : bool := match k with KChunk | KSheBangChunk => true | _ => false end.
Definition is_list (k : kind) : bool := match k with KStatementList | KElseIfThenVec => true | _ => false end.
Section Nodes.
  Variable c : config.
  Definition ends (x : node) : Prop := forall d op, ends_tok (pieces c x d op).
  Definition plain (x : node) : Prop := forall d op, plain_start (pieces c x d op).
  Definition chunk_shape (n : node) : Prop :=
    match n_kind n with KChunk => List.length (n_kids n) = 1 | KSheBangChunk => List.length (n_kids n) = 2 | _ => True end.
  Definition good (n : node) : Prop :=
    (is_chunk (n_kind n) = false -> Forall ends (children n))
    /\ (forall t x, In t (plain_parts (n_kind n)) -> part_at n t = Some x -> plain x)
    /\ (is_list (n_kind n) = true -> Forall plain (map snd (n_items n)))
    /\ chunk_shape n.
  Inductive fine : node -> Prop := fine_intro : forall n, good n -> Forall fine (children n) -> fine n.

  Definition regular (n : node) : Prop := forall d op, pieces c n d op =
    weave (map (pieces c) (n_kids n)) (fun j => hangs c (nth j (n_kids n) dummy_node)) (n_locs n) d op 0 0 (d, op) (glues c (n_kind n)) (template (n_kind n)).
  Lemma regular_kind n : bodies (n_kind n) ++ branches (n_kind n) ++ others (n_kind n) <> [] -> regular n.
  Proof. destruct n as [k s l t lv ks is ss o]. cbn [n_kind]. intros H d op. destruct k; try (now elim H); reflexivity. Qed.
  Lemma nth_pieces ks j : nth j (map (pieces c) ks) no_printer = match nth_error ks j with Some x => pieces c x | None => no_printer end.
  Proof. revert j. induction ks as [|x ks IH]; intros [|j]; cbn; auto. Qed.

  Lemma part_in n t x d op : regular n -> t < List.length (template (n_kind n)) -> nth t (template (n_kind n)) (TT Nil) = TK -> part_at n t = Some x ->
    exists X Y, pieces c n d op = X ++ pieces c x (fst (entry (fun j => hangs c (nth j (n_kids n) dummy_node)) d op (d, op) (glues c (n_kind n)) t))
       (snd (entry (fun j => hangs c (nth j (n_kids n) dummy_node)) d op (d, op) (glues c (n_kind n)) t)) ++ Y.
  Proof.
    intros R L T P. rewrite R. destruct (weave_split (map (pieces c) (n_kids n)) (fun j => hangs c (nth j (n_kids n) dummy_node)) (n_locs n) d op t 0 0 (d, op) (glues c (n_kind n)) (template (n_kind n)) L) as (A & B & E & _).
    exists A, B. rewrite E. f_equal. f_equal. unfold part_pieces. rewrite (nth_indep _ TK (TT Nil)), T by exact L.
    rewrite nth_pieces. unfold part_at in P. cbn [Nat.add]. unfold kids_before. now rewrite P.
  Qed.
  Lemma regular_line n t w h d op : regular n -> good n -> is_chunk (n_kind n) = false -> S t < List.length (template (n_kind n)) ->
    nth t (glues c (n_kind n)) tight = (w, true, h) ->
    (nth (S t) (template (n_kind n)) (TT Nil) = TK -> forall x, part_at n (S t) = Some x -> plain x) ->
    line_in (pieces c n d op) (part_start n t) (fst (there (fun j => hangs c (nth j (n_kids n) dummy_node)) d op (w, true, h))).
  Proof.
    intros R (Ge & _) Ch L G Pl. rewrite R.
    destruct (weave_split (map (pieces c) (n_kids n)) (fun j => hangs c (nth j (n_kids n) dummy_node)) (n_locs n) d op t 0 0 (d, op) (glues c (n_kind n)) (template (n_kind n)) (Nat.lt_succ_l _ _ L)) as (A & B & E & HB).
    destruct (HB L) as (B' & ->). rewrite G in E. rewrite E. cbn [glue_piece gap_or_line Nat.add].
    exists (A ++ part_pieces (map (pieces c) (n_kids n)) 0 (template (n_kind n)) t (entry (fun j => hangs c (nth j (n_kids n) dummy_node)) d op (d, op) (glues c (n_kind n)) t)).
    do 2 eexists. split; [now rewrite <- app_assoc|]. split; [reflexivity|]. split.
    - apply ends_app. unfold part_pieces. destruct (nth t (template (n_kind n)) TK) as [s|]; [now exists [], (spelling s)|].
      rewrite nth_pieces. destruct (nth_error (n_kids n) _) as [x|] eqn:Ex; [|now exists [], (s2l "nil")].
      specialize (Ge Ch). rewrite Forall_forall in Ge. apply Ge. unfold children. apply in_or_app. right. apply in_or_app. left. now apply nth_error_In in Ex.
    - apply plain_app. unfold part_pieces. rewrite (nth_indep _ TK (TT Nil)) by exact L. destruct (nth (S t) (template (n_kind n)) (TT Nil)) as [s|]; [apply plain_tok|].
      rewrite nth_pieces. cbn [Nat.add]. specialize (Pl eq_refl). unfold part_at in Pl. unfold kids_before. destruct (nth_error (n_kids n) _) as [x|] eqn:Ex; [|apply plain_tok].
      now apply Pl.
  Qed.

  (** ** lists *)
  Definition printed_items (l : list (loc * node)) := map (fun x => (x, pieces c (snd x))) l.
  Lemma items_app k d op l1 : forall first l2, items_from c k first d op (printed_items (l1 ++ l2))
    = items_from c k first d op (printed_items l1) ++ items_from c k (match l1 with [] => first | _ => false end) d op (printed_items l2).
  Proof.
    induction l1 as [|[p x] l1 IH]; intros first l2; [reflexivity|]. unfold printed_items in *. cbn [app map items_from]. rewrite IH, <- app_assoc.
    cbn [app]. do 3 f_equal. now destruct l1.
  Qed.
  Lemma list_pieces n d op : is_list (n_kind n) = true -> pieces c n d op = items_from c (n_kind n) true d op (printed_items (n_items n)).
  Proof. destruct n as [k s l t lv ks is ss o]. cbn [n_kind n_items]. destruct k; try discriminate; reflexivity. Qed.
  Lemma item_in n l x d op : is_list (n_kind n) = true -> In (l, x) (n_items n) -> exists X Y, pieces c n d op = X ++ pieces c x d op ++ Y.
  Proof.
    intros K I. rewrite (list_pieces n d op K). apply in_split in I as (a & b & E). rewrite E, items_app. cbn [printed_items map items_from snd].
    do 2 eexists. match goal with |- ?a ++ ?g :: ?r = _ => change (a ++ g :: r) with (a ++ [g] ++ r) end. rewrite app_assoc. reflexivity.
  Qed.
  Lemma items_end k d op l : l <> [] -> Forall ends (map snd l) -> forall first, ends_tok (items_from c k first d op (printed_items l)).
  Proof.
    induction l as [|[p x] l IH]; intros N F first; [congruence|]. inversion F as [|? ? H1 H2]; subst. unfold printed_items in *. cbn [map items_from snd] in *.
    match goal with |- ends_tok (?g :: ?r) => apply (ends_app [g]) end. destruct l as [|y l]; [cbn [map items_from]; rewrite app_nil_r; apply H1|].
    apply ends_app, IH; [discriminate|exact H2].
  Qed.
  Hypothesis Br : breaking c.
  Lemma br_nis k : In k [N_newline_format_function; N_newline_format_if; N_newline_format_while; N_newline_format_repeat_until;
                     N_newline_format_for; N_newline_format_do_end] -> nis c k 1 = true.
  Proof. intros I. unfold nis. now rewrite (proj2 Br k I). Qed.
  Lemma br_stat : nsome c N_newline_format_statement = true.
  Proof. unfold nsome. destruct Br as [H _]. now destruct (cn c N_newline_format_statement). Qed.
  Lemma item_line n a l x b d op : is_list (n_kind n) = true -> good n -> n_items n = a ++ (l, x) :: b -> a <> [] -> line_in (pieces c n d op) (snd l) d.
  Proof.
    intros K (Ge & _ & Gp & _) E N. rewrite (list_pieces n d op K), E, items_app. specialize (Gp K).
    assert (Ge' : Forall ends (map snd (n_items n))).
    { specialize (Ge ltac:(destruct (n_kind n); discriminate || reflexivity)). unfold children in Ge. now apply Forall_app in Ge as [_ [_ Ge]%Forall_app]. }
    rewrite E, map_app in Gp, Ge'. apply Forall_app in Gp as [_ Gp]. apply Forall_app in Ge' as [Ge' _]. inversion Gp as [|? ? Hx _]; subst.
    cbn [printed_items map items_from snd]. replace (match a with [] => true | _ => false end) with false by (destruct a; congruence).
    assert (Sl : starts_line c (n_kind n) false x = true).
    { destruct (n_kind n); try discriminate; cbn [starts_line negb andb]; [apply br_stat|apply br_nis; cbn; auto]. }
    rewrite Sl. cbn [gap_or_line]. do 3 eexists. split; [reflexivity|]. split; [reflexivity|]. split; [now apply items_end|].
    apply plain_app, Hx.
  Qed.
End Nodes.
