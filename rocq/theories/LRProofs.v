(** The table interpreter decides the grammar whenever the tables pass the validator below. *)
From Verif Require Import Base Lib LR LRSpec.

(** ** tries *)
Lemma tget_set_same {A} p (v : A) t : tget p (tset p v t) = Some v.
Proof. revert t; induction p; intros []; cbn; auto. Qed.
Lemma tget_leaf {A} p : tget p (@TLeaf A) = None.
Proof. destruct p; reflexivity. Qed.
Lemma tget_set_other {A} p q (v : A) t : p <> q -> tget p (tset q v t) = tget p t.
Proof.
  revert p t; induction q as [q IH|q IH|]; intros [p|p|] [|l o r] H; cbn; rewrite ?IH, ?tget_leaf; auto; congruence.
Qed.
Lemma nget_of_list {A} (l : list A) : forall i t k,
  nget k (trie_of_list i l t) = if (N.leb i k && N.ltb k (i + N.of_nat (List.length l)))%bool
                                then nth_error l (N.to_nat (k - i)) else nget k t.
Proof.
  induction l as [|x l IH]; intros i t k.
  - cbn [trie_of_list List.length]. destruct (N.leb_spec i k), (N.ltb_spec k (i + N.of_nat 0)); cbn; auto; lia.
  - cbn [trie_of_list List.length]. rewrite IH.
    destruct (N.leb_spec (N.succ i) k) as [H1|H1], (N.ltb_spec k (N.succ i + N.of_nat (List.length l))) as [H2|H2],
      (N.leb_spec i k) as [H3|H3], (N.ltb_spec k (i + N.of_nat (S (List.length l)))) as [H4|H4]; cbn [andb]; try lia.
    + replace (N.to_nat (k - i)) with (S (N.to_nat (k - N.succ i))) by lia. reflexivity.
    + unfold nget. apply tget_set_other. intros E.
      assert (k = i) by (rewrite <- (N.pos_pred_succ k), <- (N.pos_pred_succ i); congruence). lia.
    + assert (k = i) as -> by lia. replace (N.to_nat (i - i)) with 0 by lia. cbn. unfold nget. apply tget_set_same.
    + unfold nget. apply tget_set_other. intros E.
      assert (k = i) by (rewrite <- (N.pos_pred_succ k), <- (N.pos_pred_succ i); congruence). lia.
Qed.
Lemma nget_list {A} (l : list A) k : nget k (trie_of_list 0 l TLeaf) = nth_error l (N.to_nat k).
Proof.
  rewrite nget_of_list. destruct (N.leb_spec 0 k); [|lia]. cbn [andb].
  destruct (N.ltb_spec k (0 + N.of_nat (List.length l))) as [H1|H1].
  - f_equal. lia.
  - unfold nget. rewrite tget_leaf. symmetry. apply nth_error_None. lia.
Qed.

Lemma assocN_in {A} k (l : list (N * A)) v : assocN k l = Some v -> In (k, v) l.
Proof.
  induction l as [|[k' v'] l IH]; cbn; [discriminate|]. destruct (N.eqb k k') eqn:E.
  - apply N.eqb_eq in E. subst. intros [= ->]. auto.
  - auto.
Qed.
Lemma sym_eqb_true a b : sym_eqb a b = true <-> a = b.
Proof. destruct a, b; cbn; rewrite ?N.eqb_eq; split; try congruence; try discriminate. Qed.

(** ** the validator *)
Definition submask (a b : N) : bool := N.eqb (N.land a b) a.
Lemma submask_sound a b k : submask a b = true -> N.testbit a k = true -> N.testbit b k = true.
Proof.
  unfold submask. rewrite N.eqb_eq. intros E H. rewrite <- E, N.land_spec in H. apply andb_true_iff in H. tauto.
Qed.

Section Validate.
  Context {tok val : Type}.
  Variable g : grammar tok val.
  Variable rows : list row.
  Variable items : list (list (N * N * N) * list (N * N)).
  Variable first : list N.
  Variable rank : list nat.
  Variable eoi : N.
  Variable maxrank : nat.

  Let prods := trie_of_list 0%N (g_prods g) TLeaf.
  Let trows := trie_of_list 0%N rows TLeaf.
  Let titems := trie_of_list 0%N items TLeaf.
  Let tfirst := trie_of_list 0%N first TLeaf.
  Let au := mk_automaton trows eoi.

  Definition first_of (n : N) : N := match nget n tfirst with Some m => m | None => 0%N end.
  (** the terminals that can start [xs] followed by one of [L] *)
  Definition first_seq (xs : list sym) (L : N) : N :=
    match xs with
    | [] => L
    | T t :: _ => N.shiftl 1 t
    | NT n :: _ => first_of n
    end.
  Definition rank_of (x : sym) : nat :=
    match x with T _ => 0 | NT n => nth (N.to_nat n) rank 0 end.

  (** every production: a right-hand side without the start symbol, a consistent FIRST and rank *)
  Definition chk_prod (p : prod val) : bool :=
    match p_rhs p with
    | [] => false
    | x :: xs =>
        submask (first_seq [x] 0) (first_of (p_lhs p))
        && match xs with [] => rank_of x <? rank_of (NT (p_lhs p)) | _ => true end
        && negb (existsb (sym_eqb (NT (g_start g))) (p_rhs p))
        && (rank_of (NT (p_lhs p)) <=? maxrank)
    end.

  Definition kernel (s : N) : list (N * N * N) := match nget s titems with Some (k, _) => k | None => [] end.
  Definition expanded (s : N) : list (N * N) := match nget s titems with Some (_, e) => e | None => [] end.
  Definition has_kernel (s p dot L : N) : bool :=
    existsb (fun '(p', dot', L') => N.eqb p p' && N.eqb dot dot' && submask L L') (kernel s).

  Definition chk_item (terms : list N) (s : N) (r : row) (pi : N) (p : prod val) (dot : nat) (L : N) : bool :=
    match nth_error (p_rhs p) dot with
    | None =>
        Nat.eqb dot (List.length (p_rhs p))
        && N.ltb L (2 ^ N.of_nat (List.length terms))
        && forallb (fun a => if N.testbit L a
                             then match row_action r a with Reduce q => N.eqb q pi | _ => false end
                             else true) terms
    | Some (T t) =>
        match assocN t (r_shift r) with
        | Some s' => has_kernel s' pi (N.of_nat (S dot)) L
        | None => false
        end
    | Some (NT n) =>
        match assocN n (r_goto r), assocN n (expanded s) with
        | Some s', Some M => has_kernel s' pi (N.of_nat (S dot)) L
                             && submask (first_seq (skipn (S dot) (p_rhs p)) L) M
        | _, _ => false
        end
    end.

  Definition chk_kernel (terms : list N) (s : N) (r : row) (it : N * N * N) : bool :=
    let '(pi, dot, L) := it in
    match nget pi prods with Some p => chk_item terms s r pi p (N.to_nat dot) L | None => false end.
  Definition chk_expanded (iprods : list (N * prod val)) (terms : list N) (s : N) (r : row) (e : N * N) : bool :=
    let '(n, M) := e in
    forallb (fun '(pi, p) => if N.eqb (p_lhs p) n then chk_item terms s r pi p 0 M else true) iprods.

  Fixpoint number {A} (i : N) (l : list A) : list (N * A) :=
    match l with [] => [] | x :: r => (i, x) :: number (N.succ i) r end.

  Definition validate : bool :=
    let terms := map N.of_nat (seq 0 (S (N.to_nat eoi))) in
    let iprods := number 0 (g_prods g) in
    forallb chk_prod (g_prods g)
    && forallb (fun '(s, (k, e)) =>
                  match nget s trows with
                  | Some r => forallb (chk_kernel terms s r) k && forallb (chk_expanded iprods terms s r) e
                  | None => false
                  end) (number 0 items)
    && match assocN (g_start g) (expanded 0) with Some M => N.testbit M eoi | None => false end.

  Hypothesis valid : validate = true.

  Lemma number_in {A} (l : list A) : forall i k x, In (k, x) (number i l) <-> (i <= k)%N /\ nth_error l (N.to_nat (k - i)) = Some x.
  Proof.
    induction l as [|y l IH]; intros i k x; cbn [number In].
    - split; [tauto|]. intros [_ H]. destruct (N.to_nat (k - i)); discriminate.
    - rewrite IH. split.
      + intros [[= -> ->]|[H1 H2]].
        * split; [lia|]. now rewrite N.sub_diag.
        * split; [lia|]. replace (N.to_nat (k - i)) with (S (N.to_nat (k - N.succ i))) by lia. exact H2.
      + intros [H1 H2]. destruct (N.eq_dec k i) as [->|Hd].
        * left. rewrite N.sub_diag in H2. cbn in H2. congruence.
        * right. split; [lia|]. replace (N.to_nat (k - i)) with (S (N.to_nat (k - N.succ i))) in H2 by lia. exact H2.
  Qed.

  Lemma valid_prod p : In p (g_prods g) -> chk_prod p = true.
  Proof.
    intros H. unfold validate in valid. rewrite !andb_true_iff in valid. destruct valid as [[V _] _].
    rewrite forallb_forall in V. auto.
  Qed.

  (** state [s] contains the item with lookahead [a] *)
  Definition item (s : N) (pi : N) (dot : nat) (a : N) : Prop :=
    exists L, N.testbit L a = true
      /\ (In (pi, N.of_nat dot, L) (kernel s)
          \/ (dot = 0 /\ exists p, nget pi prods = Some p /\ In (p_lhs p, L) (expanded s))).

  Let terms := map N.of_nat (seq 0 (S (N.to_nat eoi))).

  Lemma item_checked s pi dot a : item s pi dot a -> exists r p L,
    nget s trows = Some r /\ nget pi prods = Some p /\ N.testbit L a = true
    /\ chk_item terms s r pi p dot L = true.
  Proof.
    intros (L & Ht & H). unfold validate in valid. rewrite !andb_true_iff in valid. destruct valid as [[_ V] _].
    rewrite forallb_forall in V.
    assert (exists k e, nget s titems = Some (k, e)) as (k & e & E).
    { unfold kernel, expanded in H. destruct (nget s titems) as [[k e]|]; [eauto|].
      destruct H as [[]|(_ & p & _ & [])]. }
    assert (In (s, (k, e)) (number 0 items)) as Hin.
    { apply number_in. split; [lia|]. rewrite N.sub_0_r. rewrite <- nget_list. exact E. }
    apply V in Hin. unfold kernel, expanded in H. rewrite E in H.
    destruct (nget s trows) as [r|]; [|discriminate]. rewrite andb_true_iff in Hin. destruct Hin as [V1 V2].
    rewrite forallb_forall in V1, V2. destruct H as [H|(-> & p & Hp & H)].
    - apply V1 in H. unfold chk_kernel in H. destruct (nget pi prods) as [p|]; [|discriminate].
      rewrite Nat2N.id in H. exists r, p, L. auto.
    - apply V2 in H. unfold chk_expanded in H. rewrite forallb_forall in H.
      specialize (H (pi, p)). cbn beta iota in H. rewrite N.eqb_refl in H. exists r, p, L. repeat split; auto. apply H.
      apply number_in. split; [lia|]. rewrite N.sub_0_r. unfold prods in Hp. rewrite nget_list in Hp. exact Hp.
  Qed.
  Lemma has_kernel_item s p dot L a : has_kernel s p (N.of_nat dot) L = true -> N.testbit L a = true -> item s p dot a.
  Proof.
    unfold has_kernel. rewrite existsb_exists. intros ([[p' dot'] L'] & Hin & H) Ht.
    rewrite !andb_true_iff, !N.eqb_eq in H. destruct H as [[<- <-] H].
    exists L'. split; [eapply submask_sound; eauto|]. left. exact Hin.
  Qed.

  Lemma item_shift s pi p dot a t : item s pi dot a -> nget pi prods = Some p -> nth_error (p_rhs p) dot = Some (T t) ->
    exists r s', nget s trows = Some r /\ row_action r t = Shift s' /\ item s' pi (S dot) a.
  Proof.
    intros H Hp Hx. apply item_checked in H. destruct H as (r & p' & L & Hr & Hp' & Ht & C).
    rewrite Hp in Hp'. injection Hp' as <-. unfold chk_item in C. rewrite Hx in C.
    destruct (assocN t (r_shift r)) as [s'|] eqn:E; [|discriminate].
    exists r, s'. repeat split; auto.
    - unfold row_action. now rewrite E.
    - eapply has_kernel_item; eauto.
  Qed.
  Lemma item_goto s pi p dot a n : item s pi dot a -> nget pi prods = Some p -> nth_error (p_rhs p) dot = Some (NT n) ->
    exists r s' M, nget s trows = Some r /\ assocN n (r_goto r) = Some s' /\ item s' pi (S dot) a
      /\ In (n, M) (expanded s)
      /\ exists L, N.testbit L a = true /\ submask (first_seq (skipn (S dot) (p_rhs p)) L) M = true.
  Proof.
    intros H Hp Hx. apply item_checked in H. destruct H as (r & p' & L & Hr & Hp' & Ht & C).
    rewrite Hp in Hp'. injection Hp' as <-. unfold chk_item in C. rewrite Hx in C.
    destruct (assocN n (r_goto r)) as [s'|] eqn:E; [|discriminate].
    destruct (assocN n (expanded s)) as [M|] eqn:E2; [|discriminate].
    apply andb_true_iff in C. destruct C as [C1 C2].
    exists r, s', M. repeat split; auto.
    - eapply has_kernel_item; eauto.
    - apply assocN_in. exact E2.
    - eauto.
  Qed.
  Lemma item_reduce s pi p a : item s pi (List.length (p_rhs p)) a -> nget pi prods = Some p ->
    exists r, nget s trows = Some r /\ row_action r a = Reduce pi.
  Proof.
    intros H Hp. apply item_checked in H. destruct H as (r & p' & L & Hr & Hp' & Ht & C).
    rewrite Hp in Hp'. injection Hp' as <-. unfold chk_item in C.
    rewrite (proj2 (nth_error_None _ _)) in C by lia. rewrite !andb_true_iff in C. destruct C as [[_ B] C].
    exists r. split; [exact Hr|]. rewrite forallb_forall in C.
    assert (In a terms) as Hin.
    { apply N.ltb_lt in B. unfold terms in *. rewrite map_length, seq_length in B.
      destruct (N.le_gt_cases (N.of_nat (S (N.to_nat eoi))) a) as [H|H].
      - rewrite <- (N.mod_small _ _ B), N.mod_pow2_bits_high in Ht by exact H. discriminate.
      - apply in_map_iff. exists (N.to_nat a). split; [apply N2Nat.id|]. apply in_seq. lia. }
    apply C in Hin. rewrite Ht in Hin. destruct (row_action r a); try discriminate. apply N.eqb_eq in Hin. congruence.
  Qed.
  Lemma item_expand s n M q p a : In (n, M) (expanded s) -> nget q prods = Some p -> p_lhs p = n -> N.testbit M a = true ->
    item s q 0 a.
  Proof. intros H Hp <- Ht. exists M. split; [exact Ht|]. right. split; [reflexivity|]. eauto. Qed.
  Lemma item_start q p : nget q prods = Some p -> p_lhs p = g_start g -> item 0 q 0 eoi.
  Proof.
    intros Hp E. unfold validate in valid. rewrite !andb_true_iff in valid. destruct valid as [_ V].
    destruct (assocN (g_start g) (expanded 0)) as [M|] eqn:A; [|discriminate].
    apply assocN_in in A. eapply item_expand; eauto.
  Qed.

  (** ** FIRST *)
  Notation look := (lookahead g au).
  Lemma derives_first :
    (forall x w v, derives g x w v -> forall rest, N.testbit (first_seq [x] 0) (look (w ++ rest)) = true)
    /\ (forall xs w vs, derives_list g xs w vs -> forall rest L, N.testbit L (look rest) = true ->
          N.testbit (first_seq xs L) (look (w ++ rest)) = true).
  Proof.
    apply derives_both.
    - intros l t r rest. change (N.testbit (N.shiftl 1 (g_term g t)) (g_term g t) = true). rewrite N.shiftl_1_l. apply N.pow2_bits_true.
    - intros p w args Hp D IH rest. pose proof (valid_prod p Hp) as V. unfold chk_prod in V.
      destruct (p_rhs p) as [|x xs] eqn:E; [discriminate|]. rewrite !andb_true_iff in V.
      destruct V as [[[V _] _] _]. eapply submask_sound; [exact V|].
      specialize (IH rest (N.shiftl 1 (look rest))). destruct x; apply IH; rewrite N.shiftl_1_l; apply N.pow2_bits_true.
    - intros rest L H. exact H.
    - intros x xs w1 w2 v vs D1 IH1 D2 IH2 rest L H. rewrite <- app_assoc.
      specialize (IH1 (w2 ++ rest)). destruct x; exact IH1.
  Qed.

  (** ** completeness *)
  Notation step := (lr_step g prods au).
  Definition config_t := (list (@entry val) * list (nat * tok * nat))%type.
  Inductive steps : config_t -> config_t -> Prop :=
  | steps_refl : forall c, steps c c
  | steps_cons : forall st i c c', step st i = SNext (fst c) (snd c) -> steps c c' -> steps (st, i) c'.
  Lemma steps_trans a b c : steps a b -> steps b c -> steps a c.
  Proof. induction 1; [auto|]. intros. econstructor; eauto. Qed.
  Lemma steps_one st i st' i' : step st i = SNext st' i' -> steps (st, i) (st', i').
  Proof. intros H. eapply (steps_cons _ _ (st', i')); [exact H|constructor]. Qed.

  Definition esym (e : @entry val) : sym := snd (fst e).
  Definition evalue (e : @entry val) : located val := snd e.

  Lemma pop_rhs_push es : forall st acc,
    pop_rhs (map esym es) (es ++ st) acc = Some (rev (map evalue es) ++ acc, st).
  Proof.
    induction es as [|[[s y] v] es IH]; intros st acc; [reflexivity|]. cbn.
    rewrite (proj2 (sym_eqb_true y y) eq_refl), IH, <- app_assoc. reflexivity.
  Qed.

  Lemma prod_in pi p : nget pi prods = Some p -> In p (g_prods g).
  Proof. unfold prods. rewrite nget_list. apply nth_error_In. Qed.
  Lemma in_prod p : In p (g_prods g) -> exists pi, nget pi prods = Some p.
  Proof.
    intros H. apply In_nth_error in H. destruct H as (n & H). exists (N.of_nat n). unfold prods.
    rewrite nget_list, Nat2N.id. exact H.
  Qed.
  Lemma not_start_in_rhs p dot : In p (g_prods g) -> nth_error (p_rhs p) dot <> Some (NT (g_start g)).
  Proof.
    intros Hp H. apply valid_prod in Hp. unfold chk_prod in Hp. destruct (p_rhs p) as [|x xs] eqn:E; [discriminate|].
    rewrite !andb_true_iff in Hp. destruct Hp as [[_ Hp] _]. apply negb_true_iff in Hp.
    apply nth_error_In in H. assert (existsb (sym_eqb (NT (g_start g))) (x :: xs) = true); [|congruence].
    apply existsb_exists. eexists. split; [exact H|]. apply sym_eqb_true. reflexivity.
  Qed.
  Lemma first_seq_mono xs L a : N.testbit L a = true -> forall b, N.testbit (first_seq xs (N.shiftl 1 a)) b = true ->
    N.testbit (first_seq xs L) b = true.
  Proof.
    intros H b. destruct xs as [|[t|n] xs]; cbn [first_seq]; auto. rewrite N.shiftl_1_l, N.pow2_bits_eqb.
    rewrite N.eqb_eq. intros <-. exact H.
  Qed.

  Lemma run_derivation :
    (forall x w v, derives g x w v -> forall st rest pi p dot a,
       item (top_state st) pi dot a -> nget pi prods = Some p -> nth_error (p_rhs p) dot = Some x ->
       N.testbit (first_seq (skipn (S dot) (p_rhs p)) (N.shiftl 1 a)) (look rest) = true ->
       exists s', steps (st, w ++ rest) ((s', x, v) :: st, rest) /\ item s' pi (S dot) a)
    /\ (forall xs w vs, derives_list g xs w vs -> forall st rest pi p dot,
       item (top_state st) pi dot (look rest) -> nget pi prods = Some p -> skipn dot (p_rhs p) = xs ->
       dot <= List.length (p_rhs p) ->
       exists es, steps (st, w ++ rest) (es ++ st, rest) /\ map esym es = rev xs /\ map evalue es = rev vs
                  /\ item (top_state (es ++ st)) pi (List.length (p_rhs p)) (look rest)).
  Proof.
    apply derives_both.
    - intros l t r st rest pi p dot a H Hp Hx _.
      destruct (item_shift _ _ _ _ _ _ H Hp Hx) as (rw & s' & Hr & Ha & Hi).
      exists s'. split; [|exact Hi]. apply steps_one. unfold lr_step. cbn [au_rows au app].
      rewrite Hr. cbn [lookahead]. rewrite Ha. reflexivity.
    - intros q w args Hq D IH st rest pi p dot a H Hp Hx Hf.
      destruct (item_goto _ _ _ _ _ _ H Hp Hx) as (rw & s' & M & Hr & Hg & Hi & Hm & L & Ht & Hs).
      destruct (in_prod _ Hq) as (qi & Hqi).
      assert (item (top_state st) qi 0 (look rest)) as Hi0.
      { eapply item_expand; eauto. eapply submask_sound; [exact Hs|]. eapply first_seq_mono; eauto. }
      destruct (IH st rest qi q 0 Hi0 Hqi eq_refl (Nat.le_0_l _)) as (es & S & E1 & E2 & Hi1).
      destruct (item_reduce _ _ _ _ Hi1 Hqi) as (r1 & Hr1 & Ha1).
      exists s'. split; [|exact Hi]. eapply steps_trans; [exact S|]. apply steps_one.
      unfold lr_step. cbn [au_rows au]. fold au. rewrite Hr1, Ha1, Hqi. rewrite <- E1, pop_rhs_push, E2, app_nil_r, rev_involutive.
      assert (N.eqb (p_lhs q) (g_start g) = false) as Hns.
      { apply N.eqb_neq. intros E. rewrite E in Hx. eapply not_start_in_rhs; [|exact Hx]. eapply prod_in; eauto. }
      rewrite Hns, andb_false_r, Hr, Hg. reflexivity.
    - intros st rest pi p dot H Hp Hx Hd. exists []. repeat split; [constructor|].
      assert (dot = List.length (p_rhs p)) as <-; [|exact H].
      pose proof (skipn_length dot (p_rhs p)) as E. rewrite Hx in E. cbn in E. lia.
    - intros x xs w1 w2 v vs D1 IH1 D2 IH2 st rest pi p dot H Hp Hx Hd.
      assert (nth_error (p_rhs p) dot = Some x) as Hn.
      { rewrite <- (firstn_skipn dot (p_rhs p)), Hx, nth_error_app2; rewrite firstn_length_le by lia; [|lia].
        now rewrite Nat.sub_diag. }
      assert (skipn (S dot) (p_rhs p) = xs) as Hx'.
      { change (S dot) with (1 + dot). rewrite <- skipn_skipn, Hx. reflexivity. }
      destruct (IH1 st (w2 ++ rest) pi p dot (look rest) H Hp Hn) as (s' & S1 & Hi).
      { rewrite Hx'. apply (proj2 derives_first _ _ _ D2). rewrite N.shiftl_1_l. apply N.pow2_bits_true. }
      destruct (IH2 ((s', x, v) :: st) rest pi p (S dot) Hi Hp Hx') as (es & S2 & E1 & E2 & Hi2).
      { assert (dot < List.length (p_rhs p)) by (apply nth_error_Some; congruence). lia. }
      exists (es ++ [(s', x, v)]). rewrite <- !app_assoc. cbn [app]. repeat split; auto.
      + eapply steps_trans; eauto.
      + rewrite map_app, E1. reflexivity.
      + rewrite map_app, E2. reflexivity.
  Qed.

  Lemma run_sentence w v : sentence g w v -> exists st i, steps ([], w) (st, i) /\ step st i = SAccept v.
  Proof.
    intros (l & r & D). inversion D as [|q ? args Hq DL]; subst.
    destruct (in_prod _ Hq) as (qi & Hqi).
    destruct (proj2 run_derivation _ _ _ DL [] [] qi q 0) as (es & S & E1 & E2 & Hi); auto; [|lia|].
    { apply (item_start qi q); auto. }
    destruct (item_reduce _ _ _ _ Hi Hqi) as (r1 & Hr1 & Ha1).
    rewrite app_nil_r in S. exists (es ++ []), []. split; [exact S|].
    unfold lr_step. cbn [au_rows au]. fold au. rewrite Hr1, Ha1, Hqi. rewrite <- E1, pop_rhs_push, E2, app_nil_r, rev_involutive.
    cbn [is_empty andb]. rewrite <- H, N.eqb_refl. reflexivity.
  Qed.

  (** ** soundness *)
  Inductive stack_ok : list (@entry val) -> list (nat * tok * nat) -> Prop :=
  | so_nil : stack_ok [] []
  | so_cons : forall s x v st w1 w2, stack_ok st w1 -> derives g x w2 v -> stack_ok ((s, x, v) :: st) (w1 ++ w2).

  Lemma derives_list_app a b wa wb va vb :
    derives_list g a wa va -> derives_list g b wb vb -> derives_list g (a ++ b) (wa ++ wb) (va ++ vb).
  Proof. induction 1; intros; cbn; [auto|]. rewrite <- app_assoc. constructor; auto. Qed.
  Lemma derives_list_one x w v : derives g x w v -> derives_list g [x] w [v].
  Proof. intros D. rewrite <- (app_nil_r w). constructor; [exact D|constructor]. Qed.

  Lemma pop_rhs_sound rr : forall st acc args st' w,
    pop_rhs rr st acc = Some (args, st') -> stack_ok st w ->
    exists w1 w2 vs, w = w1 ++ w2 /\ args = vs ++ acc /\ stack_ok st' w1 /\ derives_list g (rev rr) w2 vs
                     /\ List.length st = List.length rr + List.length st'.
  Proof.
    induction rr as [|x rr IH]; intros st acc args st' w; cbn [pop_rhs].
    - intros [= <- <-] H. exists w, [], []. rewrite app_nil_r. repeat split; auto. constructor.
    - destruct st as [|[[s y] v] st]; [discriminate|]. destruct (sym_eqb x y) eqn:E; [|discriminate].
      apply sym_eqb_true in E. subst y. intros P H. inversion H as [|? ? ? ? w1 w2 H1 D]; subst.
      destruct (IH _ _ _ _ _ P H1) as (w1' & w2' & vs & -> & -> & Hs & DL & Hl).
      exists w1', (w2' ++ w2), (vs ++ [v]). rewrite <- !app_assoc. repeat split; auto.
      + cbn [rev]. apply derives_list_app; [exact DL|]. now apply derives_list_one.
      + cbn. lia.
  Qed.

  Definition top_rank (st : list (@entry val)) : nat := match st with [] => 0 | e :: _ => rank_of (esym e) end.
  Definition measure (st : list (@entry val)) (i : list (nat * tok * nat)) : nat :=
    (2 * maxrank + 3) * List.length i + (maxrank + 1) * List.length st + (maxrank - top_rank st).

  Lemma step_sound st i w : stack_ok st w ->
    match step st i with
    | SNext st' i' => (exists w', stack_ok st' w' /\ w' ++ i' = w ++ i) /\ measure st' i' < measure st i
    | SAccept v => i = [] /\ sentence g w v
    | SFail => True
    end.
  Proof.
    intros H. unfold lr_step. destruct (nget (top_state st) (au_rows au)) as [r|]; [|exact I].
    destruct (row_action r (look i)) as [s'|pi|]; [| |exact I].
    - destruct i as [|[[l t] r'] rest]; [exact I|]. split.
      + exists (w ++ [(l, t, r')]). split; [constructor; [exact H|constructor]|]. now rewrite <- app_assoc.
      + unfold measure. cbn [List.length]. lia.
    - destruct (nget pi prods) as [p|] eqn:Hp; [|exact I]. apply prod_in in Hp.
      destruct (pop_rhs (rev (p_rhs p)) st []) as [[args st']|] eqn:P; [|exact I].
      pose proof (pop_rhs_sound _ _ _ _ _ _ P H) as (w1 & w2 & vs & -> & -> & Hs & DL & Hl).
      rewrite rev_involutive, app_nil_r in *. pose proof (d_prod g p w2 vs Hp DL) as D.
      destruct (is_empty st' && is_empty i && N.eqb (p_lhs p) (g_start g)) eqn:A.
      + rewrite !andb_true_iff, N.eqb_eq in A. destruct A as [[A1 A2] A3].
        destruct st'; [|discriminate]. destruct i; [|discriminate]. inversion Hs; subst. split; [reflexivity|].
        rewrite A3 in D. do 2 eexists. exact D.
      + destruct (nget (top_state st') (au_rows au)) as [r'|]; [|exact I].
        destruct (assocN (p_lhs p) (r_goto r')) as [s'|]; [|exact I]. split.
        * exists (w1 ++ w2). split; [|reflexivity]. constructor; auto.
        * apply valid_prod in Hp as V. unfold chk_prod in V. destruct (p_rhs p) as [|x xs] eqn:E; [discriminate|].
          rewrite !andb_true_iff in V. destruct V as [[[_ V] _] V2]. apply Nat.leb_le in V2.
          unfold measure. rewrite Hl, rev_length. cbn [top_rank esym fst snd List.length].
          destruct xs as [|y xs].
          -- apply Nat.ltb_lt in V. destruct st as [|[[s0 x0] v0] st0]; [discriminate|]. cbn in P.
             destruct (sym_eqb x x0) eqn:Ex; [|discriminate]. apply sym_eqb_true in Ex. subst x0.
             cbn [top_rank esym fst snd List.length]. lia.
          -- cbn [List.length]. lia.
  Qed.

  Lemma run_sound fuel : forall st i w, stack_ok st w ->
    match lr_run g prods au fuel st i with
    | POk v => sentence g (w ++ i) v
    | PFail => True
    | PFuel => fuel <= measure st i
    end.
  Proof.
    induction fuel as [|k IH]; intros st i w H; cbn [lr_run]; [lia|].
    pose proof (step_sound st i w H) as S. destruct (step st i) as [st' i'|v|]; [| |exact I].
    - destruct S as [(w' & H' & E) M]. specialize (IH st' i' w' H'). rewrite E in IH.
      destruct (lr_run g prods au k st' i'); auto. lia.
    - destruct S as [-> S]. now rewrite app_nil_r.
  Qed.

  Lemma steps_run fuel st i c' v : steps (st, i) c' -> step (fst c') (snd c') = SAccept v ->
    lr_run g prods au fuel st i = POk v \/ lr_run g prods au fuel st i = PFuel.
  Proof.
    intros S A. remember (st, i) as c eqn:E. revert fuel st i E.
    induction S as [c|st0 i0 c c' H S IH]; intros fuel st i E.
    - subst c. cbn in A. destruct fuel; [now right|]. cbn. rewrite A. now left.
    - injection E as -> ->. destruct fuel; [now right|]. cbn [lr_run]. rewrite H.
      destruct c as [st' i']. apply (IH A fuel st' i' eq_refl).
  Qed.

  Theorem lr_parse_correct w v : lr_parse g rows eoi maxrank w = POk v <-> sentence g w v.
  Proof.
    unfold lr_parse. fold prods trows au. split.
    - intros E. pose proof (run_sound (lr_fuel maxrank (List.length w)) [] w [] so_nil) as R. rewrite E in R. exact R.
    - intros H. pose proof (run_sound (lr_fuel maxrank (List.length w)) [] w [] so_nil) as R.
      destruct (run_sentence _ _ H) as (st & i & S & A).
      destruct (steps_run (lr_fuel maxrank (List.length w)) _ _ _ _ S A) as [E|E]; [exact E|].
      rewrite E in R. unfold lr_fuel, measure in R. cbn [top_rank List.length] in R. lia.
  Qed.
  Theorem lr_parse_total w : lr_parse g rows eoi maxrank w <> PFuel.
  Proof.
    unfold lr_parse. fold prods trows au. intros E.
    pose proof (run_sound (lr_fuel maxrank (List.length w)) [] w [] so_nil) as R. rewrite E in R.
    unfold lr_fuel, measure in R. cbn [top_rank List.length] in R. lia.
  Qed.
  Theorem lr_unambiguous w v v' : sentence g w v -> sentence g w v' -> v = v'.
  Proof. intros A B. apply lr_parse_correct in A, B. congruence. Qed.
End Validate.
