(** What the table interpreter has consumed can always be completed to a sentence, whenever the tables pass the second
    validator below: the items of a state are there for a reason. *)
From Verif Require Import Base Lib LR LRSpec LRProofs.

Section Viable.
  Context {tok val : Type}.
  Variable g : grammar tok val.
  Variable rows : list row.
  Variable items : list (list (N * N * N) * list (N * N)).
  Variable eoi : N.
  (** a token of each terminal *)
  Variable a_token : N -> option tok.
  (** with which completions are to be written *)
  Variable good : tok -> Prop.
  Hypothesis a_token_good : forall t k, a_token t = Some k -> good k.
  Definition goods (w : list (nat * tok * nat)) : Prop := Forall (fun x => good (snd (fst x))) w.
  (** how far the two closures below are computed *)
  Variable depth : nat.

  Let trows := trie_of_list 0%N rows TLeaf.
  Let au := mk_automaton trows eoi.
  Definition kern (s : N) : list (N * N * N) := match nth_error items (N.to_nat s) with Some (k, _) => k | None => [] end.
  Definition expd (s : N) : list (N * N) := match nth_error items (N.to_nat s) with Some (_, e) => e | None => [] end.
  Definition prod_at (pi : N) : option (prod val) := nth_error (g_prods g) (N.to_nat pi).

  (** ** every symbol derives something *)
  Definition sym_in (ns : list N) (x : sym) : bool :=
    match x with
    | T t => match a_token t with Some k => N.eqb (g_term g k) t | None => false end
    | NT n => existsb (N.eqb n) ns
    end.
  Definition grow (ns : list N) : list N :=
    map p_lhs (filter (fun p => forallb (sym_in ns) (p_rhs p)) (g_prods g)).
  Fixpoint iter {A} (f : A -> A) (n : nat) (a : A) : A := match n with O => a | S k => f (iter f k a) end.
  Definition productive : list N := iter grow depth [].
  Definition chk_productive : bool :=
    let ns := productive in
    sym_in ns (NT (g_start g)) && forallb (fun p => forallb (sym_in ns) (p_rhs p)) (g_prods g).

  (** ** every item has a predecessor *)
  Definition in_kernel (s p dot : N) : bool := existsb (fun '(p', dot', _) => N.eqb p p' && N.eqb dot dot') (kern s).
  Definition in_expanded (s n : N) : bool := existsb (fun '(n', _) => N.eqb n n') (expd s).
  Definition chk_pred (s : N) (x : sym) (it : N * N * N) : bool :=
    let '(pi, dot, _) := it in
    match prod_at pi, N.to_nat dot with
    | Some p, S d =>
        match nth_error (p_rhs p) d with
        | Some y => sym_eqb x y && (match d with O => in_expanded s (p_lhs p) | _ => in_kernel s pi (N.of_nat d) end)
        | None => false
        end
    | _, _ => false
    end.
  Definition chk_move (s : N) (x : sym) (s' : N) : bool :=
    negb (N.eqb s' 0) && negb (is_empty (kern s')) && forallb (chk_pred s x) (kern s').

  (** the nonterminals an item of the kernel is followed by, and those their productions start with *)
  Definition kernel_next (s : N) : list N :=
    flat_map (fun '(pi, dot, _) => match prod_at pi with
                                   | Some p => match nth_error (p_rhs p) (N.to_nat dot) with Some (NT n) => [n] | _ => [] end
                                   | None => [] end) (kern s).
  Definition seed (s : N) : list N := if N.eqb s 0 then [g_start g] else kernel_next s.
  (** sets of nonterminals are bit masks *)
  Definition mask (ns : list N) : N := fold_right (fun n m => N.setbit m n) 0%N ns.
  Definition starts (m : N) : list N :=
    flat_map (fun p => if N.testbit m (p_lhs p) then match p_rhs p with NT n :: _ => [n] | _ => [] end else []) (g_prods g).
  Definition reasons (s : N) (k : nat) : N := iter (fun m => mask (seed s ++ starts m)) k 0%N.
  Definition chk_expd (s : N) : bool :=
    let m := reasons s depth in forallb (fun '(n, _) => N.testbit m n) (expd s).

  Definition chk_state (s : N) (r : row) : bool :=
    forallb (fun '(a, s') => chk_move s (T a) s') (r_shift r)
    && forallb (fun '(n, s') => chk_move s (NT n) s') (r_goto r)
    && chk_expd s.
  Definition viable_tables : bool :=
    chk_productive && is_empty (kern 0) && in_expanded 0 (g_start g)
    && forallb (fun '(s, r) => chk_state s r) (number 0%N rows).

  Hypothesis valid : viable_tables = true.

  Lemma valid_parts : chk_productive = true /\ kern 0 = [] /\ in_expanded 0 (g_start g) = true
    /\ (forall s r, nget s trows = Some r -> chk_state s r = true).
  Proof.
    unfold viable_tables in valid. rewrite !andb_true_iff in valid. destruct valid as [[[A B] C] D].
    split; [exact A|]. split; [destruct (kern 0); [reflexivity|discriminate]|]. split; [exact C|].
    intros s r H. rewrite forallb_forall in D. apply (D (s, r)).
    apply number_in. split; [lia|]. rewrite N.sub_0_r, <- nget_list. exact H.
  Qed.

  (** ** productivity *)
  Lemma in_existsb n ns : existsb (N.eqb n) ns = true -> In n ns.
  Proof. rewrite existsb_exists. intros (m & H & E). apply N.eqb_eq in E. now subst. Qed.
  Lemma mask_in ns n : N.testbit (mask ns) n = true -> In n ns.
  Proof.
    induction ns as [|m ns IH]; cbn [mask fold_right]; [now rewrite N.bits_0|]. rewrite N.setbit_iff.
    intros [->|H]; [now left|right; auto].
  Qed.
  Lemma token_derives t : sym_in [] (T t) = true -> exists w v, goods w /\ derives g (T t) w v.
  Proof.
    cbn [sym_in]. destruct (a_token t) as [k|] eqn:E; [|discriminate]. rewrite N.eqb_eq. intros <-.
    exists [(0, k, 0)], (0, g_tval g k, 0). split; [|constructor]. constructor; [|constructor]. exact (a_token_good _ _ E).
  Qed.
  Lemma list_derives xs : (forall x, In x xs -> exists w v, goods w /\ derives g x w v) -> exists w vs, goods w /\ derives_list g xs w vs.
  Proof.
    induction xs as [|x xs IH]; intros H; [exists [], []; split; constructor|].
    destruct (H x) as (w & v & G & D); [now left|]. destruct IH as (w' & vs & G' & D'); [intros y Hy; apply H; now right|].
    exists (w ++ w'), (v :: vs). split; [now apply Forall_app|now constructor].
  Qed.
  Lemma grown k : forall n, In n (iter grow k []) -> exists w v, goods w /\ derives g (NT n) w v.
  Proof.
    induction k as [|k IH]; intros n; cbn [iter]; [intros []|]. unfold grow at 1. rewrite in_map_iff.
    intros (p & <- & H). apply filter_In in H. destruct H as [Hp H]. rewrite forallb_forall in H.
    destruct (list_derives (p_rhs p)) as (w & vs & G & D).
    - intros [t|m] Hx; apply H in Hx; [now apply token_derives|]. apply IH. now apply in_existsb.
    - exists w. eexists. split; [exact G|]. exact (d_prod g p w vs Hp D).
  Qed.
  Lemma rhs_derives p xs : In p (g_prods g) -> incl xs (p_rhs p) -> exists w vs, goods w /\ derives_list g xs w vs.
  Proof.
    intros Hp Hi. destruct valid_parts as (A & _). unfold chk_productive in A. cbv zeta in A. rewrite andb_true_iff, forallb_forall in A.
    destruct A as [_ A].
    specialize (A p Hp). rewrite forallb_forall in A. apply list_derives. intros x Hx. apply Hi, A in Hx.
    destruct x as [t|n]; [now apply token_derives|]. apply (grown depth). now apply in_existsb.
  Qed.

  (** ** the stack as a path of the automaton *)
  Notation stack := (list (@entry val)).
  Definition move (s : N) (x : sym) (s' : N) : Prop :=
    exists r, nget s trows = Some r /\ match x with
      | T a => assocN a (r_shift r) = Some s'
      | NT n => assocN n (r_goto r) = Some s' end.
  Inductive path : stack -> Prop :=
  | pa_nil : path []
  | pa_cons : forall s x v st, path st -> move (top_state st) x s -> path ((s, x, v) :: st).

  Lemma move_checked s x s' : move s x s' -> chk_move s x s' = true.
  Proof.
    intros (r & Hr & H). destruct valid_parts as (_ & _ & _ & V). apply V in Hr. unfold chk_state in Hr.
    rewrite !andb_true_iff, !forallb_forall in Hr. destruct Hr as [[A B] _].
    destruct x; apply assocN_in in H; [apply A in H|apply B in H]; exact H.
  Qed.
  Lemma path_top st : path st -> top_state st = 0%N -> st = [].
  Proof.
    intros [|s x v st' P M]; [reflexivity|]. cbn [top_state]. intros ->. apply move_checked in M.
    unfold chk_move in M. rewrite !andb_true_iff, negb_true_iff in M. destruct M as [[M _] _]. discriminate.
  Qed.

  (** ** completions *)
  Notation ok := (stack_ok g).
  Definition closes (st : stack) (n : N) : Prop :=
    forall w0 w v, ok st w0 -> derives g (NT n) w v -> exists z u, goods z /\ sentence g (w0 ++ w ++ z) u.

  Lemma ok_split (es st : stack) w : ok (es ++ st) w ->
    exists w0 w1 vs, w = w0 ++ w1 /\ ok st w0 /\ derives_list g (rev (map esym es)) w1 vs.
  Proof.
    revert w. induction es as [|[[s x] v] es IH]; intros w H.
    - exists w, [], []. rewrite app_nil_r. repeat split; auto. constructor.
    - cbn [app] in H. inversion H as [|? ? ? ? w1 w2 H1 D]; subst.
      destruct (IH _ H1) as (w0 & w1' & vs & -> & Ho & Dl). exists w0, (w1' ++ w2), (vs ++ [v]).
      rewrite <- app_assoc. repeat split; auto. cbn [map rev].
      change (esym (s, x, v)) with x. apply derives_list_app; [exact Dl|]. now apply derives_list_one.
  Qed.

  Definition has_item (s pi : N) (dot : nat) (p : prod val) : Prop :=
    prod_at pi = Some p
    /\ match dot with O => in_expanded s (p_lhs p) = true | _ => in_kernel s pi (N.of_nat dot) = true end.
  (** the stack ends with the part of the right-hand side before the dot, and below it the left-hand side may come *)
  Definition located_item (st : stack) (p : prod val) (dot : nat) : Prop :=
    exists es st0, st = es ++ st0 /\ map esym es = rev (firstn dot (p_rhs p)) /\ closes st0 (p_lhs p).

  Lemma reasons_close st : path st ->
    (forall pi p dot, In (pi, N.of_nat (S dot)) (map fst (kern (top_state st))) -> prod_at pi = Some p -> located_item st p (S dot)) ->
    (forall pi dot, In (pi, dot) (map fst (kern (top_state st))) -> dot <> 0%N) ->
    forall k n, N.testbit (reasons (top_state st) k) n = true -> closes st n.
  Proof.
    intros P HK HP. induction k as [|k IH]; intros n; unfold reasons; cbn [iter]; [now rewrite N.bits_0|].
    intros H. apply mask_in in H. rewrite in_app_iff in H. destruct H as [H|H].
    - unfold seed in H. destruct (N.eqb (top_state st) 0) eqn:E.
      + apply N.eqb_eq in E. apply path_top in E; [|exact P]. subst st. destruct H as [<-|[]].
        intros w0 w v H0 D. inversion H0; subst. exists []. rewrite app_nil_r. cbn [app].
        destruct v as [[l u] r]. exists u. split; [constructor|]. exists l, r. exact D.
      + unfold kernel_next in H. apply in_flat_map in H. destruct H as ([[pi dot] L] & Hin & H).
        destruct (prod_at pi) as [p|] eqn:Hp; [|destruct H].
        destruct (nth_error (p_rhs p) (N.to_nat dot)) as [[t|m]|] eqn:Hx; [destruct H| |destruct H].
        destruct H as [<-|[]].
        assert (Hi : In (pi, dot) (map fst (kern (top_state st)))) by exact (in_map fst _ _ Hin).
        destruct (N.to_nat dot) as [|d] eqn:Ed; [exfalso; apply (HP _ _ Hi); lia|].
        assert (dot = N.of_nat (S d)) as -> by lia.
        destruct (HK pi p d Hi Hp) as (es & st0 & -> & Es & C).
        intros w0 w v H0 D. destruct (ok_split _ _ _ H0) as (wa & wb & vs & -> & Ha & Db).
        rewrite Es, rev_involutive in Db. pose proof (nth_error_In _ _ Hp) as Hin'.
        destruct (rhs_derives p (skipn (S (S d)) (p_rhs p)) Hin') as (wc & vc & Gc & Dc).
        { intros y Hy. rewrite <- (firstn_skipn (S (S d)) (p_rhs p)). apply in_app_iff. now right. }
        assert (Dp : derives_list g (p_rhs p) (wb ++ w ++ wc) (vs ++ [v] ++ vc)).
        { replace (p_rhs p) with (firstn (S d) (p_rhs p) ++ [NT m] ++ skipn (S (S d)) (p_rhs p)).
          - apply derives_list_app; [exact Db|]. apply derives_list_app; [|exact Dc]. now apply derives_list_one.
          - clear - Hx. revert Hx. generalize (S d) as k. generalize (p_rhs p) as l.
            induction l as [|y l IH]; intros [|k]; cbn; try discriminate; [now intros [= ->]|]. intros H. f_equal. now apply IH. }
        destruct (C wa _ _ Ha (d_prod g p _ _ Hin' Dp)) as (z & u & Gz & S). exists (wc ++ z), u. split; [now apply Forall_app|].
        now rewrite <- !app_assoc in *.
    - apply in_flat_map in H. destruct H as (p & Hp & H).
      destruct (N.testbit (iter (fun m => mask (seed (top_state st) ++ starts m)) k 0%N) (p_lhs p)) eqn:E; [|destruct H].
      apply IH in E.
      destruct (p_rhs p) as [|[t|m] xs] eqn:Er; [destruct H|destruct H|]. destruct H as [<-|[]].
      intros w0 w v H0 D. destruct (rhs_derives p xs Hp) as (wc & vc & Gc & Dc); [rewrite Er; intros y Hy; now right|].
      assert (Dp : derives_list g (p_rhs p) (w ++ wc) (v :: vc)) by (rewrite Er; now constructor).
      destruct (E w0 _ _ H0 (d_prod g p _ _ Hp Dp)) as (z & u & Gz & S). exists (wc ++ z), u. split; [now apply Forall_app|]. now rewrite <- !app_assoc in *.
  Qed.

  Lemma expanded_close st : path st ->
    (exists r, nget (top_state st) trows = Some r) ->
    (forall pi p dot, In (pi, N.of_nat (S dot)) (map fst (kern (top_state st))) -> prod_at pi = Some p -> located_item st p (S dot)) ->
    (forall pi dot, In (pi, dot) (map fst (kern (top_state st))) -> dot <> 0%N) ->
    forall n, in_expanded (top_state st) n = true -> closes st n.
  Proof.
    intros P (r & Hr) HK HP n H. destruct valid_parts as (_ & _ & _ & V). apply V in Hr. unfold chk_state in Hr.
    rewrite !andb_true_iff in Hr. destruct Hr as [_ C]. unfold chk_expd in C. rewrite forallb_forall in C.
    unfold in_expanded in H. apply existsb_exists in H. destruct H as ([m M] & Hin & E). apply N.eqb_eq in E. subst m.
    apply C in Hin. eapply reasons_close; eauto.
  Qed.

  Lemma in_kernel_in s pi dot : in_kernel s pi dot = true -> In (pi, dot) (map fst (kern s)).
  Proof.
    unfold in_kernel. rewrite existsb_exists. intros ([[p' d'] L] & Hin & E). rewrite andb_true_iff, !N.eqb_eq in E.
    destruct E as [-> ->]. exact (in_map fst _ _ Hin).
  Qed.

  Lemma items_located st : path st ->
    (forall pi p dot, In (pi, N.of_nat (S dot)) (map fst (kern (top_state st))) -> prod_at pi = Some p -> located_item st p (S dot))
    /\ (forall pi dot, In (pi, dot) (map fst (kern (top_state st))) -> dot <> 0%N /\ exists p, prod_at pi = Some p).
  Proof.
    induction 1 as [|s x v st P [IH1 IH2] M].
    - destruct valid_parts as (_ & K & _). cbn [top_state]. rewrite K. split; intros ? ? ; [intros ? []|intros []].
    - pose proof (move_checked _ _ _ M) as C. unfold chk_move in C. rewrite !andb_true_iff in C. destruct C as [_ C].
      rewrite forallb_forall in C. cbn [top_state]. split.
      + intros pi p d Hin Hp. apply in_map_iff in Hin. destruct Hin as ([[pi' dot'] L] & E & Hin). cbn [fst] in E.
        apply pair_equal_spec in E. destruct E as [-> ->]. apply C in Hin. unfold chk_pred in Hin. rewrite Hp, Nat2N.id in Hin.
        destruct (nth_error (p_rhs p) d) as [y|] eqn:Hy; [|discriminate]. rewrite andb_true_iff in Hin.
        destruct Hin as [Hx Hin]. apply sym_eqb_true in Hx. subst y.
        assert (Hf : firstn (S d) (p_rhs p) = firstn d (p_rhs p) ++ [x]).
        { clear - Hy. revert d Hy. generalize (p_rhs p). induction l as [|y l IH]; intros [|d]; cbn; try discriminate; [now intros [= ->]|].
          intros H. f_equal. now apply IH. }
        assert (L0 : located_item st p d).
        { destruct d as [|d].
          - exists [], st. repeat split. cbn [firstn]. eapply expanded_close; eauto.
            + destruct M as (r & Hr & _). eauto.
            + intros pi' dot' Hi. now apply (IH2 pi' dot').
          - apply IH1 with pi; [|exact Hp]. now apply in_kernel_in. }
        destruct L0 as (es & st0 & -> & Es & Hc). exists ((s, x, v) :: es), st0. repeat split; auto.
        cbn [map]. rewrite Hf, rev_app_distr, Es. reflexivity.
      + intros pi dot Hin. apply in_map_iff in Hin. destruct Hin as ([[pi' dot'] L] & E & Hin). cbn [fst] in E.
        apply pair_equal_spec in E. destruct E as [-> ->]. apply C in Hin. unfold chk_pred in Hin.
        destruct (prod_at pi) as [p|]; [|discriminate]. destruct (N.to_nat dot) as [|d] eqn:Ed; [discriminate|].
        split; [intros ->; discriminate|eauto].
  Qed.

  Theorem path_viable st w : path st -> ok st w -> exists z v, goods z /\ sentence g (w ++ z) v.
  Proof.
    intros P H. destruct (items_located st P) as [K1 K2]. destruct P as [|s x v st P M].
    - inversion H; subst. destruct valid_parts as (A & _). unfold chk_productive in A. cbv zeta in A. rewrite andb_true_iff in A.
      destruct (grown depth (g_start g)) as (w & [[l u] r] & G & D).
      + now apply in_existsb.
      + exists w, u. split; [exact G|]. exists l, r. exact D.
    - pose proof (move_checked _ _ _ M) as C. unfold chk_move in C. rewrite !andb_true_iff in C. destruct C as [[_ C] _].
      cbn [top_state] in *. destruct (kern s) as [|[[pi dot] L] ks] eqn:Ek; [discriminate|].
      destruct (K2 pi dot) as (Hd & p & Hp); [now left|].
      destruct (N.to_nat dot) as [|d] eqn:Ed; [lia|]. assert (dot = N.of_nat (S d)) as -> by lia.
      destruct (K1 pi p d) as (es & st0 & E & Es & Hc); [now left|exact Hp|].
      rewrite E in H. destruct (ok_split _ _ _ H) as (wa & wb & vs & -> & Ha & Db). rewrite Es, rev_involutive in Db.
      pose proof (nth_error_In _ _ Hp) as Hin'.
      destruct (rhs_derives p (skipn (S d) (p_rhs p)) Hin') as (wc & vc & Gc & Dc).
      { intros y Hy. rewrite <- (firstn_skipn (S d) (p_rhs p)). apply in_app_iff. now right. }
      assert (Dp : derives_list g (p_rhs p) (wb ++ wc) (vs ++ vc)).
      { rewrite <- (firstn_skipn (S d) (p_rhs p)). now apply derives_list_app. }
      destruct (Hc wa _ _ Ha (d_prod g p _ _ Hin' Dp)) as (z & u & Gz & S). exists (wc ++ z), u. split; [now apply Forall_app|]. now rewrite <- !app_assoc in *.
  Qed.
End Viable.
