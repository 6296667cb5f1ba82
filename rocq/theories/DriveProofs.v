(** The parser that stops at the first token without an action, whenever the tables pass both validators. *)
From Verif Require Import Base Lib LR LRSpec LRProofs LuaError ViableProofs.

Section Drive.
  Context {tok val err : Type}.
  Variable g : grammar tok val.
  Variable rows : list row.
  Variable items : list (list (N * N * N) * list (N * N)).
  Variable first : list N.
  Variable rank : list nat.
  Variable eoi : N.
  Variable maxrank : nat.
  Variable a_token : N -> option tok.
  Variable good : tok -> Prop.
  Hypothesis a_token_good : forall t k, a_token t = Some k -> good k.
  Variable depth : nat.
  Variable stop : option err.

  Let prods := trie_of_list 0%N (g_prods g) TLeaf.
  Let trows := trie_of_list 0%N rows TLeaf.
  Let au := mk_automaton trows eoi.
  Notation step := (lr_step g prods au).
  Notation steps := (LRProofs.steps g rows eoi).
  Notation path := (@ViableProofs.path val rows).
  Notation ok := (stack_ok g).
  Notation tokens := (list (nat * tok * nat)).

  Hypothesis valid : validate g rows items first rank eoi maxrank = true.
  Hypothesis valid2 : viable_tables g rows items a_token depth = true.

  Definition completable (w : tokens) : Prop := exists z v, goods good z /\ sentence g (w ++ z) v.

  Lemma path_app es : forall st, path (es ++ st) -> path st.
  Proof. induction es as [|e es IH]; intros st H; [exact H|]. cbn in H. inversion H; subst. auto. Qed.
  Lemma pop_suffix rr : forall (st st' : list (@entry val)) acc args, pop_rhs rr st acc = Some (args, st') -> exists es, st = es ++ st'.
  Proof.
    induction rr as [|x rr IH]; intros st st' acc args; cbn [pop_rhs]; [intros [= _ <-]; now exists []|].
    destruct st as [|[[s y] v] st]; [discriminate|]. destruct (sym_eqb x y); [|discriminate]. intros H.
    destruct (IH _ _ _ _ H) as (es & ->). now exists ((s, y, v) :: es).
  Qed.
  Lemma step_path st i st' i' : path st -> step st i = SNext st' i' -> path st'.
  Proof.
    intros P. unfold lr_step. destruct (nget (top_state st) (au_rows au)) as [r|] eqn:Hr; [|discriminate].
    destruct (row_action r (lookahead g au i)) as [s'|pi|] eqn:Ha; [| |discriminate].
    - destruct i as [|[[l t] r'] rest]; [discriminate|]. intros [= <- _]. constructor; [exact P|]. exists r. split; [exact Hr|].
      cbn [lookahead] in Ha. unfold row_action in Ha. destruct (assocN (g_term g t) (r_shift r)) as [s|]; [congruence|].
      exfalso. revert Ha. generalize (r_reduce r). induction l0 as [|[q m] l0 IH]; cbn; [discriminate|].
      destruct (N.testbit m (g_term g t)); [discriminate|exact IH].
    - destruct (nget pi prods) as [p|]; [|discriminate].
      destruct (pop_rhs (rev (p_rhs p)) st []) as [[args st0]|] eqn:E; [|discriminate].
      destruct (is_empty st0 && is_empty i && N.eqb (p_lhs p) (g_start g)); [discriminate|].
      destruct (nget (top_state st0) (au_rows au)) as [r'|] eqn:Hr'; [|discriminate].
      destruct (assocN (p_lhs p) (r_goto r')) as [s'|] eqn:Hg; [|discriminate]. intros [= <- _].
      apply pop_suffix in E. destruct E as (es & ->). constructor; [eapply path_app; eauto|]. exists r'. auto.
  Qed.

  (** a move looks at one token only *)
  Lemma step_local st t r1 r2 :
    match step st (t :: r1) with
    | SNext st' i' => (i' = t :: r1 /\ step st (t :: r2) = SNext st' (t :: r2)) \/ (i' = r1 /\ step st (t :: r2) = SNext st' r2)
    | SAccept _ => False
    | SFail => step st (t :: r2) = SFail
    end.
  Proof.
    unfold lr_step. destruct (nget (top_state st) (au_rows au)) as [r|]; [|reflexivity].
    destruct t as [[l t] r']. cbn [lookahead]. destruct (row_action r (g_term g t)) as [s'|pi|]; [now right| |reflexivity].
    destruct (nget pi prods) as [p|]; [|reflexivity].
    destruct (pop_rhs (rev (p_rhs p)) st []) as [[args st0]|]; [|reflexivity].
    cbn [is_empty]. rewrite andb_false_r. cbn [andb].
    destruct (nget (top_state st0) (au_rows au)) as [r1'|]; [|reflexivity].
    destruct (assocN (p_lhs p) (r_goto r1')) as [s'|]; [|reflexivity]. now left.
  Qed.

  Lemma steps_end c a b : steps c a -> steps c b ->
    (forall st i, step (fst a) (snd a) <> SNext st i) -> (forall st i, step (fst b) (snd b) <> SNext st i) -> a = b.
  Proof.
    induction 1 as [c|st i c a H S IH]; intros Sb Ha Hb.
    - inversion Sb as [|st i c' b' H S]; subst; [reflexivity|]. now elim (Ha _ _ H).
    - inversion Sb as [|st' i' c' b' H' S']; subst; [now elim (Hb _ _ H)|]. rewrite H in H'. injection H' as E1 E2.
      assert (c = c') as <- by (rewrite (surjective_pairing c), (surjective_pairing c'); congruence). auto.
  Qed.

  Lemma drive_sound fuel : forall st i w, path st -> ok st w ->
    match lr_drive g prods au stop fuel st i with
    | DOk v => stop = None /\ sentence g (w ++ i) v
    | DToken t => exists i0 rest st', i = i0 ++ t :: rest /\ completable (w ++ i0)
        /\ (forall r, steps (st, i0 ++ t :: r) (st', t :: r)) /\ (forall r, step st' (t :: r) = SFail)
    | DEnd => stop = None /\ completable (w ++ i) /\ exists st', steps (st, i) (st', []) /\ step st' [] = SFail
    | DError e => stop = Some e /\ completable (w ++ i)
    | DFuel => fuel <= measure rank maxrank st i
    end.
  Proof.
    induction fuel as [|k IH]; intros st i w P H; [cbn [lr_drive]; lia|].
    assert (V : completable w) by (eapply path_viable; eauto).
    assert (G : match (match step st i with
                | SNext st' input' => lr_drive g prods au stop k st' input'
                | SAccept v => DOk v
                | SFail => match i with t :: _ => DToken t | [] => DEnd end end) with
      | DOk v => (i <> [] \/ stop = None) -> stop = None /\ sentence g (w ++ i) v
      | DToken t => exists i0 rest st', i = i0 ++ t :: rest /\ completable (w ++ i0)
        /\ (forall r, steps (st, i0 ++ t :: r) (st', t :: r)) /\ (forall r, step st' (t :: r) = SFail)
      | DEnd => (i <> [] \/ stop = None) -> stop = None /\ completable (w ++ i) /\ exists st', steps (st, i) (st', []) /\ step st' [] = SFail
      | DError e => stop = Some e /\ completable (w ++ i)
      | DFuel => S k <= measure rank maxrank st i
      end).
    { pose proof (step_sound g rows items first rank eoi maxrank valid st i w H) as Ss. cbv zeta in Ss.
      change (lr_step g (trie_of_list 0%N (g_prods g) TLeaf) (mk_automaton (trie_of_list 0%N rows TLeaf) eoi) st i)
        with (step st i) in Ss.
      destruct (step st i) as [st' i'|v|] eqn:E.
      - destruct Ss as [(w' & H' & Ew) M]. pose proof (step_path _ _ _ _ P E) as P'. specialize (IH st' i' w' P' H').
        destruct (lr_drive g prods au stop k st' i') as [v|t| |e|]; rewrite ?Ew in IH.
        + intros _. exact IH.
        + destruct IH as (i0 & rest & st2 & -> & C & St & F). destruct i as [|u i].
          { exfalso. revert E. unfold lr_step. destruct (nget (top_state st) (au_rows au)) as [r|]; [|discriminate].
            destruct (row_action r (lookahead g au [])) as [|pi|]; try discriminate.
            destruct (nget pi prods) as [p|]; [|discriminate].
            destruct (pop_rhs (rev (p_rhs p)) st []) as [[args st0]|]; [|discriminate].
            destruct (is_empty st0 && is_empty [] && N.eqb (p_lhs p) (g_start g)); [discriminate|].
            destruct (nget (top_state st0) (au_rows au)) as [r'|]; [|discriminate].
            destruct (assocN (p_lhs p) (r_goto r')); [|discriminate]. intros [= _ E]. now destruct i0. }
          pose proof (step_local st u i) as Lo. rewrite E in Lo.
          assert (Ei : i0 ++ t :: rest = u :: i \/ i0 ++ t :: rest = i).
          { destruct (Lo i) as [[Ei _]|[Ei _]]; auto. }
          destruct (Lo i) as [[Ei1 _]|[Ei1 _]].
          * (* reduction *)
            exists i0, rest, st2. split; [auto|]. split.
            { rewrite <- Ei1, !app_assoc in Ew. change (t :: rest) with ([t] ++ rest) in Ew.
              apply (app_inv_tail ([t] ++ rest)) in Ew. rewrite <- Ew. exact C. }
            split; [|exact F]. intros r.
            assert (exists x, i0 ++ t :: r = u :: x) as (x & Ex).
            { destruct i0 as [|u' i0]; cbn in Ei1 |- *; injection Ei1 as -> _; eauto. }
            rewrite Ex. destruct (Lo x) as [[_ Sx]|[Exx Sx]].
            -- eapply (steps_cons _ _ _ _ _ (st', u :: x)); [exact Sx|]. rewrite <- Ex. apply St.
            -- exfalso. apply (f_equal (@List.length _)) in Exx. rewrite Ei1 in Exx. cbn in Exx. lia.
          * (* shift *)
            exists (u :: i0), rest, st2. split; [cbn; now rewrite Ei1|]. split.
            { rewrite <- Ei1 in Ew. replace (w ++ u :: i0 ++ t :: rest) with ((w ++ u :: i0) ++ t :: rest) in Ew
                by (rewrite <- app_assoc; reflexivity). rewrite app_assoc in Ew. apply app_inv_tail in Ew. now rewrite <- Ew. }
            split; [|exact F]. intros r. cbn [app]. destruct (Lo (i0 ++ t :: r)) as [[Exx Sx]|[_ Sx]].
            -- exfalso. apply (f_equal (@List.length _)) in Exx. rewrite Ei1 in Exx. cbn in Exx. lia.
            -- eapply (steps_cons _ _ _ _ _ (st', i0 ++ t :: r)); [exact Sx|]. apply St.
        + intros _. destruct IH as (Hs & C & st2 & St & F). repeat split; auto. exists st2. split; [|exact F].
          eapply (steps_cons _ _ _ _ _ (st', i')); [exact E|exact St].
        + exact IH.
        + lia.
      - destruct Ss as [-> Sv]. intros [Hn|Hn]; [congruence|]. rewrite app_nil_r. auto.
      - destruct i as [|t i].
        + intros [Hn|Hn]; [congruence|]. rewrite app_nil_r. repeat split; auto. exists st. split; [constructor|exact E].
        + exists [], i, st. rewrite app_nil_r. repeat split; auto; [intros r; constructor|].
          intros r. pose proof (step_local st t i r) as Lo. rewrite E in Lo. exact Lo. }
    cbn [lr_drive]. destruct i as [|t i].
    - destruct stop as [e|] eqn:Es; [rewrite app_nil_r; auto|].
      match goal with |- match ?m with _ => _ end => destruct m end; auto.
    - assert (t :: i <> [] \/ stop = None) as N by (left; discriminate).
      destruct stop as [e|] eqn:Es; match goal with |- match ?m with _ => _ end => destruct m end; auto.
  Qed.

  Definition drive (w : tokens) := lr_drive g prods au stop (lr_fuel maxrank (List.length w)) [] w.

  Theorem drive_correct w :
    match drive w with
    | DOk v => stop = None /\ sentence g w v
    | DToken t => exists w0 rest, w = w0 ++ t :: rest /\ completable w0 /\ forall z v, ~ sentence g (w0 ++ t :: z) v
    | DEnd => stop = None /\ completable w /\ forall v, ~ sentence g w v
    | DError e => stop = Some e /\ completable w
    | DFuel => False
    end.
  Proof.
    pose proof (drive_sound (lr_fuel maxrank (List.length w)) [] w [] (pa_nil rows) (so_nil g)) as D.
    unfold drive. destruct (lr_drive g prods au stop (lr_fuel maxrank (List.length w)) [] w) as [v|t| |e|]; cbn [app] in D.
    - exact D.
    - destruct D as (w0 & rest & st & -> & C & St & F). exists w0, rest. repeat split; auto. intros z v Sv.
      destruct (run_sentence g rows items first rank eoi maxrank valid _ _ Sv) as (sa & ia & Sa & A).
      specialize (St z). specialize (F z).
      assert ((st, t :: z) = (sa, ia)) as E.
      { eapply steps_end; [exact St|exact Sa| |]; cbn [fst snd]; intros ? ?; [rewrite F; discriminate|].
        change (step sa ia) with (lr_step g (trie_of_list 0%N (g_prods g) TLeaf) (mk_automaton (trie_of_list 0%N rows TLeaf) eoi) sa ia).
        rewrite A. discriminate. }
      injection E as <- <-. unfold au, prods, trows in F. rewrite F in A. discriminate.
    - destruct D as (Hs & C & st & St & F). repeat split; auto. intros v Sv.
      destruct (run_sentence g rows items first rank eoi maxrank valid _ _ Sv) as (sa & ia & Sa & A).
      assert ((st, []) = (sa, ia)) as E.
      { eapply steps_end; [exact St|exact Sa| |]; cbn [fst snd]; intros ? ?; [rewrite F; discriminate|].
        change (step sa ia) with (lr_step g (trie_of_list 0%N (g_prods g) TLeaf) (mk_automaton (trie_of_list 0%N rows TLeaf) eoi) sa ia).
        rewrite A. discriminate. }
      injection E as <- <-. unfold au, prods, trows in F. rewrite F in A. discriminate.
    - exact D.
    - unfold lr_fuel, measure in D. cbn [top_rank List.length] in D. lia.
  Qed.
End Drive.
