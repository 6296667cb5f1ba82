(** Two runs of the writer side by side: one that formats a range of lines, and one that formats everything. *)
From Verif Require Import Base Lib Config State Ast WriterBase LuaWriter.

Section Frame.
  (** how the states of the two runs are related *)
  Variable S : state -> state -> Prop.
  Hypothesis S_level : forall s t, S s t -> indent_level s = indent_level t.
  Hypothesis S_stack : forall s t, S s t -> stack_indent s = stack_indent t.
  Hypothesis S_depth : forall s t, S s t -> function_nested_level s = function_nested_level t.
  Hypothesis S_indent : forall s t lv sk, S s t -> S (set_indent lv sk s) (set_indent lv sk t).
  Hypothesis S_func : forall s t z, S s t -> S (set_func_level z s) (set_func_level z t).

  Definition rel (w v : world) : Prop :=
    w_f w = w_f v /\ S (w_st w) (w_st v) /\ w_oneline w = w_oneline v /\ w_indent w = w_indent v.
  (** unless the second run panics, the first one does the same *)
  Definition same {A} (x y : res A * world) : Prop :=
    match y with
    | (RPanic, _) => True
    | (r, v) => fst x = r /\ rel (snd x) v
    end.
  Definition sees {A} (m k : M A) : Prop := forall w v, rel w v -> same (m w) (k v).

  Lemma rel_f w v : rel w v -> w_f w = w_f v. Proof. intros H. apply H. Qed.
  Lemma rel_st w v : rel w v -> S (w_st w) (w_st v). Proof. intros H. apply H. Qed.
  Lemma rel_set_f w v f : rel w v -> rel (set_f f w) (set_f f v).
  Proof. intros (H1 & H2 & H3 & H4). repeat split; auto. Qed.
  Lemma rel_set_st w v s t : rel w v -> S s t -> rel (set_st s w) (set_st t v).
  Proof. intros (H1 & H2 & H3 & H4) H. repeat split; auto. Qed.

  (** what the second run gives decides what the first one gives *)
  Ltac split_run m k H :=
    let r := fresh "r" in let w1 := fresh "w" in let r2 := fresh "r" in let v1 := fresh "v" in
    destruct m as [r w1]; destruct k as [r2 v1]; unfold same in H; cbn [fst snd] in H;
    destruct r2; [destruct H as [-> H]|destruct H as [-> H]|clear H|destruct H as [-> H]].

  Lemma sees_bind {A B} (m k : M A) (f g : A -> M B) : sees m k -> (forall a, sees (f a) (g a)) -> sees (bind m f) (bind k g).
  Proof.
    intros Hm Hf w v R. unfold bind. specialize (Hm w v R). split_run (m w) (k v) Hm; [now apply Hf|split; auto|exact Logic.I|split; auto].
  Qed.
  Lemma sees_ret {A} (a : A) : sees (ret a) (ret a).
  Proof. intros w v R. split; auto. Qed.
  Lemma sees_panic {A} (m : M A) : sees m panic.
  Proof. intros w v R. exact Logic.I. Qed.
  Lemma sees_err {A} : sees (err (A := A)) err.
  Proof. intros w v R. split; auto. Qed.
  Lemma sees_nofuel {A} : sees (nofuel (A := A)) nofuel.
  Proof. intros w v R. split; auto. Qed.
  Lemma sees_emit t : sees (emit t) (emit t).
  Proof. intros w v R. split; [reflexivity|]. cbn. rewrite (rel_f _ _ R). now apply rel_set_f. Qed.
  Lemma sees_emit_opt o : sees (emit_opt o) (emit_opt o).
  Proof. destruct o; [apply sees_emit|apply sees_panic]. Qed.
  Lemma sees_get_f {B} (f g : str -> M B) : (forall t, sees (f t) (g t)) -> sees (t <- get_f ;; f t) (t <- get_f ;; g t).
  Proof. intros H w v R. unfold bind, get_f. rewrite (rel_f _ _ R). now apply H. Qed.
  Lemma sees_get_st {B} (f g : state -> M B) : (forall s t, S s t -> sees (f s) (g t)) -> sees (s <- get_st ;; f s) (s <- get_st ;; g s).
  Proof. intros H w v R. unfold bind, get_st. apply H; [now apply rel_st|exact R]. Qed.
  Lemma sees_put s t : S s t -> sees (put_st s) (put_st t).
  Proof. intros H w v R. split; [reflexivity|]. now apply rel_set_st. Qed.
  Lemma sees_buffer start m k : sees m k -> sees (in_buffer start m) (in_buffer start k).
  Proof.
    intros H w v R. unfold in_buffer. specialize (H _ _ (rel_set_f _ _ start R)). split_run (m (set_f start w)) (k (set_f start v)) H;
      try exact Logic.I; (split; [cbn [fst]; try reflexivity; now rewrite (rel_f _ _ H)|cbn [snd]; rewrite ?(rel_f _ _ R); auto; now apply rel_set_f]).
  Qed.
  Lemma sees_indent c : sees (write_indent c) (write_indent c).
  Proof.
    apply sees_get_st. intros s t H. unfold indent_text. rewrite (S_level _ _ H). apply sees_emit.
  Qed.
  Lemma sees_inc o : sees (inc_indent o) (inc_indent o).
  Proof.
    apply sees_get_st. intros s t H. apply sees_put. unfold inc_indent_st. rewrite (S_level _ _ H), (S_stack _ _ H). now apply S_indent.
  Qed.
  Lemma sees_dec : sees dec_indent dec_indent.
  Proof.
    apply sees_get_st. intros s t H. apply sees_put. unfold dec_indent_st. rewrite (S_level _ _ H), (S_stack _ _ H).
    destruct (stack_indent t); [exact H|now apply S_indent].
  Qed.
  Lemma sees_incf : sees inc_func_level inc_func_level.
  Proof. apply sees_get_st. intros s t H. apply sees_put. rewrite (S_depth _ _ H). now apply S_func. Qed.
  Lemma sees_decf : sees dec_func_level dec_func_level.
  Proof. apply sees_get_st. intros s t H. apply sees_put. rewrite (S_depth _ _ H). now apply S_func. Qed.

  (** *** tests *)
  Lemma sees_run_all ms ks : Forall2 sees ms ks -> forall b w v, rel w v -> same (run_all ms b w) (run_all ks b v).
  Proof.
    induction 1 as [|m k ms ks H F IH]; intros b w v R; cbn [run_all]; [split; auto|]. specialize (H w v R).
    split_run (m w) (k v) H; auto; [exact Logic.I|split; auto].
  Qed.
  Lemma rel_restore w v w' v' : rel w v -> rel w' v' -> rel (restore w w') (restore v v').
  Proof. intros (H1 & H2 & H3 & H4) (G1 & G2 & G3 & G4). repeat split; auto. Qed.
  Lemma sees_test c ms ks : Forall2 sees ms ks -> sees (test_oneline c ms) (test_oneline c ks).
  Proof.
    intros F w v R. unfold test_oneline. pose proof (sees_run_all _ _ F false _ _ (rel_set_f _ _ [] R)) as H.
    split_run (run_all ms false (set_f [] w)) (run_all ks false (set_f [] v)) H; try exact Logic.I; try (split; [reflexivity|now apply rel_restore]).
    destruct a; [split; [reflexivity|now apply rel_restore]|]. destruct (cn c N_max_width) as [mw|]; [|exact Logic.I].
    split; [|now apply rel_restore]. cbn [fst]. now rewrite (rel_f _ _ R), (rel_f _ _ H).
  Qed.
  Lemma sees_test_no_nl c ms ks : Forall2 sees ms ks -> sees (test_oneline_no_nl c ms) (test_oneline_no_nl c ks).
  Proof. intros F. apply sees_bind; [now apply sees_test|]. intros a. apply sees_ret. Qed.
  Lemma sees_copy m k : sees m k -> sees (on_copy m) (on_copy k).
  Proof.
    intros H w v R. unfold on_copy. specialize (H w v R). split_run (m w) (k v) H; try exact Logic.I; (split; [reflexivity|now apply rel_restore]).
  Qed.
  Lemma sees_isnone {A} (m k : M (option A)) : sees m k -> sees (isnone m) (isnone k).
  Proof. intros H. apply sees_bind; [exact H|]. intros a. apply sees_ret. Qed.
  Lemma sees_issome {A} (m k : M (option A)) : sees m k -> sees (issome m) (issome k).
  Proof. intros H. apply sees_bind; [exact H|]. intros a. apply sees_ret. Qed.
  Lemma sees_get_oneline n : sees (get_oneline n) (get_oneline n).
  Proof. intros w v R. split; [|exact R]. cbn. destruct R as (_ & _ & -> & _). reflexivity. Qed.
  Lemma sees_set_oneline n : sees (set_oneline n) (set_oneline n).
  Proof. intros w v (R1 & R2 & R3 & R4). split; [reflexivity|]. cbn. repeat split; auto. cbn. congruence. Qed.
  Lemma sees_get_indent n : sees (get_indent n) (get_indent n).
  Proof. intros w v R. split; [|exact R]. cbn. destruct R as (_ & _ & _ & ->). reflexivity. Qed.
  Lemma sees_set_indent n b : sees (set_indent_cell n b) (set_indent_cell n b).
  Proof. intros w v (R1 & R2 & R3 & R4). split; [reflexivity|]. cbn. repeat split; auto. cbn. congruence. Qed.

  (** *** [IfNewLine] *)
  Lemma sees_if_newline c b (H : hinted) h : (b = false -> sees (H h) (H h)) -> (b = true -> sees (H []) (H [])) ->
    sees (if_newline c b H h) (if_newline c b H h).
  Proof.
    intros H1 H2. unfold if_newline. destruct b; cbn [negb]; [|auto]. apply sees_bind; [apply sees_buffer; auto|].
    intros block. apply sees_bind; [|intros _; apply sees_indent]. destruct (negb _).
    - apply sees_bind; [apply sees_emit|]. intros _. destruct (ends_nl _); [apply sees_ret|apply sees_emit].
    - intros w v R. split; [reflexivity|]. cbn. rewrite (rel_f _ _ R). now apply rel_set_f.
  Qed.

  (** *** lists *)
  Section Lists.
    Context {node : Type}.
    Variables (c : config) (buf : str) (LH : loc -> hinted) (W1 W2 : node -> M unit) (nn : bool)
      (first1 first2 : node -> M bool) (nl1 nl2 : node -> node -> M bool) (ph : node -> str) (okn : node -> Prop).
    (** a place where nothing is asked for, and one that is in the range *)
    Definition quiet_at (p : loc) : Prop := sees (LH p []) (LH p []).
    Definition open_at (p : loc) : Prop :=
      (forall h, sees (LH p h) (LH p h))
      /\ (forall s t, S s t -> test_out_of_range (pos_range s) p = false /\ test_out_of_range (pos_range t) p = false).
    Hypothesis W_sees : forall x, okn x -> sees (W1 x) (W2 x).
    Hypothesis first_sees : forall x, okn x -> sees (first1 x) (first2 x).
    Hypothesis nl_sees : forall x y, okn x -> okn y -> sees (nl1 x y) (nl2 x y).

    Lemma sees_lazy b m k : sees m k -> sees (lazy_and b m) (lazy_and b k).
    Proof. intros H. unfold lazy_and. destruct b; [exact H|apply sees_ret]. Qed.
    Lemma sees_gap p h b m k : open_at p -> sees m k ->
      sees (b0 <- lazy_and nn m ;; if_newline c b0 (LH p) h ;;; ret (b || b0)) (b0 <- lazy_and nn k ;; if_newline c b0 (LH p) h ;;; ret (b || b0)).
    Proof.
      intros [Hp _] Hm. apply sees_bind; [now apply sees_lazy|]. intros b0. apply sees_bind; [|intros; apply sees_ret].
      apply sees_if_newline; auto.
    Qed.
    Lemma sees_list_rest l : Forall (fun x => open_at (fst x) /\ okn (snd x)) l -> forall b prev, okn prev ->
      sees (write_list_rest c buf LH W1 nn nl1 ph b prev l) (write_list_rest c buf LH W2 nn nl2 ph b prev l).
    Proof.
      induction 1 as [|[p x] l [Hp Hx] Hl IH]; intros b prev Hpv; cbn [write_list_rest]; [apply sees_ret|]. cbn in Hp, Hx.
      apply sees_get_st. intros s t Hs. destruct (proj2 Hp s t Hs) as [-> ->]. apply sees_bind; [now apply sees_gap; auto|].
      intros b0. apply sees_bind; [auto|]. intros _. now apply IH.
    Qed.
    Definition list_open (l : list (loc * node)) : Prop :=
      match l with
      | [] => True
      | (p, x) :: r => quiet_at p /\ okn x /\ Forall (fun y => open_at (fst y) /\ okn (snd y)) r
      end.
    Lemma sees_list l : list_open l -> sees (write_list c buf LH W1 nn first1 nl1 ph l) (write_list c buf LH W2 nn first2 nl2 ph l).
    Proof.
      destruct l as [|[p x] l]; cbn [write_list list_open]; [intros _; apply sees_ret|]. intros (Hp & Hx & Hl).
      apply sees_bind; [apply sees_lazy; auto|]. intros b. apply sees_bind; [apply sees_if_newline; auto|].
      intros _. apply sees_bind; [auto|]. intros _. now apply sees_list_rest.
    Qed.

    Variables (sep : option str) (trailing : M (option bool)) (eh : str).
    Hypothesis trailing_sees : sees trailing trailing.
    Definition sep_open (x : loc * node * loc * str) : Prop :=
      open_at (fst (fst (fst x))) /\ okn (snd (fst (fst x))) /\ quiet_at (snd (fst x)).
    Lemma sees_seps_rest l : Forall sep_open l -> forall b prev z, okn prev ->
      sees (write_seps_rest c buf LH W1 nn nl1 sep eh b prev z l) (write_seps_rest c buf LH W2 nn nl2 sep eh b prev z l).
    Proof.
      induction 1 as [|[[[p x] q] z'] l (Hp & Hx & Hq) Hl IH]; intros b prev z Hpv; cbn [write_seps_rest]; [apply sees_ret|].
      cbn in Hp, Hx, Hq. apply sees_bind; [apply sees_emit|]. intros _. apply sees_get_st. intros s t Hs. destruct (proj2 Hp s t Hs) as [-> ->].
      apply sees_bind; [now apply sees_gap; auto|]. intros b0. apply sees_bind; [auto|]. intros _. apply sees_bind; [auto|]. intros _. now apply IH.
    Qed.
    Definition seps_open (l : list (loc * node * loc * str)) : Prop :=
      match l with
      | [] => True
      | (p, x, q, _) :: r => quiet_at p /\ okn x /\ quiet_at q /\ Forall sep_open r
      end.
    Lemma sees_seps l : seps_open l -> sees (write_seps c buf LH W1 nn first1 nl1 sep trailing eh l) (write_seps c buf LH W2 nn first2 nl2 sep trailing eh l).
    Proof.
      destruct l as [|[[[p x] q] z] l]; cbn [write_seps seps_open]; [intros _; apply sees_ret|]. intros (Hp & Hx & Hq & Hl).
      apply sees_bind; [apply sees_lazy; auto|]. intros b. apply sees_bind; [apply sees_if_newline; auto|].
      intros _. apply sees_bind; [auto|]. intros _. apply sees_bind; [auto|]. intros _. apply sees_bind; [now apply sees_seps_rest|].
      intros r. apply sees_bind; [exact trailing_sees|]. intros t. apply sees_bind; [|intros; apply sees_ret].
      destruct (_ || _); [apply sees_emit|apply sees_ret].
    Qed.
  End Lists.
End Frame.
