(** Outcomes of the writer: which of its results are possible, and that it leaves the state as it was. *)
From Verif Require Import Base Lib Config State Ast WriterBase LuaWriter WriterFrame.

(** ** the state up to the two fields set before each comment block *)
Definition base (s : state) : state := set_comment 0 None s.
(** [s] after opening the indentations [os] (the last one first) and [k] functions *)
Definition ups (os : list (option str)) (k : nat) (s : state) : state :=
  set_func_level (function_nested_level s + Z.of_nat k) (fold_right inc_indent_st s os).
Definition at_depth (d k : nat) (s0 s : state) : Prop := exists os, List.length os = d /\ s = ups os k s0.

Lemma base_inc o s : base (inc_indent_st o s) = inc_indent_st o (base s).
Proof. reflexivity. Qed.
Lemma base_dec s : base (dec_indent_st s) = dec_indent_st (base s).
Proof. unfold dec_indent_st. cbn [base set_comment stack_indent]. destruct (stack_indent s); reflexivity. Qed.
Lemma dec_inc o s : dec_indent_st (inc_indent_st o s) = s.
Proof.
  destruct s as [lv sk fn bn pr cr co cb]. unfold inc_indent_st, dec_indent_st, set_indent.
  cbn [stack_indent indent_level function_nested_level block_nested_level pos_range comment_pos_range comment_offset c2b].
  destruct (is_none o || _); f_equal; lia.
Qed.
Lemma ups_inc o os k s : inc_indent_st o (ups os k s) = ups (o :: os) k s.
Proof. reflexivity. Qed.
Lemma func_inc z o s : set_func_level z (inc_indent_st o s) = inc_indent_st o (set_func_level z s).
Proof. reflexivity. Qed.
Lemma ups_dec o os k s : dec_indent_st (ups (o :: os) k s) = ups os k s.
Proof. unfold ups. cbn [fold_right]. rewrite func_inc. apply dec_inc. Qed.
Lemma fold_func os s : function_nested_level (fold_right inc_indent_st s os) = function_nested_level s.
Proof. induction os as [|o os IH]; [reflexivity|]. exact IH. Qed.
Lemma ups_zero s : ups [] 0 s = s.
Proof. unfold ups. cbn [fold_right Z.of_nat]. rewrite Z.add_0_r. now destruct s. Qed.
Lemma at_depth_zero s0 s : at_depth 0 0 s0 s <-> s = s0.
Proof.
  split.
  - intros (os & E & ->). destruct os; [apply ups_zero|discriminate].
  - intros ->. exists []. split; [reflexivity|]. symmetry. apply ups_zero.
Qed.

Section Total.
  (** which failures are possible, which texts may be in a buffer, which states are met *)
  Variables (Ef Pf Ff : Prop) (T : str -> Prop) (I : state -> Prop).
  Hypothesis T_nil : T [].
  Hypothesis T_app : forall a b, T a -> T b -> T (a ++ b).
  Hypothesis T_nl : forall a, T (a ++ [ch_nl]).
  Hypothesis I_indent : forall s lv sk, I s -> I (set_indent lv sk s).
  Hypothesis I_func : forall s z, I s -> I (set_func_level z s).
  Hypothesis Ef_T : Ef -> forall t, T t.
  Hypothesis Ef_I : Ef -> forall s, I s.

  Definition res_ok {A} (Q : A -> Prop) (S : state -> Prop) (r : res A * world) : Prop :=
    match r with
    | (ROk a, w) => Q a /\ T (w_f w) /\ I (w_st w) /\ S (base (w_st w))
    | (RErr, _) => Ef
    | (RPanic, _) => Pf
    | (RFuel, _) => Ff
    end.
  Definition run (d k : nat) {A} (m : M A) (Q : A -> Prop) (d' k' : nat) : Prop :=
    forall s0 w, T (w_f w) -> I (w_st w) -> at_depth d k s0 (base (w_st w)) -> res_ok Q (at_depth d' k' s0) (m w).
  Definition okq {A} (Q : A -> Prop) (m : M A) : Prop := forall d k, run d k m Q d k.
  Definition ok {A} (m : M A) : Prop := okq (fun _ => True) m.

  Lemma run_bind {A B} d k (m : M A) (f : A -> M B) P Q d1 k1 d2 k2 :
    run d k m P d1 k1 -> (forall a, P a -> run d1 k1 (f a) Q d2 k2) -> run d k (bind m f) Q d2 k2.
  Proof.
    intros Hm Hf s0 w Ht Hi Hd. unfold bind. specialize (Hm s0 w Ht Hi Hd). destruct (m w) as [[a| | |] w1]; try exact Hm.
    destruct Hm as (Pa & T1 & I1 & D1). now apply Hf.
  Qed.
  Lemma run_weaken {A} d k (m : M A) (P Q : A -> Prop) d' k' : run d k m P d' k' -> (forall a, P a -> Q a) -> run d k m Q d' k'.
  Proof.
    intros Hm H s0 w Ht Hi Hd. specialize (Hm s0 w Ht Hi Hd). destruct (m w) as [[a| | |] w1]; try exact Hm.
    destruct Hm as (Pa & Hm). split; [now apply H|exact Hm].
  Qed.
  Lemma ok_bind {A B} (m : M A) (f : A -> M B) P Q : okq P m -> (forall a, P a -> okq Q (f a)) -> okq Q (bind m f).
  Proof. intros Hm Hf d k. eapply run_bind; [apply Hm|]. intros a Ha. now apply Hf. Qed.
  Lemma ok_seq {A B} (m : M A) (f : A -> M B) Q : ok m -> (forall a, okq Q (f a)) -> okq Q (bind m f).
  Proof. intros Hm Hf. eapply ok_bind; [exact Hm|]. auto. Qed.
  Lemma ok_weaken {A} (m : M A) (P Q : A -> Prop) : okq P m -> (forall a, P a -> Q a) -> okq Q m.
  Proof. intros Hm H d k. eapply run_weaken; [apply Hm|exact H]. Qed.
  Lemma ok_any {A} (m : M A) P : okq P m -> ok m.
  Proof. intros H. eapply ok_weaken; [exact H|auto]. Qed.
  Lemma ok_leaf {A} (m : M A) (Q : A -> Prop) :
    (forall w, T (w_f w) -> I (w_st w) -> res_ok Q (fun s => s = base (w_st w)) (m w)) -> okq Q m.
  Proof.
    intros H d k s0 w Ht Hi Hd. specialize (H w Ht Hi). destruct (m w) as [[a| | |] w1]; try exact H.
    destruct H as (Qa & T1 & I1 & E). repeat split; auto. now rewrite E.
  Qed.
  Lemma ok_ret {A} (a : A) (Q : A -> Prop) : Q a -> okq Q (ret a).
  Proof. intros H. apply ok_leaf. intros w Ht Hi. repeat split; auto. Qed.
  Lemma ok_emit t : T t -> ok (emit t).
  Proof. intros H. apply ok_leaf. intros w Ht Hi. cbn. repeat split; auto. Qed.
  Lemma ok_panic {A} (Q : A -> Prop) : Pf -> okq Q panic.
  Proof. intros H. apply ok_leaf. intros w Ht Hi. exact H. Qed.
  Lemma ok_err {A} (Q : A -> Prop) : Ef -> okq Q err.
  Proof. intros H. apply ok_leaf. intros w Ht Hi. exact H. Qed.
  Lemma ok_nofuel {A} (Q : A -> Prop) : Ff -> okq Q nofuel.
  Proof. intros H. apply ok_leaf. intros w Ht Hi. exact H. Qed.
  Lemma ok_get_st {B} (f : state -> M B) Q : (forall s, I s -> okq Q (f s)) -> okq Q (s <- get_st ;; f s).
  Proof. intros H d k s0 w Ht Hi Hd. unfold bind, get_st. now apply H. Qed.
  Lemma ok_get_f {B} (f : str -> M B) Q : (forall t, T t -> okq Q (f t)) -> okq Q (t <- get_f ;; f t).
  Proof. intros H d k s0 w Ht Hi Hd. unfold bind, get_f. now apply H. Qed.
  Lemma ok_buffer start m : T start -> ok m -> okq T (in_buffer start m).
  Proof.
    intros Hs Hm d k s0 w Ht Hi Hd. unfold in_buffer. specialize (Hm d k s0 (set_f start w) Hs Hi Hd).
    destruct (m (set_f start w)) as [[a| | |] w1]; try exact Hm. destruct Hm as (_ & T1 & I1 & D1). repeat split; auto.
  Qed.
  (** a computation on copies *)
  Lemma ok_restore {A} (m : M A) (Q : A -> Prop) : (forall w, T (w_f w) -> I (w_st w) ->
      match m w with (ROk a, w') => Q a /\ w_f w' = w_f w /\ w_st w' = w_st w | (RErr, _) => Ef | (RPanic, _) => Pf | (RFuel, _) => Ff end) ->
    okq Q m.
  Proof.
    intros H. apply ok_leaf. intros w Ht Hi. specialize (H w Ht Hi). destruct (m w) as [[a| | |] w1]; try exact H.
    destruct H as (Qa & E1 & E2). cbn. rewrite E1, E2. auto.
  Qed.
  Lemma run_all_ok ms : (forall m, In m ms -> ok m) -> forall b w, T (w_f w) -> I (w_st w) ->
    match run_all ms b w with (ROk _, w') => T (w_f w') | (RErr, _) => False | (RPanic, _) => Pf | (RFuel, _) => Ff end.
  Proof.
    intros H. induction ms as [|m ms IH]; intros b w Ht Hi; cbn [run_all]; [exact Ht|].
    specialize (IH (fun x Hx => H x (or_intror Hx))).
    pose proof (H m (or_introl eq_refl) 0 0 _ w Ht Hi (proj2 (at_depth_zero _ _) eq_refl)) as Hm.
    destruct (m w) as [[a| | |] w1]; try exact Hm; cbn in Hm.
    - destruct Hm as (_ & T1 & I1 & _). now apply IH.
    - apply IH; [now apply Ef_T|now apply Ef_I].
  Qed.
  Definition topt (o : option str) : Prop := match o with Some t => T t | None => True end.
  Lemma ok_test c ms : (Pf \/ cn c N_max_width <> None) -> (forall m, In m ms -> ok m) -> okq topt (test_oneline c ms).
  Proof.
    intros Hw H. apply ok_restore. intros w Ht Hi. unfold test_oneline.
    pose proof (run_all_ok ms H false (set_f [] w) T_nil Hi) as R.
    destruct (run_all ms false (set_f [] w)) as [[[]| | |] w1]; try exact R; [cbn; auto| |contradiction].
    destruct (cn c N_max_width) as [mw|]; [|destruct Hw as [Hw|Hw]; [exact Hw|congruence]]. cbn.
    destruct (N.ltb _ _); cbn; auto.
  Qed.
  Lemma ok_test_no_nl c ms : (Pf \/ cn c N_max_width <> None) -> (forall m, In m ms -> ok m) -> okq topt (test_oneline_no_nl c ms).
  Proof.
    intros Hw H. eapply ok_bind; [now apply ok_test|]. intros [t|] Hr; apply ok_ret; cbn in *; auto.
    destruct (has_newlines t); cbn; auto.
  Qed.
  Lemma ok_on_copy m : ok m -> ok (on_copy m).
  Proof.
    intros H. apply ok_restore. intros w Ht Hi. unfold on_copy.
    pose proof (H 0 0 _ w Ht Hi (proj2 (at_depth_zero _ _) eq_refl)) as Hm. destruct (m w) as [[a| | |] w1]; cbn in *; auto.
  Qed.
  Lemma ok_isnone {A} (m : M (option A)) P : okq P m -> ok (isnone m).
  Proof. intros H. eapply ok_bind; [exact H|]. intros a _. now apply ok_ret. Qed.
  Lemma ok_issome {A} (m : M (option A)) P : okq P m -> ok (issome m).
  Proof. intros H. eapply ok_bind; [exact H|]. intros a _. now apply ok_ret. Qed.
  Lemma ok_get_oneline n : ok (get_oneline n).
  Proof. apply ok_restore. intros w Ht Hi. cbn. auto. Qed.
  Lemma ok_set_oneline n : ok (set_oneline n).
  Proof. apply ok_restore. intros w Ht Hi. cbn. auto. Qed.
  Lemma ok_get_indent n : ok (get_indent n).
  Proof. apply ok_restore. intros w Ht Hi. cbn. auto. Qed.
  Lemma ok_set_indent n b : ok (set_indent_cell n b).
  Proof. apply ok_restore. intros w Ht Hi. cbn. auto. Qed.

  Lemma run_inc d k o : run d k (inc_indent o) (fun _ => True) (S d) k.
  Proof.
    intros s0 w Ht Hi (os & El & E). unfold inc_indent, bind, get_st, put_st. cbn [res_ok set_st w_f w_st]. split; [exact Logic.I|]. split; [exact Ht|]. split; [now apply I_indent|].
    exists (o :: os). split; [cbn; congruence|]. change (base _) with (inc_indent_st o (base (w_st w))). rewrite E. apply ups_inc.
  Qed.
  Lemma run_dec d k : run (S d) k dec_indent (fun _ => True) d k.
  Proof.
    intros s0 w Ht Hi (os & El & E). unfold dec_indent, bind, get_st, put_st. cbn [res_ok set_st w_f w_st]. split; [exact Logic.I|]. split; [exact Ht|]. split.
    - unfold dec_indent_st. destruct (stack_indent (w_st w)); auto.
    - destruct os as [|o os]; [discriminate|]. exists os. split; [cbn in El; congruence|]. rewrite base_dec, E. apply ups_dec.
  Qed.
  Lemma run_incf d k : run d k inc_func_level (fun _ => True) d (S k).
  Proof.
    intros s0 w Ht Hi (os & El & E). unfold inc_func_level, bind, get_st, put_st. cbn [res_ok set_st w_f w_st]. split; [exact Logic.I|]. split; [exact Ht|]. split; [now apply I_func|]. exists os. split; [exact El|].
    change (base _) with (set_func_level (function_nested_level (base (w_st w)) + 1) (base (w_st w))). rewrite E. unfold ups, set_func_level. cbn [indent_level stack_indent function_nested_level block_nested_level pos_range comment_pos_range comment_offset c2b]. f_equal; lia.
  Qed.
  Lemma run_decf d k : run d (S k) dec_func_level (fun _ => True) d k.
  Proof.
    intros s0 w Ht Hi (os & El & E). unfold dec_func_level, bind, get_st, put_st. cbn [res_ok set_st w_f w_st]. split; [exact Logic.I|]. split; [exact Ht|]. split; [now apply I_func|]. exists os. split; [exact El|].
    change (base _) with (set_func_level (function_nested_level (base (w_st w)) - 1) (base (w_st w))). rewrite E. unfold ups, set_func_level. cbn [indent_level stack_indent function_nested_level block_nested_level pos_range comment_pos_range comment_offset c2b]. f_equal; lia.
  Qed.

  (** ** [IfNewLine] *)
  Lemma ok_if_newline c b (H : hinted) h : (forall s, T (indent_text c s)) -> (b = false -> ok (H h)) -> (b = true -> ok (H [])) ->
    ok (if_newline c b H h).
  Proof.
    intros Hi H1 H2. unfold if_newline. destruct b; cbn [negb]; [|auto]. eapply ok_bind; [apply ok_buffer; [exact T_nil|auto]|].
    intros block Tb. apply ok_seq.
    - set (t := trim_end_spaces_and_tabs block). destruct (is_empty t); cbn [negb].
      + apply ok_leaf. intros w Ht Is. cbn. repeat split; auto. destruct (ends_nl (pop_blank (w_f w))) eqn:E; [|apply T_nl].
        apply ends_nl_iff in E as (z & ->). apply T_nl.
      + apply ok_leaf. intros w Ht Is. unfold bind, emit. destruct (ends_nl t) eqn:E; cbn; repeat split; auto.
        apply ends_nl_iff in E as (z & ->). rewrite app_assoc. apply T_nl.
    - intros _. unfold write_indent. apply ok_get_st. intros s _. apply ok_emit, Hi.
  Qed.

  (** ** lists *)
  Section Lists.
    Context {node : Type}.
    Variables (c : config) (buf : str) (LH : loc -> hinted) (W : node -> M unit) (nn : bool)
      (first_nl : node -> M bool) (nl : node -> node -> M bool) (ph : node -> str) (okp : loc -> Prop) (okn : node -> Prop).
    Hypothesis Hind : forall s, T (indent_text c s).
    Hypothesis LH_ok : forall p h, okp p -> T h -> ok (LH p h).
    Hypothesis W_ok : forall x, okn x -> ok (W x).
    Hypothesis first_ok : forall x, okn x -> ok (first_nl x).
    Hypothesis nl_ok : forall x y, okn x -> okn y -> ok (nl x y).
    Hypothesis ph_ok : forall x, T (ph x).
    Hypothesis raw_ok : forall s l, I s -> pos_range s <> None -> okp l -> ok (write_loc buf l).

    Lemma ok_lazy b m : ok m -> ok (lazy_and b m).
    Proof. intros H. unfold lazy_and. destruct b; [exact H|now apply ok_ret]. Qed.
    Lemma raw_range s p : I s -> okp p -> test_out_of_range (pos_range s) p = true -> (forall b, ok (write_loc buf p ;;; ret (b : bool))).
    Proof.
      intros Hi Hp E b. apply ok_seq; [|intros; now apply ok_ret]. apply (raw_ok s); [exact Hi| |exact Hp]. intros E2. now rewrite E2 in E.
    Qed.
    Lemma ok_gap p h b m : okp p -> T h -> ok m ->
      ok (b0 <- lazy_and nn m ;; if_newline c b0 (LH p) h ;;; ret (b || b0)).
    Proof.
      intros Hp Hh Hm. apply ok_seq; [now apply ok_lazy|]. intros b0. apply ok_seq; [|intros; now apply ok_ret].
      apply ok_if_newline; auto.
    Qed.
    Lemma ok_list_rest l : Forall (fun x => okp (fst x) /\ okn (snd x)) l -> forall b prev, okn prev ->
      ok (write_list_rest c buf LH W nn nl ph b prev l).
    Proof.
      induction 1 as [|[p x] l [Hp Hx] Hl IH]; intros b prev Hpv; cbn [write_list_rest]; [now apply ok_ret|]. cbn in Hp, Hx.
      apply ok_get_st. intros s Hs. apply ok_seq.
      - destruct (test_out_of_range (pos_range s) p) eqn:E; [now apply (raw_range s)|]. apply ok_gap; auto.
      - intros b0. apply ok_seq; [auto|]. intros _. now apply IH.
    Qed.
    Lemma ok_list l : Forall (fun x => okp (fst x) /\ okn (snd x)) l -> ok (write_list c buf LH W nn first_nl nl ph l).
    Proof.
      intros H. destruct H as [|[p x] l [Hp Hx] Hl]; cbn [write_list]; [now apply ok_ret|]. cbn in Hp, Hx.
      apply ok_seq; [apply ok_lazy; auto|]. intros b. apply ok_seq; [apply ok_if_newline; auto|].
      intros _. apply ok_seq; [auto|]. intros _. now apply ok_list_rest.
    Qed.

    Variables (sep : option str) (trailing : M (option bool)) (eh : str).
    Hypothesis eh_ok : T eh.
    Hypothesis trailing_ok : ok trailing.
    Definition okx (x : loc * node * loc * str) : Prop :=
      okp (fst (fst (fst x))) /\ okn (snd (fst (fst x))) /\ okp (snd (fst x)) /\ T (get_sep sep (snd x)).
    Lemma ok_seps_rest l : Forall okx l -> forall b prev z, okn prev -> T (get_sep sep z) ->
      okq (fun r => T (get_sep sep (snd r))) (write_seps_rest c buf LH W nn nl sep eh b prev z l).
    Proof.
      induction 1 as [|[[[p x] q] z'] l (Hp & Hx & Hq & Hz') Hl IH]; intros b prev z Hpv Hz; cbn [write_seps_rest]; [now apply ok_ret|].
      cbn in Hp, Hx, Hq, Hz'. apply ok_seq; [now apply ok_emit|]. intros _. apply ok_get_st. intros s Hs. apply ok_seq.
      - destruct (test_out_of_range (pos_range s) p) eqn:E; [now apply (raw_range s)|]. apply ok_gap; auto.
      - intros b0. apply ok_seq; [auto|]. intros _. apply ok_seq; [auto|]. intros _. now apply IH.
    Qed.
    Lemma ok_seps l : Forall okx l -> ok (write_seps c buf LH W nn first_nl nl sep trailing eh l).
    Proof.
      intros H. destruct H as [|[[[p x] q] z] l (Hp & Hx & Hq & Hz) Hl]; cbn [write_seps]; [now apply ok_ret|]. cbn in Hp, Hx, Hq, Hz.
      apply ok_seq; [apply ok_lazy; auto|]. intros b. apply ok_seq; [apply ok_if_newline; auto|].
      intros _. apply ok_seq; [auto|]. intros _. apply ok_seq; [auto|]. intros _.
      eapply ok_bind; [now apply ok_seps_rest|]. intros r Hr. apply ok_seq; [exact trailing_ok|]. intros t.
      apply ok_seq; [destruct (_ || _); [now apply ok_emit|now apply ok_ret]|]. intros _. now apply ok_ret.
    Qed.
  End Lists.
End Total.
