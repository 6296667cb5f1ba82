(** The whole lexer: its successes are exactly the tokenizations. *)
From Verif Require Import Base Lib LexUtil LuaLexer LexSpec LexProofs LexStep LexBack.

Lemma gap_text_app a b : gap_text (a ++ b) = gap_text a ++ gap_text b.
Proof. apply flat_map_app. Qed.
Lemma gap_len g l : List.length (gap_text (g :: l)) = List.length (gitem_text g) + List.length (gap_text l).
Proof. apply app_length. Qed.
Lemma gap_cons g l : gitem_ok g -> is_last g = false -> gap l -> gap (g :: l).
Proof. intros. constructor; auto. Qed.

Lemma tokenization_gap p g rest ts : gitem_ok g -> is_last g = false ->
  tokenization (p + List.length (gitem_text g)) rest ts -> tokenization p (gitem_text g ++ rest) ts.
Proof.
  intros Hok Hl T. remember (p + List.length (gitem_text g)) as q eqn:Eq.
  revert Eq. destruct T as [q l Hg|q l t w rest ts Hg Ht Hw Hf T]; intros Eq.
  - replace (gitem_text g ++ gap_text l) with (gap_text (g :: l)) by reflexivity.
    replace (q + List.length (gap_text l)) with (p + List.length (gap_text (g :: l))) by (rewrite gap_len; lia).
    apply tz_end. destruct Hg as (l0 & l1 & -> & H0 & H1). exists (g :: l0), l1. repeat split; auto. now apply gap_cons.
  - replace (gitem_text g ++ gap_text l ++ w ++ rest) with (gap_text (g :: l) ++ w ++ rest) by (cbn; now rewrite <- app_assoc).
    replace (q + List.length (gap_text l)) with (p + List.length (gap_text (g :: l))) in * by (rewrite gap_len; lia).
    apply tz_tok; auto. now apply gap_cons.
Qed.

Lemma loop_sound : forall fuel p s n ts, n = p + List.length s -> lex_loop n fuel (p, s) = LexOk ts -> tokenization p s ts.
Proof.
  induction fuel as [|fuel IH]; intros p s n ts Hn; cbn [lex_loop]; [discriminate|].
  destruct s as [|ch r]; cbn [snd fst].
  - intros [= <-]. rewrite Hn. cbn. apply (tz_end p []). exists [], []. repeat split; auto. constructor.
  - pose proof (lex_step_ok p ch r) as S. destruct (lex_step p ch r) as [[q rest]|l t e [q rest]|err]; [| |discriminate].
    + destruct S as (g & Hok & E & Hq & Hl). cbn [snd fst] in *. rewrite E. rewrite E in Hn. rewrite app_length in Hn.
      destruct (is_last g) eqn:El; intros L.
      * rewrite (Hl eq_refl) in *. destruct fuel as [|fuel]; [discriminate L|]. cbn in L. injection L as <-.
        rewrite app_nil_r. cbn in Hn. rewrite Nat.add_0_r in Hn. subst n. destruct g; try discriminate.
        replace (gitem_text (GLast s)) with (gap_text [GLast s]) by (cbn; now rewrite app_nil_r).
        apply tz_end. exists [], [GLast s]. repeat split; [constructor|]. right. eauto.
      * apply IH in L; [|lia]. apply tokenization_gap; auto. now rewrite <- Hq.
    + destruct S as (-> & w & Hne & Hok & Hw & Hf & E & -> & Hq). cbn [snd fst] in *. rewrite E. rewrite E in Hn.
      rewrite app_length in Hn. subst q.
      destruct (lex_loop n fuel (p + List.length w, rest)) as [ts'| |] eqn:L; try discriminate. intros [= <-].
      apply IH in L; [|lia].
      pose proof (tz_tok p [] t w rest ts' (Forall_nil _) Hok Hw Hf) as T. cbn in T. rewrite Nat.add_0_r in T. auto.
Qed.

Lemma gap_loop : forall l fuel p rest n, Forall gitem_ok l ->
  (forall g, In g l -> is_last g = false) \/ (rest = [] /\ forall l0 g, l = l0 ++ [g] -> forall h, In h l0 -> is_last h = false) ->
  List.length (gap_text l ++ rest) < fuel ->
  exists k, List.length rest < k /\ lex_loop n fuel (p, gap_text l ++ rest) = lex_loop n k (p + List.length (gap_text l), rest).
Proof.
  induction l as [|g l IH]; intros fuel p rest n Hok Hl Hf.
  - cbn in *. exists fuel. split; [exact Hf|]. now rewrite Nat.add_0_r.
  - destruct fuel as [|fuel]; [lia|]. inversion Hok as [|? ? Hg Hok']; subst.
    assert (Hne : 1 <= List.length (gitem_text g)) by (destruct g; cbn; lia).
    destruct (gitem_text g ++ gap_text l ++ rest) as [|ch r] eqn:E.
    { apply (f_equal (@List.length N)) in E. rewrite app_length in E. cbn in E. lia. }
    assert (Hlast : is_last g = true -> gap_text l ++ rest = []).
    { intros Hg'. destruct Hl as [Hl|[-> Hl]]; [rewrite Hl in Hg' by (now left); discriminate|].
      destruct l as [|h l]; [reflexivity|]. destruct (exists_last (l := h :: l)) as (l0 & x & El); [discriminate|].
      rewrite (Hl (g :: l0) x) in Hg'; [discriminate|now rewrite El|now left]. }
    destruct (IH fuel (p + List.length (gitem_text g)) rest n Hok') as (k & Hk & Ek).
    + destruct Hl as [Hl|[-> Hl]]; [left|right; split; [reflexivity|]].
      * intros h Hh. apply Hl. now right.
      * intros l0 x -> h Hh. apply (Hl (g :: l0) x); [reflexivity|now right].
    + cbn [gap_text flat_map] in Hf. rewrite <- app_assoc, app_length in Hf. change (flat_map gitem_text l) with (gap_text l) in Hf. lia.
    + exists k. split; [exact Hk|]. cbn [gap_text flat_map]. rewrite <- app_assoc. change (flat_map gitem_text l) with (gap_text l).
      rewrite E. cbn [lex_loop snd fst].
      rewrite (gitem_back p g (gap_text l ++ rest) ch r Hg Hlast E). rewrite Ek. do 2 f_equal. rewrite app_length. lia.
Qed.

Lemma loop_complete p s ts : tokenization p s ts -> forall fuel, List.length s < fuel ->
  lex_loop (p + List.length s) fuel (p, s) = LexOk ts.
Proof.
  induction 1 as [p l Hg|p l t w rest ts Hg Ht Hw Hf T IH]; intros fuel Hfuel.
  - destruct (gap_loop l fuel p [] (p + List.length (gap_text l))) as (k & Hk & Ek).
    + destruct Hg as (l0 & l1 & -> & H0 & H1). apply Forall_app. split.
      * eapply Forall_impl; [|exact H0]. intros g Hg; apply Hg.
      * destruct H1 as [->|(s & -> & Hs)]; constructor; auto.
    + destruct Hg as (l0 & l1 & -> & H0 & H1). unfold gap in H0. rewrite Forall_forall in H0.
      destruct H1 as [->|(s & -> & Hs)].
      * left. intros g Hg. rewrite app_nil_r in Hg. apply H0. exact Hg.
      * right. split; [reflexivity|]. intros l0' g E h Hh. apply app_inj_tail in E. destruct E as [-> _]. now apply H0.
    + now rewrite app_nil_r.
    + rewrite app_nil_r in Ek. rewrite Ek. destruct k as [|k]; [cbn in Hk; lia|]. reflexivity.
  - assert (Hne : w <> []).
    { intros ->. destruct t; cbn in Hw, Ht; try discriminate; auto.
      - subst. exact Ht.
      - subst. destruct Ht as (? & [= <-] & Ht). discriminate.
      - destruct Ht as (? & -> & _). destruct Hw as [Hw|[Hw _]]; discriminate. }
    destruct (gap_loop l fuel p (w ++ rest) (p + List.length (gap_text l ++ w ++ rest))) as (k & Hk & Ek).
    + eapply Forall_impl; [|exact Hg]. intros g H; apply H.
    + left. intros g H. unfold gap in Hg. rewrite Forall_forall in Hg. now apply Hg.
    + exact Hfuel.
    + rewrite Ek. destruct k as [|k]; [lia|]. destruct (w ++ rest) as [|ch r] eqn:E; [destruct w; [congruence|discriminate]|].
      cbn [lex_loop snd fst]. rewrite (token_back _ t w rest ch r Ht Hw Hf E).
      replace (p + List.length (gap_text l ++ ch :: r)) with (p + List.length (gap_text l) + List.length w + List.length rest)
        by (rewrite <- E, !app_length; lia).
      rewrite IH; [reflexivity|]. rewrite <- E, app_length in Hk. destruct w; [congruence|]. cbn in Hk. lia.
Qed.

Theorem lex_correct src ts : lex src = LexOk ts <-> tokenization 0 src ts.
Proof.
  unfold lex. split.
  - apply loop_sound. reflexivity.
  - intros T. apply (loop_complete 0 src ts T). lia.
Qed.

Lemma loop_total : forall fuel p s n, List.length s < fuel -> lex_loop n fuel (p, s) <> LexFuel.
Proof.
  induction fuel as [|fuel IH]; intros p s n Hf; [lia|]. cbn [lex_loop snd fst]. destruct s as [|ch r]; [discriminate|].
  pose proof (lex_step_ok p ch r) as S. destruct (lex_step p ch r) as [[q rest]|l t e [q rest]|err]; [| |discriminate].
  - destruct S as (g & Hok & E & Hq & Hl). apply IH. cbn [snd] in E. rewrite E, app_length in Hf.
    assert (1 <= List.length (gitem_text g)) by (destruct g; cbn; lia). lia.
  - destruct S as (-> & w & Hne & Hok & Hw & Hfo & E & -> & Hq). cbn [snd] in E. rewrite E, app_length in Hf.
    specialize (IH q rest n). destruct (lex_loop n fuel (q, rest)) eqn:L; try discriminate.
    exfalso. apply IH; [|reflexivity]. destruct w; [congruence|]. cbn in Hf. lia.
Qed.
Theorem lex_total src : lex src <> LexFuel.
Proof. apply loop_total. lia. Qed.

(** consequences for the positions *)
Lemma tokenization_unique p s ts ts' : tokenization p s ts -> tokenization p s ts' -> ts = ts'.
Proof.
  intros H H'. apply loop_complete with (fuel := S (List.length s)) in H; [|lia].
  apply loop_complete with (fuel := S (List.length s)) in H'; [|lia]. congruence.
Qed.

Lemma text_at_mid (a b c : str) l r : l = List.length a -> r = List.length a + List.length b -> text_at (a ++ b ++ c) l r = b.
Proof.
  intros -> ->. unfold text_at. rewrite skipn_app, skipn_all, Nat.sub_diag. cbn [app skipn].
  replace (List.length a + List.length b - List.length a) with (List.length b) by lia.
  rewrite firstn_app, firstn_all, Nat.sub_diag. cbn. apply app_nil_r.
Qed.
Lemma skipn_pre (a b : str) n : n = List.length a -> skipn n (a ++ b) = b.
Proof. intros ->. rewrite skipn_app, skipn_all, Nat.sub_diag. reflexivity. Qed.
Lemma written_nonempty t w rest : token_ok t -> written t w rest -> w <> [].
Proof.
  intros Ht Hw ->. destruct t; cbn in Hw, Ht; try discriminate; auto.
  - subst. exact Ht.
  - subst. destruct Ht as (? & [= <-] & Ht). discriminate.
  - destruct Ht as (? & -> & _). destruct Hw as [Hw|[Hw _]]; discriminate.
Qed.
Lemma tokenization_tiles p s ts : tokenization p s ts -> forall pre, List.length pre = p -> tiles (pre ++ s) p ts.
Proof.
  induction 1 as [p l Hg|p l t w rest ts Hg Ht Hw Hf T IH]; intros pre Hp.
  - cbn. repeat split; try lia.
    + now rewrite app_length, Hp.
    + exists l. split; [exact Hg|]. rewrite <- (app_nil_r (gap_text l)) at 1. apply text_at_mid; lia.
  - assert (Hts : exists x y, ts = x :: y) by (inversion T; eauto). destruct Hts as (x & y & ->).
    change (tiles (pre ++ gap_text l ++ w ++ rest) p ((p + List.length (gap_text l), t, p + List.length (gap_text l) + List.length w) :: x :: y))
      with (p <= p + List.length (gap_text l)
        /\ p + List.length (gap_text l) < p + List.length (gap_text l) + List.length w
        /\ p + List.length (gap_text l) + List.length w <= List.length (pre ++ gap_text l ++ w ++ rest) /\ token_ok t
        /\ (exists g, gap g /\ text_at (pre ++ gap_text l ++ w ++ rest) p (p + List.length (gap_text l)) = gap_text g)
        /\ written t (text_at (pre ++ gap_text l ++ w ++ rest) (p + List.length (gap_text l)) (p + List.length (gap_text l) + List.length w))
             (skipn (p + List.length (gap_text l) + List.length w) (pre ++ gap_text l ++ w ++ rest))
        /\ tiles (pre ++ gap_text l ++ w ++ rest) (p + List.length (gap_text l) + List.length w) (x :: y)).
    pose proof (written_nonempty _ _ _ Ht Hw) as Hne. assert (1 <= List.length w) by (destruct w; [congruence|cbn; lia]).
    repeat split; try lia; auto.
    + rewrite !app_length. lia.
    + exists l. split; [exact Hg|]. apply text_at_mid; lia.
    + rewrite (app_assoc pre), text_at_mid by (rewrite ?app_length; lia).
      rewrite (app_assoc (pre ++ gap_text l)), skipn_pre by (rewrite ?app_length; lia). exact Hw.
    + rewrite !app_assoc. apply IH. rewrite !app_length. lia.
Qed.
Theorem lex_tiles src ts : lex src = LexOk ts -> tiles src 0 ts.
Proof. intros H. apply lex_correct in H. apply (tokenization_tiles 0 src ts H []). reflexivity. Qed.

Lemma tokenization_count p s ts : tokenization p s ts -> List.length ts <= List.length s + 1.
Proof.
  induction 1 as [p l Hg|p l t w rest ts Hg Ht Hw Hf T IH]; cbn; [lia|].
  pose proof (written_nonempty _ _ _ Ht Hw). destruct w; [congruence|]. rewrite !app_length. cbn. lia.
Qed.
Theorem lex_ends src : (exists ts, lex src = LexOk ts /\ List.length ts <= List.length src + 1) \/ (exists e, lex src = LexFail e).
Proof.
  destruct (lex src) as [ts|e|] eqn:E; [left|right; eauto|now elim (lex_total src)].
  exists ts. split; [reflexivity|]. apply lex_correct in E. eapply tokenization_count; eauto.
Qed.

(** ** C31 and C32 as far as they hold *)
Lemma long_end_shortest level s : forall b rest, long_end level false s = Some (b, rest) -> ~ In 92%N b ->
  forall b' r, s = b' ++ closing level ++ r -> List.length b <= List.length b'.
Proof.
  assert (G : forall s e b rest, long_end level e s = Some (b, rest) -> ~ In 92%N b -> forall b' r, s = b' ++ closing level ++ r ->
    (e = false \/ b' <> []) -> List.length b <= List.length b').
  { clear s. induction s as [|c s IH]; intros e b rest; [discriminate|]. rewrite long_end_cons.
    destruct (negb e && starts_with (closing level) (c :: s)) eqn:E.
    - intros [= <- <-] _ b' r _ _. cbn. lia.
    - destruct (long_end level (c =? 92)%N s) as [[b0 rest0]|] eqn:L; [|discriminate]. intros [= <- <-] Hn b' r Es He.
      destruct b' as [|x b'].
      + exfalso. assert (S : starts_with (closing level) (c :: s) = true) by (apply starts_with_app; exists r; exact Es).
        destruct He as [->|He]; [|congruence]. now rewrite S in E.
      + cbn in Es. injection Es as -> Es. cbn. apply le_n_S. refine (IH _ _ _ L _ b' r Es _).
        * intros H. apply Hn. now right.
        * left. apply N.eqb_neq. intros ->. apply Hn. now left. }
  intros b rest H Hn b' r Es. eapply G; eauto.
Qed.
Lemma long_body_first level b : long_body level b -> ~ In 92%N b -> before_first (closing level) b.
Proof.
  intros H Hn b' r E. unfold long_body in H. pose proof (long_end_shortest level _ b [] H Hn b' r E) as Hl.
  assert (List.length b = List.length b').
  { apply (f_equal (@List.length N)) in E. rewrite !app_length in E. lia. }
  clear Hl H Hn. revert b' H0 E. induction b as [|x b IH]; intros [|y b']; cbn; try discriminate; [reflexivity|].
  intros [= Hl] [= -> E]. f_equal. eapply IH; eauto.
Qed.
Lemma tiles_in src ts : forall p l t r, tiles src p ts -> In (l, t, r) ts -> t <> EOF ->
  token_ok t /\ written t (text_at src l r) (skipn r src).
Proof.
  induction ts as [|[[l0 t0] r0] ts IH]; intros p l t r; [intros []|]. cbn [tiles].
  destruct ts as [|x ts].
  - intros (-> & _) [[= <- <- <-]|[]] Hne. congruence.
  - intros (_ & _ & _ & Hok & _ & Hw & T) [[= <- <- <-]|Hin] Hne; [auto|]. eapply IH; eauto.
Qed.
Theorem long_string_first src ts l level b r : lex src = LexOk ts -> In (l, MultiLineStringLiteral level b, r) ts ->
  ~ In 92%N b -> text_at src l r = long level b /\ before_first (closing level) b.
Proof.
  intros L Hin Hn. apply lex_tiles in L. destruct (tiles_in src ts _ _ _ _ L Hin) as [Hok Hw]; [discriminate|].
  split; [exact Hw|]. now apply long_body_first.
Qed.

Lemma num_run_app st a b : num_run st (a ++ b) = match num_run st a with Some e => num_run e b | None => None end.
Proof. revert st; induction a as [|c a IH]; intros st; cbn; [reflexivity|]. destruct (num_step st c); [apply IH|reflexivity]. Qed.
Lemma num_run_digits st a : digits a -> a <> [] -> match st with NStart | NDot | NZero | NDec => True | _ => False end ->
  exists e, num_run st a = Some e /\ (e = NZero \/ e = NDec).
Proof.
  intros H. revert st; induction H as [|c a Hc H IH]; intros st Hne Hst; [congruence|].
  cbn [num_run].
  assert (S1 : exists e, num_step st c = Some e /\ (e = NZero \/ e = NDec)).
  { assert ((c =? 46)%N = false /\ (c =? 120)%N = false) as [E1 E2]
      by (split; apply N.eqb_neq; intros ->; discriminate).
    destruct st; try contradiction; cbn; rewrite ?E1, ?E2, ?Hc; cbn; eauto. destruct (c =? 48)%N; eauto. }
  destruct S1 as (e & -> & He). destruct a as [|c' a]; [exists e; auto|].
  apply IH; [discriminate|]. destruct He as [->| ->]; exact I.
Qed.
Lemma num_run_expdigits d : digits d -> d <> [] -> num_run NExp d = Some NExpDigits /\ num_run NExpSign d = Some NExpDigits.
Proof.
  assert (G : forall d, digits d -> num_run NExpDigits d = Some NExpDigits).
  { induction 1 as [|c a Hc H IH]; cbn; [reflexivity|]. now rewrite Hc. }
  intros H Hne. destruct d as [|c d]; [congruence|]. inversion H as [|? ? Hc Hd]; subst. cbn. rewrite Hc.
  assert ((c =? 45)%N = false) as -> by (apply N.eqb_neq; intros ->; discriminate). rewrite G by exact Hd. auto.
Qed.
Theorem decimal_one_token s : lua_decimal [[]; [45%N]] s ->
  lex s = LexOk [(0, Numeral s, List.length s); (List.length s, EOF, List.length s)].
Proof.
  intros (m & x & Hm & Hx & ->).
  assert (M : exists e, num_run NStart m = Some e /\ (e = NZero \/ e = NDec)).
  { destruct Hm as (a & b & Ha & Hb & Hne & [->|[-> ->]]).
    - destruct a as [|a0 a].
      + cbn [app num_run num_step]. change (46 =? 46)%N with true. apply num_run_digits; auto.
      + rewrite num_run_app. destruct (num_run_digits NStart (a0 :: a) Ha) as (e & -> & He); [discriminate|exact I|].
        rewrite num_run_app. assert (num_run e [46%N] = Some NDec) as -> by (destruct He as [->| ->]; reflexivity).
        destruct b as [|b0 b]; [exists NDec; auto|]. apply num_run_digits; [exact Hb|discriminate|exact I].
    - rewrite app_nil_r in Hne. apply num_run_digits; auto. }
  destruct M as (e & M & He).
  assert (X : exists e', num_run NStart (m ++ x) = Some e' /\ num_end e' true = true).
  { rewrite num_run_app, M. destruct Hx as [->|(c & g & d & Hc & Hg & Hd & Hne & ->)].
    - exists e. split; [reflexivity|]. destruct He as [->| ->]; reflexivity.
    - exists NExpDigits. split; [|reflexivity]. destruct (num_run_expdigits d Hd Hne) as [H1 H2].
      assert (num_run e [c] = Some NExp) as E1 by (destruct He as [->| ->], Hc as [->| ->]; reflexivity).
      rewrite num_run_app, E1. destruct Hg as [<-|[<-|[]]]; [exact H1|exact H2]. }
  destruct X as (e' & X & Xe). apply lex_correct.
  assert (T : tokenization (0 + 0 + List.length (m ++ x)) [] [(List.length (m ++ x), EOF, List.length (m ++ x))]).
  { pose proof (tz_end (0 + 0 + List.length (m ++ x)) []) as T. cbn [gap_text flat_map List.length] in T.
    rewrite !Nat.add_0_r in T. apply T. exists [], []. repeat split; auto. constructor. }
  pose proof (tz_tok 0 [] (Numeral (m ++ x)) (m ++ x) [] [(List.length (m ++ x), EOF, List.length (m ++ x))] (Forall_nil _)) as T'.
  cbn [gap_text flat_map app List.length] in T'. rewrite app_nil_r in T'. apply T'; auto.
  - exists e'. split; [exact X|]. destruct e'; try discriminate; reflexivity.
  - reflexivity.
  - cbn [can_follow hd_error]. now rewrite X.
Qed.
