(** One step of the Lua lexer against the lexical specification. *)
From Verif Require Import Base Lib LexUtil LuaLexer UtilProofs LexSpec LexProofs.
Lemma single_spec ch t : single_char_token ch = Some t ->
  spelling t = [ch] /\ token_ok t /\ (forall o, can_follow t o = true) /\ (forall w rest, written t w rest <-> w = [ch]).
Proof.
  unfold single_char_token.
  repeat match goal with |- (if ceq ch ?k then _ else _) = _ -> _ =>
    destruct (ceq ch k) eqn:E; [apply ceq_true in E; subst ch; intros [= <-]; repeat split; cbn; auto|clear E] end.
  discriminate.
Qed.
Lemma hd_ne a r : (match r with c :: _ => c <> a | [] => True end) -> is_char [a] (hd_error r) = false.
Proof. intros H. apply not_char. intros c [<-|[]]. exact H. Qed.
Lemma hd_ne2 a b r : (match r with c :: _ => c <> a | [] => True end) -> (match r with c :: _ => c <> b | [] => True end) ->
  is_char [a; b] (hd_error r) = false.
Proof. intros H H'. apply not_char. intros c [<-|[<-|[]]]; assumption. Qed.

(** tokens given by a literal spelling *)
Lemma lit_ok i w t r n : w = spelling t -> w <> [] -> n = List.length w -> token_ok t ->
  (forall rest, written t w rest) -> can_follow t (hd_error r) = true ->
  step_ok i (w ++ r) (LTok i t (i + n) (i + n, r)).
Proof.
  intros E Hne -> Hok Hw Hf. cbn. split; [reflexivity|]. exists w. repeat split; auto.
Qed.
Ltac lit := match goal with |- step_ok ?i ?s (LTok ?i ?t (?i + ?n) ?c) =>
  let r := eval cbn in (snd c) in
  let w := eval cbn in (spelling t) in
  replace s with (w ++ r) by reflexivity;
  replace c with (i + n, r) by (apply pair_equal_spec; split; cbn; [lia|reflexivity]);
  apply lit_ok; [reflexivity|discriminate|reflexivity|exact I|intros; reflexivity|] end.
Lemma long_token i lv s r y : s = opening lv ++ r -> y = get_multiline_string_ends (i + lv + 2, r) lv (i + lv + 2) ->
  step_ok i s (mls_result i lv y).
Proof.
  intros -> ->. pose proof (ml_ends_spec lv (i + lv + 2) r (i + lv + 2)) as M.
  destruct (get_multiline_string_ends _ lv (i + lv + 2)) as [[[[te ke] ok] v] c].
  unfold ml_result in M. unfold mls_result. destruct (long_end lv false r) as [[b rest]|] eqn:L; [|subst ok; exact I].
  destruct M as (-> & -> & -> & -> & ->). apply long_end_body in L. destruct L as [-> L].
  cbn [step_ok snd fst]. split; [reflexivity|]. exists (long lv b).
  assert (E : List.length (long lv b) = lv + 2 + List.length b + (lv + 2)).
  { unfold long, opening, brackets. rewrite !app_length, closing_length, repeat_length. cbn. lia. }
  repeat split; [discriminate|exact L|unfold long; now rewrite <- !app_assoc|rewrite E; lia].
Qed.
Lemma ml_start_irrelevant p r lv a b : match get_multiline_string_ends (p, r) lv a, get_multiline_string_ends (p, r) lv b with
  | (_, ke, ok, v, c), (_, ke', ok', v', c') => ok = ok' /\ (ok = true -> ke = ke' /\ v = v' /\ c = c') end.
Proof.
  pose proof (ml_ends_spec lv p r a) as A. pose proof (ml_ends_spec lv p r b) as B.
  destruct (get_multiline_string_ends (p, r) lv a) as [[[[te ke] ok] v] c].
  destruct (get_multiline_string_ends (p, r) lv b) as [[[[te' ke'] ok'] v'] c'].
  unfold ml_result in *. destruct (long_end lv false r) as [[bd rest]|].
  - destruct A as (_ & -> & -> & -> & ->), B as (_ & -> & -> & -> & ->). auto.
  - subst. split; [reflexivity|discriminate].
Qed.

Lemma lex_step_ok i ch r : step_ok i (ch :: r) (lex_step i ch r).
Proof.
  unfold lex_step. cbv zeta.
  destruct (is_blank_nl ch) eqn:Eb.
  { unfold is_blank_nl in Eb. destruct (ceq ch ch_nl) eqn:En.
    - apply ceq_true in En. subst ch. exists GNewline. cbn. repeat split; auto; lia.
    - exists (GBlank ch). cbn. repeat split; try lia; try discriminate.
      rewrite orb_false_r in Eb. apply orb_true_iff in Eb. rewrite orb_true_iff in Eb.
      rewrite !ceq_true in Eb. unfold ch_sp, ch_cr, ch_tab in Eb. intuition auto. }
  destruct (single_char_token ch) as [t|] eqn:Es.
  { apply single_spec in Es. destruct Es as (E & Hok & Hf & Hw). cbn. split; [reflexivity|]. exists [ch].
    repeat split; [discriminate|exact Hok|now apply Hw|apply Hf|cbn; lia]. }
  clear Es.
  destruct (ceq ch (chr "#")) eqn:E; [apply ceq_true in E; subst ch|].
  { destruct (peek_cases (S i) r "!") as [(r' & -> & ->)|[-> Hp]].
    - cbn [advance snd fst]. unfold get_shebang_ends.
      change (fun (ch : char) (_ : bool) => ceq ch ch_nl) with (fun (ch : char) (_ : bool) => is_nl ch).
      rewrite seek_span by lia. pose proof (take_drop is_nl r') as TD. pose proof (drop_stops is_nl r') as St.
      pose proof (take_no_nl r') as Hn. set (t := take_until is_nl r') in *. set (d := drop_until is_nl r') in *.
      clearbody t d. destruct d as [|c d]; cbn [is_empty negb advance snd fst].
      + cbn. split; [reflexivity|]. exists (chr "#" :: chr "!" :: t). rewrite app_nil_r in TD. subst r'.
        repeat split; try discriminate; try (cbn; lia); auto.
        * exists t. split; auto.
        * cbn. now rewrite app_nil_r.
      + cbn in St. apply ceq_true in St. subst c. cbn. split; [reflexivity|].
        exists ((chr "#" :: chr "!" :: t) ++ [10%N]). subst r'.
        repeat split; try discriminate; auto.
        * exists t. split; auto.
        * cbn. now rewrite <- app_assoc.
        * rewrite app_length. cbn. lia.
        * lia.
    - lit. cbn. rewrite hd_ne; auto. }
  clear E. destruct (ceq ch (chr "/")) eqn:E; [apply ceq_true in E; subst ch|].
  { destruct (peek_cases (S i) r "/") as [(r' & -> & ->)|[-> Hp]]; cbn [advance snd fst]; lit; cbn; try rewrite hd_ne; auto. }
  clear E. destruct (ceq ch (chr "-")) eqn:E; [apply ceq_true in E; subst ch|].
  { destruct (peek_cases (S i) r "-") as [(r' & -> & ->)|[-> Hp]]; cbn [advance snd fst].
    - replace (S (S i)) with (i + 2) by lia.
      destruct (get_comment_start_ends_and_type (i + 2, r') (i + 2)) as [[[[[[ts te] ke] lv] ok] v] c] eqn:G.
      destruct ok; [|exact I]. apply comment_fwd in G. destruct G as (g & Hc & Hok & -> & Hl & Hp & _ & _).
      exists g. rewrite cbody_text by exact Hc. repeat split; auto. rewrite Hp, app_length. cbn. lia.
    - lit. cbn. rewrite hd_ne; auto. }
  clear E. destruct (ceq ch (chr ".")) eqn:E; [apply ceq_true in E; subst ch|].
  { destruct r as [|c2 r2]; [lit; reflexivity|]. destruct (ceq c2 (chr ".")) eqn:E2.
    - apply ceq_true in E2. subst c2. cbn [advance snd fst].
      destruct (peek_cases (S (S i)) r2 ".") as [(r' & -> & ->)|[-> Hp]]; cbn [advance snd fst]; lit; cbn; try rewrite hd_ne; auto.
    - destruct (is_digit c2) eqn:Ed.
      + assert (Hs : c2 :: r2 <> [] \/ i = S i) by (left; discriminate).
        pose proof (float_end_spec (S i) (c2 :: r2) i Hs) as F.
        destruct (get_float_end (S i, c2 :: r2) i) as [[[pe ok] v] c]. unfold num_result.
        change (chr "." :: c2 :: r2) with ([chr "."] ++ c2 :: r2).
        apply (num_ok i [chr "."] NDot (S i)); [discriminate|reflexivity|cbn; lia|].
        assert (num_max NDot (c2 :: r2) = num_max NDec (c2 :: r2)) as ->; [|exact F].
        cbn [num_max num_step]. change (is_digit c2) with (digit c2) in Ed. now rewrite Ed.
      + lit. change (is_digit c2) with (digit c2) in Ed. cbn. rewrite Ed. apply ceq_false in E2.
        apply N.eqb_neq in E2. change (chr ".") with 46%N in E2. now rewrite E2. }
  clear E. destruct (ceq ch (chr "<")) eqn:E; [apply ceq_true in E; subst ch|].
  { destruct (peek_cases (S i) r "<") as [(r' & -> & ->)|[-> Hp]]; cbn [advance snd fst]; [lit; reflexivity|].
    destruct (peek_cases (S i) r "=") as [(r' & -> & ->)|[-> Hp2]]; cbn [advance snd fst]; lit; cbn [can_follow]; try rewrite hd_ne2; auto. }
  clear E. destruct (ceq ch (chr ">")) eqn:E; [apply ceq_true in E; subst ch|].
  { destruct (peek_cases (S i) r ">") as [(r' & -> & ->)|[-> Hp]]; cbn [advance snd fst]; [lit; reflexivity|].
    destruct (peek_cases (S i) r "=") as [(r' & -> & ->)|[-> Hp2]]; cbn [advance snd fst]; lit; cbn [can_follow]; try rewrite hd_ne2; auto. }
  clear E. destruct (ceq ch (chr "~")) eqn:E; [apply ceq_true in E; subst ch|].
  { destruct (peek_cases (S i) r "=") as [(r' & -> & ->)|[-> Hp]]; cbn [advance snd fst]; lit; cbn [can_follow]; try rewrite hd_ne; auto. }
  clear E. destruct (ceq ch (chr "=")) eqn:E; [apply ceq_true in E; subst ch|].
  { destruct (peek_cases (S i) r "=") as [(r' & -> & ->)|[-> Hp]]; cbn [advance snd fst]; lit; cbn [can_follow]; try rewrite hd_ne; auto. }
  clear E. destruct (ceq ch (chr ":")) eqn:E; [apply ceq_true in E; subst ch|].
  { destruct (peek_cases (S i) r ":") as [(r' & -> & ->)|[-> Hp]]; cbn [advance snd fst]; lit; cbn [can_follow]; try rewrite hd_ne; auto. }
  clear E. destruct (ceq ch (chr "[")) eqn:E; [apply ceq_true in E; subst ch|].
  { destruct r as [|c2 r2]; [lit; reflexivity|]. destruct (ceq c2 (chr "=")) eqn:E2.
    - apply ceq_true in E2. subst c2. destruct (level_spec (S i) (chr "=" :: r2)) as (r' & Er & Hr' & L).
      rewrite L. cbn [snd fst]. set (lv := count_eq (chr "=" :: r2)) in *. destruct r' as [|c3 r3]; [exact I|].
      destruct (ceq c3 (chr "[")) eqn:E3; [|exact I]. apply ceq_true in E3. subst c3. cbn [advance snd fst].
      apply long_token with (r := r3).
      + rewrite Er. unfold opening, brackets. cbn [app]. rewrite <- app_assoc. reflexivity.
      + replace (S (S i + lv)) with (i + lv + 2) by lia. replace (S i + lv + 1) with (i + lv + 2) by lia. reflexivity.
    - destruct (ceq c2 (chr "[")) eqn:E3.
      + apply ceq_true in E3. subst c2. cbn [advance snd fst]. apply long_token with (r := r2); [reflexivity|].
        replace (S (S i)) with (i + 0 + 2) by lia. replace (S i + 1) with (i + 0 + 2) by lia. reflexivity.
      + lit. apply ceq_false in E2, E3. cbn [can_follow]. rewrite hd_ne2; auto. }
  clear E. destruct (ceq ch ch_quot || ceq ch ch_apos) eqn:E.
  { destruct (get_string_ends (S i, r) ch i) as [[[[te e] ok] v] c] eqn:G. destruct ok; [|exact I].
    assert (Hc : closes ch false v = true /\ exists r', r = v ++ ch :: r' /\ e = i + List.length v + 2 /\ c = (e, r')).
    { pose proof G as G'. apply get_string_ends_closes in G'. destruct G' as [Hc [r' ->]]. split; [exact Hc|]. exists r'.
      rewrite get_string_ends_back in G by exact Hc. injection G as _ <- <-. repeat split; try lia. f_equal; lia. }
    destruct Hc as (Hc & r' & -> & -> & ->). cbn [step_ok snd fst]. split; [reflexivity|]. exists (ch :: v ++ [ch]).
    rewrite <- quoted_closes in Hc.
    apply orb_true_iff in E. rewrite !ceq_true in E. destruct E as [->| ->]; cbn -[N.eqb].
    - repeat split; [discriminate|exact Hc|now rewrite <- app_assoc|rewrite app_length; cbn; lia].
    - repeat split; [discriminate|exact Hc|now rewrite <- app_assoc|rewrite app_length; cbn; lia]. }
  clear E. destruct (ceq ch (chr "0")) eqn:E; [apply ceq_true in E; subst ch|].
  { destruct (peek_cases (S i) r "x") as [(r' & -> & ->)|[-> Hp]]; cbn [advance snd fst]; unfold num_result.
    - replace (S (S i)) with (i + 2) by lia. pose proof (hex_end_spec (i + 2) r') as F.
      destruct (get_hex_integer_end (i + 2, r') (i + 2)) as [[[pe ok] v] c].
      change (chr "0" :: chr "x" :: r') with (s2l "0x" ++ r').
      apply (num_ok i (s2l "0x") NHexX (i + 2)); [discriminate|reflexivity|reflexivity|exact F].
    - replace (S i) with (i + 1) by lia. pose proof (float_end_spec (i + 1) r (i + 1) (or_intror eq_refl)) as F.
      destruct (get_float_end (i + 1, r) (i + 1)) as [[[pe ok] v] c].
      change (chr "0" :: r) with ([chr "0"] ++ r).
      assert (Eq : exists w rest e, num_max NZero r = (w, rest, match w with [] => NZero | _ => e end) /\ num_max NDec r = (w, rest, match w with [] => NDec | _ => e end)).
      { destruct r as [|x r]; [exists [], [], NDec; auto|]. cbn [num_max num_step].
        apply N.eqb_neq in Hp. change (chr "x") with 120%N in Hp. rewrite Hp.
        destruct (digit x || (x =? 46)%N).
        - destruct (num_max NDec r) as [[w rest] e]. exists (x :: w), rest, e. auto.
        - destruct ((x =? 101)%N || (x =? 69)%N).
          + destruct (num_max NExp r) as [[w rest] e]. exists (x :: w), rest, e. auto.
          + exists [], (x :: r), NDec. auto. }
      destruct Eq as (w & rest & e & E1 & E2). rewrite E2 in F.
      apply (num_ok i [chr "0"] NZero (i + 1)); [discriminate|reflexivity|reflexivity|].
      rewrite E1. destruct w; exact F. }
  destruct (is_digit ch) eqn:Ed.
  { unfold num_result. replace (S i) with (i + 1) by lia. pose proof (float_end_spec (i + 1) r (i + 1) (or_intror eq_refl)) as F.
    destruct (get_float_end (i + 1, r) (i + 1)) as [[[pe ok] v] c].
    change (ch :: r) with ([ch] ++ r).
    apply (num_ok i [ch] NDec (i + 1)); [discriminate| |reflexivity|exact F].
    cbn [num_run num_step]. change (is_digit ch) with (digit ch) in Ed. rewrite Ed.
    apply ceq_false in E. apply N.eqb_neq in E. change (chr "0") with 48%N in E. rewrite E.
    assert ((ch =? 46)%N = false) as ->; [|reflexivity]. apply N.eqb_neq. intros ->. discriminate. }
  rewrite letter_eq. destruct (letter ch) eqn:El; [|exact I].
  rewrite variable_spec by exact El.
  pose proof (take_drop nonident (ch :: r)) as TD. pose proof (drop_stops nonident (ch :: r)) as St.
  pose proof (take_forall nonident (ch :: r)) as TF.
  assert (Hx : exists v', take_until nonident (ch :: r) = ch :: v').
  { cbn. unfold nonident at 1. rewrite ident_char_eq, El. cbn. eauto. }
  set (v := take_until nonident (ch :: r)) in *. set (d := drop_until nonident (ch :: r)) in *. clearbody v d.
  cbn [step_ok snd fst]. split; [reflexivity|]. exists v.
  assert (Hfol : negb (is_class (fun c => letter c || digit c) (hd_error d)) = true).
  { destruct d as [|x d]; [reflexivity|]. cbn in St |- *. unfold nonident in St. now rewrite ident_char_eq in St. }
  pose proof (keyword_spec v) as K. destruct Hx as [v' ->]. destruct (keyword (ch :: v')) as [k|].
  - destruct K as (_ & _ & Kok & Kf & Kw). repeat split; auto; [discriminate|now apply Kw|now rewrite Kf].
  - repeat split; auto; [discriminate|].
    inversion TF as [|? ? _ TF']. subst. eapply Forall_impl; [|exact TF']. intros a Ha. cbn in Ha.
    unfold nonident in Ha. apply negb_false_iff in Ha. now rewrite ident_char_eq in Ha.
Qed.
