(** The other direction: one step of the Lua lexer on a text the lexical specification allows. *)
From Verif Require Import Base Lib LexUtil LuaLexer UtilProofs LexSpec LexProofs.

Lemma gitem_back i g rest ch r : gitem_ok g -> (is_last g = true -> rest = []) -> gitem_text g ++ rest = ch :: r ->
  lex_step i ch r = LSkip (i + List.length (gitem_text g), rest).
Proof.
  intros Hok Hl E. destruct (is_comment g) eqn:Ec.
  - rewrite cbody_text in * by exact Ec. cbn [app] in E. injection E as <- <-.
    unfold lex_step. change (is_blank_nl 45) with false. change (single_char_token 45) with (@None token).
    change (ceq 45%N (chr "#")) with false. change (ceq 45%N (chr "/")) with false. change (ceq 45%N (chr "-")) with true.
    change (peek_is (S i, 45%N :: cbody g ++ rest) "-") with true. cbv iota zeta.
    change (advance (S i, 45%N :: cbody g ++ rest)) with (S (S i), cbody g ++ rest).
    replace (S (S i)) with (i + 2) by lia.
    destruct (comment_bwd (i + 2) g rest Ec Hok Hl) as (ts & te & ->). do 2 f_equal. cbn. lia.
  - destruct g as [c| | | |]; try discriminate; cbn in *; injection E as <- <-.
    + replace (i + 1) with (S i) by lia. destruct Hok as [<-|[<-|[<-|[]]]]; reflexivity.
    + replace (i + 1) with (S i) by lia. reflexivity.
Qed.

Ltac not_first H := match goal with |- context [ceq ?c ?k] =>
  let E := fresh in destruct (ceq c k) eqn:E; [apply ceq_true in E; subst c; discriminate H|clear E] end.
Lemma letter_step i ch r : letter ch = true -> lex_step i ch r =
  let '(e, succ, v, c) := get_variable_end (i, ch :: r) i in
  if succ then LTok i (match keyword v with Some k => k | None => Variable_ v end) e c else LErr UnexpectedEOF.
Proof.
  intros H. unfold lex_step, is_blank_nl, single_char_token.
  assert (Hd : is_digit ch = false).
  { change (is_digit ch) with (digit ch). unfold digit, letter in *.
    destruct ((48 <=? ch)%N && (ch <=? 57)%N) eqn:D; [|reflexivity]. apply andb_true_iff in D. destruct D as [D1 D2].
    apply N.leb_le in D1, D2. exfalso. repeat (apply orb_true_iff in H; destruct H as [H|H]);
    try (apply andb_true_iff in H; destruct H as [H1 H2]; apply N.leb_le in H1; lia). apply N.eqb_eq in H. lia. }
  rewrite letter_eq, H, Hd. repeat not_first H. reflexivity.
Qed.
Lemma digit_step i ch r : digit ch = true -> lex_step i ch r =
  if ceq ch (chr "0") then
    if peek_is (S i, r) "x" then num_result i (s2l "0x") (get_hex_integer_end (advance (S i, r)) (i + 2))
    else num_result i [chr "0"] (get_float_end (S i, r) (i + 1))
  else num_result i [ch] (get_float_end (S i, r) (i + 1)).
Proof.
  intros H. unfold lex_step, is_blank_nl, single_char_token.
  change (is_digit ch) with (digit ch). rewrite H.
  repeat not_first H. reflexivity.
Qed.

Lemma dot_step i c2 r : lex_step i 46%N (c2 :: r) =
  (if ceq c2 (chr ".") then
     if peek_is (advance (S i, c2 :: r)) "." then LTok i VarArg (i + 3) (advance (advance (S i, c2 :: r)))
     else LTok i OpConcatenation (i + 2) (advance (S i, c2 :: r))
   else if is_digit c2 then num_result i [chr "."] (get_float_end (S i, c2 :: r) i)
   else LTok i Period (i + 1) (S i, c2 :: r)).
Proof. reflexivity. Qed.
Lemma bracket_step i r : lex_step i 91%N r =
  match r with
  | c2 :: _ =>
      if ceq c2 (chr "=") then
        let '(level, cl) := get_multiline_string_level (S i, r) (S i) in
        match snd cl with
        | c3 :: _ =>
            if ceq c3 (chr "[") then
              mls_result i level (get_multiline_string_ends (advance cl) level (fst cl + 1))
            else LErr (UnrecognizedSymbol (fst cl) c3)
        | [] => LErr UnexpectedEOF
        end
      else if ceq c2 (chr "[") then
        mls_result i 0 (get_multiline_string_ends (advance (S i, r)) 0 (S i + 1))
      else LTok i OpenSquareBracket (i + 1) (S i, r)
  | [] => LTok i OpenSquareBracket (i + 1) (S i, r)
  end.
Proof. reflexivity. Qed.

Lemma word_back i ch w rest : letter ch = true -> Forall (fun c => letter c || digit c = true) w ->
  is_class (fun c => letter c || digit c) (hd_error rest) = false ->
  lex_step i ch (w ++ rest) =
  LTok i (match keyword (ch :: w) with Some k => k | None => Variable_ (ch :: w) end)
    (i + S (List.length w)) (i + S (List.length w), rest).
Proof.
  intros H Hw Hr. rewrite letter_step by exact H. rewrite variable_spec by exact H.
  destruct (take_app nonident (ch :: w) rest) as [T D].
  - constructor; [unfold nonident; now rewrite ident_char_eq, H|]. eapply Forall_impl; [|exact Hw].
    intros c Hc. unfold nonident. now rewrite ident_char_eq, Hc.
  - destruct rest as [|c rest]; [exact I|]. cbn in *. unfold nonident. now rewrite ident_char_eq, Hr.
  - change (ch :: w ++ rest) with ((ch :: w) ++ rest). rewrite T, D. reflexivity.
Qed.

Lemma float_back p w rest st e :
  num_run st w = Some e -> num_stops e rest -> num_end e (is_empty rest) = true ->
  forall y, float_result p (num_max st (w ++ rest)) y -> y = (p + List.length w, true, w, (p + List.length w, rest)).
Proof.
  intros H1 H2 H3 [[[pe ok] v] c]. rewrite (num_max_complete _ _ _ _ H1 H2). cbn. rewrite H3.
  intros (-> & -> & -> & ->). reflexivity.
Qed.
Lemma num_follow s o e : num_run NStart s = Some e -> can_follow (Numeral s) o = true ->
  match o with Some c => num_step e c = None /\ num_end e false = true | None => num_end e true = true end.
Proof.
  intros E. cbn [can_follow]. rewrite E. destruct o as [c|]; [|auto]. destruct (num_step e c); [discriminate|auto].
Qed.
Lemma numeral_back i ch w rest e : num_run NStart (ch :: w) = Some e ->
  can_follow (Numeral (ch :: w)) (hd_error rest) = true -> (w = [] -> e <> NDot) ->
  lex_step i ch (w ++ rest) = LTok i (Numeral (ch :: w)) (i + S (List.length w)) (i + S (List.length w), rest).
Proof.
  intros E F Hdot. pose proof (num_follow _ _ _ E F) as G.
  assert (G1 : num_stops e rest) by (destruct rest; cbn in *; [exact I|apply G]).
  assert (G2 : num_end e (is_empty rest) = true) by (destruct rest; cbn in *; [exact G|apply G]). clear F G.
  assert (RES : forall p, p = S i -> forall prefix y, y = (p + List.length w, true, w, (p + List.length w, rest)) ->
     num_result i prefix y = LTok i (Numeral (prefix ++ w)) (i + S (List.length w)) (i + S (List.length w), rest)).
  { intros p -> prefix y ->. cbn. f_equal; [lia|f_equal; lia]. }
  cbn [num_run num_step] in E. destruct (ch =? 46)%N eqn:E46.
  { apply N.eqb_eq in E46. subst ch. destruct w as [|c2 w]; [injection E as <-; now elim (Hdot eq_refl)|].
    cbn [num_run] in E. destruct (num_step NDot c2) eqn:E2; [|discriminate]. cbn [num_step] in E2.
    destruct (digit c2) eqn:Ed; [|discriminate]. injection E2 as <-.
    assert (L : lex_step i 46%N ((c2 :: w) ++ rest) = num_result i [46%N] (get_float_end (S i, (c2 :: w) ++ rest) i)).
    { cbn [app]. rewrite dot_step, digit_is_digit, Ed.
      destruct (ceq c2 (chr ".")) eqn:E3; [apply ceq_true in E3; subst; discriminate|reflexivity]. }
    rewrite L. eapply RES; [reflexivity|].
    apply (float_back (S i) (c2 :: w) rest NDec e); auto.
    - cbn [num_run num_step]. now rewrite Ed.
    - apply float_end_spec. left. discriminate. }
  destruct (ch =? 48)%N eqn:E48.
  { apply N.eqb_eq in E48. subst ch. rewrite digit_step by reflexivity. change (ceq 48%N (chr "0")) with true. cbv iota.
    destruct w as [|c2 w].
    - cbn [num_run] in E. injection E as <-. assert (peek_is (S i, [] ++ rest) "x" = false) as ->.
      { destruct rest as [|c rest]; [reflexivity|]. cbn in *. destruct (c =? 120)%N eqn:X; [discriminate|exact X]. }
      eapply (RES _ eq_refl [48%N]). replace (i + 1) with (S i) by lia.
      apply (float_back (S i) [] rest NDec NDec); auto.
      + destruct rest as [|c rest]; [exact I|]. cbn in *. destruct (c =? 120)%N; [discriminate|exact G1].
      + apply float_end_spec. auto.
    - cbn [num_run num_step] in E. cbn [app]. unfold peek_is. cbn [snd]. unfold ceq at 1. change (chr "x") with 120%N.
      destruct (c2 =? 120)%N eqn:X.
      + apply N.eqb_eq in X. subst c2. cbn [advance snd fst].
        replace (S (S i)) with (i + 2) by lia.
        rewrite (float_back (i + 2) w rest NHexX e E G1 G2 _ (hex_end_spec (i + 2) (w ++ rest))).
        cbn. f_equal; [lia|f_equal; lia].
      + eapply (RES _ eq_refl [48%N]). replace (i + 1) with (S i) by lia.
        apply (float_back (S i) (c2 :: w) rest NDec e); auto. apply float_end_spec. auto. }
  destruct (digit ch) eqn:Ed; [|discriminate]. rewrite digit_step by exact Ed.
  unfold ceq at 1. change (chr "0") with 48%N. rewrite E48.
  eapply (RES _ eq_refl [ch]). replace (i + 1) with (S i) by lia.
  apply (float_back (S i) w rest NDec e); auto. apply float_end_spec. auto.
Qed.

Lemma count_eq_eqs n x : count_eq (repeat 61%N n ++ 91%N :: x) = n.
Proof. induction n as [|n IH]; [reflexivity|]. change (S (count_eq (repeat 61%N n ++ 91%N :: x)) = S n). now rewrite IH. Qed.
Lemma long_back i lv b rest : long_body lv b ->
  lex_step i 91%N (repeat 61%N lv ++ 91%N :: b ++ closing lv ++ rest) =
  LTok i (MultiLineStringLiteral lv b) (i + List.length (long lv b)) (i + List.length (long lv b), rest).
Proof.
  intros Hb. apply (long_body_end lv b rest) in Hb.
  assert (E : List.length (long lv b) = lv + 2 + List.length b + (lv + 2)).
  { unfold long, opening, brackets. rewrite !app_length, closing_length, repeat_length. cbn. lia. }
  assert (M : forall start, mls_result i lv (get_multiline_string_ends (i + lv + 2, b ++ closing lv ++ rest) lv start) =
    LTok i (MultiLineStringLiteral lv b) (i + List.length (long lv b)) (i + List.length (long lv b), rest)).
  { intros start. pose proof (ml_ends_spec lv (i + lv + 2) (b ++ closing lv ++ rest) start) as M.
    rewrite Hb in M. destruct (get_multiline_string_ends _ lv start) as [[[[te ke] ok] v] c]. cbn in M.
    destruct M as (-> & -> & -> & -> & ->). cbn [mls_result]. rewrite E. f_equal; [lia|f_equal; lia]. }
  destruct lv as [|lv].
  - rewrite bracket_step, <- (M (S i + 1)). replace (i + 0 + 2) with (S (S i)) by lia. reflexivity.
  - destruct (level_spec (S i) (repeat 61%N (S lv) ++ 91%N :: b ++ closing (S lv) ++ rest)) as (r' & Er & Hr' & L).
    assert (C : count_eq (repeat 61%N (S lv) ++ 91%N :: b ++ closing (S lv) ++ rest) = S lv).
    { apply count_eq_eqs. }
    rewrite C in Er, L. apply app_inv_head in Er. subst r'.
    rewrite bracket_step. cbv iota.
    change (repeat 61%N (S lv) ++ 91%N :: b ++ closing (S lv) ++ rest) with (61%N :: repeat 61%N lv ++ 91%N :: b ++ closing (S lv) ++ rest) at 1.
    change (ceq 61%N (chr "=")) with true. cbv iota. rewrite L. cbn [snd fst advance].
    change (ceq 91%N (chr "[")) with true. cbv iota. rewrite <- (M (S i + S lv + 1)).
    replace (S (S i + S lv)) with (i + S lv + 2) by lia. reflexivity.
Qed.

Lemma hd_not a rest : is_char [a] (hd_error rest) = false -> match rest with c :: _ => ceq c a = false | [] => True end.
Proof. destruct rest as [|c r]; cbn; [auto|]. now rewrite orb_false_r. Qed.
Lemma hd_not2 a b rest : is_char [a; b] (hd_error rest) = false ->
  match rest with c :: _ => ceq c a = false /\ ceq c b = false | [] => True end.
Proof. destruct rest as [|c r]; cbn; [auto|]. rewrite orb_false_r. apply orb_false_iff. Qed.
Lemma peek_not i rest a : is_char [chr a] (hd_error rest) = false -> peek_is (i, rest) a = false.
Proof. intros H. apply hd_not in H. destruct rest; [reflexivity|exact H]. Qed.

Lemma hash_step i r : lex_step i (chr "#") r =
  if peek_is (S i, r) "!" then
    let '(_, e, v, c) := get_shebang_ends (advance (S i, r)) (i + 2) in LTok i (SheBang (s2l "#!" ++ v)) e c
  else LTok i OpLength (i + 1) (S i, r).
Proof. reflexivity. Qed.
Lemma slash_step i r : lex_step i (chr "/") r =
  if peek_is (S i, r) "/" then LTok i OpFloorDivision (i + 2) (advance (S i, r)) else LTok i OpDivision (i + 1) (S i, r).
Proof. reflexivity. Qed.
Lemma minus_step i r : peek_is (S i, r) "-" = false -> lex_step i (chr "-") r = LTok i Minus (i + 1) (S i, r).
Proof.
  intros H. transitivity (if peek_is (S i, r) "-" then lex_step i (chr "-") r else LTok i Minus (i + 1) (S i, r)).
  - destruct (peek_is (S i, r) "-") eqn:E; [reflexivity|]. unfold lex_step.
    change (is_blank_nl (chr "-")) with false. change (single_char_token (chr "-")) with (@None token). cbv iota zeta.
    change (ceq (chr "-") (chr "#")) with false. change (ceq (chr "-") (chr "/")) with false.
    change (ceq (chr "-") (chr "-")) with true. cbv iota. now rewrite E.
  - now rewrite H.
Qed.
Lemma less_step i r : lex_step i (chr "<") r =
  if peek_is (S i, r) "<" then LTok i OpLeftShift (i + 2) (advance (S i, r))
  else if peek_is (S i, r) "=" then LTok i OpLessOrEqual (i + 2) (advance (S i, r))
  else LTok i OpLessThan (i + 1) (S i, r).
Proof. reflexivity. Qed.
Lemma greater_step i r : lex_step i (chr ">") r =
  if peek_is (S i, r) ">" then LTok i OpRightShift (i + 2) (advance (S i, r))
  else if peek_is (S i, r) "=" then LTok i OpGreaterOrEqual (i + 2) (advance (S i, r))
  else LTok i OpGreaterThan (i + 1) (S i, r).
Proof. reflexivity. Qed.
Lemma tilde_step i r : lex_step i (chr "~") r =
  if peek_is (S i, r) "=" then LTok i OpInequality (i + 2) (advance (S i, r)) else LTok i Tilde (i + 1) (S i, r).
Proof. reflexivity. Qed.
Lemma equal_step i r : lex_step i (chr "=") r =
  if peek_is (S i, r) "=" then LTok i OpEquality (i + 2) (advance (S i, r)) else LTok i EqualsSign (i + 1) (S i, r).
Proof. reflexivity. Qed.
Lemma colon_step i r : lex_step i (chr ":") r =
  if peek_is (S i, r) ":" then LTok i Label (i + 2) (advance (S i, r)) else LTok i Colon (i + 1) (S i, r).
Proof. reflexivity. Qed.

Lemma shebang_back i s : no_newline s -> forall w rest, w = (s2l "#!" ++ s) ++ [10%N] \/ (w = s2l "#!" ++ s /\ rest = []) ->
  forall ch r, w ++ rest = ch :: r ->
  lex_step i ch r = LTok i (SheBang (s2l "#!" ++ s)) (i + List.length w) (i + List.length w, rest).
Proof.
  intros Hs w rest Hw ch r E.
  assert (X : exists d, ch = chr "#" /\ r = chr "!" :: s ++ d /\ ((d = 10%N :: rest /\ List.length w = List.length s + 3)
                \/ (d = [] /\ rest = [] /\ List.length w = List.length s + 2))).
  { destruct Hw as [->|[-> ->]].
    - cbn in E. injection E as <- <-. exists (10%N :: rest). rewrite <- app_assoc. repeat split. left. split; [reflexivity|].
      rewrite !app_length. cbn. lia.
    - cbn in E. rewrite app_nil_r in E. injection E as <- <-. exists []. rewrite app_nil_r. repeat split. right.
      repeat split. cbn. lia. }
  destruct X as (d & -> & -> & X). rewrite hash_step. change (peek_is (S i, chr "!" :: s ++ d) "!") with true. cbv iota.
  cbn [advance snd fst]. unfold get_shebang_ends.
  change (fun (ch : char) (_ : bool) => ceq ch ch_nl) with (fun (ch : char) (_ : bool) => is_nl ch).
  rewrite seek_span by lia. apply no_nl_forall in Hs.
  destruct (take_app is_nl s d Hs) as [-> ->]; [destruct X as [[-> _]|[-> _]]; cbn; auto|].
  destruct X as [[-> ->]|(-> & -> & ->)]; cbn [is_empty negb advance snd fst]; f_equal; try lia; f_equal; lia.
Qed.

Ltac chars := repeat match goal with |- context [ceq ?c (chr ?a)] => let k := eval vm_compute in (chr a) in change (ceq c (chr a)) with (ceq c k) end.
Lemma token_back i t w rest ch r : token_ok t -> written t w rest -> can_follow t (hd_error rest) = true ->
  w ++ rest = ch :: r -> lex_step i ch r = LTok i t (i + List.length w) (i + List.length w, rest).
Proof.
  intros Hok Hw Hf E. remember (List.length w) as n eqn:Hn.
  destruct t; cbn [written spelling] in Hw;
  match type of Hw with
  | w = s2l _ => subst w; cbn in E; injection E as <- <-; cbn in Hn; subst n
  | _ => idtac end.
  all: cbn [token_ok can_follow] in Hok, Hf; try (apply negb_true_iff in Hf).
  all: try match goal with |- lex_step ?i ?c _ = LTok ?i ?t _ _ =>
      first [ match type of Hf with is_class _ _ = false => idtac end;
              let w := eval cbn in (tl (spelling t)) in refine (word_back i c w rest eq_refl _ Hf); repeat constructor
            | transitivity (LTok i t (i + 1) (S i, rest)); [reflexivity|f_equal; f_equal; lia]
            | transitivity (LTok i t (i + 2) (S (S i), rest)); [reflexivity|f_equal; f_equal; lia]
            | transitivity (LTok i t (i + 3) (S (S (S i)), rest)); [reflexivity|f_equal; f_equal; lia] ] end.
  all: try match goal with |- lex_step ?i (chr ?a) ?r = LTok _ ?t (?i + 1) _ =>
     transitivity (LTok i t (i + 1) (S i, rest)); [|f_equal; f_equal; lia];
     first [rewrite hash_step|rewrite slash_step|rewrite minus_step|rewrite less_step|rewrite greater_step
           |rewrite tilde_step|rewrite equal_step|rewrite colon_step]; try reflexivity end.
  all: try match type of Hf with is_char [_] _ = false => apply hd_not in Hf; destruct rest as [|c rest];
     [first [reflexivity|transitivity (LTok i OpConcatenation (i + 2) (S (S i), [])); [reflexivity|f_equal; f_equal; lia]]|] end.
  all: try (unfold peek_is; cbn [snd]; chars; rewrite Hf; reflexivity).
  all: try match type of Hf with is_char [_; _] _ = false => apply hd_not2 in Hf; destruct rest as [|c rest];
     [first [reflexivity|transitivity (LTok i OpenSquareBracket (i + 1) (S i, [])); [reflexivity|f_equal; f_equal; lia]]|];
     destruct Hf as [Hf1 Hf2] end.
  all: try (unfold peek_is; cbn [snd]; chars; rewrite Hf1, Hf2; reflexivity).
  - (* .. *) change (lex_step i (chr ".") (chr "." :: c :: rest)) with
      (if ceq c (chr ".") then LTok i VarArg (i + 3) (S (S (S i)), rest) else LTok i OpConcatenation (i + 2) (S (S i), c :: rest)).
    change (chr ".") with 46%N. rewrite Hf. f_equal. f_equal. lia.
  - subst w. destruct s as [|c s]; [destruct Hok|]. cbn in E. injection E as <- <-. destruct Hok as (H1 & H2 & H3).
    subst n. rewrite word_back by assumption.
    pose proof (keyword_spec (c :: s)) as K. destruct (keyword (c :: s)); [now elim H3|reflexivity].
  - subst w. destruct Hok as (e & H1 & H2). destruct s as [|c s]; [injection H1 as <-; discriminate|].
    cbn in E. injection E as <- <-. subst n. apply (numeral_back i c s rest e); [exact H1|exact Hf|].
    intros -> ->. cbn in H2. discriminate.
  - subst w. cbn in E. rewrite <- app_assoc in E. injection E as <- <-. cbn in Hn. rewrite app_length in Hn. cbn in Hn.
    rewrite quoted_closes in Hok. change 34%N with ch_quot. rewrite quot_step.
    change ([ch_quot] ++ rest) with (ch_quot :: rest).
    rewrite get_string_ends_back by exact Hok. f_equal; [lia|f_equal; lia].
  - subst w. cbn in E. rewrite <- app_assoc in E. injection E as <- <-. cbn in Hn. rewrite app_length in Hn. cbn in Hn.
    rewrite quoted_closes in Hok. change 39%N with ch_apos. rewrite apos_step.
    change ([ch_apos] ++ rest) with (ch_apos :: rest).
    rewrite get_string_ends_back by exact Hok. f_equal; [lia|f_equal; lia].
  - subst w n. unfold long, opening, brackets in E. cbn [app] in E. injection E as <- <-.
    rewrite <- !app_assoc. apply long_back. exact Hok.
  - (* . *) apply orb_false_iff in Hf. destruct Hf as [Hf Hd]. apply hd_not in Hf.
    transitivity (LTok i Period (i + 1) (S i, rest)); [|f_equal; f_equal; lia].
    destruct rest as [|c rest]; [reflexivity|]. change (chr ".") with 46%N. rewrite dot_step.
    change (chr ".") with 46%N. rewrite Hf, digit_is_digit. cbn in Hd. now rewrite Hd.
  - (* [ *) change (chr "[") with 91%N. rewrite bracket_step. change (chr "[") with 91%N. change (chr "=") with 61%N.
    rewrite Hf1, Hf2. f_equal. f_equal. lia.
  - subst n. destruct Hok as (s' & -> & Hs). eapply shebang_back; eauto.
  - destruct Hok.
Qed.
