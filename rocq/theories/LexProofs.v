(** The lexer meets LexSpec.v. *)
From Verif Require Import Base Lib LexUtil LuaLexer UtilProofs LexSpec.

(** ** span *)
Fixpoint take_until (f : char -> bool) (s : str) : str :=
  match s with [] => [] | c :: r => if f c then [] else c :: take_until f r end.
Fixpoint drop_until (f : char -> bool) (s : str) : str :=
  match s with [] => [] | c :: r => if f c then s else drop_until f r end.
Lemma take_drop f s : take_until f s ++ drop_until f s = s.
Proof. induction s as [|c r IH]; cbn; [reflexivity|]. destruct (f c); cbn; congruence. Qed.
Lemma take_forall f s : Forall (fun c => f c = false) (take_until f s).
Proof. induction s as [|c r IH]; cbn; [constructor|]. destruct (f c) eqn:E; constructor; auto. Qed.
Lemma drop_head f s c r : drop_until f s = c :: r -> f c = true.
Proof. induction s as [|x s IH]; cbn; [discriminate|]. destruct (f x) eqn:E; [intros [= <- _]; auto|auto]. Qed.
Definition stops (f : char -> bool) (rest : str) : Prop := match rest with [] => True | c :: _ => f c = true end.
Lemma drop_stops f s : stops f (drop_until f s).
Proof. unfold stops. destruct (drop_until f s) eqn:E; auto. eapply drop_head; eauto. Qed.
Lemma take_app f a b : Forall (fun c => f c = false) a -> stops f b -> take_until f (a ++ b) = a /\ drop_until f (a ++ b) = b.
Proof.
  intros H Hb. induction H as [|c a Hc H [IH1 IH2]]; cbn.
  - destruct b; cbn in *; [auto|]. now rewrite Hb.
  - rewrite Hc, IH1, IH2. auto.
Qed.

Lemma seek_loop_span f s : forall esc endp pos,
  seek_loop (fun ch _ => f ch) esc endp pos s =
  (match drop_until f s, take_until f s with
   | [], [] => endp + 1
   | _, t => pos + List.length t
   end,
   negb (is_empty (drop_until f s)), take_until f s, (pos + List.length (take_until f s), drop_until f s)).
Proof.
  induction s as [|c r IH]; intros esc endp pos; cbn [seek_loop take_until drop_until].
  - rewrite Nat.add_0_r. reflexivity.
  - destruct (f c) eqn:E.
    + cbn. rewrite Nat.add_0_r. reflexivity.
    + rewrite IH. cbn. destruct (drop_until f r) eqn:D, (take_until f r) eqn:T; cbn; repeat f_equal; lia.
Qed.
Lemma seek_span f p s start : start = p ->
  seek_end_by_predicate (fun ch _ => f ch) (p, s) start =
  (p + List.length (take_until f s), negb (is_empty (drop_until f s)), take_until f s,
   (p + List.length (take_until f s), drop_until f s)).
Proof.
  intros ->. unfold seek_end_by_predicate. cbn [snd fst]. destruct s as [|c r].
  - cbn. now rewrite Nat.add_0_r.
  - rewrite seek_loop_span. cbn. destruct (f c) eqn:E; cbn; [now rewrite Nat.add_0_r|].
    destruct (drop_until f r) eqn:D; reflexivity.
Qed.
(** the start index only matters for an empty text *)
Lemma seek_span_any f p s start : s <> [] ->
  seek_end_by_predicate (fun ch _ => f ch) (p, s) start =
  (p + List.length (take_until f s), negb (is_empty (drop_until f s)), take_until f s,
   (p + List.length (take_until f s), drop_until f s)).
Proof.
  intros H. rewrite <- (seek_span f p s p eq_refl). unfold seek_end_by_predicate. destruct s as [|c s]; [congruence|].
  cbn [fst snd]. rewrite !seek_loop_span. cbn [drop_until take_until]. destruct (f c); [reflexivity|].
  destruct (drop_until f s); reflexivity.
Qed.

(** ** long brackets *)
Lemma count_eq_starts level r :
  starts_with (repeat 61%N level ++ [93%N]) r =
  Nat.eqb level (count_eq r) && match nth_error r (count_eq r) with Some c => ceq c (chr "]") | None => false end.
Proof.
  revert r; induction level as [|level IH]; intros r; cbn [repeat app starts_with].
  - destruct r as [|c r]; cbn [starts_with count_eq]; [reflexivity|].
    unfold ceq. change (chr "=") with 61%N. change (chr "]") with 93%N.
    destruct (N.eqb_spec c 61) as [->|H]; cbn; [reflexivity|]. rewrite andb_true_r, N.eqb_sym. reflexivity.
  - destruct r as [|c r]; cbn [starts_with count_eq]; [reflexivity|].
    rewrite N.eqb_sym. unfold ceq at 1. change (chr "=") with 61%N.
    destruct (N.eqb_spec c 61) as [->|H]; cbn [andb Nat.eqb nth_error]; [|reflexivity].
    rewrite IH. reflexivity.
Qed.
Lemma starts_with_app p s : starts_with p s = true <-> exists r, s = p ++ r.
Proof.
  revert s; induction p as [|a p IH]; intros s; cbn; [split; eauto|].
  destruct s as [|b s]; cbn; [split; [discriminate|intros [r H]; discriminate]|].
  rewrite andb_true_iff, N.eqb_eq, IH. split; [intros [-> [r ->]]; eauto | intros [r [= -> ->]]; eauto].
Qed.
Lemma eqs_repeat n : eqs n = repeat 61%N n.
Proof. reflexivity. Qed.
Lemma count_eq_prefix r : exists r' : str, r = repeat 61%N (count_eq r) ++ r' /\ (match r' with c :: _ => c <> 61%N | [] => True end).
Proof.
  induction r as [|c r (r' & IH & H)]; cbn [count_eq]; [exists []; auto|].
  unfold ceq. change (chr "=") with 61%N. destruct (N.eqb_spec c 61) as [->|E]; cbn.
  - exists r'. split; auto. now rewrite <- IH.
  - exists (c :: r). auto.
Qed.

(** what [ml_loop] yields, up to the unused parts *)
Definition ml_result (level pos : nat) (x : option (str * str)) (y : nat * nat * bool * str * tchars) : Prop :=
  let '(te, ke, s, res, c) := y in
  match x with
  | Some (b, rest) =>
      te = pos + List.length b /\ ke = pos + List.length b + level + 2 /\ s = true /\ res = b
      /\ c = (pos + List.length b + level + 2, rest)
  | None => s = false
  end.
Lemma long_end_cons level e c r :
  long_end level e (c :: r) =
  (if negb e && starts_with (closing level) (c :: r) then Some ([], skipn (level + 2) (c :: r))
   else match long_end level (N.eqb c 92) r with Some (b, rest) => Some (c :: b, rest) | None => None end).
Proof. reflexivity. Qed.
Lemma closing_cons level : closing level = 93%N :: repeat 61%N level ++ [93%N].
Proof. reflexivity. Qed.
(** skipping over a run of '=' *)
Lemma long_end_eqs level n r :
  long_end level false (repeat 61%N n ++ r) =
  match long_end level false r with Some (b, rest) => Some (repeat 61%N n ++ b, rest) | None => None end.
Proof.
  induction n as [|n IH]; cbn [repeat app]; [destruct (long_end level false r) as [[? ?]|]; reflexivity|].
  rewrite long_end_cons. change (starts_with (closing level) (61%N :: repeat 61%N n ++ r)) with false.
  cbn [negb andb]. change (N.eqb 61 92) with false. rewrite IH. destruct (long_end level false r) as [[? ?]|]; reflexivity.
Qed.
Lemma ml_loop_skip level esc endp r' : forall n pos,
  ml_loop level esc n endp pos (repeat 61%N n ++ r') = ml_loop level esc 0 endp (pos + n) r'.
Proof.
  induction n as [|n IH]; intros pos; cbn [repeat app]; [now rewrite Nat.add_0_r|].
  cbn [ml_loop]. rewrite IH. f_equal; lia.
Qed.
Lemma long_end_none_nil level e n : long_end level e (repeat 61%N n) = None.
Proof.
  revert e; induction n as [|n IH]; intros e; cbn [repeat]; [reflexivity|].
  rewrite long_end_cons. change (starts_with (closing level) (61%N :: repeat 61%N n)) with false. rewrite andb_false_r.
  change (N.eqb 61 92) with false. now rewrite IH.
Qed.
Lemma ml_loop_spec level : forall k s, List.length s <= k -> forall esc endp pos,
  ml_result level pos (long_end level esc s) (ml_loop level esc 0 endp pos s).
Proof.
  induction k as [|k IH]; intros s Hk esc endp pos.
  { destruct s; [reflexivity|cbn in Hk; lia]. }
  destruct s as [|ch r]; [reflexivity|].
  assert (Hr : List.length r <= k) by (cbn in Hk; lia).
  rewrite long_end_cons. rewrite closing_cons. cbn [starts_with].
  change (93 =? ch)%N with (N.eqb 93 ch). rewrite N.eqb_sym. rewrite count_eq_starts.
  assert (Step : forall e', ml_result level pos
      match long_end level e' r with Some (b, rest) => Some (ch :: b, rest) | None => None end
      (let '(te, ke, s, res, c) := ml_loop level e' 0 pos (S pos) r in (te, ke, s, ch :: res, c))).
  { intros e'. specialize (IH r Hr e' pos (S pos)).
    destruct (ml_loop level e' 0 pos (S pos) r) as [[[[te ke] s] res] c].
    destruct (long_end level e' r) as [[b rest]|]; cbn in *; [|exact IH].
    destruct IH as (-> & -> & -> & -> & ->). repeat split; try (f_equal; lia); lia. }
  cbn [ml_loop]. fold (ceq ch (chr "]")). change (N.eqb ch 93) with (ceq ch (chr "]")).
  change (N.eqb ch 92) with (ceq ch ch_bsl).
  destruct esc; cbn [negb andb]; [apply Step|].
  destruct (ceq ch (chr "]")) eqn:E; cbn [andb]; [|apply Step].
  apply ceq_true in E. change (chr "]") with 93%N in E. subst ch.
  change (ceq 93%N ch_bsl) with false in *.
  destruct (count_eq_prefix r) as (r' & Er & Hr').
  set (cur := count_eq r) in *.
  assert (Lr : cur + List.length r' = List.length r).
  { apply (f_equal (@List.length _)) in Er. rewrite app_length, repeat_length in Er. lia. }
  assert (Hn : nth_error r cur = hd_error r').
  { rewrite Er at 1. rewrite nth_error_app2; rewrite repeat_length; [|lia]. rewrite Nat.sub_diag. destruct r'; reflexivity. }
  assert (Mid : ml_result level pos
      match long_end level false r with Some (b, rest) => Some (93%N :: b, rest) | None => None end
      (let '(te, ke, s, res, c) := ml_loop level false cur pos (S pos) r in
       (te, ke, s, chr "]" :: eqs cur ++ res, c))).
  { rewrite Er at 1 2. rewrite ml_loop_skip, long_end_eqs.
    specialize (IH r' ltac:(lia) false pos (S pos + cur)).
    destruct (ml_loop level false 0 pos (S pos + cur) r') as [[[[te ke] s] res] c].
    destruct (long_end level false r') as [[b rest]|]; cbn in *; [|exact IH].
    destruct IH as (-> & -> & -> & -> & ->).
    assert (L : List.length (repeat 61%N cur ++ b) = cur + List.length b) by now rewrite app_length, repeat_length.
    rewrite L. repeat split; [lia|lia|f_equal; lia]. }
  rewrite Hn in *. destruct (Nat.eqb_spec level cur) as [El|El]; cbn [andb]; [|exact Mid].
  destruct r' as [|c2 r2]; cbn [hd_error] in *.
  - cbn [andb]. rewrite Er. rewrite app_nil_r. rewrite long_end_none_nil. reflexivity.
  - destruct (ceq c2 (chr "]")) eqn:E2; [|exact Mid].
    replace (level + 2) with (S (S cur)) by lia. cbn. repeat split; try lia. f_equal; lia.
Qed.
Lemma ml_ends_spec level p s start : ml_result level p (long_end level false s) (get_multiline_string_ends (p, s) level start).
Proof. unfold get_multiline_string_ends. cbn [fst snd]. apply ml_loop_spec with (k := List.length s). lia. Qed.

(** [long_end] looks no further than the closing bracket *)
Lemma closing_length level : List.length (closing level) = level + 2.
Proof. unfold closing, brackets. rewrite !app_length, repeat_length. cbn. lia. Qed.
Lemma starts_with_closing_app level s r : level + 2 <= List.length s -> starts_with (closing level) (s ++ r) = starts_with (closing level) s.
Proof.
  rewrite <- closing_length. generalize (closing level) as p. intros p; revert s.
  induction p as [|a p IH]; intros s H; cbn; [reflexivity|]. destruct s as [|b s]; cbn in *; [lia|].
  rewrite IH by lia. reflexivity.
Qed.
Lemma long_end_sound level : forall s e b rest, long_end level e s = Some (b, rest) ->
  s = b ++ closing level ++ rest /\ forall rest', long_end level e (b ++ closing level ++ rest') = Some (b, rest').
Proof.
  induction s as [|c r IH]; intros e b rest; [discriminate|].
  rewrite long_end_cons. destruct (negb e && starts_with (closing level) (c :: r)) eqn:E.
  - intros [= <- <-]. apply andb_true_iff in E. destruct E as [E1 E2]. apply starts_with_app in E2. destruct E2 as [r' E2].
    rewrite E2. replace (level + 2) with (List.length (closing level)) by apply closing_length.
    rewrite skipn_app, skipn_all, Nat.sub_diag. cbn [app skipn]. split; [reflexivity|]. intros rest'.
    rewrite closing_cons at 1. cbn [app]. rewrite long_end_cons.
    change (93%N :: (repeat 61%N level ++ [93%N]) ++ rest') with (closing level ++ rest').
    rewrite E1. assert (starts_with (closing level) (closing level ++ rest') = true) as -> by (apply starts_with_app; eauto).
    cbn [andb]. rewrite <- closing_length, skipn_app, skipn_all, Nat.sub_diag. reflexivity.
  - destruct (long_end level (c =? 92)%N r) as [[b0 rest0]|] eqn:L; [|discriminate]. intros [= <- <-].
    apply IH in L. destruct L as [-> L]. split; [reflexivity|]. intros rest'. cbn [app]. rewrite long_end_cons.
    assert (starts_with (closing level) (c :: b0 ++ closing level ++ rest') =
            starts_with (closing level) (c :: b0 ++ closing level ++ rest0)) as ->.
    { replace (c :: b0 ++ closing level ++ rest') with ((c :: b0 ++ closing level) ++ rest') by (cbn; now rewrite <- app_assoc).
      replace (c :: b0 ++ closing level ++ rest0) with ((c :: b0 ++ closing level) ++ rest0) by (cbn; now rewrite <- app_assoc).
      rewrite !starts_with_closing_app; [reflexivity| |]; cbn [List.length]; pose proof (closing_length level);
        rewrite app_length; lia. }
    rewrite E, L. reflexivity.
Qed.
Lemma long_body_end level b rest : long_body level b -> long_end level false (b ++ closing level ++ rest) = Some (b, rest).
Proof. intros H. apply long_end_sound in H. apply H. Qed.
Lemma long_end_body level s b rest : long_end level false s = Some (b, rest) -> s = b ++ closing level ++ rest /\ long_body level b.
Proof. intros H. apply long_end_sound in H. destruct H as [E L]. split; [exact E|]. specialize (L []). now rewrite app_nil_r in L. Qed.

(** [get_multiline_string_level] *)
Lemma level_spec p r : exists r' : str, r = repeat 61%N (count_eq r) ++ r' /\ (match r' with c :: _ => c <> 61%N | [] => True end)
  /\ get_multiline_string_level (p, r) p = (count_eq r, (p + count_eq r, r')).
Proof.
  destruct (count_eq_prefix r) as (r' & Er & Hr'). exists r'. repeat split; auto.
  unfold get_multiline_string_level. rewrite seek_span by reflexivity.
  set (f := fun ch => negb (ceq ch (chr "="))).
  destruct (take_app f (repeat 61%N (count_eq r)) r') as [T D].
  - apply Forall_forall. intros x Hx. apply repeat_spec in Hx. subst x. reflexivity.
  - destruct r'; cbn; [exact I|]. unfold f. change (chr "=") with 61%N. apply negb_true_iff, ceq_false. exact Hr'.
  - rewrite <- Er in T, D. rewrite T, D, repeat_length.
    assert (p <=? p + count_eq r = true) as -> by (apply Nat.leb_le; lia). do 2 f_equal; lia.
Qed.

Ltac teq := repeat match goal with |- (_, _) = (_, _) => apply pair_equal_spec; split end; try reflexivity; try (cbn; lia).

(** ** comments *)
Definition is_nl (c : char) : bool := ceq c ch_nl.
(** a comment [--[===] cut off by the end of the text loses its text *)
Definition lost (s : str) : bool := match s with c :: r => N.eqb c 91 && forallb (N.eqb 61) r | [] => false end.
Definition line_len (s : str) : nat :=
  List.length (take_until is_nl s) + match drop_until is_nl s with [] => 0 | _ => 1 end.
Definition line_text (s : str) : str :=
  match drop_until is_nl s with [] => if lost (take_until is_nl s) then [] else take_until is_nl s
  | _ => take_until is_nl s end.

Lemma oneline_spec p s : get_oneline_comment_ends (p, s) p =
  (p + List.length (take_until is_nl s), p + line_len s, true, take_until is_nl s,
   (p + line_len s, tl (drop_until is_nl s))).
Proof.
  unfold get_oneline_comment_ends. change (fun (ch : char) (_ : bool) => ceq ch ch_nl) with (fun (ch : char) (_ : bool) => is_nl ch).
  rewrite seek_span by reflexivity. unfold line_len. destruct (drop_until is_nl s); cbn [is_empty negb advance snd tl fst].
  - rewrite Nat.add_0_r. reflexivity.
  - teq.
Qed.
Lemma after_eqs_repeat n r : after_eqs (repeat 61%N n ++ r) = after_eqs r.
Proof. induction n; cbn; auto. Qed.
Lemma opens_long_iff s : opens_long s = true <-> exists lv r, s = opening lv ++ r.
Proof.
  split.
  - destruct s as [|c s]; [discriminate|]. cbn. intros H. apply andb_true_iff in H. destruct H as [H1 H2].
    apply N.eqb_eq in H1. subst c. enough (exists lv r, s = repeat 61%N lv ++ 91%N :: r) as (lv & r & ->).
    { exists lv, r. cbn. now rewrite <- app_assoc. }
    induction s as [|c s IH]; [discriminate|]. cbn in H2. destruct (N.eqb_spec c 91) as [->|E].
    + exists 0, s. reflexivity.
    + cbn in H2. apply andb_true_iff in H2. destruct H2 as [H2 H3]. apply N.eqb_eq in H2. subst c.
      destruct (IH H3) as (lv & r & ->). exists (S lv), r. reflexivity.
  - intros (lv & r & ->). cbn. rewrite <- app_assoc. rewrite after_eqs_repeat. reflexivity.
Qed.
Lemma comment_long p lv r : get_comment_start_ends_and_type (p, opening lv ++ r) p =
  let '(te, ke, succ, res, c4) := get_multiline_string_ends (p + lv + 2, r) lv (p + lv + 2) in
  (p + lv + 2, te, ke, Some lv, succ, res, c4).
Proof.
  unfold get_comment_start_ends_and_type. cbn [snd opening brackets app].
  change (ceq 91%N (chr "[")) with true. cbn [advance snd fst]. destruct lv as [|lv].
  - cbn [repeat app]. change (ceq 91%N (chr "=")) with false. change (ceq 91%N (chr "[")) with true.
    cbn [advance snd fst]. replace (S (S p)) with (p + 0 + 2) by lia. replace (S p + 1) with (p + 0 + 2) by lia. reflexivity.
  - cbn [repeat app]. change (ceq 61%N (chr "=")) with true. cbv iota.
    assert (E : count_eq (61%N :: (repeat 61%N lv ++ [91%N]) ++ r) = S lv).
    { rewrite <- app_assoc. cbn [app count_eq]. change (ceq 61%N (chr "=")) with true. cbv iota. f_equal.
      clear. induction lv as [|lv IH]; cbn [repeat app count_eq]; [reflexivity|]. change (ceq 61%N (chr "=")) with true. cbv iota. auto. }
    destruct (level_spec (S p) (61%N :: (repeat 61%N lv ++ [91%N]) ++ r)) as (r' & Er & _ & L).
    rewrite E in *. rewrite L. cbn [snd fst].
    assert (r' = 91%N :: r) as ->.
    { rewrite <- app_assoc in Er. cbn [repeat app] in Er. injection Er as Er. apply app_inv_head in Er. auto. }
    cbn [snd fst]. change (ceq 91%N (chr "[")) with true. cbv iota. cbn [advance snd fst].
    replace (S (S p + S lv)) with (p + S lv + 2) by lia. replace (S p + S lv + 1) with (p + S lv + 2) by lia. reflexivity.
Qed.
Lemma take_eqs n r : take_until is_nl (repeat 61%N n ++ r) = repeat 61%N n ++ take_until is_nl r
  /\ drop_until is_nl (repeat 61%N n ++ r) = drop_until is_nl r.
Proof. induction n as [|n [IH1 IH2]]; cbn; [auto|]. rewrite IH1, IH2. auto. Qed.
Lemma lost_false c s : c <> 91%N -> lost (c :: s) = false.
Proof. intros H. cbn. apply N.eqb_neq in H. now rewrite H. Qed.
Lemma forallb_eqs n r : forallb (N.eqb 61) (repeat 61%N n ++ r) = forallb (N.eqb 61) r.
Proof. induction n; cbn; auto. Qed.
Lemma take91 x : take_until is_nl (91%N :: x) = 91%N :: take_until is_nl x.
Proof. reflexivity. Qed.
Lemma drop91 x : drop_until is_nl (91%N :: x) = drop_until is_nl x.
Proof. reflexivity. Qed.
Lemma comment_line p s : opens_long s = false -> exists te,
  get_comment_start_ends_and_type (p, s) p =
  (p, te, p + line_len s, None, true, line_text s, (p + line_len s, tl (drop_until is_nl s))).
Proof.
  intros Ho. unfold get_comment_start_ends_and_type. cbn [snd].
  assert (Plain : lost (take_until is_nl s) = false -> exists te,
     (let '(te, ke, succ, res, c1) := get_oneline_comment_ends (p, s) p in (p, te, ke, None, succ, res, c1)) =
     (p, te, p + line_len s, @None nat, true, line_text s, (p + line_len s, tl (drop_until is_nl s)))).
  { intros Hl. rewrite oneline_spec. unfold line_text. rewrite Hl. eexists. destruct (drop_until is_nl s); reflexivity. }
  destruct s as [|b s]; [apply Plain; reflexivity|].
  destruct (ceq b (chr "[")) eqn:Eb.
  2: { apply Plain. apply ceq_false in Eb. cbn [take_until]. destruct (is_nl b); [reflexivity|]. now apply lost_false. }
  apply ceq_true in Eb. change (chr "[") with 91%N in Eb. subst b. cbn [advance snd fst].
  destruct s as [|ch s].
  { unfold line_len, line_text. cbn [take_until drop_until]. change (is_nl 91%N) with false. cbn. eexists. teq. }
  cbn in Ho. destruct (N.eqb_spec ch 91) as [->|Ech]; [discriminate|].
  assert (ceq ch (chr "[") = false) as Hch by now apply ceq_false.
  destruct (ceq ch (chr "=")) eqn:Eq.
  - apply ceq_true in Eq. change (chr "=") with 61%N in Eq. subst ch.
    destruct (level_spec (S p) (61%N :: s)) as (r' & Er & Hr' & L). rewrite L. cbn [snd fst].
    set (lv := count_eq (61%N :: s)) in *.
    assert (Ho' : after_eqs r' = false).
    { change (after_eqs (61%N :: s) = false) in Ho. rewrite Er in Ho. now rewrite after_eqs_repeat in Ho. }
    unfold line_len, line_text. rewrite take91, drop91.
    destruct (take_eqs lv r') as [T D]. rewrite Er, T, D.
    destruct r' as [|ch2 r'].
    + cbn [take_until drop_until tl]. rewrite app_nil_r. cbn [lost]. cbn [N.eqb Pos.eqb andb].
      assert (forallb (N.eqb 61) (repeat 61%N lv) = true) as -> by (clear; induction lv; cbn; auto).
      eexists. cbn. rewrite repeat_length. teq.
    + assert (ceq ch2 (chr "[") = false) as ->.
      { apply ceq_false. intros ->. discriminate. }
      rewrite oneline_spec. eexists. unfold line_len. cbn [List.length].
      rewrite app_length, repeat_length. cbn [lost]. cbn [N.eqb Pos.eqb andb].
      rewrite forallb_eqs.
      assert (Hl : drop_until is_nl (ch2 :: r') = [] -> forallb (N.eqb 61) (take_until is_nl (ch2 :: r')) = false).
      { cbn [drop_until take_until]. destruct (is_nl ch2); [discriminate|]. intros _. cbn [forallb].
        assert ((61 =? ch2)%N = false) as -> by (apply N.eqb_neq; congruence). reflexivity. }
      set (t := take_until is_nl (ch2 :: r')) in *. set (d := drop_until is_nl (ch2 :: r')) in *.
      unfold eqs. destruct d; [rewrite Hl by reflexivity|]; teq.
  - rewrite Hch. rewrite oneline_spec. eexists. unfold line_len, line_text. rewrite take91, drop91. cbn [List.length lost].
    assert (Hl : drop_until is_nl (ch :: s) = [] -> forallb (N.eqb 61) (take_until is_nl (ch :: s)) = false).
    { cbn [drop_until take_until]. destruct (is_nl ch); [discriminate|]. intros _. cbn [forallb].
      assert ((61 =? ch)%N = false) as -> by (apply N.eqb_neq; apply ceq_false in Eq; change (chr "=") with 61%N in Eq; congruence). reflexivity. }
    set (t := take_until is_nl (ch :: s)) in *. set (d := drop_until is_nl (ch :: s)) in *.
    destruct d; [cbn [N.eqb Pos.eqb andb]; rewrite Hl by reflexivity|]; teq.
Qed.

Definition is_comment (g : gitem) : bool := match g with GLine _ | GLong _ _ | GLast _ => true | _ => false end.
(** the text after the dashes *)
Definition cbody (g : gitem) : str :=
  match g with GLine s => s ++ [10%N] | GLong lv s => long lv s | GLast s => s | _ => [] end.
Lemma cbody_text g : is_comment g = true -> gitem_text g = [45; 45]%N ++ cbody g.
Proof. destruct g; cbn; congruence. Qed.
(** level and text the lexers see *)
Definition cvalue (g : gitem) : option nat * str :=
  match g with
  | GLine s => (None, s)
  | GLong lv s => (Some lv, s)
  | GLast s => (None, if lost s then [] else s)
  | _ => (None, [])
  end.
Lemma take_no_nl s : no_newline (take_until is_nl s).
Proof.
  intros H. pose proof (take_forall is_nl s) as F. rewrite Forall_forall in F. apply F in H. discriminate.
Qed.
Lemma no_nl_forall s : no_newline s -> Forall (fun c => is_nl c = false) s.
Proof.
  intros H. apply Forall_forall. intros x Hx. apply ceq_false. intros ->. auto.
Qed.
Lemma opens_long_app s c r : opens_long s = false -> c <> 91%N -> c <> 61%N -> opens_long (s ++ c :: r) = false.
Proof.
  intros H H1 H2. destruct s as [|b s]; cbn in *; [apply N.eqb_neq in H1; now rewrite H1|].
  destruct (N.eqb b 91); cbn in *; [|reflexivity].
  revert H. induction s as [|x s IH]; cbn.
  - intros _. apply N.eqb_neq in H1, H2. now rewrite H1, H2.
  - intros H. apply orb_false_iff in H. destruct H as [-> H]. cbn.
    destruct (x =? 61)%N; cbn in *; auto.
Qed.
Lemma opens_long_prefix s r : opens_long (s ++ r) = false -> opens_long s = false.
Proof.
  destruct s as [|b s]; cbn; [reflexivity|]. destruct (N.eqb b 91); cbn; [|reflexivity].
  induction s as [|x s IH]; cbn; [reflexivity|]. intros H. apply orb_false_iff in H. destruct H as [-> H]. cbn.
  destruct (x =? 61)%N; cbn in *; auto.
Qed.
Lemma comment_fwd p s ts te ke lv v c : get_comment_start_ends_and_type (p, s) p = (ts, te, ke, lv, true, v, c) ->
  exists g, is_comment g = true /\ gitem_ok g /\ s = cbody g ++ snd c /\ (is_last g = true -> snd c = [])
    /\ fst c = p + List.length (cbody g) /\ ke = fst c /\ (lv, v) = cvalue g.
Proof.
  destruct (opens_long s) eqn:O.
  - apply opens_long_iff in O. destruct O as (l & r & ->). rewrite comment_long.
    pose proof (ml_ends_spec l (p + l + 2) r (p + l + 2)) as M.
    destruct (get_multiline_string_ends (p + l + 2, r) l (p + l + 2)) as [[[[te' ke'] s'] res'] c'].
    intros [= <- <- <- <- -> <- <-]. cbn in M. destruct (long_end l false r) as [[b rest]|] eqn:L; [|discriminate].
    destruct M as (-> & -> & _ & -> & ->). apply long_end_body in L. destruct L as [-> L].
    exists (GLong l b). cbn [is_comment gitem_ok cbody snd fst is_last cvalue].
    assert (E : List.length (long l b) = l + 2 + List.length b + (l + 2)).
    { unfold long, opening, brackets. rewrite !app_length, closing_length, repeat_length. cbn. lia. }
    repeat split; auto; try discriminate; try lia. unfold long. now rewrite <- !app_assoc.
  - destruct (comment_line p s O) as [te' E]. rewrite E. intros [= <- <- <- <- <- <-]. cbn [fst snd].
    pose proof (take_drop is_nl s) as TD. pose proof (take_no_nl s) as Hn. unfold line_len, line_text.
    pose proof (drop_stops is_nl s) as St.
    assert (opens_long (take_until is_nl s) = false) as Ot by (eapply opens_long_prefix; rewrite TD; exact O).
    destruct (drop_until is_nl s) as [|c r] eqn:D.
    + exists (GLast (take_until is_nl s)). cbn. rewrite app_nil_r in TD. rewrite app_nil_r. repeat split; auto; lia.
    + cbn in St. unfold is_nl in St. apply ceq_true in St. subst c.
      exists (GLine (take_until is_nl s)). cbn. rewrite <- app_assoc. repeat split; auto; try discriminate.
      rewrite app_length. cbn. lia.
Qed.
Lemma comment_bwd p g rest : is_comment g = true -> gitem_ok g -> (is_last g = true -> rest = []) ->
  exists ts te, get_comment_start_ends_and_type (p, cbody g ++ rest) p =
    (ts, te, p + List.length (cbody g), fst (cvalue g), true, snd (cvalue g), (p + List.length (cbody g), rest)).
Proof.
  destruct g as [| |s|lv s|s]; try discriminate; cbn [cbody gitem_ok is_last cvalue fst snd]; intros _ Hok Hl.
  - destruct Hok as [Hn Ho]. rewrite <- app_assoc. cbn [app].
    destruct (comment_line p (s ++ 10%N :: rest)) as [te E]; [apply opens_long_app; auto; discriminate|].
    destruct (take_app is_nl s (10%N :: rest)) as [T D]; [now apply no_nl_forall|reflexivity|].
    rewrite E. unfold line_len, line_text. rewrite T, D. cbn [tl]. rewrite app_length. cbn [List.length].
    eexists _, _. reflexivity.
  - unfold long. rewrite <- !app_assoc. rewrite comment_long.
    pose proof (ml_ends_spec lv (p + lv + 2) (s ++ closing lv ++ rest) (p + lv + 2)) as M.
    rewrite long_body_end in M by exact Hok.
    destruct (get_multiline_string_ends _ lv (p + lv + 2)) as [[[[te' ke'] s'] res'] c']. cbn in M.
    destruct M as (-> & -> & -> & -> & ->).
    assert (E : List.length (opening lv ++ s ++ closing lv) = lv + 2 + List.length s + (lv + 2)).
    { unfold opening, brackets. rewrite !app_length, closing_length, repeat_length. cbn. lia. }
    rewrite E. eexists _, _. teq.
  - rewrite (Hl eq_refl), app_nil_r. destruct Hok as [Hn Ho]. destruct (comment_line p s Ho) as [te E].
    destruct (take_app is_nl s []) as [T D]; [now apply no_nl_forall|exact I|]. rewrite app_nil_r in T, D.
    rewrite E. unfold line_len, line_text. rewrite T, D. cbn [tl]. rewrite Nat.add_0_r. eexists _, _. reflexivity.
Qed.

(** ** numerals *)
Fixpoint num_max (st : numst) (s : str) : str * str * numst :=
  match s with
  | [] => ([], [], st)
  | c :: r => match num_step st c with
              | Some st' => let '(w, rest, e) := num_max st' r in (c :: w, rest, e)
              | None => ([], s, st)
              end
  end.
Definition num_stops (e : numst) (rest : str) : Prop :=
  match rest with [] => True | c :: _ => num_step e c = None end.
Lemma num_max_sound st s w rest e : num_max st s = (w, rest, e) ->
  s = w ++ rest /\ num_run st w = Some e /\ num_stops e rest.
Proof.
  revert st w rest e; induction s as [|c r IH]; intros st w rest e; cbn [num_max].
  - intros [= <- <- <-]. repeat split.
  - destruct (num_step st c) as [st'|] eqn:E.
    + destruct (num_max st' r) as [[w' rest'] e'] eqn:M. intros [= <- <- <-].
      apply IH in M. destruct M as (-> & M1 & M2). repeat split; auto. cbn. now rewrite E.
    + intros [= <- <- <-]. repeat split. exact E.
Qed.
Lemma num_max_complete st w rest e : num_run st w = Some e -> num_stops e rest -> num_max st (w ++ rest) = (w, rest, e).
Proof.
  revert st; induction w as [|c w IH]; intros st; cbn [num_run app num_max].
  - intros [= ->] H. destruct rest as [|c r]; cbn in *; [reflexivity|]. now rewrite H.
  - destruct (num_step st c) as [st'|]; [|discriminate]. intros H1 H2. now rewrite (IH st' H1 H2).
Qed.
Lemma digit_is_digit c : is_digit c = digit c.
Proof. reflexivity. Qed.
Lemma hex_is_hex c : is_digit c || is_hex_letter c = hexdigit c.
Proof. reflexivity. Qed.
Definition nondigit (c : char) : bool := negb (digit c).
Lemma num_max_digits s : num_max NExpDigits s = (take_until nondigit s, drop_until nondigit s, NExpDigits).
Proof.
  induction s as [|c r IH]; cbn [num_max num_step take_until drop_until]; [reflexivity|]. assert (En : nondigit c = negb (digit c)) by reflexivity. rewrite En.
  destruct (digit c); cbn; [|reflexivity]. now rewrite IH.
Qed.
Lemma num_max_sign s : num_max NExpSign s =
  (take_until nondigit s, drop_until nondigit s, match take_until nondigit s with [] => NExpSign | _ => NExpDigits end).
Proof.
  destruct s as [|c r]; cbn [num_max num_step take_until drop_until]; [reflexivity|]. assert (En : nondigit c = negb (digit c)) by reflexivity. rewrite En.
  destruct (digit c); cbn; [|reflexivity]. now rewrite num_max_digits.
Qed.
Lemma num_max_exp s : (match s with c :: _ => c <> 45%N | [] => True end) -> num_max NExp s =
  (take_until nondigit s, drop_until nondigit s, match take_until nondigit s with [] => NExp | _ => NExpDigits end).
Proof.
  destruct s as [|c r]; cbn [num_max num_step take_until drop_until]; [reflexivity|]. intros H. apply N.eqb_neq in H. rewrite H. assert (En : nondigit c = negb (digit c)) by reflexivity. rewrite En.
  destruct (digit c); cbn; [|reflexivity]. now rewrite num_max_digits.
Qed.
Definition nondec (c : char) : bool := negb (digit c) && negb (ceq c (chr ".")).
Lemma num_max_dec_app t d : Forall (fun c => nondec c = false) t ->
  num_max NDec (t ++ d) = let '(w, rest, e) := num_max NDec d in (t ++ w, rest, e).
Proof.
  induction 1 as [|c t Hc H IH]; cbn [app]; [destruct (num_max NDec d) as [[? ?] ?]; reflexivity|].
  cbn [num_max num_step].
  assert (digit c || (c =? 46)%N = true) as ->.
  { unfold nondec in Hc. unfold ceq in Hc. change (chr ".") with 46%N in Hc.
    destruct (digit c), (c =? 46)%N; auto; discriminate. }
  rewrite IH. destruct (num_max NDec d) as [[? ?] ?]; reflexivity.
Qed.
Lemma integer_end_spec p s : get_integer_end (p, s) p =
  (p + List.length (take_until nondigit s), negb (is_empty s), take_until nondigit s,
   (p + List.length (take_until nondigit s), drop_until nondigit s)).
Proof.
  unfold get_integer_end. change (fun (ch : char) (_ : bool) => negb (is_digit ch)) with (fun (ch : char) (_ : bool) => nondigit ch).
  rewrite seek_span by reflexivity. destruct s as [|c r].
  - cbn. rewrite Nat.add_0_r, Nat.leb_refl. reflexivity.
  - cbn [take_until drop_until]. destruct (nondigit c) eqn:E; cbn [negb is_empty andb List.length].
    + rewrite andb_false_r. reflexivity.
    + assert (p + S (List.length (take_until nondigit r)) <=? p = false) as -> by (apply Nat.leb_gt; lia). reflexivity.
Qed.
Definition float_result (p : nat) (m : str * str * numst) (y : nat * bool * str * tchars) : Prop :=
  let '(w, rest, e) := m in let '(pe, ok, v, c) := y in
  if num_end e (is_empty rest)
  then ok = true /\ v = w /\ pe = p + List.length w /\ c = (p + List.length w, rest)
  else ok = false.
Lemma float_end_spec p s start : (s <> [] \/ start = p) -> float_result p (num_max NDec s) (get_float_end (p, s) start).
Proof.
  intros Hs. unfold get_float_end.
  change (fun (ch : char) (_ : bool) => negb (is_digit ch) && negb (ceq ch (chr "."))) with (fun (ch : char) (_ : bool) => nondec ch).
  assert (seek_end_by_predicate (fun ch _ => nondec ch) (p, s) start =
    (p + List.length (take_until nondec s), negb (is_empty (drop_until nondec s)), take_until nondec s,
    (p + List.length (take_until nondec s), drop_until nondec s))) as ->.
  { destruct Hs as [Hs| ->]; [now apply seek_span_any | now apply seek_span]. }
  rewrite <- (take_drop nondec s) at 1. rewrite num_max_dec_app by apply take_forall.
  set (t := take_until nondec s). pose proof (drop_stops nondec s) as St. set (d := drop_until nondec s) in *.
  clearbody t d. clear s Hs start. cbn [snd fst].
  destruct d as [|ch r].
  { cbn. rewrite app_nil_r. auto. }
  cbn in St.
  assert (Hd : digit ch || (ch =? 46)%N = false).
  { unfold nondec in St. unfold ceq in St. change (chr ".") with 46%N in St.
    destruct (digit ch), (ch =? 46)%N; auto; discriminate. }
  unfold num_max at 1. fold num_max. cbn [num_step]. rewrite Hd. unfold ceq at 1 2.
  change (chr "e") with 101%N. change (chr "E") with 69%N.
  destruct ((ch =? 101)%N || (ch =? 69)%N) eqn:Ee.
  2: { cbn. rewrite app_nil_r. repeat split. }
  cbn [advance snd fst]. destruct r as [|ch2 r2]; [reflexivity|].
  destruct (ceq ch2 (chr "-")) eqn:Em.
  - apply ceq_true in Em. subst ch2. cbn [advance snd fst].
    replace (S (p + List.length t) + 1) with (S (S (p + List.length t))) by lia.
    rewrite integer_end_spec. cbn [num_max num_step]. change ((chr "-" =? 45)%N) with true. cbv iota.
    rewrite num_max_sign. destruct r2 as [|c3 r3]; [reflexivity|]. cbn [is_empty negb].
    assert (num_end (match take_until nondigit (c3 :: r3) with [] => NExpSign | _ :: _ => NExpDigits end)
              (is_empty (drop_until nondigit (c3 :: r3))) = true) as H.
    { cbn. destruct (nondigit c3); reflexivity. }
    unfold float_result. rewrite H. rewrite !app_length. cbn [List.length app].
    repeat split; try lia. f_equal; lia.
  - replace (p + List.length t + 1) with (S (p + List.length t)) by lia.
    rewrite integer_end_spec. cbn [is_empty negb]. rewrite num_max_exp by (apply ceq_false in Em; exact Em).
    assert (num_end (match take_until nondigit (ch2 :: r2) with [] => NExp | _ :: _ => NExpDigits end)
              (is_empty (drop_until nondigit (ch2 :: r2))) = true) as H.
    { cbn. destruct (nondigit ch2); reflexivity. }
    unfold float_result. rewrite H. rewrite !app_length. cbn [List.length app].
    repeat split; try lia. f_equal; lia.
Qed.
Definition nonhex (c : char) : bool := negb (is_digit c) && negb (is_hex_letter c).
Lemma nonhex_hex c : nonhex c = negb (hexdigit c).
Proof. unfold nonhex. rewrite <- hex_is_hex. now rewrite negb_orb. Qed.
Lemma num_max_hex s : num_max NHex s = (take_until nonhex s, drop_until nonhex s, NHex).
Proof.
  induction s as [|c r IH]; cbn [num_max num_step take_until drop_until]; [reflexivity|]. rewrite nonhex_hex.
  destruct (hexdigit c); cbn; [|reflexivity]. now rewrite IH.
Qed.
Lemma hex_end_spec p s : float_result p (num_max NHexX s) (get_hex_integer_end (p, s) p).
Proof.
  unfold get_hex_integer_end.
  change (fun (ch : char) (_ : bool) => negb (is_digit ch) && negb (is_hex_letter ch)) with (fun (ch : char) (_ : bool) => nonhex ch).
  rewrite seek_span by reflexivity. destruct s as [|c r].
  - cbn. rewrite Nat.add_0_r, Nat.leb_refl. reflexivity.
  - cbn [take_until drop_until num_max num_step]. rewrite nonhex_hex. destruct (hexdigit c) eqn:E; cbn [negb is_empty andb List.length].
    + assert (p + S (List.length (take_until nonhex r)) <=? p = false) as -> by (apply Nat.leb_gt; lia).
      rewrite num_max_hex. cbn. repeat split.
    + rewrite andb_false_r. cbn. repeat split.
Qed.

(** ** one step *)
Definition nonident (c : char) : bool := negb (is_ident_char c).
Lemma ident_char_eq c : is_ident_char c = letter c || digit c.
Proof.
  unfold is_ident_char, is_alpha, letter. change (is_digit c) with (digit c).
  unfold is_lower, is_upper, in_range, cleb, ceq. change (chr "a") with 97%N. change (chr "z") with 122%N.
  change (chr "A") with 65%N. change (chr "Z") with 90%N. change (chr "_") with 95%N.
  destruct ((97 <=? c)%N && (c <=? 122)%N), ((65 <=? c)%N && (c <=? 90)%N), (digit c), (c =? 95)%N; reflexivity.
Qed.
Lemma letter_eq c : is_alpha c || ceq c (chr "_") = letter c.
Proof.
  unfold is_alpha, letter, is_lower, is_upper, in_range, cleb, ceq. change (chr "a") with 97%N. change (chr "z") with 122%N.
  change (chr "A") with 65%N. change (chr "Z") with 90%N. change (chr "_") with 95%N.
  destruct ((97 <=? c)%N && (c <=? 122)%N), ((65 <=? c)%N && (c <=? 90)%N), (c =? 95)%N; reflexivity.
Qed.
Lemma variable_spec i ch r : letter ch = true ->
  get_variable_end (i, ch :: r) i =
  (i + List.length (take_until nonident (ch :: r)), true, take_until nonident (ch :: r),
   (i + List.length (take_until nonident (ch :: r)), drop_until nonident (ch :: r))).
Proof.
  intros H. unfold get_variable_end.
  change (fun (c : char) (_ : bool) => negb (is_ident_char c)) with (fun (c : char) (_ : bool) => nonident c).
  rewrite seek_span by reflexivity. assert (take_until nonident (ch :: r) = ch :: take_until nonident r) as ->.
  { cbn. unfold nonident at 1. rewrite ident_char_eq, H. reflexivity. }
  cbn [List.length]. assert (i + S (List.length (take_until nonident r)) <=? i = false) as -> by (apply Nat.leb_gt; lia).
  rewrite andb_false_r. reflexivity.
Qed.
Lemma quoted_closes q : forall esc s, quoted q esc s = closes q esc s.
Proof. intros esc s; revert esc; induction s as [|c s IH]; intros esc; cbn; [reflexivity|]. unfold ceq. rewrite IH. reflexivity. Qed.

(** the words and their tokens *)
Lemma keyword_spec s : match keyword s with
  | Some t => In s words /\ spelling t = s /\ token_ok t
              /\ (forall o, can_follow t o = negb (is_class (fun c => letter c || digit c) o))
              /\ (forall w rest, written t w rest <-> w = s)
  | None => ~ In s words end.
Proof.
  unfold keyword.
  assert (G : forall l, incl l keywords -> match assoc_str s l with
     | Some t => In (s, t) l | None => ~ In s (map fst l) end).
  { induction l as [|[k t] l IH]; intros Hl; cbn; [tauto|]. destruct (str_eqb s k) eqn:E.
    - apply str_eqb_true in E. subst k. now left.
    - apply str_eqb_false in E. specialize (IH (fun x Hx => Hl x (or_intror Hx))).
      destruct (assoc_str s l); [now right|]. cbn. intros [H|H]; [congruence|auto]. }
  specialize (G keywords (fun x H => H)). destruct (assoc_str s keywords) as [t|].
  - unfold keywords in G. cbn [In] in G.
    repeat (destruct G as [G|G]; [injection G as <- <-; repeat split; intros; cbn; auto 30; try reflexivity; try tauto|]).
    destruct G.
  - exact G.
Qed.

Definition step_ok (i : nat) (s : str) (x : lstep token) : Prop :=
  match x with
  | LSkip c => exists g, gitem_ok g /\ s = gitem_text g ++ snd c /\ fst c = i + List.length (gitem_text g)
                 /\ (is_last g = true -> snd c = [])
  | LTok l t e c => l = i /\ exists w, w <> [] /\ token_ok t /\ written t w (snd c)
                 /\ can_follow t (hd_error (snd c)) = true /\ s = w ++ snd c /\ e = i + List.length w /\ fst c = e
  | LErr _ => True
  end.

Lemma peek_spec i r a : match r with
  | c :: r' => if ceq c (chr a) then peek_is (i, r) a = true /\ c = chr a else peek_is (i, r) a = false /\ c <> chr a
  | [] => peek_is (i, r) a = false end.
Proof.
  destruct r as [|c r]; [reflexivity|]. unfold peek_is. cbn [snd]. destruct (ceq c (chr a)) eqn:E.
  - apply ceq_true in E. auto.
  - apply ceq_false in E. auto.
Qed.
Lemma num_ok i w0 st p s start pe ok v c :
  w0 <> [] -> num_run NStart w0 = Some st -> p = i + List.length w0 ->
  float_result p (num_max st s) (pe, ok, v, c) ->
  step_ok i (w0 ++ s) (if ok then LTok i (Numeral (w0 ++ v)) pe c else LErr start).
Proof.
  intros Hne Hrun -> H. unfold float_result in H. destruct (num_max st s) as [[w rest] e] eqn:M.
  apply num_max_sound in M. destruct M as (-> & M1 & M2).
  assert (R : num_run NStart (w0 ++ w) = Some e).
  { clear -Hrun M1. revert Hrun. generalize NStart. induction w0 as [|x w0 IH]; intros s0; cbn; [now intros [= ->]|].
    destruct (num_step s0 x); [auto|discriminate]. }
  assert (Heof : num_end e true = true -> num_end e false = true) by (destruct e; auto; discriminate).
  destruct (num_end e (is_empty rest)) eqn:E.
  - destruct H as (-> & -> & -> & ->). cbn. split; [reflexivity|]. exists (w0 ++ w). cbn [snd fst].
    repeat split.
    + destruct w0; [congruence|discriminate].
    + exists e. split; [exact R|]. destruct rest; auto.
    + rewrite R. destruct rest as [|x rest]; cbn in *; [exact E|]. now rewrite M2.
    + now rewrite app_assoc.
    + rewrite app_length; lia.
  - subst ok. exact I.
Qed.
Ltac onechar := split; [reflexivity|]; eexists [_]; cbn [snd fst app List.length];
  repeat split; try discriminate; try reflexivity; try (f_equal; lia); try lia.
Lemma peek_cases i r a : (exists r', r = chr a :: r' /\ peek_is (i, r) a = true) \/
  (peek_is (i, r) a = false /\ match r with c :: _ => c <> chr a | [] => True end).
Proof.
  pose proof (peek_spec i r a) as H. destruct r as [|c r']; [auto|].
  destruct (ceq c (chr a)) eqn:E.
  - destruct H as [H ->]. left. eauto.
  - destruct H. auto.
Qed.
Lemma not_char l r : (forall c, In c l -> match r with x :: _ => x <> c | [] => True end) -> is_char l (hd_error r) = false.
Proof.
  destruct r as [|x r]; [reflexivity|]. cbn. intros H. induction l as [|c l IH]; [reflexivity|]. cbn.
  apply orb_false_iff. split; [apply N.eqb_neq; apply H; now left|]. apply IH. intros d Hd. apply H. now right.
Qed.
