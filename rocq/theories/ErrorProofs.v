(** Where parsing a text stops. *)
From Verif Require Import Base Lib LexUtil LuaLexer Ast LR LRSpec LRProofs LuaGrammar LuaTables LuaParser ParserProofs
  LexSpec LexProofs LexStep LexBack LexLoop LuaError ErrorSpec ViableProofs DriveProofs.
From Verif Require LayoutProofs.

(** ** the tokens before the first lexical error *)
Lemma begins_gap p g rest ts : gitem_ok g -> is_last g = false ->
  begins_with (p + List.length (gitem_text g)) rest ts -> begins_with p (gitem_text g ++ rest) ts.
Proof.
  intros Hok Hl T. remember (p + List.length (gitem_text g)) as q eqn:Eq.
  revert Eq. destruct T as [q s|q l Hg|q l t w rest ts Hg Ht Hw Hf T]; intros Eq.
  - constructor.
  - replace (gitem_text g ++ gap_text l) with (gap_text (g :: l)) by reflexivity.
    replace (q + List.length (gap_text l)) with (p + List.length (gap_text (g :: l))) by (rewrite gap_len; lia).
    apply bg_end. destruct Hg as (l0 & l1 & -> & H0 & H1). exists (g :: l0), l1. repeat split; auto. now apply gap_cons.
  - replace (gitem_text g ++ gap_text l ++ w ++ rest) with (gap_text (g :: l) ++ w ++ rest) by (cbn; now rewrite <- app_assoc).
    replace (q + List.length (gap_text l)) with (p + List.length (gap_text (g :: l))) in * by (rewrite gap_len; lia).
    apply bg_tok; auto. now apply gap_cons.
Qed.
Lemma begins_prefix p s ts : begins_with p s ts -> forall us vs, ts = us ++ vs -> begins_with p s us.
Proof.
  induction 1 as [p s|p l Hg|p l t w rest ts Hg Ht Hw Hf T IH]; intros us vs E.
  - destruct us; [constructor|discriminate].
  - destruct us as [|u [|u' us]]; [constructor| |discriminate]. injection E as <- _. now apply bg_end.
  - destruct us as [|u us]; [constructor|]. injection E as <- E. apply bg_tok; eauto.
Qed.

Lemma upto_sound : forall fuel p s n, n = p + List.length s -> begins_with p s (fst (lex_upto n fuel (p, s))).
Proof.
  induction fuel as [|fuel IH]; intros p s n Hn; cbn [lex_upto]; [constructor|].
  destruct s as [|ch r]; cbn [snd fst].
  - rewrite Hn. cbn. apply (bg_end p []). exists [], []. repeat split; auto. constructor.
  - pose proof (lex_step_ok p ch r) as S. destruct (lex_step p ch r) as [[q rest]|l t e [q rest]|err]; [| |constructor].
    + destruct S as (g & Hok & E & Hq & Hl). cbn [snd fst] in *. rewrite E. rewrite E in Hn. rewrite app_length in Hn.
      destruct (is_last g) eqn:El.
      * rewrite (Hl eq_refl) in *. destruct fuel as [|fuel]; [constructor|]. cbn.
        rewrite app_nil_r. cbn in Hn. rewrite Nat.add_0_r in Hn. subst n. destruct g; try discriminate.
        replace (gitem_text (GLast s)) with (gap_text [GLast s]) by (cbn; now rewrite app_nil_r).
        apply bg_end. exists [], [GLast s]. repeat split; [constructor|]. right. eauto.
      * apply begins_gap; auto. rewrite <- Hq. apply IH. lia.
    + destruct S as (-> & w & Hne & Hok & Hw & Hf & E & -> & Hq). cbn [snd fst] in *. rewrite E. rewrite E in Hn.
      rewrite app_length in Hn. subst q. specialize (IH (p + List.length w) rest n).
      destruct (lex_upto n fuel (p + List.length w, rest)) as [ts st]. cbn [fst] in *.
      pose proof (bg_tok p [] t w rest ts (Forall_nil _) Hok Hw Hf) as T. cbn in T. rewrite Nat.add_0_r in T. apply T. apply IH. lia.
Qed.

Lemma gap_upto : forall l fuel p rest n, Forall gitem_ok l ->
  (forall g, In g l -> is_last g = false) \/ (rest = [] /\ forall l0 g, l = l0 ++ [g] -> forall h, In h l0 -> is_last h = false) ->
  List.length (gap_text l ++ rest) < fuel ->
  exists k, List.length rest < k /\ lex_upto n fuel (p, gap_text l ++ rest) = lex_upto n k (p + List.length (gap_text l), rest).
Proof.
  induction l as [|g l IH]; intros fuel p rest n Hok Hl Hf.
  - cbn in *. exists fuel. split; [exact Hf|]. now rewrite Nat.add_0_r.
  - destruct fuel as [|fuel]; [lia|]. inversion Hok as [|? ? Hg Hok']; subst.
    assert (Hne : 1 <= List.length (gitem_text g)) by (destruct g; cbn; lia).
    destruct (gitem_text g ++ gap_text l ++ rest) as [|ch r] eqn:E.
    { apply (f_equal (@List.length N)) in E. rewrite app_length in E. cbn in E. lia. }
    assert (Hlast : is_last g = true -> gap_text l ++ rest = []).
    { intros Hg'. destruct Hl as [Hl|[-> Hl]]; [rewrite Hl in Hg' by (now left); discriminate|].
      destruct l as [|h l]; [reflexivity|]. destruct (exists_last (l := h :: l)) as (l0 & x & El); [discriminate|].
      rewrite (Hl (g :: l0) x) in Hg'; [discriminate|now rewrite El|now left]. }
    destruct (IH fuel (p + List.length (gitem_text g)) rest n Hok') as (k & Hk & Ek).
    + destruct Hl as [Hl|[-> Hl]]; [left|right; split; [reflexivity|]].
      * intros h Hh. apply Hl. now right.
      * intros l0 x -> h Hh. apply (Hl (g :: l0) x); [reflexivity|now right].
    + cbn [gap_text flat_map] in Hf. rewrite <- app_assoc, app_length in Hf. change (flat_map gitem_text l) with (gap_text l) in Hf. lia.
    + exists k. split; [exact Hk|]. cbn [gap_text flat_map]. rewrite <- app_assoc. change (flat_map gitem_text l) with (gap_text l).
      rewrite E. cbn [lex_upto snd fst].
      rewrite (gitem_back p g (gap_text l ++ rest) ch r Hg Hlast E). rewrite Ek. do 2 f_equal. rewrite app_length. lia.
Qed.

Lemma upto_complete p s us : begins_with p s us -> forall fuel, List.length s < fuel ->
  exists vs, fst (lex_upto (p + List.length s) fuel (p, s)) = us ++ vs.
Proof.
  induction 1 as [p s|p l Hg|p l t w rest ts Hg Ht Hw Hf T IH]; intros fuel Hfuel.
  - eexists. reflexivity.
  - destruct (gap_upto l fuel p [] (p + List.length (gap_text l))) as (k & Hk & Ek).
    + destruct Hg as (l0 & l1 & -> & H0 & H1). apply Forall_app. split.
      * eapply Forall_impl; [|exact H0]. intros g Hg; apply Hg.
      * destruct H1 as [->|(s & -> & Hs)]; constructor; auto.
    + destruct Hg as (l0 & l1 & -> & H0 & H1). unfold gap in H0. rewrite Forall_forall in H0.
      destruct H1 as [->|(s & -> & Hs)].
      * left. intros g Hg. rewrite app_nil_r in Hg. apply H0. exact Hg.
      * right. split; [reflexivity|]. intros l0' g E h Hh. apply app_inj_tail in E. destruct E as [-> _]. now apply H0.
    + now rewrite app_nil_r.
    + rewrite app_nil_r in Ek. rewrite Ek. destruct k as [|k]; [cbn in Hk; lia|]. now exists [].
  - assert (Hne : w <> []).
    { intros ->. destruct t; cbn in Hw, Ht; try discriminate; auto.
      - subst. exact Ht.
      - subst. destruct Ht as (? & [= <-] & Ht). discriminate.
      - destruct Ht as (? & -> & _). destruct Hw as [Hw|[Hw _]]; discriminate. }
    destruct (gap_upto l fuel p (w ++ rest) (p + List.length (gap_text l ++ w ++ rest))) as (k & Hk & Ek).
    + eapply Forall_impl; [|exact Hg]. intros g H; apply H.
    + left. intros g H. unfold gap in Hg. rewrite Forall_forall in Hg. now apply Hg.
    + exact Hfuel.
    + rewrite Ek. destruct k as [|k]; [lia|]. destruct (w ++ rest) as [|ch r] eqn:E; [destruct w; [congruence|discriminate]|].
      cbn [lex_upto snd fst]. rewrite (token_back _ t w rest ch r Ht Hw Hf E).
      replace (p + List.length (gap_text l ++ ch :: r)) with (p + List.length (gap_text l) + List.length w + List.length rest)
        by (rewrite <- E, !app_length; lia).
      destruct (IH k) as (vs & Ev); [rewrite <- E, app_length in Hk; destruct w; [congruence|]; cbn in Hk; lia|].
      destruct (lex_upto _ k _) as [ts' st]. cbn [fst] in *. exists vs. cbn. now rewrite Ev.
Qed.

(** the lexer of LuaLexer.v gives the same tokens and the same error *)
Lemma upto_loop : forall fuel n cs, lex_loop n fuel cs = match lex_upto n fuel cs with
  | (ts, StopEnd) => LexOk ts
  | (_, StopError e) => LexFail e
  | (_, StopFuel) => LexFuel end.
Proof.
  induction fuel as [|fuel IH]; intros n cs; cbn [lex_loop lex_upto]; [reflexivity|].
  destruct (snd cs) as [|ch r]; [reflexivity|]. destruct (lex_step (fst cs) ch r) as [c|l t e c|e]; [apply IH| |reflexivity].
  rewrite IH. destruct (lex_upto n fuel c) as [ts [|e'|]]; reflexivity.
Qed.
Lemma upto_eof : forall fuel n cs, n = fst cs + List.length (snd cs) ->
  match lex_upto n fuel cs with
  | (ts, StopEnd) => exists ts' l r, ts = ts' ++ [(l, EOF, r)] /\ Forall (fun '(_, t, _) => t <> EOF) ts'
  | (ts, _) => Forall (fun '(_, t, _) => t <> EOF) ts end.
Proof.
  induction fuel as [|fuel IH]; intros n cs Hn; cbn [lex_upto]; [constructor|].
  destruct cs as [p s]. cbn [fst snd] in *.
  destruct s as [|ch r]; [exists [], n, n; split; [reflexivity|constructor]|].
  pose proof (lex_step_ok p ch r) as S. destruct (lex_step p ch r) as [c|l t e c|e]; [| |constructor].
  - destruct S as (g & Hok & E & Hq & Hl). apply IH. rewrite E, app_length in Hn. lia.
  - destruct S as (-> & w & Hne & Hok & Hw & Hf & E & -> & Hq). rewrite E, app_length in Hn.
    assert (t <> EOF) as Ht by (intros ->; exact Hok).
    specialize (IH n c). destruct (lex_upto n fuel c) as [ts [|e'|]].
    + destruct IH as (ts' & l & r' & -> & F); [lia|]. exists ((p, t, p + List.length w) :: ts'), l, r'. split; [reflexivity|].
      constructor; auto.
    + constructor; [exact Ht|]. apply IH. lia.
    + constructor; [exact Ht|]. apply IH. lia.
Qed.

(** ** the end of the text ends a program, and only there *)
Definition no_end (w : list ptok) : Prop := Forall (fun '(_, t, _) => t <> EOF) w.
Definition ends_once (w : list ptok) : Prop := exists w' l r, w = w' ++ [(l, EOF, r)] /\ no_end w'.
Definition clean (x : sym) : bool := negb (sym_eqb x (T t_EOF)) && negb (sym_eqb x (NT n_Chunk_)).
Definition chk_eof (p : prod val) : bool :=
  if N.eqb (p_lhs p) n_Chunk_
  then match rev (p_rhs p) with x :: xs => sym_eqb x (T t_EOF) && forallb clean xs | [] => false end
  else forallb clean (p_rhs p).
Lemma eof_prods : forallb chk_eof lua_prods = true.
Proof. vm_compute. reflexivity. Qed.
Lemma term_eof t : term_of t = t_EOF -> t = EOF.
Proof. destruct t; cbn; intros H; try reflexivity; discriminate H. Qed.
Lemma derives_eof :
  (forall x w v, derives lua_grammar x w v -> (clean x = true -> no_end w) /\ (x = NT n_Chunk_ -> ends_once w)
     /\ (x = T t_EOF -> exists l r, w = [(l, EOF, r)]))
  /\ (forall xs w vs, derives_list lua_grammar xs w vs -> (forallb clean xs = true -> no_end w)
     /\ (forall ys, xs = ys ++ [T t_EOF] -> forallb clean ys = true -> ends_once w)).
Proof.
  apply derives_both.
  - intros l t r. split; [|split].
    + intros C. constructor; [|constructor]. intros ->. discriminate C.
    + discriminate.
    + intros [= E]. apply term_eof in E. subst t. eauto.
  - intros p w args Hp D (IH1 & IH2). pose proof eof_prods as V. rewrite forallb_forall in V. specialize (V p Hp). unfold chk_eof in V.
    split; [|split]; [| |discriminate].
    + intros C. unfold clean in C. rewrite andb_true_iff, !negb_true_iff in C. destruct C as [_ C]. cbn [sym_eqb] in C.
      rewrite C in V. auto.
    + intros [= E]. rewrite E, N.eqb_refl in V. destruct (rev (p_rhs p)) as [|x xs] eqn:R; [discriminate|].
      rewrite andb_true_iff, sym_eqb_true in V. destruct V as [-> V]. apply (IH2 (rev xs)).
      * rewrite <- (rev_involutive (p_rhs p)), R. reflexivity.
      * rewrite forallb_forall in V |- *. intros y Hy. apply V. now apply in_rev.
  - split; [constructor|]. intros ys E. destruct ys; discriminate.
  - intros x xs w1 w2 v vs D1 (A1 & A2 & A3) D2 (B1 & B2). split.
    + cbn [forallb]. rewrite andb_true_iff. intros [C1 C2]. apply Forall_app. split; [now apply A1|now apply B1].
    + intros [|y ys] E C.
      * injection E as -> ->. destruct (A3 eq_refl) as (l & r & ->). inversion D2; subst. exists [], l, r. split; [reflexivity|constructor].
      * injection E as <- ->. cbn [forallb] in C. rewrite andb_true_iff in C. destruct C as [C1 C2].
        destruct (B2 ys eq_refl C2) as (w' & l & r & -> & F). exists (w1 ++ w'), l, r. rewrite app_assoc. split; [reflexivity|].
        apply Forall_app. split; [now apply A1|exact F].
Qed.
Lemma program_ends w : program w -> ends_once w.
Proof. intros (v & l & r & D). apply (proj1 derives_eof) in D. now apply D. Qed.
Lemma viable_eof w l r : viable (w ++ [(l, EOF, r)]) -> program (w ++ [(l, EOF, r)]).
Proof.
  intros (z & _ & P). pose proof (program_ends _ P) as (w' & l' & r' & E & F). destruct z as [|x z _] using rev_ind.
  - now rewrite app_nil_r in P.
  - rewrite !app_assoc in E. apply app_inj_tail in E. destruct E as [E _]. subst w'. unfold no_end in F.
    rewrite !Forall_app in F. destruct F as [[_ F] _]. inversion F. congruence.
Qed.

(** ** the tables *)
Definition samples : list token :=
  [ OpExponentiation; OpLogicalNot; OpLength; OpMultiplication; OpDivision; OpFloorDivision; OpModulo; OpAddition; Minus;
    OpConcatenation; OpLeftShift; OpRightShift; OpBitwiseAnd; Tilde; OpBitwiseOr; OpEquality; OpInequality; OpLessThan;
    OpGreaterThan; OpLessOrEqual; OpGreaterOrEqual; OpLogicalAnd; OpLogicalOr; Variable_ (s2l "x"); Numeral (s2l "1"); NormalStringLiteral [];
    CharStringLiteral []; MultiLineStringLiteral 0 []; Semicolon; Comma; Colon; Label; EqualsSign; Period; OpenRoundBracket;
    CloseRoundBracket; OpenSquareBracket; CloseSquareBracket; OpenCurlyBracket; CloseCurlyBracket; Break; Do; Else; ElseIf;
    End; False_; For; Function_; GoTo; If_; In_; Local_; Nil; Repeat; Return; Then; True_; Until; VarArg; While; SheBang (s2l "#!"); EOF ].
Definition sample (t : N) : option token := find (fun k => N.eqb (term_of k) t) samples.
Lemma lua_tables_viable : viable_tables lua_grammar lua_rows lua_items sample 22 = true.
Proof. vm_compute. reflexivity. Qed.

Definition lexes (t : token) : Prop := token_ok t \/ t = EOF.
Lemma sample_lexes t k : sample t = Some k -> lexes k.
Proof.
  unfold sample. intros H. apply find_some in H. destruct H as [H _]. unfold lexes. revert H. unfold samples.
  intros H. repeat (destruct H as [<-|H]; [first [now right|left; cbn; try exact Logic.I]|]); [..|destruct H].
  - split; [reflexivity|]. split; [constructor|]. intros E. repeat (destruct E as [E|E]; [discriminate|]). destruct E.
  - eexists. split; reflexivity.
  - reflexivity.
  - reflexivity.
  - reflexivity.
  - exists []. split; [reflexivity|]. intros [].
Qed.

Lemma goods_lexable z : goods lexes z -> Forall lexable z.
Proof. intros H. eapply Forall_impl; [|exact H]. intros [[l t] r] Hx. exact Hx. Qed.

Lemma drive_cases stop ts :
  match drive_lua stop ts with
  | Tree n => stop = None /\ sentence lua_grammar ts (VNode n)
  | Failed (UnrecognizedToken l t r) =>
      exists w0 rest, ts = w0 ++ (l, t, r) :: rest /\ viable w0 /\ forall z, ~ program (w0 ++ (l, t, r) :: z)
  | Failed UnrecognizedEOF => stop = None /\ viable ts /\ ~ program ts
  | Failed (User e) => stop = Some e /\ viable ts
  | Internal => False
  end.
Proof.
  pose proof (drive_correct lua_grammar lua_rows lua_items lua_first lua_rank t_eoi lua_max_rank sample lexes sample_lexes 22
    stop lua_tables_valid lua_tables_viable ts) as D.
  unfold drive_lua, drive in *.
  match type of D with match ?m with _ => _ end => match goal with |- context [lr_drive ?a ?b ?c ?d ?e ?f ?h] =>
    change (lr_drive a b c d e f h) with m end; destruct m as [v|[[l t] r]| |e|] end.
  - destruct D as [Hs D]. pose proof D as (l & r & D'). apply (proj1 LayoutProofs.shapes) in D'.
    change (g_start lua_grammar) with n_Chunk_ in D'. destruct D' as (_ & (m & -> & _) & _). auto.
  - destruct D as (w0 & rest & -> & (z & v & G & C) & F). exists w0, rest. split; [reflexivity|]. split.
    + exists z. split; [now apply goods_lexable|]. exists v. exact C.
    + intros z' (v' & Sv). exact (F z' v' Sv).
  - destruct D as (Hs & (z & v & G & C) & F). split; [exact Hs|]. split.
    + exists z. split; [now apply goods_lexable|]. exists v. exact C.
    + intros (v' & Sv). exact (F v' Sv).
  - destruct D as (Hs & (z & v & G & C)). split; [exact Hs|]. exists z. split; [now apply goods_lexable|]. exists v. exact C.
  - exact D.
Qed.

(** ** the outcome of parsing a text *)
Theorem outcome_parse src : parse_lua src = match parse_lua_outcome src with
  | Tree n => Parsed n | Failed _ => ParseError | Internal => ParseInternal end.
Proof.
  unfold parse_lua, parse_lua_outcome, lex. rewrite upto_loop.
  pose proof (lex_total src) as Tot. unfold lex in Tot. rewrite upto_loop in Tot.
  destruct (lex_upto (List.length src) (S (List.length src)) (0, src)) as [ts [|e|]]; [| |congruence].
  - pose proof (drive_cases None ts) as D. destruct (drive_lua None ts) as [n|[l t r| |e]|].
    + destruct D as [_ D]. apply parse_tokens_correct in D. now rewrite D.
    + destruct D as (w0 & rest & -> & _ & F). destruct (parse_tokens (w0 ++ (l, t, r) :: rest)) as [v| |] eqn:P; [|reflexivity|].
      * apply parse_tokens_correct in P. elim (F rest). now exists v.
      * now elim (parse_tokens_total _ P).
    + destruct D as (_ & _ & F). destruct (parse_tokens ts) as [v| |] eqn:P; [|reflexivity|].
      * apply parse_tokens_correct in P. elim F. now exists v.
      * now elim (parse_tokens_total _ P).
    + now destruct D.
    + destruct D.
  - pose proof (drive_cases (Some e) ts) as D. destruct (drive_lua (Some e) ts) as [n|x|]; [now destruct D|reflexivity|destruct D].
Qed.

Lemma viable_prefix a b : viable (a ++ b) -> Forall lexable b -> viable a.
Proof.
  intros (z & L & P) Lb. exists (b ++ z). split; [now apply Forall_app|]. now rewrite <- app_assoc in P.
Qed.
Lemma begins_lexable p s ts : begins_with p s ts -> Forall lexable ts.
Proof.
  induction 1 as [p s|p l Hg|p l t w rest ts Hg Ht Hw Hf T IH]; [constructor| |].
  - constructor; [now right|constructor].
  - constructor; [now left|exact IH].
Qed.
Lemma text_tokens src : exists ts st, lex_upto (List.length src) (S (List.length src)) (0, src) = (ts, st)
  /\ begins_with 0 src ts /\ (forall us, begins_with 0 src us -> exists vs, ts = us ++ vs).
Proof.
  pose proof (upto_sound (S (List.length src)) 0 src (List.length src) eq_refl) as Snd.
  destruct (lex_upto (List.length src) (S (List.length src)) (0, src)) as [ts st] eqn:E. exists ts, st. split; [reflexivity|].
  split; [exact Snd|]. intros us B. destruct (upto_complete 0 src us B (S (List.length src))) as (vs & V); [lia|].
  cbn [Nat.add] in V. rewrite E in V. now exists vs.
Qed.

Lemma app_cases {A} (a b : list A) x y u v : a ++ x :: u = b ++ y :: v ->
  (a = b /\ x = y /\ u = v) \/ (exists c, b = a ++ x :: c) \/ (exists c, a = b ++ y :: c).
Proof.
  revert b. induction a as [|z a IH]; intros [|z' b] E; cbn in E; injection E; intros; subst.
  - auto.
  - right. left. now exists b.
  - right. right. now exists a.
  - destruct (IH b) as [(-> & -> & ->)|[(c & ->)|(c & ->)]]; auto; [right; left|right; right]; now exists c.
Qed.

Theorem token_error src l t r : parse_lua_outcome src = Failed (UnrecognizedToken l t r) <-> first_wrong src (l, t, r).
Proof.
  destruct (text_tokens src) as (ts & st & E & B & M). unfold parse_lua_outcome. rewrite E.
  assert (G : forall stop, drive_lua stop ts = Failed (UnrecognizedToken l t r) <-> first_wrong src (l, t, r)).
  { intros stop. pose proof (drive_cases stop ts) as D. split.
    - intros R. rewrite R in D. destruct D as (w0 & rest & -> & V & F). exists w0. split; [|split; [exact V|]].
      + eapply begins_prefix; [exact B|]. rewrite <- app_assoc. reflexivity.
      + intros (z & _ & P). rewrite <- app_assoc in P. exact (F z P).
    - intros (pre & Bp & V & F). destruct (M _ Bp) as (vs & Ets). pose proof (begins_lexable _ _ _ B) as L.
      assert (W : ~ viable ts).
      { intros W. apply F. rewrite Ets in W, L. apply viable_prefix in W; [exact W|]. now apply Forall_app in L. }
      destruct (drive_lua stop ts) as [n|[l' t' r'| |e]|].
      + destruct D as [_ D]. elim W. exists []. split; [constructor|]. rewrite app_nil_r. now exists (VNode n).
      + destruct D as (w0 & rest & Ew & V' & F'). rewrite Ew in L. rewrite Ets in Ew. rewrite <- app_assoc in Ew. cbn [app] in Ew.
        apply app_cases in Ew. destruct Ew as [(-> & Et & _)|[(c & ->)|(c & ->)]].
        * injection Et as -> -> ->. reflexivity.
        * elim F. change ((l, t, r) :: c) with ([(l, t, r)] ++ c) in V'. rewrite app_assoc in V'. apply viable_prefix in V'; [exact V'|].
          rewrite !Forall_app in L. destruct L as [[_ L] _]. now inversion L.
        * destruct V as (z & _ & P). rewrite <- app_assoc in P. elim (F' _ P).
      + now elim W.
      + now elim W.
      + destruct D. }
  destruct st as [|e|]; [apply G|apply G|]. exfalso. apply (lex_total src). unfold lex. rewrite upto_loop, E. reflexivity.
Qed.

Theorem lexical_error_outcome src : (exists e, parse_lua_outcome src = Failed (User e)) <-> no_token src.
Proof.
  destruct (text_tokens src) as (ts & st & E & B & M). unfold parse_lua_outcome. rewrite E.
  pose proof (upto_eof (S (List.length src)) (List.length src) (0, src) eq_refl) as Ef. rewrite E in Ef.
  assert (Tot : st <> StopFuel).
  { intros ->. apply (lex_total src). unfold lex. rewrite upto_loop, E. reflexivity. }
  assert (Last : forall tok, ~ begins_with 0 src (ts ++ [tok])).
  { intros tok Bt. destruct (M _ Bt) as (vs & Ev). apply (f_equal (@List.length _)) in Ev. rewrite !app_length in Ev. cbn in Ev. lia. }
  split.
  - intros (e & R). destruct st as [|e'|]; [| |congruence].
    + pose proof (drive_cases None ts) as D. rewrite R in D. now destruct D.
    + pose proof (drive_cases (Some e') ts) as D. rewrite R in D. destruct D as [_ V]. exists ts. repeat split; auto.
      intros P. apply program_ends in P. destruct P as (w & l & r & -> & _). rewrite Forall_app in Ef. destruct Ef as [_ Ef].
      inversion Ef. congruence.
  - intros (pre & Bp & V & NP & Stop). destruct (M _ Bp) as (vs & Ev). destruct vs as [|v vs].
    2: { elim (Stop v). eapply begins_prefix; [exact B|]. rewrite Ev, <- app_assoc. reflexivity. }
    rewrite app_nil_r in Ev. subst pre. destruct st as [|e|]; [| |congruence].
    + destruct Ef as (ts' & l & r & -> & _). elim NP. now apply viable_eof.
    + pose proof (drive_cases (Some e) ts) as D. destruct (drive_lua (Some e) ts) as [n|[l t r| |e']|].
      * now destruct D.
      * destruct D as (w0 & rest & -> & _ & F). destruct V as (z & _ & P). rewrite <- app_assoc in P. elim (F _ P).
      * now destruct D.
      * eauto.
      * destruct D.
Qed.

Theorem no_eof_error src : parse_lua_outcome src <> Failed UnrecognizedEOF.
Proof.
  destruct (text_tokens src) as (ts & st & E & B & M). unfold parse_lua_outcome. rewrite E.
  pose proof (upto_eof (S (List.length src)) (List.length src) (0, src) eq_refl) as Ef. rewrite E in Ef.
  destruct st as [|e|]; [| |discriminate]; intros R.
  - pose proof (drive_cases None ts) as D. rewrite R in D. destruct D as (_ & V & NP).
    destruct Ef as (ts' & l & r & -> & _). apply NP. now apply viable_eof.
  - pose proof (drive_cases (Some e) ts) as D. rewrite R in D. now destruct D.
Qed.

(** ** the same in terms of texts *)
(** tokens are what they are because of the text up to the character after them *)
Lemma firstn_parts (a b s : str) k : List.length a <= k -> firstn k s = firstn k (a ++ b) ->
  exists s', s = a ++ s' /\ firstn (k - List.length a) s' = firstn (k - List.length a) b.
Proof.
  intros Hk E. exists (skipn (List.length a) s).
  assert (Ea : firstn (List.length a) s = a).
  { replace (List.length a) with (Nat.min (List.length a) k) by lia. rewrite <- firstn_firstn, E, firstn_firstn, Nat.min_l by lia.
    rewrite firstn_app, Nat.sub_diag, firstn_all. cbn. apply app_nil_r. }
  split; [rewrite <- Ea at 1; now rewrite firstn_skipn|].
  rewrite firstn_skipn_comm. replace (List.length a + (k - List.length a)) with k by lia. rewrite E, firstn_app.
  rewrite (firstn_all2 a) by lia. rewrite skipn_app, skipn_all, Nat.sub_diag. reflexivity.
Qed.
Lemma begins_local p s ts : begins_with p s ts -> forall pre l t r s', ts = pre ++ [(l, t, r)] -> t <> EOF ->
  firstn (S r - p) s' = firstn (S r - p) s -> p <= r /\ begins_with p s' ts.
Proof.
  induction 1 as [p s|p g Hg|p g t w rest ts Hg Ht Hw Hf B IH]; intros pre l0 t0 r0 s' E Ht0 Hs.
  - now destruct pre.
  - destruct pre as [|x [|]]; try discriminate. injection E as <- <- <-. congruence.
  - set (q := p + List.length (gap_text g) + List.length w) in *.
    assert (Q : q <= r0 /\ (exists rest', s' = gap_text g ++ w ++ rest' /\ firstn (S r0 - q) rest' = firstn (S r0 - q) rest)).
    { assert (q <= r0) as Hq.
      { destruct pre as [|x pre]; [injection E; intros; lia|]. injection E as <- E.
        destruct (IH pre l0 t0 r0 rest E Ht0 eq_refl) as [H _]. exact H. }
      split; [exact Hq|]. rewrite app_assoc in Hs. apply firstn_parts in Hs; [|rewrite app_length; unfold q in *; lia].
      destruct Hs as (rest' & -> & Hr). exists rest'. rewrite app_assoc. split; [reflexivity|].
      rewrite app_length in Hr. replace (S r0 - q) with (S r0 - p - (List.length (gap_text g) + List.length w)) by (unfold q; lia).
      exact Hr. }
    destruct Q as (Hq & rest' & -> & Hr). split; [unfold q in Hq; lia|].
    assert (H1 : hd_error rest' = hd_error rest).
    { replace (S r0 - q) with (S (r0 - q)) in Hr by lia. destruct rest, rest'; cbn in Hr |- *; congruence. }
    apply bg_tok; auto.
    + destruct t; auto. destruct Hw as [Hw|[Hw ->]]; [now left|]. right. split; [exact Hw|]. now destruct rest'.
    + now rewrite H1.
    + destruct pre as [|x pre]; [assert (ts = []) as -> by (now injection E); constructor|].
      injection E as <- E. now apply (IH pre l0 t0 r0 rest' E Ht0 Hr).
Qed.
Theorem error_local src l t r src' : parse_lua_outcome src = Failed (UnrecognizedToken l t r) -> t <> EOF ->
  firstn (S r) src' = firstn (S r) src -> parse_lua_outcome src' = Failed (UnrecognizedToken l t r).
Proof.
  rewrite !token_error. intros (pre & B & V & F) Ht E. exists pre. split; [|auto].
  apply (begins_local _ _ _ B pre l t r src' eq_refl Ht). now rewrite Nat.sub_0_r.
Qed.

(** what comes before the token can be completed to a text that parses *)
Definition kinds (ts : list ptok) : list token := map (fun x => snd (fst x)) ts.
Lemma kinds_app a b : kinds (a ++ b) = kinds a ++ kinds b.
Proof. apply map_app. Qed.
Lemma derives_kinds :
  (forall x w v, derives lua_grammar x w v -> forall w', kinds w' = kinds w -> exists v', derives lua_grammar x w' v')
  /\ (forall xs w vs, derives_list lua_grammar xs w vs -> forall w', kinds w' = kinds w -> exists vs', derives_list lua_grammar xs w' vs').
Proof.
  apply derives_both.
  - intros l t r w' E. destruct w' as [|[[l' t'] r'] [|]]; try discriminate. injection E as ->. eexists. constructor.
  - intros p w args Hp D IH w' E. destruct (IH w' E) as (vs & D'). eexists. exact (d_prod lua_grammar p w' vs Hp D').
  - intros w' E. destruct w'; [|discriminate]. exists []. constructor.
  - intros x xs w1 w2 v vs D1 IH1 D2 IH2 w' E. rewrite kinds_app in E. apply map_eq_app in E. destruct E as (a & b & -> & Ea & Eb).
    destruct (IH1 a Ea) as (v' & D1'). destruct (IH2 b Eb) as (vs' & D2'). exists (v' :: vs'). now constructor.
Qed.
Lemma program_kinds w w' : kinds w' = kinds w -> program w -> program w'.
Proof.
  intros E (v & l & r & D). destruct (proj1 derives_kinds _ _ _ D w' E) as ([[l' v'] r'] & D'). exists v', l', r'. exact D'.
Qed.

Definition word (t : token) : str := match t with SheBang s => s ++ [10%N] | _ => spelling t end.
Definition words_text (ts : list token) : str := flat_map (fun t => word t ++ [32%N]) ts.
Lemma word_written t rest : written t (word t) rest.
Proof. destruct t; cbn; auto. Qed.
Lemma follow_blank t : token_ok t -> can_follow t (Some 32%N) = true.
Proof. destruct t; try reflexivity. intros (st & R & E). cbn. rewrite R. destruct st; auto. Qed.
Lemma follow_newline t : token_ok t -> can_follow t (Some 10%N) = true.
Proof. destruct t; try reflexivity. intros (st & R & E). cbn. rewrite R. destruct st; auto. Qed.
Lemma words_tokens ts : Forall token_ok ts -> forall p g, gap g ->
  exists us, tokenization p (gap_text g ++ words_text ts) us /\ kinds us = ts ++ [EOF].
Proof.
  induction 1 as [|t ts Ht _ IH]; intros p g Hg.
  - cbn [words_text flat_map]. rewrite app_nil_r. eexists. split; [apply tz_end|reflexivity].
    exists g, []. rewrite app_nil_r. auto.
  - destruct (IH (p + List.length (gap_text g) + List.length (word t)) [GBlank 32%N]) as (us & T & K).
    { constructor; [|constructor]. split; [cbn; auto|reflexivity]. }
    cbn [words_text flat_map]. change (flat_map (fun t => word t ++ [32%N]) ts) with (words_text ts). rewrite <- (app_assoc (word t)).
    eexists. split; [apply tz_tok; [exact Hg|exact Ht|apply word_written|apply follow_blank, Ht|exact T]|]. cbn. f_equal. exact K.
Qed.

Lemma begins_from p s ts : begins_with p s ts -> forall pre l t r, ts = pre ++ [(l, t, r)] -> p <= l.
Proof.
  induction 1 as [p s|p g Hg|p g t w rest ts Hg Ht Hw Hf B IH]; intros pre l0 t0 r0 E.
  - now destruct pre.
  - destruct pre as [|x [|]]; try discriminate. injection E as <- _ _. lia.
  - destruct pre as [|x pre]; [injection E as <- _ _ _; lia|]. injection E as <- E. specialize (IH _ _ _ _ E). lia.
Qed.

Lemma begins_nil p s ts : begins_with p s ts -> s = [] -> List.length ts <= 1.
Proof.
  intros [? ?|? ? ?|p' g t w rest ts' Hg Ht Hw Hf B] E; cbn; try lia.
  exfalso. apply app_eq_nil in E. destruct E as [_ E]. apply app_eq_nil in E. destruct E as [E _].
  exact (written_nonempty _ _ _ Ht Hw E).
Qed.
Lemma completed p s ts : begins_with p s ts -> forall pre l t r body K, ts = pre ++ [(l, t, r)] ->
  (forall q g, gap g -> exists us, tokenization q (gap_text g ++ body) us /\ kinds us = K) ->
  exists us, tokenization p (firstn (l - p) s ++ [10%N] ++ body) us /\ kinds us = kinds pre ++ K.
Proof.
  induction 1 as [p s|p g Hg|p g t w rest ts Hg Ht Hw Hf B IH]; intros pre l0 t0 r0 body K E HB.
  - now destruct pre.
  - destruct pre as [|x [|]]; try discriminate. injection E as <- _ _. cbn [kinds map app].
    replace (p + List.length (gap_text g) - p) with (List.length (gap_text g)) by lia. rewrite firstn_all.
    destruct Hg as (g0 & g1 & -> & H0 & [->|(c & -> & Hc)]).
    + rewrite app_nil_r. destruct (HB p (g0 ++ [GNewline])) as (us & T & Ku).
      { apply Forall_app. split; [exact H0|]. constructor; [|constructor]. split; [exact Logic.I|reflexivity]. }
      exists us. rewrite gap_text_app, <- app_assoc in T. auto.
    + destruct (HB p (g0 ++ [GLine c])) as (us & T & Ku).
      { apply Forall_app. split; [exact H0|]. constructor; [|constructor]. split; [exact Hc|reflexivity]. }
      exists us. split; [|exact Ku]. rewrite gap_text_app in *. cbn [gap_text flat_map gitem_text] in *. rewrite <- !app_assoc in *. exact T.
  - destruct pre as [|x pre].
    + injection E as <- _ _ _. replace (p + List.length (gap_text g) - p) with (List.length (gap_text g)) by lia.
      rewrite firstn_app, Nat.sub_diag, firstn_all. cbn [firstn kinds map]. rewrite app_nil_r.
      destruct (HB p (g ++ [GNewline])) as (us & T & Ku).
      { apply Forall_app. split; [exact Hg|]. constructor; [|constructor]. split; [exact Logic.I|reflexivity]. }
      exists us. rewrite gap_text_app, <- app_assoc in T. auto.
    + injection E as <- E. pose proof (begins_from _ _ _ B _ _ _ _ E) as Hq.
      assert (Ef : firstn (l0 - p) (gap_text g ++ w ++ rest)
                   = gap_text g ++ w ++ firstn (l0 - (p + List.length (gap_text g) + List.length w)) rest).
      { rewrite app_assoc, firstn_app, firstn_all2 by (rewrite app_length; lia). rewrite <- app_assoc, app_length. do 3 f_equal. lia. }
      rewrite Ef, <- !app_assoc.
      destruct (IH pre l0 t0 r0 body K E HB) as (us & T & Ku).
      set (q := p + List.length (gap_text g) + List.length w) in *.
      assert (Hf' : can_follow t (hd_error (firstn (l0 - q) rest ++ [10%N] ++ body)) = true).
      { destruct (l0 - q); [apply follow_newline, Ht|]. destruct rest; [apply follow_newline, Ht|exact Hf]. }
      assert (W : written t w (firstn (l0 - q) rest ++ [10%N] ++ body) \/ (exists c, t = SheBang c /\ w = c /\ rest = [])).
      { destruct t; auto. destruct Hw as [Hw|[-> ->]]; [left; now left|right; eauto]. }
      destruct W as [W|(c & -> & -> & ->)].
      * eexists. split; [apply tz_tok; [exact Hg|exact Ht|exact W|exact Hf'|exact T]|]. cbn. f_equal. exact Ku.
      * rewrite firstn_nil. cbn [app].
        assert (pre = []) as ->.
        { pose proof (begins_nil _ _ _ B eq_refl) as Hl. rewrite E, app_length in Hl. destruct pre; [reflexivity|]. cbn in Hl. lia. }
        destruct (HB (p + List.length (gap_text g) + List.length (c ++ [10%N])) []) as (us' & T' & Ku'); [constructor|].
        cbn [gap_text flat_map app] in T'.
        replace (gap_text g ++ c ++ 10%N :: body) with (gap_text g ++ (c ++ [10%N]) ++ body) by (now rewrite <- app_assoc).
        eexists. split; [apply (tz_tok p g (SheBang c) (c ++ [10%N]) body us'); auto; now left|]. cbn. f_equal. exact Ku'.
Qed.

Lemma begins_no_end p s ts : begins_with p s ts -> forall pre x, ts = pre ++ [x] -> no_end pre.
Proof.
  induction 1 as [p s|p g Hg|p g t w rest ts Hg Ht Hw Hf B IH]; intros pre x E.
  - now destruct pre.
  - destruct pre as [|y [|]]; try discriminate. constructor.
  - destruct pre as [|y pre]; [constructor|]. injection E as <- E. constructor; [|eapply IH; eauto]. intros ->. exact Ht.
Qed.

Theorem error_completable src l t r : parse_lua_outcome src = Failed (UnrecognizedToken l t r) ->
  exists tail n, parse_lua (firstn l src ++ tail) = Parsed n.
Proof.
  rewrite token_error. intros (pre & B & (z & L & P) & _).
  pose proof (program_ends _ P) as (w & l' & r' & E & F). pose proof (begins_no_end _ _ _ B pre _ eq_refl) as N.
  destruct z as [|x z _] using rev_ind.
  { rewrite app_nil_r in E. subst pre. unfold no_end in N. rewrite Forall_app in N. destruct N as [_ N]. inversion N. congruence. }
  rewrite app_assoc in E. apply app_inj_tail in E. destruct E as [<- ->].
  unfold no_end in F. rewrite !Forall_app in *. destruct L as [L _]. destruct F as [_ F].
  assert (Ok : Forall token_ok (kinds z)).
  { unfold kinds. apply Forall_map. rewrite Forall_forall in *. intros [[a k] b] Hx. specialize (L _ Hx). specialize (F _ Hx).
    cbn in *. destruct L; congruence. }
  destruct (completed 0 src _ B pre l t r (words_text (kinds z)) (kinds z ++ [EOF]) eq_refl) as (us & T & K).
  { intros q g Hg. now apply words_tokens. }
  exists ([10%N] ++ words_text (kinds z)). rewrite Nat.sub_0_r in T. apply lex_correct in T.
  assert (Pu : program us). { eapply program_kinds; [|exact P]. rewrite K, !kinds_app. reflexivity. }
  destruct Pu as (v & Pv). apply parse_tokens_correct in Pv.
  pose proof (LayoutProofs.parse_lua_total (firstn l src ++ [10%N] ++ words_text (kinds z))) as Tot.
  unfold parse_lua in *. rewrite T, Pv in *. destruct v; try (now elim Tot). eauto.
Qed.

(** ** unrecognized symbols *)
Lemma single_none ch : single_char_token ch = None -> existsb (N.eqb ch) (s2l "^*%+&|;,(){}]") = false.
Proof.
  unfold single_char_token. cbn [s2l existsb].
  repeat match goal with |- (if ceq ch ?k then _ else _) = _ -> _ =>
    destruct (ceq ch k) eqn:?; [discriminate|] end. intros _.
  unfold ceq, chr in *. cbn in *. repeat match goal with H : N.eqb ch _ = false |- _ => rewrite H; clear H end. reflexivity.
Qed.
Lemma step_symbol i ch r j c : lex_step i ch r = LErr (UnrecognizedSymbol j c) ->
  (j = i /\ c = ch /\ starts_token ch = false)
  \/ exists k r', ch :: r = [91%N] ++ repeat 61%N (S k) ++ c :: r' /\ j = i + S (S k) /\ c <> 91%N /\ c <> 61%N.
Proof.
  unfold lex_step. cbv zeta.
  destruct (is_blank_nl ch) eqn:Eb; [discriminate|].
  destruct (single_char_token ch) as [t|] eqn:Es; [discriminate|].
  destruct (ceq ch (chr "#")) eqn:E1.
  { destruct (peek_is _ _); [|discriminate]. destruct (get_shebang_ends _ _) as [[[? ?] ?] ?]. discriminate. }
  destruct (ceq ch (chr "/")) eqn:E2; [destruct (peek_is _ _); discriminate|].
  destruct (ceq ch (chr "-")) eqn:E3.
  { destruct (peek_is _ _); [|discriminate]. destruct (get_comment_start_ends_and_type _ _) as [[[[[[? ?] ?] ?] ok] ?] ?].
    destruct ok; discriminate. }
  destruct (ceq ch (chr ".")) eqn:E4.
  { destruct r as [|c2 r]; [discriminate|]. destruct (ceq c2 (chr ".")); [destruct (peek_is _ _); discriminate|].
    destruct (is_digit c2); [|discriminate]. unfold num_result. destruct (get_float_end _ _) as [[[? ok] ?] ?]. destruct ok; discriminate. }
  destruct (ceq ch (chr "<")) eqn:E5; [destruct (peek_is _ "<"); [discriminate|destruct (peek_is _ _); discriminate]|].
  destruct (ceq ch (chr ">")) eqn:E6; [destruct (peek_is _ ">"); [discriminate|destruct (peek_is _ _); discriminate]|].
  destruct (ceq ch (chr "~")) eqn:E7; [destruct (peek_is _ _); discriminate|].
  destruct (ceq ch (chr "=")) eqn:E8; [destruct (peek_is _ _); discriminate|].
  destruct (ceq ch (chr ":")) eqn:E9; [destruct (peek_is _ _); discriminate|].
  destruct (ceq ch (chr "[")) eqn:E10.
  { apply ceq_true in E10. subst ch. destruct r as [|c2 r2]; [discriminate|]. destruct (ceq c2 (chr "=")) eqn:F.
    - apply ceq_true in F. subst c2. destruct (level_spec (S i) (chr "=" :: r2)) as (r' & Er & Hr' & L).
      rewrite L. cbn [snd fst]. destruct r' as [|c3 r3]; [discriminate|].
      destruct (ceq c3 (chr "[")) eqn:E3'.
      { unfold mls_result. destruct (get_multiline_string_ends _ _ _) as [[[[? ?] ok] ?] ?]. destruct ok; discriminate. }
      intros [= <- <-]. right. change (count_eq (chr "=" :: r2)) with (S (count_eq r2)) in *. exists (count_eq r2), r3.
      split; [rewrite Er; reflexivity|]. split; [cbn; lia|]. split; [now apply ceq_false in E3'|exact Hr'].
    - destruct (ceq c2 (chr "[")); [|discriminate].
      unfold mls_result. destruct (get_multiline_string_ends _ _ _) as [[[[? ?] ok] ?] ?]. destruct ok; discriminate. }
  destruct (ceq ch ch_quot || ceq ch ch_apos) eqn:E11.
  { destruct (get_string_ends _ _ _) as [[[[? ?] ok] ?] ?]. destruct ok; discriminate. }
  destruct (ceq ch (chr "0")) eqn:E12.
  { destruct (peek_is _ _); unfold num_result; [destruct (get_hex_integer_end _ _) as [[[? ok] ?] ?]|destruct (get_float_end _ _) as [[[? ok] ?] ?]];
      destruct ok; discriminate. }
  destruct (is_digit ch) eqn:E13.
  { unfold num_result. destruct (get_float_end _ _) as [[[? ok] ?] ?]. destruct ok; discriminate. }
  destruct (is_alpha ch || ceq ch (chr "_")) eqn:E14.
  { destruct (get_variable_end _ _) as [[[? ok] ?] ?]. destruct ok; discriminate. }
  intros [= <- <-]. left. split; [reflexivity|]. split; [reflexivity|]. unfold starts_token.
  rewrite letter_eq in E14. rewrite E14. change (is_digit ch) with (digit ch) in E13. rewrite E13. rewrite !orb_false_r.
  apply single_none in Es. unfold is_blank_nl in Eb. apply orb_false_iff in Eb as [Eb B4].
  apply orb_false_iff in Eb as [Eb B3]. apply orb_false_iff in Eb as [B1 B2]. apply orb_false_iff in E11 as [Q1 Q2].
  rewrite existsb_app. apply orb_false_iff. split.
  - unfold ceq, ch_sp, ch_nl, ch_cr, ch_tab, ch_quot, ch_apos in *. cbn [existsb]. now rewrite B4, B2, B3, B1, Q1, Q2.
  - change (s2l "^*%+&|;,(){}]#/-.<>~=:[") with (s2l "^*%+&|;,(){}]" ++ s2l "#/-.<>~=:["). rewrite existsb_app, Es.
    unfold ceq in *. cbn [existsb s2l orb]. unfold chr in *. cbn in *.
    now rewrite E1, E2, E3, E4, E5, E6, E7, E8, E9, E10.
Qed.

Lemma not_in_existsb c l : existsb (N.eqb c) l = false -> forall k, In k l -> ceq c k = false.
Proof.
  intros H k Hk. destruct (ceq c k) eqn:E; [|reflexivity]. rewrite <- H. symmetry. apply existsb_exists. exists k. auto.
Qed.
Lemma unknown_step i ch r : starts_token ch = false -> lex_step i ch r = LErr (UnrecognizedSymbol i ch).
Proof.
  unfold starts_token. rewrite !orb_false_iff. intros [[H L] D]. pose proof (not_in_existsb _ _ H) as X.
  assert (S0 : forall k, In k ([9; 10; 13; 32; 34; 39]%N ++ s2l "^*%+&|;,(){}]#/-.<>~=:[") -> ceq ch k = false) by exact X.
  unfold lex_step. cbv zeta. unfold is_blank_nl, single_char_token.
  rewrite letter_eq, L. change (is_digit ch) with (digit ch). rewrite D.
  assert (E0 : ceq ch (chr "0") = false).
  { apply ceq_false. intros ->. discriminate D. }
  rewrite E0.
  repeat match goal with |- context [ceq ch ?k] => rewrite (S0 k) by (cbn; unfold ch_sp, ch_nl, ch_cr, ch_tab, ch_quot, ch_apos; tauto) end.
  reflexivity.
Qed.
Lemma count_repeat k c r : c <> 61%N -> count_eq (repeat 61%N k ++ c :: r) = k.
Proof.
  intros H. induction k as [|k IH]; cbn; [|now rewrite IH].
  assert (ceq c (chr "=") = false) as -> by now apply ceq_false. reflexivity.
Qed.
Lemma bracket_odd i k c r : c <> 91%N -> c <> 61%N ->
  lex_step i 91%N (repeat 61%N (S k) ++ c :: r) = LErr (UnrecognizedSymbol (i + S (S k)) c).
Proof.
  intros H1 H2. rewrite bracket_step. cbn [repeat app]. change (ceq 61%N (chr "=")) with true. cbn iota.
  change (61%N :: repeat 61%N k ++ c :: r) with (repeat 61%N (S k) ++ c :: r).
  destruct (level_spec (S i) (repeat 61%N (S k) ++ c :: r)) as (r' & Er & Hr' & L). rewrite L.
  rewrite count_repeat in * by exact H2. apply app_inv_head in Er. subst r'. cbn [snd fst].
  assert (ceq c (chr "[") = false) as -> by now apply ceq_false. do 2 f_equal. lia.
Qed.

Lemma upto_symbol : forall fuel p n s ts j c, n = p + List.length s ->
  lex_upto n fuel (p, s) = (ts, StopError (UnrecognizedSymbol j c)) ->
  exists l odd rest, tokens_then p s ts (gap_text l ++ odd ++ c :: rest) /\ gap l /\ j + List.length (c :: rest) = n
    /\ ((odd = [] /\ starts_token c = false) \/ exists k, odd = [91%N] ++ repeat 61%N (S k) /\ c <> 91%N /\ c <> 61%N).
Proof.
  induction fuel as [|fuel IH]; intros p n s ts j c Hn; cbn [lex_upto]; [discriminate|].
  destruct s as [|ch r]; cbn [snd fst]; [discriminate|].
  pose proof (lex_step_ok p ch r) as S. pose proof (step_symbol p ch r) as Y.
  destruct (lex_step p ch r) as [[q rest]|l t e [q rest]|err].
  - destruct S as (g & Hok & E & Hq & Hl). cbn [snd fst] in *. intros H.
    destruct (is_last g) eqn:El.
    { rewrite (Hl eq_refl) in H. destruct fuel; discriminate. }
    rewrite E, app_length in Hn. destruct (IH q n rest ts j c) as (l & odd & rest' & T & Hg & Hj & O); [lia|exact H|].
    subst q. rewrite E. inversion T as [? ? E1 E2 E3|? l' t w rest0 ts' s' Hg' Ht Hw Hf T' E1 E2 E3 E4]; subst.
    + exists (g :: l), odd, rest'. split; [|split; [now apply gap_cons|auto]].
      cbn [gap_text flat_map]. rewrite <- app_assoc. apply tt_nil.
    + exists l, odd, rest'. split; [|auto].
      replace (gitem_text g ++ gap_text l' ++ w ++ rest0) with (gap_text (g :: l') ++ w ++ rest0) by (cbn; now rewrite <- app_assoc).
      replace (p + List.length (gitem_text g) + List.length (gap_text l')) with (p + List.length (gap_text (g :: l'))) in *
        by (rewrite gap_len; lia).
      apply tt_tok; auto. now apply gap_cons.
  - destruct S as (-> & w & Hne & Hok & Hw & Hf & E & -> & Hq). cbn [snd fst] in *. subst q.
    destruct (lex_upto n fuel (p + List.length w, rest)) as [ts' st'] eqn:U. intros [= <- ->].
    rewrite E, app_length in Hn. destruct (IH (p + List.length w) n rest ts' j c) as (l & odd & rest' & T & O); [lia|exact U|].
    exists l, odd, rest'. split; [|exact O]. rewrite E.
    pose proof (tt_tok p [] t w rest ts' (gap_text l ++ odd ++ c :: rest') (Forall_nil _) Hok Hw Hf) as X. cbn in X.
    rewrite Nat.add_0_r in X. now apply X.
  - intros [= <- ->]. destruct (Y j c eq_refl) as [(-> & -> & H)|(k & r' & E & -> & H1 & H2)].
    + exists [], [], r. repeat split; auto; [apply tt_nil|constructor].
    + exists [], ([91%N] ++ repeat 61%N (Datatypes.S k)), r'. split; [|split; [constructor|]].
      * rewrite E. change ([91%N] ++ repeat 61%N (Datatypes.S k)) with (91%N :: repeat 61%N (Datatypes.S k)). cbn [gap_text flat_map app]. apply tt_nil.
      * split; [|right; eauto]. rewrite Hn, E. cbn [List.length app]. rewrite app_length, repeat_length. cbn. lia.
Qed.
Lemma upto_then p s ts rest : tokens_then p s ts rest -> forall fuel n, List.length s < fuel ->
  exists k us st, List.length rest < k /\ List.length rest <= List.length s
    /\ lex_upto n k (p + List.length s - List.length rest, rest) = (us, st) /\ lex_upto n fuel (p, s) = (ts ++ us, st).
Proof.
  induction 1 as [p s|p l t w rest ts s Hg Ht Hw Hf T IH]; intros fuel n Hfuel.
  - destruct (lex_upto n fuel (p, s)) as [us st] eqn:E. exists fuel, us, st.
    replace (p + List.length s - List.length s) with p by lia. auto.
  - pose proof (written_nonempty _ _ _ Ht Hw) as Hne.
    destruct (gap_upto l fuel p (w ++ rest) n) as (k & Hk & Ek).
    + eapply Forall_impl; [|exact Hg]. intros g H; apply H.
    + left. intros g H. unfold gap in Hg. rewrite Forall_forall in Hg. now apply Hg.
    + exact Hfuel.
    + rewrite Ek. destruct k as [|k]; [lia|]. destruct (w ++ rest) as [|ch r] eqn:E; [destruct w; [congruence|discriminate]|].
      cbn [lex_upto snd fst]. rewrite (token_back _ t w rest ch r Ht Hw Hf E).
      destruct (IH k n) as (k' & us & st & Hk' & Hl & E1 & E2); [rewrite <- E, app_length in Hk; destruct w; [congruence|]; cbn in Hk; lia|].
      exists k', us, st. split; [exact Hk'|]. rewrite E2, <- E, !app_length. split; [lia|]. split; [|reflexivity].
      rewrite <- E1. do 2 f_equal. lia.
Qed.
Lemma then_begins p s ts rest : tokens_then p s ts rest -> begins_with p s ts.
Proof. induction 1; [constructor|]. now apply bg_tok. Qed.

Theorem symbol_error src i c : parse_lua_outcome src = Failed (User (UnrecognizedSymbol i c)) <-> odd_symbol src i c.
Proof.
  unfold parse_lua_outcome. destruct (lex_upto (List.length src) (S (List.length src)) (0, src)) as [ts st] eqn:E. split.
  - destruct st as [|e|]; [| |discriminate]; intros R.
    + pose proof (drive_cases None ts) as D. rewrite R in D. now destruct D.
    + pose proof (drive_cases (Some e) ts) as D. rewrite R in D. destruct D as [D V]. injection D as ->.
      destruct (upto_symbol _ 0 (List.length src) src ts i c eq_refl E) as (l & odd & rest & T & Hg & Hi & O).
      exists ts, l, odd, rest. auto.
  - intros (pre & l & odd & rest & T & V & Hg & Hi & O).
    destruct (upto_then _ _ _ _ T (S (List.length src)) (List.length src)) as (k & us & st' & Hk & Hl & Eu & Ek); [lia|].
    rewrite E in Ek. set (p := 0 + List.length src - List.length (gap_text l ++ odd ++ c :: rest)) in *.
    destruct (gap_upto l k p (odd ++ c :: rest) (List.length src)) as (k' & Hk' & Ek').
    { eapply Forall_impl; [|exact Hg]. intros g H; apply H. }
    { left. intros g H. unfold gap in Hg. rewrite Forall_forall in Hg. now apply Hg. }
    { exact Hk. }
    rewrite Ek' in Eu. destruct k' as [|k']; [lia|].
    assert (Hp : p + List.length (gap_text l) + List.length odd = i).
    { unfold p. rewrite !app_length in *. cbn [List.length] in *. lia. }
    assert (Ev : lex_upto (List.length src) (S k') (p + List.length (gap_text l), odd ++ c :: rest) = ([], StopError (UnrecognizedSymbol i c))).
    { cbn [lex_upto snd fst]. destruct O as [[-> O]|(j & -> & H1 & H2)]; cbn [app].
      - rewrite unknown_step by exact O. cbn [List.length] in Hp. rewrite Nat.add_0_r in Hp. now rewrite Hp.
      - rewrite bracket_odd by assumption. rewrite app_length, repeat_length in Hp. cbn [List.length] in Hp. do 3 f_equal. lia. }
    rewrite Ev in Eu. injection Eu as <- <-. rewrite app_nil_r in Ek. injection Ek as -> ->.
    pose proof (drive_cases (Some (UnrecognizedSymbol i c)) pre) as D.
    destruct (drive_lua (Some (UnrecognizedSymbol i c)) pre) as [n|[l' t r| |e']|].
    + now destruct D.
    + destruct D as (w0 & rest' & -> & _ & F). destruct V as (z & _ & P). rewrite <- app_assoc in P. elim (F _ P).
    + now destruct D.
    + destruct D as [D _]. injection D as <-. reflexivity.
    + destruct D.
Qed.
