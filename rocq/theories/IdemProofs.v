(** Formatting a formatted text again. *)
From Coq Require Import Lia.
From Verif Require Import Base State LuaLexer CommentLexer Ast LR LRSpec LuaGrammar LuaParser ParserProofs Config LexSpec LexLoop UtilSpec LayoutSpec
  LayoutProofs LayoutText Recon ReconProofs RenderProofs CommentSpec CommentProofs PrettySpec PrettyGap PrettyUnique WriterBase RefuteSpec Formatter FormatSpec SafeSpec CanonSpec CanonFrame CanonTree CanonProofs RelexProofs ReparseSpec ReparseFrame ReparseProofs IdemSpec.

(** ** positions *)
(** the gap at [p] leaves nothing behind *)
Definition gone (c : config) (src : str) (p : loc) : Prop := exists g, gap_text_at src p g /\ forall d x, block c d x g = [].
Lemma gone_SG c src src' p p' : gone c src p -> gone c src' p' -> SG c src src' p p'.
Proof. intros (g & A & E) (g' & A' & E'). exists g, g'. split; [exact A|]. split; [exact A'|]. intros d x. now rewrite E, E'. Qed.
Lemma count_lines gs : only_blanks (gap_text gs) -> List.length (comments gs) <= count_occ N.eq_dec (gap_text gs) 10%N.
Proof.
  induction gs as [|g gs IH]; intros H; [apply Nat.le_refl|]. unfold gap_text in *. cbn [flat_map] in *. apply Forall_app in H as [Hg H]. specialize (IH H).
  unfold comments in *. cbn [flat_map]. rewrite app_length, count_occ_app. apply Nat.add_le_mono; [|exact IH].
  destruct g as [b| |s|lv s|s]; cbn [comment_token List.length] in *; try (inversion Hg as [|? ? X _]; subst; cbn in X; decompose [or] X; discriminate || contradiction).
  - apply Nat.le_0_l.
  - apply Nat.le_refl.
Qed.
Lemma removed_block c g : on c B_remove_spaces_between_tokens = true -> removed_gap c (gap_text g) -> forall d x, block c d x g = [].
Proof.
  intros R [W Q] d x. rewrite block_marks by exact R. pose proof (white_line_feeds g W) as F. change [] with (marks_text c d x []).
  apply same_marks_text. destruct Q as [Q|[Q N]].
  - right. left. split; [exact Q|]. split; [exact F|constructor].
  - right. right. split; [exact Q|]. split; [|now left]. pose proof (count_lines g W) as L. destruct F as [|t m -> F]; [now left|].
    destruct F as [|t m Ht F]; [now right|]. cbn [List.length] in L. lia.
Qed.

Lemma nall_relabel (P Q : loc -> Prop) f : (forall p, Q p -> P (rl f p)) -> forall n, nall Q n -> nall P (relabel f n).
Proof.
  intros HQ. induction n as [k sp ls t lv ks is ss o Hk Hi Hs] using node_rect'. intros H. inversion H as [? ? ? ? ? ? ? ? ? Hl Hks His Hss]; subst. clear H.
  cbn [relabel]. constructor.
  - clear - Hl HQ. induction Hl; cbn [map]; constructor; auto.
  - clear - Hk Hks. induction Hks as [|x l Hx Hl IH]; cbn [map]; [constructor|]. inversion Hk; subst. constructor; auto.
  - clear - Hi His HQ. induction His as [|x l [Hp Hx] Hl IH]; cbn [map]; [constructor|]. inversion Hi; subst. constructor; cbn [fst snd]; auto.
  - clear - Hs Hss HQ. induction Hss as [|[[[p y] q] z] l (Hp & Hy & Hq) Hl IH]; cbn [map]; [constructor|]. inversion Hs; subst. cbn in *. constructor; cbn; auto.
Qed.
Lemma parsed_gone c src ts n : on c B_remove_spaces_between_tokens = true -> lex src = LexOk ts -> Forall (removed_gap c) (holes src 0 ts) ->
  parse_lua src = Parsed n -> nall (gone c src) n.
Proof.
  intros R L F P. unfold parse_lua in P. rewrite L in P. destruct (parse_tokens ts) as [v| |] eqn:Pt; try discriminate.
  destruct v as [|m| | |]; try discriminate. injection P as ->. apply parse_tokens_correct in Pt as (l & r & D).
  destruct (proj1 derives_tokens _ _ _ D (symbolic 0 (tokens_of ts)) (symbolic_tokens _ _)) as ([[l0 v0] r0] & D0).
  pose proof (proj1 (symbolic_holes _) _ _ _ D0 0 _ eq_refl (Nat.le_refl _) (fun _ => eq_refl)) as V0. cbn [fst snd] in V0.
  pose proof (proj1 (derives_relabel (posns ts) eq_refl) _ _ _ D0) as D1. rewrite posns_tokens in D1. cbn [rarg] in D1.
  assert (E : VNode n = rval (posns ts) v0) by (eapply lua_unambiguous; [exists l, r; exact D|eexists; eexists; exact D1]).
  destruct v0 as [|n0| | |]; try discriminate. cbn [rval] in E. injection E as ->. cbn [vall] in V0. refine (nall_relabel _ _ _ _ _ V0). clear - R L F.
  intros [x y] [Hp|(i & Hi & Hp)].
  - cbn in Hp. subst y. exists []. split; [|intros; now rewrite block_marks by exact R]. apply gap_empty. exact (posns_bound src ts 0 (Nat.le_0_l _) (lex_tiles _ _ L) x).
  - injection Hp as -> ->. unfold tokens_of in Hi. rewrite map_length in Hi.
    destruct (hole_nth src ts 0 i (lex_tiles _ _ L) (Nat.le_0_l _) Hi) as (g & A & B). exists g. split; [exact B|].
    apply removed_block; [exact R|]. apply nth_error_In in A. exact (proj1 (Forall_forall _ _) F _ A).
Qed.

Lemma twin_merge c st cv (P P' : loc -> Prop) n : forall n', twin c st cv (fun _ _ => True) n n' -> nall P n -> nall P' n' ->
  twin c st cv (fun l l' => P l /\ P' l') n n'.
Proof.
  induction n as [k sp ls t lv ks is ss o Hk Hi Hs] using node_rect'. intros n' T H H'.
  inversion T as [? ? sp' ? ls' ? ? ? ks' ? is' ? ss' ? Fl Fk Fi Fs Hz Hv|? sp' ? ? Ht Hu]; subst; [|now apply tw_string].
  inversion H as [? ? ? ? ? ? ? ? ? A1 A2 A3 A4]; subst. inversion H' as [? ? ? ? ? ? ? ? ? B1 B2 B3 B4]; subst. clear T H H'.
  apply tw_node; auto.
  - clear - Fl A1 B1. induction Fl; inversion A1; inversion B1; subst; constructor; auto.
  - clear - Hk Fk A2 B2. induction Fk; inversion Hk; inversion A2; inversion B2; subst; constructor; auto.
  - clear - Hi Fi A3 B3. induction Fi as [|x y l l' [_ Hx] F IH]; inversion Hi; inversion A3 as [|? ? [? ?]]; inversion B3 as [|? ? [? ?]]; subst; constructor; auto.
  - clear - Hs Fs A4 B4. induction Fs as [|[[[p x] q] z] [[[p' y] q'] z'] l l' (_ & Hx & _) F IH]; inversion Hs; inversion A4 as [|? ? (? & ? & ?)]; inversion B4 as [|? ? (? & ? & ?)]; subst;
      constructor; auto.
Qed.
Lemma twin_impl c st cv (G G' : loc -> loc -> Prop) n : (forall l l', G l l' -> G' l l') -> forall n', twin c st cv G n n' -> twin c st cv G' n n'.
Proof.
  intros HG. induction n as [k sp ls t lv ks is ss o Hk Hi Hs] using node_rect'. intros n' T.
  inversion T as [? ? sp' ? ls' ? ? ? ks' ? is' ? ss' ? Fl Fk Fi Fs Hz Hv|? sp' ? ? Ht Hu]; subst; [|now apply tw_string]. clear T.
  apply tw_node; auto.
  - clear - Fl HG. induction Fl; constructor; auto.
  - clear - Hk Fk. induction Fk; inversion Hk; subst; constructor; auto.
  - clear - Hi Fi HG. induction Fi as [|x y l l' [? Hx] F IH]; inversion Hi; subst; constructor; auto.
  - clear - Hs Fs HG. induction Fs as [|[[[p x] q] z] [[[p' y] q'] z'] l l' (? & Hx & ?) F IH]; inversion Hs; subst; constructor; auto.
Qed.

(** ** the theorems *)
Lemma format_again src c o : settled c -> readable c src -> process_buffer src c = Formatted o -> gaps_are (removed_gap c) src -> gaps_are (removed_gap c) o ->
  process_buffer o c = Formatted o.
Proof.
  intros (T & NS & Hl & R) Rd E (ts & L & F) (ts1 & L1 & F1). destruct (Rd ts L) as [B1 B2].
  destruct (format_wrote src c o ts T Hl E L B1 B2) as (n & ts' & P & L' & W & _). rewrite L' in L1. injection L1 as <-.
  destruct (tokens_reparse c T n src ts' P W) as (n' & P' & S).
  assert (Pl : parse_lua o = Parsed n') by (unfold parse_lua; now rewrite L', P').
  rewrite <- E. symmetry. eapply (twins_outcome c src o n n' _ NS Hl); [|exact P|exact Pl|].
  2:{ eapply twin_impl; [|exact (twin_merge _ _ _ _ _ n n' S (parsed_gone c src ts n R L F P) (parsed_gone c o ts' n' R L' F1 Pl))].
      intros l l' [A A']. now apply gone_SG. }
  auto.
Qed.
Theorem format_settles src c o : settled c -> on c B_remove_all_newlines = true -> readable c src -> gaps_are only_blanks src ->
  process_buffer src c = Formatted o -> process_buffer o c = Formatted o.
Proof.
  intros Hs Hn Rd (ts & L & F) E. pose proof Hs as (T & NS & Hl & R). destruct (Rd ts L) as [B1 B2].
  destruct (format_wrote src c o ts T Hl E L B1 B2) as (n & ts' & P & L' & W & H).
  assert (Q : forall l, Forall only_blanks l -> Forall (removed_gap c) l) by (intros l; apply Forall_impl; intros x Hx; split; [exact Hx|now left]).
  apply (format_again src c o Hs Rd E); [exists ts; auto|exists ts'; split; [exact L'|apply Q, H, F]].
Qed.

(** ** two comments in a gap *)
Definition C34_options : config := with_options ["--remove_spaces_between_tokens=true"; "--replace_zero_spaces_with_hint=true"; "--remove_comments=true";
    "--remove_all_newlines=true"; "--newline_format_statement=1"; "--indentation_string=  "; "--hint_before_comment= "; "--field_separator=,";
    "--write_trailing_field_separator=true"; "--convert_charstring_to_normalstring=true"; "--newline_format_do_end=1"]%string.
Lemma C34_options_settled : settled C34_options /\ on C34_options B_remove_all_newlines = true.
Proof.
  split; [|reflexivity]. split; [|split; [|split; reflexivity]].
  - split; [reflexivity|]. split; [exists [32%N]; split; [reflexivity|]; split; [discriminate|repeat constructor]|]. split; [|split].
    + intros k h H E. cbn in H. decompose [or] H; subst; try contradiction; vm_compute in E; try discriminate; injection E as <-; repeat constructor.
    + intros k h H E. cbn in H. decompose [or] H; subst; try contradiction; vm_compute in E; discriminate.
    + intros h E. vm_compute in E. injection E as <-. exists []. split; [now left|constructor].
  - intros k H. cbn in H. decompose [or] H; subst; try contradiction; reflexivity.
Qed.
(** tokens that are not brackets or numerals *)
Lemma plainly_readable c src : (forall ts, lex src = LexOk ts ->
    Forall (fun x => match snd (fst x) with OpenSquareBracket | LuaLexer.Numeral _ => False | _ => True end) ts) -> readable c src.
Proof.
  intros H ts L. specialize (H ts L). split.
  - intros (a & p & q & r & s & lv & body & b & ->). apply Forall_app in H as [_ H]. now apply Forall_inv in H.
  - intros (a & p & s & q & e & -> & _). apply Forall_app in H as [_ H]. now apply Forall_inv in H.
Qed.
Theorem removed_comments : exists src out out2 c, settled c /\ on c B_remove_all_newlines = true /\ readable c src
  /\ process_buffer src c = Formatted out /\ process_buffer out c = Formatted out2 /\ out2 <> out.
Proof.
  exists (s2l "f--[[x]]--[[y]](a)"). do 2 eexists. exists C34_options. split; [exact (proj1 C34_options_settled)|]. split; [reflexivity|]. split.
  - apply plainly_readable. intros ts L. vm_compute in L. injection L as <-. repeat constructor.
  - split; [vm_compute; reflexivity|]. split; [vm_compute; reflexivity|]. vm_compute. discriminate.
Qed.
