(** Tokens that can come to stand next to each other do not run into each other. *)
From Verif Require Import Base Lib Config State Ast LuaLexer LR LRSpec LuaGrammar LuaParser ParserProofs LexSpec LayoutSpec LuaWriter WriterFrame RenderProofs LayoutProofs.

(** ** kinds of tokens *)
Definition canon (t : token) : N := match t with CharStringLiteral _ => t_NormalStringLiteral | _ => term_of t end.
Definition constants : list token :=
  [OpExponentiation; OpLogicalNot; OpLength; OpMultiplication; OpDivision; OpFloorDivision; OpModulo; OpAddition; Minus;
   OpConcatenation; OpLeftShift; OpRightShift; OpBitwiseAnd; Tilde; OpBitwiseOr; OpEquality; OpInequality; OpLessThan;
   OpGreaterThan; OpLessOrEqual; OpGreaterOrEqual; OpLogicalAnd; OpLogicalOr; Semicolon; Comma; Colon; Label;
   OpenRoundBracket; CloseRoundBracket; OpenSquareBracket; CloseSquareBracket; OpenCurlyBracket; CloseCurlyBracket;
   EqualsSign; Period; VarArg; Break; Do; Else; ElseIf; End; False_; For; Function_; GoTo; If_; In_; Local_; Nil; Repeat;
   Return; Then; True_; Until; While].
Definition constant (a : N) : option token := find (fun t => N.eqb (term_of t) a) constants.
Definition first_chars (a : N) : list char :=
  if N.eqb a t_Variable then s2l "abcdefghijklmnopqrstuvwxyzABCDEFGHIJKLMNOPQRSTUVWXYZ_"
  else if N.eqb a t_Numeral then s2l ".0123456789"
  else if N.eqb a t_NormalStringLiteral then [34; 39]%N
  else if N.eqb a t_MultiLineStringLiteral then [91]%N
  else if N.eqb a t_SheBang then [35]%N
  else match constant a with Some t => firstn 1 (spelling t) | None => [] end.
Definition follows (a : N) (x : char) : bool :=
  if N.eqb a t_Variable then negb (letter x || digit x)
  else if N.eqb a t_Numeral then negb (letter x || digit x || N.eqb x 46 || N.eqb x 45)
  else match constant a with Some t => can_follow t (Some x) | None => true end.
Definition glued (a b : N) : bool := N.eqb a t_OpenSquareBracket && N.eqb b t_MultiLineStringLiteral.
Definition parted (a b : N) : bool := forallb (follows a) (first_chars b) || glued a b.
(** [parted], tabulated *)
Definition kinds : list N := map N.of_nat (seq 0 62).
Definition pair_table : list (list bool) := Eval vm_compute in map (fun a => map (parted a) kinds) kinds.
Definition pair_ok (a b : N) : bool := nth (N.to_nat b) (nth (N.to_nat a) pair_table []) false.
Lemma pair_ok_parted a b : pair_ok a b = true -> parted a b = true.
Proof.
  unfold pair_ok. intros H. change pair_table with (map (fun a => map (parted a) kinds) kinds) in H.
  assert (L : List.length kinds = 62) by reflexivity.
  destruct (Nat.ltb (N.to_nat a) 62) eqn:Ea; [|apply Nat.ltb_ge in Ea; rewrite (nth_overflow _ []) in H by (rewrite map_length; lia); destruct (N.to_nat b); discriminate].
  apply Nat.ltb_lt in Ea. rewrite (nth_indep _ [] (map (parted (N.of_nat 0)) kinds)) in H by (rewrite map_length; lia).
  rewrite (map_nth (fun a => map (parted a) kinds)) in H.
  destruct (Nat.ltb (N.to_nat b) 62) eqn:Eb; [|apply Nat.ltb_ge in Eb; rewrite (nth_overflow _ false) in H by (rewrite map_length; lia); discriminate].
  apply Nat.ltb_lt in Eb. rewrite (nth_indep _ false (parted (nth (N.to_nat a) kinds (N.of_nat 0)) (N.of_nat 0))) in H by (rewrite map_length; lia).
  rewrite map_nth in H. unfold kinds in H. rewrite !map_nth, !seq_nth in H by lia. cbn [plus] in H. now rewrite !N2Nat.id in H.
Qed.

Lemma letter_in x : letter x = true -> In x (first_chars t_Variable).
Proof.
  intros H. assert (B : (x < 123)%N).
  { unfold letter in H. rewrite !orb_true_iff, !andb_true_iff, !N.leb_le, N.eqb_eq in H. lia. }
  assert (A : forallb (fun n => implb (letter (N.of_nat n)) (existsb (N.eqb (N.of_nat n)) (first_chars t_Variable))) (seq 0 123) = true) by (vm_compute; reflexivity).
  rewrite forallb_forall in A. specialize (A (N.to_nat x)). rewrite N2Nat.id, H in A. cbn [implb] in A.
  apply existsb_exists in A as (y & Hy & E); [apply N.eqb_eq in E; now subst|]. apply in_seq. lia.
Qed.
Lemma digit_in x : digit x = true -> In x (first_chars t_Numeral).
Proof.
  intros H. unfold digit in H. rewrite andb_true_iff, !N.leb_le in H.
  assert (A : forallb (fun n => implb (digit (N.of_nat n)) (existsb (N.eqb (N.of_nat n)) (first_chars t_Numeral))) (seq 0 123) = true) by (vm_compute; reflexivity).
  rewrite forallb_forall in A. specialize (A (N.to_nat x)). rewrite N2Nat.id in A. replace (digit x) with true in A by (symmetry; unfold digit; rewrite andb_true_iff, !N.leb_le; exact H).
  cbn [implb] in A. apply existsb_exists in A as (y & Hy & E); [apply N.eqb_eq in E; now subst|]. apply in_seq. lia.
Qed.
Lemma first_char t : token_ok t -> exists x r, tok_text t = x :: r /\ In x (first_chars (canon t)).
Proof.
  intros H. destruct t; try (eexists; eexists; split; [reflexivity|vm_compute; auto]; fail).
  - destruct s as [|x s]; [destruct H|]. eexists; eexists; split; [reflexivity|]. apply letter_in, (proj1 H).
  - destruct H as (st & H & E). destruct s as [|x s]; [injection H as <-; discriminate|]. eexists; eexists; split; [reflexivity|].
    cbn [num_run num_step] in H. destruct (N.eqb x 46) eqn:E1; [apply N.eqb_eq in E1 as ->; vm_compute; auto|].
    destruct (N.eqb x 48) eqn:E2; [apply N.eqb_eq in E2 as ->; vm_compute; auto|]. destruct (digit x) eqn:E3; [now apply digit_in|discriminate].
  - destruct H as (r & -> & _). eexists; eexists; split; [reflexivity|vm_compute; auto].
  - destruct H.
Qed.
Lemma letter_lower x : hexdigit x = true -> letter x || digit x = true.
Proof.
  unfold hexdigit, letter. rewrite !orb_true_iff, !andb_true_iff, !N.leb_le. intros [H|H]; [auto|left; left]. lia.
Qed.
Lemma follows_ok t x : token_ok t -> follows (canon t) x = true -> can_follow t (Some x) = true.
Proof.
  intros Hc H. destruct t; try exact H; try reflexivity.
  cbn [canon term_of] in H. change (follows t_Numeral x) with (negb (letter x || digit x || N.eqb x 46 || N.eqb x 45)) in H.
  apply negb_true_iff in H. rewrite !orb_false_iff in H. destruct H as [[[H1 H2] H3] H4]. destruct Hc as (st & Hr & He). cbn. rewrite Hr.
  assert (E1 : N.eqb x 101 || N.eqb x 69 = false).
  { rewrite orb_false_iff. split; apply N.eqb_neq; intros ->; discriminate. }
  assert (E2 : N.eqb x 120 = false) by (apply N.eqb_neq; intros ->; discriminate).
  assert (E3 : hexdigit x = false) by (destruct (hexdigit x) eqn:E; [apply letter_lower in E; rewrite H1, H2 in E; discriminate|reflexivity]).
  destruct st; try discriminate; cbn [num_step]; rewrite ?E1, ?E2, ?E3, ?H2, ?H3, ?H4; reflexivity.
Qed.
(** what never continues a token *)
Lemma blank_follows a x : In x [32; 9; 13; 10; 44; 59; 125]%N -> follows a x = true.
Proof.
  intros H. unfold follows. destruct (N.eqb a t_Variable).
  { cbn in H. decompose [or] H; try contradiction; subst x; reflexivity. }
  destruct (N.eqb a t_Numeral).
  { cbn in H. decompose [or] H; try contradiction; subst x; reflexivity. }
  destruct (constant a) as [t|] eqn:E; [|reflexivity]. apply find_some in E as [E _].
  assert (A : forallb (fun t => forallb (fun x => can_follow t (Some x)) [32; 9; 13; 10; 44; 59; 125]%N) constants = true) by (vm_compute; reflexivity).
  rewrite forallb_forall in A. apply A in E. rewrite forallb_forall in E. now apply E.
Qed.

(** ** scanning a layout *)
Inductive state := Free | After (a : N) | Trail.
Definition admits (s : state) (b : N) : bool :=
  match s with Free => true | After a => pair_ok a b | Trail => N.eqb b t_CloseCurlyBracket end.
Definition past (h : str) (s : state) : state :=
  match h with [] => s | _ => match s with Trail => Trail | _ => Free end end.
Definition step (s : state) (r : rs) : option state :=
  match fst r with
  | STok t => if negb (N.eqb (canon t) t_EOF) && admits s (canon t) then Some (After (canon t)) else None
  | SGap _ | SVoid => Some (past (snd r) s)
  | SSep _ => match s with Trail => None | _ => Some Free end
  | STrail _ => match s with Trail => None | _ => Some Trail end
  end.
Fixpoint scan (s : state) (l : list rs) : option state :=
  match l with [] => Some s | r :: l' => match step s r with Some s' => scan s' l' | None => None end end.
Fixpoint head (l : list rs) : option N :=
  match l with
  | (STok t, _) :: _ => Some (canon t)
  | (SGap _, _) :: r | (SVoid, _) :: r => head r
  | _ => None
  end.
Lemma scan_app l1 l2 : forall s, scan s (l1 ++ l2) = match scan s l1 with Some s' => scan s' l2 | None => None end.
Proof. induction l1 as [|r l1 IH]; intros s; cbn; [reflexivity|]. destruct (step s r); auto. Qed.
Lemma head_app l1 l2 b : head l1 = Some b -> head (l1 ++ l2) = Some b.
Proof. induction l1 as [|[s h] l1 IH]; [discriminate|]. destruct s; cbn; auto. Qed.
Lemma scan_enter l b : head l = Some b -> forall s s', scan Free l = Some s' -> admits s b = true -> scan s l = Some s'.
Proof.
  induction l as [|[x h] l IH]; [discriminate|]. intros Hh s s' H Ha. cbn [scan] in *. destruct x as [t|p|z|z|]; cbn [head] in Hh.
  - injection Hh as <-. unfold step in *. cbn [fst] in *. rewrite Ha. cbn [admits] in H. exact H.
  - unfold step in *. cbn [fst snd] in *. destruct h as [|a h]; cbn [past] in *; [now apply IH|]. destruct s; auto.
  - discriminate.
  - discriminate.
  - unfold step in *. cbn [fst snd] in *. destruct h as [|a h]; cbn [past] in *; [now apply IH|]. destruct s; auto.
Qed.

(** ** [l] starts with one of the tokens [F] and ends in one of the states [L] *)
Definition adj (F : list N) (L : list state) (l : list rs) : Prop :=
  exists b s, head l = Some b /\ In b F /\ scan Free l = Some s /\ In s L.
Definition state_eqb (s1 s2 : state) : bool :=
  match s1, s2 with Free, Free => true | After a, After b => N.eqb a b | Trail, Trail => true | _, _ => false end.
Definition subset (A B : list N) : bool := forallb (fun x => existsb (N.eqb x) B) A.
Definition substate (A B : list state) : bool := forallb (fun x => existsb (state_eqb x) B) A.
Definition pairs_ok (L : list state) (F : list N) : bool := forallb (fun s => forallb (admits s) F) L.
Definition gap_ok (h : str) (L : list state) (F : list N) : bool := pairs_ok (map (past h) L) F.
Definition no_trail (L : list state) : bool := forallb (fun s => match s with Trail => false | _ => true end) L.
Lemma subset_incl A B : subset A B = true -> incl A B.
Proof. unfold subset. rewrite forallb_forall. intros H x Hx. apply H in Hx. apply existsb_exists in Hx as (y & Hy & E). apply N.eqb_eq in E as ->. exact Hy. Qed.
Lemma substate_incl A B : substate A B = true -> incl A B.
Proof.
  unfold substate. rewrite forallb_forall. intros H x Hx. apply H in Hx. apply existsb_exists in Hx as (y & Hy & E).
  destruct x, y; try discriminate; auto. apply N.eqb_eq in E as ->. exact Hy.
Qed.
Lemma pairs_in L F s b : pairs_ok L F = true -> In s L -> In b F -> admits s b = true.
Proof. unfold pairs_ok. rewrite forallb_forall. intros H Hs Hb. apply H in Hs. rewrite forallb_forall in Hs. auto. Qed.
Lemma gap_any h L F : pairs_ok L F = true -> gap_ok h L F = true.
Proof.
  intros H. unfold gap_ok, pairs_ok in *. rewrite forallb_forall in *. intros s Hs. apply in_map_iff in Hs as (s' & <- & Hs). specialize (H s' Hs).
  destruct h; cbn [past]; [exact H|]. rewrite forallb_forall in *. destruct s'; cbn [admits]; auto.
Qed.
Lemma adj_incl F L F' L' l : subset F F' = true -> substate L L' = true -> adj F L l -> adj F' L' l.
Proof. intros H1 H2 (b & s & A & B & C & D). exists b, s. repeat split; auto; [eapply subset_incl; eauto|eapply substate_incl; eauto]. Qed.
Lemma adj_tok t : N.eqb (canon t) t_EOF = false -> adj [canon t] [After (canon t)] [ht t].
Proof. intros H. exists (canon t), (After (canon t)). cbn. unfold step. cbn. rewrite H. cbn. auto. Qed.
Lemma adj_gap F1 L1 F2 L2 l1 p h l2 : adj F1 L1 l1 -> adj F2 L2 l2 -> gap_ok h L1 F2 = true -> adj F1 L2 (l1 ++ hg p h :: l2).
Proof.
  intros (b & s & A & B & C & D) (b2 & s2 & A2 & B2 & C2 & D2) H. exists b, s2. repeat split; auto; [now apply head_app|].
  rewrite scan_app, C. cbn [scan]. unfold step. cbn [hg fst snd]. eapply scan_enter; eauto. unfold gap_ok in H. eapply pairs_in; eauto. now apply in_map.
Qed.
Lemma adj_tok_gap t p h F2 L2 l2 : N.eqb (canon t) t_EOF = false -> adj F2 L2 l2 -> gap_ok h [After (canon t)] F2 = true ->
  adj [canon t] L2 (ht t :: hg p h :: l2).
Proof. intros H0 H1 H2. change (ht t :: hg p h :: l2) with ([ht t] ++ hg p h :: l2). eapply adj_gap; eauto. now apply adj_tok. Qed.
Lemma adj_pre F L p h l : adj F L l -> adj F L (hg p h :: l).
Proof. intros (b & s & A & B & C & D). exists b, s. repeat split; auto. cbn. unfold step. cbn. destruct h; exact C. Qed.
Lemma adj_void F L h l : adj F L l -> adj F L ((SVoid, h) :: l).
Proof. intros (b & s & A & B & C & D). exists b, s. repeat split; auto. cbn. unfold step. cbn. destruct h; exact C. Qed.
Lemma adj_strip F L p h l : adj F L (hg p h :: l) -> adj F L l.
Proof. intros (b & s & A & B & C & D). exists b, s. repeat split; auto. cbn in C. unfold step in C. cbn in C. destruct h; exact C. Qed.
Lemma adj_post F L p l : adj F L l -> adj F L (l ++ [hg p []]).
Proof. intros (b & s & A & B & C & D). exists b, s. repeat split; auto; [now apply head_app|]. rewrite scan_app, C. reflexivity. Qed.
Lemma no_trail_in L s : no_trail L = true -> In s L -> s <> Trail.
Proof. unfold no_trail. rewrite forallb_forall. intros H Hs. apply H in Hs. now destruct s. Qed.
Lemma adj_sep F L F2 L2 l q z p h l2 : adj F L l -> no_trail L = true -> adj F2 L2 l2 -> adj F L2 (l ++ hg q [] :: (SSep z, []) :: hg p h :: l2).
Proof.
  intros (b & s & A & B & C & D) H (b2 & s2 & A2 & B2 & C2 & D2). exists b, s2. repeat split; auto; [now apply head_app|].
  rewrite scan_app, C. pose proof (no_trail_in _ _ H D). cbn. unfold step. cbn. destruct s; try congruence; destruct h; exact C2.
Qed.
Lemma adj_trail F L l q z : adj F L l -> no_trail L = true -> adj F [Trail] (l ++ [hg q []; (STrail z, [])]).
Proof.
  intros (b & s & A & B & C & D) H. exists b, Trail. repeat split; auto; [now apply head_app| |now left].
  rewrite scan_app, C. pose proof (no_trail_in _ _ H D). cbn. unfold step. cbn. destruct s; try congruence; reflexivity.
Qed.
Lemma adj_head F L l b : adj F L l -> head l = Some b -> adj [b] L l.
Proof. intros (b' & s & A & B & C & D) E. exists b, s. repeat split; auto. now left. Qed.

(** ** first and last tokens of the nonterminals *)
Definition merge (A B : list N) : list N := A ++ filter (fun x => negb (existsb (N.eqb x) A)) B.
Definition smerge (A B : list state) : list state := A ++ filter (fun x => negb (existsb (state_eqb x) A)) B.
Definition canon_term (k : N) : N := if N.eqb k t_CharStringLiteral then t_NormalStringLiteral else k.
Definition lookup {A} (tab : list (list A)) (n : N) : list A := nth (N.to_nat n) tab [].
Definition update {A} (tab : list (list A)) (n : N) (v : list A) : list (list A) :=
  firstn (N.to_nat n) tab ++ v :: skipn (S (N.to_nat n)) tab.
Definition sym_first (tab : list (list N)) (x : sym) : list N := match x with T k => [canon_term k] | NT n => lookup tab n end.
Definition sym_last (tab : list (list state)) (x : sym) : list state := match x with T k => [After (canon_term k)] | NT n => lookup tab n end.
Definition last_sym (l : list sym) : sym := List.last l (T 0%N).
Definition is_fields (n : N) : bool := N.eqb n n_TSepEndList_Field_ || N.eqb n n_FieldList_.
Definition round_first (tab : list (list N)) : list (list N) :=
  fold_left (fun tab p => match p_rhs p with x :: _ => update tab (p_lhs p) (merge (lookup tab (p_lhs p)) (sym_first tab x)) | [] => tab end) lua_prods tab.
Definition round_last (tab : list (list state)) : list (list state) :=
  fold_left (fun tab p => if is_fields (p_lhs p) then update tab (p_lhs p) [Trail]
    else update tab (p_lhs p) (smerge (lookup tab (p_lhs p)) (sym_last tab (last_sym (p_rhs p))))) lua_prods tab.
Definition first_table : list (list N) := Eval vm_compute in Nat.iter 20 round_first (repeat [] 59).
Definition last_table : list (list state) := Eval vm_compute in Nat.iter 20 round_last (repeat [] 59).
Definition firsts (x : sym) : list N := sym_first first_table x.
Definition lasts (x : sym) : list state := sym_last last_table x.

(** ** the layout of a parsed tree *)
Section Scan.
  Variable th : str.
  Notation hl := (hlayout no_mark th).
  Notation rests := (rest_slots list_prefix_hint hg hl).
  Definition stat_like (n : N) : bool :=
    existsb (N.eqb n) [n_Stat_; n_StatNoPar_; n_StatMayEndsPar_; n_StatStartsMayEndsPar_; n_Label_; n_FunctionCallNoStartsMayEndsPar_; n_FunctionCallStartsMayEndsPar_].
  (** how a list item is set off from the item before it *)
  Definition set_off (n : N) (x : node) : Prop :=
    if stat_like n then list_prefix_hint x = sp \/ head (hl x) = Some t_Semicolon
    else if N.eqb n n_ElseIfThen_ then list_prefix_hint x = sp else True.
  Definition elem_of (n : N) : N :=
    if N.eqb n n_TList_Stat_ then n_Stat_ else if N.eqb n n_TList_ElseIfThen_ then n_ElseIfThen_ else n_VarSuffix_.
  Definition comma_slots (t : token) (l : list sitem) : list rs :=
    WriterFrame.seps_slots hg hl (match t with Period => [] | _ => sp end) (fun _ => [ht t]) (fun _ => []) l.
  Definition field_slots (l : list sitem) : list rs :=
    WriterFrame.seps_slots hg hl sp (fun z => [(SSep z, [])]) (fun z => [(STrail z, [])]) l.
  Definition scan_inv (x : sym) (v : val) : Prop :=
    match x with
    | T k => exists t, v = VTok t /\ term_of t = k
    | NT n =>
        match nclass_of n with
        | QNode => exists x, v = VNode x /\ adj (firsts (NT n)) (lasts (NT n)) (hl x) /\ set_off n x
        | QItems => exists p x l, v = VItems ((p, x) :: l) /\ adj (firsts (NT n)) (lasts (NT n)) (hl x ++ rests l) /\ set_off (elem_of n) x
        | QCommas t => exists p x q z l, v = VSeps ((p, x, q, z) :: l) /\ adj (firsts (NT n)) (lasts (NT n)) (comma_slots t ((p, x, q, z) :: l))
        | QFields => exists p x q z l, v = VSeps ((p, x, q, z) :: l) /\ adj (firsts (NT n)) (lasts (NT n)) (field_slots ((p, x, q, z) :: l))
        | QSep => exists t, v = VTok t
        | QChunk => exists x l p s, v = VNode x /\ hl x = l ++ [hg p []; ht EOF] /\ scan Free l = Some s /\ s <> Trail
        end
    end.
  Inductive scan_invs : list sym -> list (located val) -> Prop :=
  | si_nil : scan_invs [] []
  | si_cons : forall x xs l v r vs, scan_inv x v -> scan_invs xs vs -> scan_invs (x :: xs) ((l, v, r) :: vs).

  Lemma rests_app a b : rests (a ++ b) = rests a ++ rests b.
  Proof. apply flat_map_app. Qed.
  Lemma adj_item F L n l p x rest L2 : adj F L l -> adj (firsts (NT n)) L2 (hl x ++ rest) -> set_off n x ->
    match n with 4 | 5 | 9 | 22 => True | _ => False end%N ->
    (N.eqb n n_VarSuffix_ = true -> pairs_ok L (firsts (NT n)) = true) -> no_trail L = true -> pairs_ok L [t_Semicolon] = true ->
    adj F L2 (l ++ hg p (list_prefix_hint x) :: hl x ++ rest).
  Proof.
    intros H H2 Hs Hn Hv Ht Hp.
    assert (Sp : list_prefix_hint x = sp -> adj F L2 (l ++ hg p (list_prefix_hint x) :: hl x ++ rest)).
    { intros ->. eapply adj_gap; eauto. unfold gap_ok, pairs_ok. rewrite forallb_forall. intros s Hs'. apply in_map_iff in Hs' as (s' & <- & Hs').
      pose proof (no_trail_in _ _ Ht Hs'). destruct s'; try congruence; cbn; rewrite forallb_forall; reflexivity. }
    unfold set_off in Hs. destruct n as [|n]; [destruct Hn|]. destruct (N.eqb (N.pos n) 22) eqn:E22.
    { eapply adj_gap; eauto. now apply gap_any, Hv. }
    destruct (stat_like (N.pos n)) eqn:Es.
    { destruct Hs as [Hs|Hs]; [now apply Sp|]. eapply adj_gap; [exact H| |].
      - eapply adj_head; [exact H2|]. apply head_app, Hs.
      - now apply gap_any. }
    destruct (N.eqb (N.pos n) n_ElseIfThen_) eqn:E9; [now apply Sp|].
    exfalso. repeat (destruct n as [n|n|]; try contradiction; try discriminate).
  Qed.
  Lemma adj_snoc n F L its x0 p x : adj F L (hl x0 ++ rests its) -> adj (firsts (NT n)) (lasts (NT n)) (hl x) -> set_off n x ->
    match n with 4 | 5 | 9 | 22 => True | _ => False end%N ->
    (N.eqb n n_VarSuffix_ = true -> pairs_ok L (firsts (NT n)) = true) -> no_trail L = true -> pairs_ok L [t_Semicolon] = true ->
    adj F (lasts (NT n)) (hl x0 ++ rests (its ++ [(p, x)])).
  Proof.
    intros. rewrite rests_app, app_assoc. cbn [rest_slots flat_map fst snd app].
    eapply adj_item; eauto. rewrite app_nil_r. assumption.
  Qed.
  Lemma adj_commas_one t F L p x q z : adj F L (hl x) -> adj F L (comma_slots t [(p, x, q, z)]).
  Proof. intros H. apply adj_pre. now apply adj_post. Qed.
  Lemma adj_commas_cons t F L p x q z p' F2 L2 p2 x2 q2 z2 l : adj F L (hl x) -> adj F2 L2 (comma_slots t ((p2, x2, q2, z2) :: l)) ->
    N.eqb (canon t) t_EOF = false -> pairs_ok L [canon t] = true -> gap_ok (match t with Period => [] | _ => sp end) [After (canon t)] F2 = true ->
    adj F L2 (comma_slots t ((p, x, q, z) :: sset_first p' ((p2, x2, q2, z2) :: l))).
  Proof.
    intros H H2 He Hp Hg. cbn [sset_first]. apply adj_strip in H2. apply adj_pre. cbn [rest_sslots].
    eapply adj_gap; [exact H| |apply gap_any; exact Hp]. cbn [app]. now apply adj_tok_gap with F2.
  Qed.
  Lemma adj_fields_one F L p x q z : adj F L (hl x) -> no_trail L = true -> adj F [Trail] (field_slots [(p, x, q, z)]).
  Proof. intros H Ht. apply adj_pre. now apply adj_trail with L. Qed.
  Lemma adj_fields_cons F L p x q z p' F2 L2 p2 x2 q2 z2 l : adj F L (hl x) -> no_trail L = true -> adj F2 L2 (field_slots ((p2, x2, q2, z2) :: l)) ->
    adj F L2 (field_slots ((p, x, q, z) :: sset_first p' ((p2, x2, q2, z2) :: l))).
  Proof.
    intros H Ht H2. cbn [sset_first]. apply adj_strip in H2. apply adj_pre. cbn [rest_sslots app]. eapply adj_sep; eauto.
  Qed.

  Ltac adj_go := repeat lazymatch goal with
    | |- adj _ _ ((SVoid, _) :: _) => apply adj_void
    | |- adj ?F ?L [(STok ?t, _)] => change (adj F L [ht t])
    | |- adj _ _ [ht _] => apply adj_tok; vm_compute; reflexivity
    | |- adj _ _ (ht _ :: hg _ _ :: _) => eapply adj_tok_gap; [vm_compute; reflexivity| |]
    | H : adj _ _ (hl ?x) |- adj _ _ (hl ?x ++ hg _ _ :: _) => eapply (adj_gap _ _ _ _ _ _ _ _ H)
    | H : adj _ _ (hl ?x) |- adj _ _ (hl ?x) => exact H
    end.
  Ltac adj_end := try solve [apply gap_any; vm_compute; reflexivity | vm_compute; reflexivity].
  Lemma prod_scan p args : In p lua_prods -> scan_invs (p_rhs p) args -> scan_inv (NT (p_lhs p)) (p_act p args).
  Proof.
    intros Hp H. unfold lua_prods in Hp.
    repeat (destruct Hp as [<-|Hp]; [cbn [p_rhs p_lhs p_act] in *; repeat match goal with
      | H : scan_invs (_ :: _) _ |- _ => inv H
      | H : scan_invs [] _ |- _ => inv H
      end; cbn [fst snd] in *; unfold scan_inv in *; use_class; use_parts; use_term |]); [.. |destruct Hp].
    all: try (eexists; split; [reflexivity|]; split; [|first [exact Logic.I | assumption | left; reflexivity | right; reflexivity | reflexivity]]).
    all: cbn -[gap_hint op_token adj firsts lasts ht hg sp hlayout set_off comma_slots field_slots].
    all: unfold nd, nlist, nseps, leaf in *.
    all: try (lazymatch goal with |- adj _ _ _ => idtac end; eapply adj_incl; cycle 2;
      [cbn [hlayout map hfill template nth app]; rewrite ?app_nil_r; adj_go| ..];
      lazymatch goal with |- adj _ _ _ => fail | |- _ => solve [vm_compute; reflexivity | apply gap_any; vm_compute; reflexivity] end).
    all: try (eexists; reflexivity).
    { do 4 eexists. split; [reflexivity|]. split; [exact (app_comm_cons [] [hg (l, l) []; ht EOF] (hg (0, l) []))|split; [reflexivity|discriminate]]. }
    1,2: match goal with H : adj _ _ _ |- _ => destruct H as (b & s & _ & _ & Hs & Hi) end;
      do 4 eexists; (split; [reflexivity|]; split; [exact (app_comm_cons _ _ _)|split; [exact Hs|eapply no_trail_in; [|exact Hi]; vm_compute; reflexivity]]).
    { match goal with H : adj _ _ (hl ?a), H' : adj _ _ (hl ?b) |- context [[(_, VNode ?a, _); (?m, VNode ?b, _); _]] =>
        assert (A : adj (firsts (NT n_SheBangLine_)) (lasts (NT n_Block_)) (hl a ++ hg (r, m) [] :: hl b)) by
          (eapply adj_gap; [exact H|exact H'|vm_compute; reflexivity]);
        destruct A as (b0 & s & _ & _ & Hs & Hi); do 4 eexists; split; [reflexivity|];
        split; [exact (eq_trans (f_equal (cons _) (app_assoc (hl a) (_ :: hl b) _)) (app_comm_cons _ _ _))|split; [exact Hs|eapply no_trail_in; [|exact Hi]; vm_compute; reflexivity]] end. }
    all: try (lazymatch goal with |- adj _ _ _ => idtac end; cbn [hlayout map nth app]).
    all: try (lazymatch goal with H : adj _ _ (hl _ ++ rests _) |- adj _ _ (list_slots _ _ _ (_ :: _)) => 
      apply adj_pre; eapply adj_incl; [| |exact H]; vm_compute; reflexivity end).
    all: try (lazymatch goal with H : adj _ _ (comma_slots ?t ?l) |- adj _ _ (WriterFrame.seps_slots _ _ _ _ _ _) =>
      eapply adj_incl; [| |exact H]; vm_compute; reflexivity end).
    all: try (lazymatch goal with H : adj _ _ (field_slots _) |- adj _ _ (WriterFrame.seps_slots _ _ _ _ _ _) =>
      eapply adj_incl; [| |exact H]; vm_compute; reflexivity end).
    all: try (do 3 eexists; split; [reflexivity|]; split; [|eassumption]; cbn [rest_slots flat_map]; rewrite app_nil_r; eapply adj_incl; [| |eassumption]; vm_compute; reflexivity).
    all: try (do 5 eexists; split; [reflexivity|]; eapply adj_incl; cycle 2; [first [eapply adj_commas_one; eassumption|eapply adj_fields_one; [eassumption|vm_compute; reflexivity]]| ..]; vm_compute; reflexivity).
    all: try (do 5 eexists; split; [reflexivity|]; eapply adj_incl; cycle 2;
      [first [refine (adj_commas_cons _ _ _ _ _ _ _ _ _ _ _ _ _ _ _ _ _ _ _ _); [eassumption|eassumption| ..] | refine (adj_fields_cons _ _ _ _ _ _ _ _ _ _ _ _ _ _ _ _ _); [eassumption| |eassumption]]| ..];
      vm_compute; reflexivity).
    { apply adj_pre. cbn [rest_slots flat_map]. rewrite app_nil_r. eapply adj_incl; [| |eassumption]; vm_compute; reflexivity. }
    { apply adj_pre. cbn [rest_slots flat_map fst snd]. eapply adj_incl; cycle 2.
      - eapply (adj_item _ _ n_Stat_); [eassumption| |eassumption|exact Logic.I|discriminate|vm_compute; reflexivity|vm_compute; reflexivity].
        eapply adj_incl; [| |eassumption]; [vm_compute; reflexivity|]. instantiate (1 := lasts (NT n_TList_Stat_)). vm_compute. reflexivity.
      - vm_compute. reflexivity.
      - vm_compute. reflexivity. }
    { apply adj_pre. cbn [rest_slots flat_map fst snd]. rewrite app_nil_r, <- (app_nil_r (hl x)). eapply adj_incl; cycle 2.
      - eapply (adj_item _ _ n_StatStartsMayEndsPar_); [eassumption|rewrite app_nil_r; eassumption|assumption|exact Logic.I|discriminate|vm_compute; reflexivity|vm_compute; reflexivity].
      - vm_compute. reflexivity.
      - vm_compute. reflexivity. }
    { eapply adj_incl; cycle 2.
      - eapply adj_gap; [eassumption| |].
        + eapply adj_tok_gap; [vm_compute; reflexivity|eassumption|vm_compute; reflexivity].
        + vm_compute. reflexivity.
      - vm_compute. reflexivity.
      - vm_compute. reflexivity. }
    1,3: eapply adj_incl; cycle 2;
      [refine (adj_commas_cons Comma _ _ _ _ _ _ _ _ _ _ _ _ _ _ _ _ _ _ _); [eassumption|eassumption| ..] | ..]; vm_compute; reflexivity.
    { eapply adj_incl; cycle 2; [refine (adj_commas_one Comma _ _ _ _ _ _ _); eassumption| ..]; vm_compute; reflexivity. }
    all: do 3 eexists; (split; [reflexivity|]; split; [|eassumption]); eapply adj_incl; cycle 2;
      [eapply adj_snoc; [eassumption|eassumption|assumption|exact Logic.I| ..]| ..]; first [discriminate | intros; vm_compute; reflexivity].
  Qed.
  Lemma scans : (forall x w v, derives lua_grammar x w v -> scan_inv x (snd (fst v))) /\
    (forall xs w vs, derives_list lua_grammar xs w vs -> scan_invs xs vs).
  Proof.
    apply (derives_both _ _ lua_grammar (fun x w v _ => scan_inv x (snd (fst v))) (fun xs w vs _ => scan_invs xs vs)).
    - intros l t r. cbn. eauto.
    - intros p w args Hp D IH. cbn [fst snd]. now apply prod_scan.
    - constructor.
    - intros x xs w1 w2 [[l v] r] vs _ H1 _ H2. now constructor.
  Qed.
End Scan.

Theorem parse_scan th src n : parse_lua src = Parsed n -> exists l p s, hlayout no_mark th n = l ++ [hg p []; ht EOF] /\ scan Free l = Some s /\ s <> Trail.
Proof.
  unfold parse_lua. destruct (lex src) as [ts|e|] eqn:L; try discriminate.
  destruct (parse_tokens ts) as [v| |] eqn:P; try discriminate. destruct v as [| n' | | |] eqn:Ev; try discriminate.
  intros [= <-]. apply parse_tokens_correct in P as (l & r & D). apply (proj1 (scans th)) in D.
  change (g_start lua_grammar) with n_Chunk_ in D. destruct D as (x & l0 & p & s & [= <-] & E & H). eauto.
Qed.
