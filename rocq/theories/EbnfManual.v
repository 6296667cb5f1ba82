(** The language of luafmt and the grammar of the reference manual. *)
From Verif Require Import Base Lib LuaLexer Ast LR LRSpec LuaGrammar LuaParser LexSpec LexLoop.
From Verif Require Import EbnfSpec EbnfProofs EbnfBack.

(** ** programs of the manual that are accepted *)
Definition F (r : rule) : list token -> Prop := fits (Rule r).
Lemma F_intro r w : interp F (luafmt r) w -> F r w.
Proof. intros H. apply m_rule. now apply interp_matches. Qed.

(** operands and expressions *)
Definition sign (s : list token) : Prop := s = [] \/ s = [OpLength] \/ s = [Minus] \/ s = [Tilde].
Definition power (o : list token) : Prop := exists x r, o = x ++ r /\ F RSimple x /\ tail OpExponentiation (F RSimple) r.
Definition opnd (o : list token) : Prop := exists n s p, o = n ++ s ++ p /\ star (eq [OpLogicalNot]) n /\ sign s /\ power p.
Definition more (w : list token) : Prop := exists a b, w = a ++ b /\ (exists t, a = [t] /\ binary t = true) /\ opnd b.
Definition flat (w : list token) : Prop := exists o r, w = o ++ r /\ opnd o /\ star more r.
Lemma power_opnd p : power p -> opnd p.
Proof. intros H. exists [], [], p. split; [reflexivity|]. split; [constructor|]. split; [now left|exact H]. Qed.
Lemma exp_flat w : F RSimple w -> flat w.
Proof.
  intros H. exists w, []. rewrite app_nil_r. split; [reflexivity|]. split; [|constructor]. apply power_opnd.
  exists w, []. rewrite app_nil_r. split; [reflexivity|]. split; [exact H|constructor].
Qed.
Lemma opnd_in o : opnd o -> F ROperand o.
Proof.
  intros (n & s & p & -> & Hn & Hs & (x & r & -> & Hx & Hr)). apply F_intro. unfold luafmt, list_of. cbn [interp].
  exists n, (s ++ x ++ r). split; [reflexivity|]. split.
  { revert Hn. apply star_mono. intros u <-. reflexivity. }
  exists s, (x ++ r). split; [reflexivity|]. split.
  { destruct Hs as [->|[->|[->| ->]]]; auto. }
  exists x, r. auto.
Qed.
Lemma binary_in t : binary t = true -> F RBinop [t].
Proof. intros H. apply F_intro. cbn [luafmt interp]. destruct t; try discriminate H; tauto. Qed.
Lemma flat_in w : flat w -> F RExp w.
Proof.
  intros (o & r & -> & Ho & Hr). apply F_intro. unfold luafmt, list_of. cbn [interp]. exists o, r. split; [reflexivity|].
  split; [now apply opnd_in|]. revert Hr. apply star_mono. intros u (a & b & -> & (t & -> & B) & Hb). exists [t], b.
  split; [reflexivity|]. split; [now apply binary_in|now apply opnd_in].
Qed.
Lemma flat_more w r : flat w -> star more r -> flat (w ++ r).
Proof. intros (o & x & -> & Ho & Hx) Hr. exists o, (x ++ r). rewrite app_assoc. split; [reflexivity|]. split; [exact Ho|now apply star_app]. Qed.
Lemma flat_binop u t v : flat u -> binary t = true -> flat v -> flat (u ++ [t] ++ v).
Proof.
  intros A B (o & r & -> & Ho & Hr). apply flat_more; [exact A|]. rewrite app_assoc. constructor; [|exact Hr].
  exists [t], o. eauto 6.
Qed.
Lemma flat_last w : flat w -> exists p o, w = p ++ o /\ opnd o /\ forall o', opnd o' -> flat (p ++ o').
Proof.
  intros (o & r & -> & Ho & Hr). revert o Ho. induction Hr as [|u v (a & b & -> & (t & -> & B) & Hb) Hv IH]; intros o Ho.
  - rewrite app_nil_r. exists [], o. split; [reflexivity|]. split; [exact Ho|]. intros o' H. exists o', []. rewrite app_nil_r.
    split; [reflexivity|]. split; [exact H|constructor].
  - destruct (IH b Hb) as (p & l & E & Hl & F). exists (o ++ [t] ++ p), l. split; [|split; [exact Hl|]].
    + rewrite <- !app_assoc. do 2 f_equal. now rewrite <- E.
    + intros o' H. specialize (F o' H). rewrite <- !app_assoc. apply flat_binop; auto. exists o, []. rewrite app_nil_r.
      split; [reflexivity|]. split; [exact Ho|constructor].
Qed.
Lemma opnd_head o v : opnd o -> starts_unary (o ++ v) = true \/ power o.
Proof.
  intros (n & s & p & -> & Hn & Hs & Hp). destruct Hn as [|u w <- Hw].
  - destruct Hs as [->|[->|[->| ->]]]; [now right|left; reflexivity ..].
  - left. reflexivity.
Qed.
Lemma opnd_power o p : opnd o -> power p -> opnd (o ++ [OpExponentiation] ++ p).
Proof.
  intros (n & s & q & -> & Hn & Hs & (x & r & -> & Hx & Hr)) (x' & r' & -> & Hx' & Hr').
  exists n, s, (x ++ r ++ [OpExponentiation] ++ x' ++ r'). split; [now rewrite <- !app_assoc|]. split; [exact Hn|]. split; [exact Hs|].
  exists x, (r ++ [OpExponentiation] ++ x' ++ r'). split; [reflexivity|]. split; [exact Hx|]. apply star_app; [exact Hr|].
  rewrite app_assoc. constructor; [|exact Hr']. exists [OpExponentiation], x'. auto.
Qed.
Lemma flat_power u v : flat u -> flat v -> starts_unary v = false -> flat (u ++ [OpExponentiation] ++ v).
Proof.
  intros A (o & r & -> & Ho & Hr) P. destruct (opnd_head o r Ho) as [E|Hp]; [congruence|].
  destruct (flat_last u A) as (p & l & -> & Hl & F').
  replace ((p ++ l) ++ [OpExponentiation] ++ o ++ r) with ((p ++ l ++ [OpExponentiation] ++ o) ++ r) by now rewrite <- !app_assoc.
  apply flat_more; [|exact Hr]. apply F'. now apply opnd_power.
Qed.
Lemma flat_not v : flat v -> flat ([OpLogicalNot] ++ v).
Proof.
  intros (o & r & -> & (n & s & p & -> & Hn & Hs & Hp) & Hr). exists ([OpLogicalNot] ++ n ++ s ++ p), r.
  split; [now rewrite <- !app_assoc|]. split; [|exact Hr]. exists ([OpLogicalNot] ++ n), s, p.
  split; [reflexivity|]. split; [now constructor|auto].
Qed.
Lemma flat_sign t v : t = Minus \/ t = OpLength \/ t = Tilde -> flat v -> starts_unary v = false -> flat ([t] ++ v).
Proof.
  intros T (o & r & -> & Ho & Hr) P. destruct (opnd_head o r Ho) as [E|Hp]; [congruence|].
  exists ([t] ++ o), r. split; [reflexivity|]. split; [|exact Hr]. exists [], [t], o. split; [reflexivity|]. split; [constructor|].
  split; [|exact Hp]. destruct T as [->|[->| ->]]; unfold sign; auto.
Qed.

(** prefix expressions *)
Definition named (h : list token) : Prop := exists t, h = [t] /\ name t = true.
Definition headed (h : list token) : Prop :=
  named h \/ exists e, h = [OpenRoundBracket] ++ e ++ [CloseRoundBracket] /\ F RExp e.
Definition prefixed (w : list token) : Prop := exists h s, w = h ++ s /\ headed h /\ star (F RSuffix) s.
Definition suffixed (w : list token) : Prop := exists h s r, w = h ++ s ++ r /\ headed h /\ F RSuffix s /\ star (F RSuffix) r.
Lemma headed_prefixed h : headed h -> prefixed h.
Proof. intros H. exists h, []. rewrite app_nil_r. split; [reflexivity|]. split; [exact H|constructor]. Qed.
Lemma prefixed_suffix w x : prefixed w -> F RSuffix x -> suffixed (w ++ x).
Proof.
  intros (h & s & -> & Hh & Hs) Hx. exists h.
  assert (A : exists a b, s ++ x = a ++ b /\ F RSuffix a /\ star (F RSuffix) b).
  { destruct Hs as [|u v Hu Hv].
    - exists x, []. rewrite app_nil_r. split; [reflexivity|]. split; [exact Hx|constructor].
    - exists u, (v ++ x). rewrite <- app_assoc. split; [reflexivity|]. split; [exact Hu|].
      apply star_app; [exact Hv|now apply star_one]. }
  destruct A as (a & b & E & A). exists a, b. rewrite <- E, app_assoc. auto.
Qed.
Lemma suffixed_prefixed w : suffixed w -> prefixed w.
Proof.
  intros (h & s & r & -> & Hh & Hs & Hr). exists h, (s ++ r). split; [reflexivity|]. split; [exact Hh|]. now constructor.
Qed.
Lemma prefixed_simple w : prefixed w -> F RSimple w.
Proof.
  intros (h & s & -> & Hh & Hs). apply F_intro. cbn [luafmt interp]. do 7 right. destruct Hh as [Hh|(e & -> & He)].
  - left. exists h, s. auto.
  - right. left. exists [OpenRoundBracket], (e ++ [CloseRoundBracket] ++ s). split; [now rewrite <- !app_assoc|].
    split; [reflexivity|]. exists e, ([CloseRoundBracket] ++ s). split; [reflexivity|]. split; [exact He|].
    exists [CloseRoundBracket], s. auto.
Qed.
(** a name or something with suffixes *)
Definition variable (w : list token) : Prop := named w \/ suffixed w.
Lemma round_in e s r : F RExp e -> F RSuffix s -> star (F RSuffix) r ->
  F RRoundexp (([OpenRoundBracket] ++ e ++ [CloseRoundBracket]) ++ s ++ r).
Proof.
  intros He Hs Hr. apply F_intro. cbn [luafmt interp]. rewrite <- !app_assoc. exists [OpenRoundBracket]. eexists. split; [reflexivity|]. split; [reflexivity|].
  exists e. eexists. split; [reflexivity|]. split; [exact He|].
  exists [CloseRoundBracket]. eexists. split; [reflexivity|]. split; [reflexivity|]. eauto 6.
Qed.
Lemma variable_target w : variable w -> F RTarget w.
Proof.
  intros H. apply F_intro. cbn [luafmt interp]. destruct H as [H|(h & s & r & -> & [H|(e & -> & He)] & Hs & Hr)].
  - left. exists w, []. rewrite app_nil_r. split; [reflexivity|]. split; [exact H|constructor].
  - left. exists h, (s ++ r). split; [reflexivity|]. split; [exact H|now constructor].
  - right. now apply round_in.
Qed.
(** assignments and calls *)
Lemma named_round h : named h -> starts_round h = false.
Proof. intros (t & -> & H). destruct t; try discriminate H; reflexivity. Qed.
Lemma named_round_app h w : named h -> starts_round (h ++ w) = false.
Proof. intros (t & -> & H). destruct t; try discriminate H; reflexivity. Qed.
Definition stat_ok (w : list token) : Prop := (starts_round w = true -> F RRound w) /\ (starts_round w = false -> F ROpen w).
Lemma call_ok w : suffixed w -> stat_ok w.
Proof.
  intros (h & s & r & -> & [H|(e & -> & He)] & Hs & Hr).
  - split; [rewrite named_round_app by exact H; discriminate|]. intros _. apply F_intro. cbn [luafmt interp]. right. left.
    exists h, (s ++ r). split; [reflexivity|]. split; [exact H|]. exists s, r. auto.
  - split; [|discriminate]. intros _. apply F_intro. cbn [luafmt interp]. right. left. now apply round_in.
Qed.
Lemma assign_ok v t e : variable v -> tail Comma (F RTarget) t -> F RExplist e -> stat_ok (v ++ t ++ [EqualsSign] ++ e).
Proof.
  intros Hv Ht He.
  assert (N : forall h s, named h -> star (F RSuffix) s -> stat_ok ((h ++ s) ++ t ++ [EqualsSign] ++ e)).
  { intros h s H Hs. rewrite <- app_assoc. split; [rewrite named_round_app by exact H; discriminate|]. intros _.
    apply F_intro. cbn [luafmt interp]. left. exists h. eexists. split; [reflexivity|]. split; [exact H|].
    exists s. eexists. split; [reflexivity|]. split; [exact Hs|]. exists t. eexists. split; [reflexivity|]. split; [exact Ht|].
    exists [EqualsSign], e. auto. }
  destruct Hv as [H|(h & s & r & -> & [H|(x & -> & Hx)] & Hs & Hr)].
  - specialize (N v [] H (star_nil _)). rewrite app_nil_r in N. exact N.
  - apply (N h (s ++ r) H). now constructor.
  - split; [|discriminate]. intros _. apply F_intro. cbn [luafmt interp]. left. eexists. eexists. split; [reflexivity|].
    split; [now apply round_in|]. exists t. eexists. split; [reflexivity|]. split; [exact Ht|]. exists [EqualsSign], e. auto.
Qed.

(** what the rules of the manual stand for *)
Definition den3 (r : rule) (w : list token) : Prop :=
  match r with
  | RStat => (starts_round w = true -> F RRound w) /\ (starts_round w = false -> F RClosed w \/ F ROpen w)
  | RClosed => F RClosed w /\ starts_round w = false
  | ROpen => stat_ok w
  | RVarlist => exists v t, w = v ++ t /\ variable v /\ tail Comma (F RTarget) t
  | RVar => variable w
  | RExp => flat w
  | RPrefixexp => prefixed w
  | RFunctioncall => suffixed w
  | RBinop => exists t, w = [t] /\ (binary t = true \/ t = OpExponentiation)
  | RUnop => w = [Minus] \/ w = [OpLogicalNot] \/ w = [OpLength] \/ w = [Tilde]
  | r => F r w
  end.
Fixpoint uses (e : ebnf) : list rule :=
  match e with
  | Rule r => [r]
  | Seq a b | Alt a b => uses a ++ uses b
  | Opt a | Many a | Where _ a => uses a
  | _ => []
  end.
Definition safe (r : rule) : bool :=
  match r with RStat | ROpen | RVarlist | RVar | RPrefixexp | RFunctioncall | RBinop | RUnop => false | _ => true end.
Lemma den3_F r w : safe r = true -> den3 r w -> F r w.
Proof. destruct r; try discriminate; intros _; cbn [den3]; try tauto. apply flat_in. Qed.
Lemma safe_in e w : forallb safe (uses e) = true -> interp den3 e w -> interp F e w.
Proof.
  revert w. induction e; intros w; cbn [uses interp]; try (rewrite forallb_app, andb_true_iff); auto.
  - cbn [forallb]. rewrite andb_true_r. apply den3_F.
  - intros [A B] (u & v & -> & Hu & Hv). exists u, v. auto.
  - intros [A B] [H|H]; auto.
  - intros A [H|H]; auto.
  - intros A. apply star_mono. auto.
  - intros A [P H]. auto.
Qed.
Lemma same_in r w : luafmt r = manual r -> forallb safe (uses (manual r)) = true -> interp den3 (manual r) w -> F r w.
Proof. intros E S H. apply F_intro. rewrite E. now apply safe_in. Qed.

Lemma closed_round w : interp den3 closed_stat w -> starts_round w = false.
Proof.
  unfold closed_stat. cbn [interp].
  intros [->|[H|[->|[H|[H|[H|[H|[H|[H|[H|[H|H]]]]]]]]]]];
    try (destruct H as (u & v & -> & -> & _); reflexivity); try reflexivity.
  cbn [den3] in H. unfold F in H. inversion H as [| |r w' H'| | | | | | | |]; subst. cbn [luafmt manual] in H'.
  inversion H' as [| | |a b u v Hu Hv| | | | | | |]; subst. inversion Hu; subst. reflexivity.
Qed.
Lemma block_ok w : interp den3 (restricted RBlock) w -> F RBlock w.
Proof.
  assert (R : forall u, interp den3 (Opt (Where starts_round (Rule RStat))) u -> interp F (Opt (Rule RRound)) u).
  { intros u [->|[P H]]; [now left|right]. cbn [interp den3] in *. tauto. }
  cbn [restricted]. intros (u & r & -> & Hu & v & x & -> & Hv & Hx). apply R in Hu. apply F_intro. cbn [luafmt].
  exists u, (v ++ x). split; [reflexivity|]. split; [exact Hu|]. exists v, x. split; [reflexivity|]. split; [|exact Hx].
  revert Hv. apply star_mono. intros y [(a & b & -> & Ha & Hb)|[P H]].
  - left. exists a, b. split; [reflexivity|]. split; [exact (proj1 Ha)|]. now apply R.
  - right. apply negb_true_iff in P. cbn [interp den3] in *. apply H. exact P.
Qed.
Lemma open_ok w : interp den3 open_stat w -> stat_ok w.
Proof.
  unfold open_stat. cbn [interp]. intros [H|[H|[H|H]]].
  - destruct H as (u & v & -> & (x & t & -> & Hx & Ht) & y & e & -> & -> & He). rewrite <- app_assoc. now apply assign_ok.
  - now apply call_ok.
  - destruct H as (u & v & -> & -> & y & z & -> & Hy & a & b & -> & -> & Hb). split; [discriminate|]. intros _.
    apply F_intro. cbn [luafmt interp]. right. right. left. exists [Repeat]. eexists. split; [reflexivity|]. split; [reflexivity|].
    exists y. eexists. split; [reflexivity|]. split; [exact Hy|]. exists [Until], b. split; [reflexivity|]. split; [reflexivity|now apply flat_in].
  - destruct H as (u & v & -> & -> & y & z & -> & Hy & a & b & -> & -> & Hb). split; [discriminate|]. intros _.
    apply F_intro. cbn [luafmt interp]. right. right. right. exists [Local_]. eexists. split; [reflexivity|]. split; [reflexivity|].
    exists y. eexists. split; [reflexivity|]. split; [exact Hy|]. exists [EqualsSign], b. auto.
Qed.
Lemma simple_flat w : interp F (luafmt RSimple) w -> flat w.
Proof. intros H. apply exp_flat. now apply F_intro. Qed.
Lemma exp_ok w : interp den3 (restricted RExp) w -> flat w.
Proof.
  cbn [restricted interp]. unfold plain_exp. cbn [interp]. intros [H|[H|[H|[H|[H|[H|[H|[H|[H|[H|[H|[H|H]]]]]]]]]]]].
  1-7: apply simple_flat; cbn [luafmt interp]; tauto.
  - apply exp_flat. now apply prefixed_simple.
  - apply simple_flat; cbn [luafmt interp]; tauto.
  - destruct H as (u & r & -> & Hu & o & v & -> & [P (t & -> & B)] & Hv). cbn [den3] in *.
    destruct B as [B| ->]; [now apply flat_binop|discriminate].
  - destruct H as (u & r & -> & Hu & o & v & -> & -> & P & Hv). apply negb_true_iff in P. now apply flat_power.
  - destruct H as (o & v & -> & -> & Hv). now apply flat_not.
  - destruct H as (o & v & -> & Ho & P & Hv). apply negb_true_iff in P. destruct Ho as [->|[->| ->]]; apply flat_sign; auto.
Qed.
Lemma suffix_ok w : interp F (luafmt RSuffix) w -> F RSuffix w.
Proof. apply F_intro. Qed.
Lemma var_ok w : interp den3 (manual RVar) w -> variable w.
Proof.
  cbn [manual interp Name_]. intros [H|[H|H]].
  - now left.
  - destruct H as (u & r & -> & Hu & H). right. apply prefixed_suffix; [exact Hu|]. apply F_intro. cbn [luafmt interp]. right. left.
    revert H. apply (safe_in (Seq (Word OpenSquareBracket) (Seq (Rule RExp) (Word CloseSquareBracket)))). reflexivity.
  - destruct H as (u & r & -> & Hu & H). right. apply prefixed_suffix; [exact Hu|]. apply F_intro. cbn [luafmt interp]. right. right. left.
    exact H.
Qed.
Lemma variable_prefixed w : variable w -> prefixed w.
Proof. intros [H|H]; [apply headed_prefixed; now left|now apply suffixed_prefixed]. Qed.
Lemma prefix_ok w : interp den3 (manual RPrefixexp) w -> prefixed w.
Proof.
  cbn [manual interp]. intros [H|[H|H]].
  - now apply variable_prefixed.
  - now apply suffixed_prefixed.
  - destruct H as (u & r & -> & -> & e & v & -> & He & ->). apply headed_prefixed. right. exists e. split; [reflexivity|now apply flat_in].
Qed.
Lemma functioncall_ok w : interp den3 (manual RFunctioncall) w -> suffixed w.
Proof.
  cbn [manual interp]. intros [(u & r & -> & Hu & H)|(u & r & -> & Hu & H)]; (apply prefixed_suffix; [exact Hu|]); apply F_intro;
    cbn [luafmt interp]; [left|do 3 right]; exact H.
Qed.
Lemma varlist_ok w : interp den3 (manual RVarlist) w -> den3 RVarlist w.
Proof.
  cbn [manual list_of interp den3]. intros (u & v & -> & Hu & Hv). exists u, v. split; [reflexivity|]. split; [exact Hu|].
  revert Hv. apply star_mono. intros x (a & b & -> & -> & Hb). exists [Comma], b. repeat split. now apply variable_target.
Qed.
Lemma parlist_ok w : interp den3 (manual RParlist) w -> F RParlist w.
Proof.
  assert (N : forall t, name t = true -> F RPar [t]) by (intros t H; apply F_intro; left; exists t; auto).
  assert (V : F RPar [VarArg]) by (apply F_intro; right; reflexivity).
  assert (L : forall u, F RNamelist u -> exists n m, u = n ++ m /\ F RPar n /\ tail Comma (F RPar) m).
  { intros u H. unfold F in H. assert (I : interp F (luafmt RNamelist) u).
    { inversion H as [| |r w' H'| | | | | | | |]; subst. clear - H'. revert H'. generalize (luafmt RNamelist). intros e H.
      induction H; cbn [interp]; eauto 6; constructor; auto. }
    cbn [luafmt manual list_of interp] in I. destruct I as (n & m & -> & (t & -> & Ht) & Hm). exists [t], m. split; [reflexivity|].
    split; [now apply N|]. revert Hm. apply star_mono. intros x (a & b & -> & -> & (t' & -> & Ht')). exists [Comma], [t']. auto. }
  cbn [manual interp]. intros [(u & v & -> & Hu & Hv)| ->]; apply F_intro; cbn [luafmt list_of interp].
  - destruct (L u Hu) as (n & m & -> & Hn & Hm). rewrite <- app_assoc. exists n, (m ++ v). split; [reflexivity|]. split; [exact Hn|].
    apply star_app; [exact Hm|]. destruct Hv as [->|(a & b & -> & -> & ->)]; [constructor|]. apply star_one. exists [Comma], [VarArg]. auto.
  - exists [VarArg], []. split; [reflexivity|]. split; [exact V|constructor].
Qed.
Lemma restricted_case r w : interp den3 (restricted r) w -> den3 r w.
Proof.
  intros H. destruct r;
    try (apply (same_in _ w); [reflexivity|reflexivity|exact H]); try exact H.
  - now apply block_ok.
  - cbn [restricted manual interp den3] in *. unfold stat_ok in H. destruct H as [[H E]|[H1 H2]]; [|tauto]. split; [congruence|tauto].
  - split; [|now apply closed_round]. apply (same_in RClosed w); [reflexivity|reflexivity|exact H].
  - now apply open_ok.
  - now apply varlist_ok.
  - now apply var_ok.
  - now apply exp_ok.
  - now apply prefix_ok.
  - now apply functioncall_ok.
  - now apply parlist_ok.
  - cbn [restricted manual interp] in H. cbn [den3]. open_up; eexists; (split; [reflexivity|]); tauto || auto.
Qed.
Theorem restricted_fits w : matches restricted (Rule RBlock) w -> fits (Rule RBlock) w.
Proof. exact (matches_interp _ _ restricted_case (Rule RBlock) w). Qed.

(** the restricted rules are rules of the manual *)
Lemma restricted_case_manual r w : interp (fun r => matches manual (Rule r)) (restricted r) w -> matches manual (Rule r) w.
Proof.
  intros H. apply m_rule. apply interp_matches. destruct r; try exact H.
  - destruct H as (u & r & -> & Hu & v & x & -> & Hv & Hx). exists (u ++ v), x. split; [now rewrite app_assoc|]. split; [|exact Hx].
    assert (S : forall y, interp (fun r => matches manual (Rule r)) (Opt (Where starts_round (Rule RStat))) y
                -> star (matches manual (Rule RStat)) y).
    { intros y [->|[_ Hy]]; [constructor|now apply star_one]. }
    assert (A : forall y, matches manual (Rule RClosed) y \/ matches manual (Rule ROpen) y -> matches manual (Rule RStat) y).
    { intros y [Hy|Hy]; apply m_rule; [now apply m_left|now apply m_right]. }
    apply star_app; [now apply S|]. cbn [interp] in Hv |- *. induction Hv as [|y z Hy Hz IH]; [constructor|].
    apply star_app; [|exact IH]. destruct Hy as [(a & b & -> & Ha & Hb)|[_ Hy]].
    + constructor; [apply A; now left|now apply S].
    + apply star_one. apply A. now right.
  - cbn [restricted manual interp plain_exp] in *. destruct H as [H|[H|[H|[H|[H|[H|[H|[H|[H|[H|[H|[H|H]]]]]]]]]]]]; try tauto.
    + do 9 right. left. destruct H as (u & r & -> & Hu & o & v & -> & [_ Ho] & Hv). exists u, (o ++ v). eauto 8.
    + do 9 right. left. destruct H as (u & r & -> & Hu & o & v & -> & -> & _ & Hv). exists u, ([OpExponentiation] ++ v).
      split; [reflexivity|]. split; [exact Hu|]. exists [OpExponentiation], v. split; [reflexivity|]. split; [|exact Hv].
      apply m_rule. apply interp_matches. cbn [manual interp]. tauto.
    + do 10 right. destruct H as (u & r & -> & -> & Hu). exists [OpLogicalNot], r. split; [reflexivity|]. split; [|exact Hu].
      apply m_rule. apply interp_matches. cbn [manual interp]. tauto.
    + do 10 right. destruct H as (u & r & -> & Ho & _ & Hu). exists u, r. split; [reflexivity|]. split; [|exact Hu].
      apply m_rule. apply interp_matches. cbn [manual interp]. tauto.
Qed.
Theorem restricted_manual w : matches restricted (Rule RBlock) w -> matches manual (Rule RBlock) w.
Proof. exact (matches_interp _ _ restricted_case_manual (Rule RBlock) w). Qed.

(** ** accepted texts and the extended manual *)
Definition E (r : rule) : list token -> Prop := matches extended (Rule r).
Lemma E_intro r w : interp E (extended r) w -> E r w.
Proof. intros H. apply m_rule. now apply interp_matches. Qed.
Definition den2 (r : rule) (w : list token) : Prop :=
  match r with
  | RRound => E RStat w
  | RRoundexp | RTarget => E RPrefixexp w
  | RSuffix => forall p, E RPrefixexp p -> E RPrefixexp (p ++ w)
  | RSimple | ROperand => E RExp w
  | RPar => named w \/ w = [VarArg]
  | r => E r w
  end.
Lemma suffixes_prefix w : star (den2 RSuffix) w -> forall p, E RPrefixexp p -> E RPrefixexp (p ++ w).
Proof. induction 1 as [|u v Hu Hv IH]; intros p Hp; [now rewrite app_nil_r|]. rewrite app_assoc. apply IH. now apply Hu. Qed.
Lemma named_prefix h : named h -> E RPrefixexp h.
Proof. intros H. apply E_intro. left. apply E_intro. left. exact H. Qed.
Lemma round_prefix e : E RExp e -> E RPrefixexp ([OpenRoundBracket] ++ e ++ [CloseRoundBracket]).
Proof.
  intros H. apply E_intro. cbn [extended interp]. do 3 right. exists [OpenRoundBracket]. eexists. split; [reflexivity|]. split; [reflexivity|].
  exists e, [CloseRoundBracket]. auto.
Qed.
Lemma prefix_exp w : E RPrefixexp w -> E RExp w.
Proof. intros H. apply E_intro. cbn [extended manual interp]. tauto. Qed.
Lemma open_stat_ext w : E ROpen w -> E RStat w.
Proof. intros H. apply E_intro. now right. Qed.
Lemma prefix_open w : E RPrefixexp w -> E ROpen w.
Proof. intros H. apply E_intro. cbn [extended manual]. right. left. apply E_intro. exact H. Qed.
Lemma assign_open v t e : E RPrefixexp v -> tail Comma (E RPrefixexp) t -> E RExplist e -> E ROpen (v ++ t ++ [EqualsSign] ++ e).
Proof.
  intros Hv Ht He. apply E_intro. cbn [extended manual open_stat]. left. exists (v ++ t). eexists. split; [now rewrite <- app_assoc|].
  split; [|exists [EqualsSign], e; now auto]. apply E_intro. cbn [extended list_of interp]. exists v, t. auto.
Qed.
Lemma luafmt_case r w : interp den2 (luafmt r) w -> den2 r w.
Proof.
  destruct r; try (intros H; apply E_intro; exact H); try (intros H; exact H).
  - (* block *)
    cbn [luafmt den2]. intros (u & r & -> & Hu & v & x & -> & Hv & Hx). apply E_intro. cbn [extended manual].
    exists (u ++ v), x. split; [now rewrite app_assoc|]. split; [|exact Hx].
    assert (S : forall y, interp den2 (Opt (Rule RRound)) y -> star (E RStat) y).
    { intros y [->|Hy]; [constructor|now apply star_one]. }
    apply star_app; [now apply S|]. cbn [interp] in Hv. induction Hv as [|y z Hy Hz IH]; [constructor|].
    apply star_app; [|exact IH]. destruct Hy as [(a & b & -> & Ha & Hb)|Hy].
    + constructor; [apply E_intro; now left|now apply S].
    + apply star_one. now apply open_stat_ext.
  - (* open statements *)
    cbn [luafmt interp den2]. intros [H|[H|[H|H]]].
    + destruct H as (n & r1 & -> & Hn & s & r2 & -> & Hs & t & r3 & -> & Ht & q & e & -> & -> & He).
      rewrite app_assoc. apply assign_open; [|exact Ht|exact He]. apply suffixes_prefix; [exact Hs|now apply named_prefix].
    + destruct H as (n & r1 & -> & Hn & s & r & -> & Hs & Hr). apply prefix_open.
      apply (suffixes_prefix (s ++ r)); [now constructor|now apply named_prefix].
    + apply E_intro. cbn [extended manual open_stat]. right. right. left. exact H.
    + apply E_intro. cbn [extended manual open_stat]. right. right. right. exact H.
  - (* expressions *)
    cbn [luafmt list_of interp den2]. intros (o & r & -> & Ho & Hr). revert o Ho.
    induction Hr as [|u v (a & b & -> & Ha & Hb) Hv IH]; intros o Ho; [now rewrite app_nil_r|].
    rewrite app_assoc. apply IH. apply E_intro. cbn [extended manual interp]. do 9 right. left. exists o, (a ++ b).
    split; [reflexivity|]. split; [exact Ho|]. exists a, b. auto.
  - (* binary operators *)
    cbn [luafmt interp den2]. intros H. apply E_intro. cbn [extended manual interp]. tauto.
  - (* statements that start with a parenthesis *)
    cbn [luafmt interp den2]. intros [H|[H|H]]; apply open_stat_ext.
    + destruct H as (v & r & -> & Hv & t & r' & -> & Ht & q & e & -> & -> & He). now apply assign_open.
    + now apply prefix_open.
    + destruct H as (u & r & -> & -> & e & v & -> & He & ->). apply prefix_open. now apply round_prefix.
  - cbn [luafmt interp den2]. intros (u & r & -> & -> & e & r' & -> & He & u' & r'' & -> & -> & s & v & -> & Hs & Hv).
    replace ([OpenRoundBracket] ++ e ++ [CloseRoundBracket] ++ s ++ v)
      with (([OpenRoundBracket] ++ e ++ [CloseRoundBracket]) ++ s ++ v) by now rewrite <- !app_assoc.
    apply (suffixes_prefix (s ++ v)); [now constructor|now apply round_prefix].
  - (* suffixes *)
    cbn [luafmt interp den2]. intros H p Hp. apply E_intro. cbn [extended interp]. destruct H as [H|[H|[H|H]]].
    + right. left. exists p, w. auto.
    + left. apply E_intro. cbn [extended manual interp]. right. left. exists p, w. auto.
    + left. apply E_intro. cbn [extended manual interp]. right. right. exists p, w. auto.
    + right. right. left. exists p, w. auto.
  - cbn [luafmt interp den2]. intros [(h & s & -> & Hh & Hs)|H]; [|exact H]. apply suffixes_prefix; [exact Hs|now apply named_prefix].
  - (* simple expressions *)
    cbn [luafmt interp den2]. intros [H|[H|[H|[H|[H|[H|[H|[H|[H|H]]]]]]]]].
    1-7,10: apply E_intro; cbn [extended manual interp]; tauto.
    + destruct H as (h & s & -> & Hh & Hs). apply prefix_exp. apply suffixes_prefix; [exact Hs|now apply named_prefix].
    + destruct H as (u & r & -> & -> & e & r' & -> & He & u' & s & -> & -> & Hs). apply prefix_exp.
      replace ([OpenRoundBracket] ++ e ++ [CloseRoundBracket] ++ s)
        with (([OpenRoundBracket] ++ e ++ [CloseRoundBracket]) ++ s) by now rewrite <- !app_assoc.
      apply suffixes_prefix; [exact Hs|now apply round_prefix].
  - (* operands *)
    cbn [luafmt list_of interp den2]. intros (n & r & -> & Hn & s & r' & -> & Hs & x & p & -> & Hx & Hp).
    assert (P : E RExp (x ++ p)).
    { revert x Hx. induction Hp as [|u v (a & b & -> & -> & Hb) Hv IH]; intros x Hx; [now rewrite app_nil_r|].
      rewrite app_assoc. apply IH. apply E_intro. cbn [extended manual interp]. do 9 right. left. exists x, ([OpExponentiation] ++ b).
      split; [reflexivity|]. split; [exact Hx|]. exists [OpExponentiation], b. split; [reflexivity|]. split; [|exact Hb].
      apply E_intro. cbn [extended manual interp]. tauto. }
    assert (U : forall t v, t = Minus \/ t = OpLogicalNot \/ t = OpLength \/ t = Tilde -> E RExp v -> E RExp ([t] ++ v)).
    { intros t v Ht Hv. apply E_intro. cbn [extended manual interp]. do 10 right. exists [t], v. split; [reflexivity|]. split; [|exact Hv].
      apply E_intro. cbn [extended manual interp]. destruct Ht as [->|[->|[->| ->]]]; tauto. }
    assert (Q : E RExp (s ++ x ++ p)).
    { destruct Hs as [->|[->|[->| ->]]]; [exact P|apply U; tauto ..]. }
    clear - Hn Q U. induction Hn as [|u v -> Hv IH]; [exact Q|]. rewrite <- app_assoc. apply U; tauto.
Qed.
Theorem fits_extended w : fits (Rule RBlock) w -> matches extended (Rule RBlock) w.
Proof. exact (matches_interp _ _ luafmt_case (Rule RBlock) w). Qed.
Theorem restricted_accepted src : program restricted src -> program manual src /\ exists n, parse_lua src = Parsed n.
Proof.
  intros (ts & L & H). split.
  - exists ts. split; [exact L|]. revert H. apply file_mono. apply restricted_manual.
  - apply accepted_ebnf. exists ts. split; [exact L|]. revert H. apply file_mono. apply restricted_fits.
Qed.
Theorem accepted_extended src n : parse_lua src = Parsed n -> program extended src.
Proof.
  intros H. assert (A : program luafmt src) by (apply accepted_ebnf; eauto). destruct A as (ts & L & A). exists ts. split; [exact L|].
  revert A. apply file_mono. apply fits_extended.
Qed.

(** ** witnesses *)
Lemma program_lex rules src ts : lex src = LexOk ts -> (program rules src <-> file_of (matches rules (Rule RBlock)) (bare ts)).
Proof.
  intros H. split.
  - intros (ts' & L & P). apply lex_correct in L. rewrite H in L. injection L as ->. exact P.
  - intros P. exists ts. split; [now apply lex_correct|exact P].
Qed.
(** building derivations top down *)
Lemma b_rule r w : interp (fun r => matches manual (Rule r)) (manual r) w -> matches manual (Rule r) w.
Proof. intros H. apply m_rule. now apply interp_matches. Qed.
Lemma numeral_exp s : matches manual (Rule RExp) [Numeral s].
Proof. apply b_rule. cbn [manual interp]. do 3 right. left. exists (Numeral s). auto. Qed.
Lemma minus_exp w : matches manual (Rule RExp) w -> matches manual (Rule RExp) (Minus :: w).
Proof.
  intros H. apply b_rule. cbn [manual interp]. do 10 right. exists [Minus], w. split; [reflexivity|]. split; [|exact H].
  apply b_rule. now left.
Qed.
Lemma power_exp u v : matches manual (Rule RExp) u -> matches manual (Rule RExp) v -> matches manual (Rule RExp) (u ++ OpExponentiation :: v).
Proof.
  intros H G. apply b_rule. cbn [manual interp]. do 9 right. left. exists u, (OpExponentiation :: v). split; [reflexivity|]. split; [exact H|].
  exists [OpExponentiation], v. split; [reflexivity|]. split; [|exact G]. apply b_rule. cbn [manual interp]. tauto.
Qed.
Lemma one_exp w : matches manual (Rule RExp) w -> matches manual (Rule RExplist) w.
Proof. intros H. apply b_rule. exists w, []. rewrite app_nil_r. split; [reflexivity|]. split; [exact H|constructor]. Qed.
Lemma assign_stat s w : matches manual (Rule RExp) w -> matches manual (Rule RStat) (Variable_ s :: EqualsSign :: w).
Proof.
  intros H. apply one_exp in H. apply b_rule. right. apply b_rule. left. exists [Variable_ s], (EqualsSign :: w). split; [reflexivity|]. split.
  - apply b_rule. exists [Variable_ s], []. split; [reflexivity|]. split; [|constructor]. apply b_rule. left. exists (Variable_ s). auto.
  - exists [EqualsSign], w. split; [reflexivity|]. split; [reflexivity|exact H].
Qed.
Lemma stats_block u v : matches manual (Rule RStat) u -> star (matches manual (Rule RStat)) v -> matches manual (Rule RBlock) (u ++ v).
Proof.
  intros H G. apply b_rule. exists (u ++ v), []. split; [now rewrite app_nil_r|]. split; [|now left]. now constructor.
Qed.
Lemma stat_file u : matches manual (Rule RStat) u -> file_of (matches manual (Rule RBlock)) (u ++ [EOF]).
Proof. intros H. apply file_plain. rewrite <- (app_nil_r u). apply stats_block; [exact H|constructor]. Qed.
Lemma call_stat s : matches manual (Rule RStat) [OpenRoundBracket; Variable_ s; CloseRoundBracket; OpenRoundBracket; CloseRoundBracket].
Proof.
  apply b_rule. right. apply b_rule. right. left. apply b_rule. left.
  exists [OpenRoundBracket; Variable_ s; CloseRoundBracket], [OpenRoundBracket; CloseRoundBracket]. split; [reflexivity|]. split.
  - apply b_rule. right. right. exists [OpenRoundBracket], [Variable_ s; CloseRoundBracket]. split; [reflexivity|]. split; [reflexivity|].
    exists [Variable_ s], [CloseRoundBracket]. split; [reflexivity|]. split; [|reflexivity].
    apply b_rule. cbn [manual interp]. do 7 right. left. apply b_rule. left. apply b_rule. left. exists (Variable_ s). auto.
  - apply b_rule. left. exists [OpenRoundBracket], [CloseRoundBracket]. split; [reflexivity|]. split; [reflexivity|].
    exists [], [CloseRoundBracket]. split; [reflexivity|]. split; [now left|reflexivity].
Qed.
Lemma signs_program : program manual (s2l "x = - -1").
Proof.
  eapply program_lex; [vm_compute; reflexivity|]. cbn [bare map fst snd].
  apply (stat_file [Variable_ _; EqualsSign; Minus; Minus; Numeral _]). apply assign_stat. do 2 apply minus_exp. apply numeral_exp.
Qed.
Lemma power_program : program manual (s2l "x = 2^-3").
Proof.
  eapply program_lex; [vm_compute; reflexivity|]. cbn [bare map fst snd].
  apply (stat_file [Variable_ _; EqualsSign; Numeral _; OpExponentiation; Minus; Numeral _]). apply assign_stat.
  apply (power_exp [Numeral _]); [|apply minus_exp]; apply numeral_exp.
Qed.
Lemma round_program : program manual (s2l "x = 1 (f)()").
Proof.
  eapply program_lex; [vm_compute; reflexivity|]. cbn [bare map fst snd].
  apply (file_plain _ [Variable_ _; EqualsSign; Numeral _; OpenRoundBracket; Variable_ _; CloseRoundBracket; OpenRoundBracket; CloseRoundBracket]).
  apply (stats_block [Variable_ _; EqualsSign; Numeral _]).
  - apply assign_stat. apply numeral_exp.
  - apply star_one. apply call_stat.
Qed.
(** a statement that is no assignment has some token besides names and full stops *)
Definition other (w : list token) : Prop := existsb (fun t => match t with Variable_ _ | Period => false | _ => true end) w = true.
Definition den4 (r : rule) (w : list token) : Prop :=
  match r with
  | RBlock => w = [] \/ other w
  | RStat | RClosed | ROpen | RRetstat | RLabel | RFunctioncall | RArgs | RTable => other w
  | _ => True
  end.
Lemma other_left u v : other u -> other (u ++ v).
Proof. unfold other. intros H. rewrite existsb_app, H. reflexivity. Qed.
Lemma other_right u v : other v -> other (u ++ v).
Proof. unfold other. intros H. rewrite existsb_app, H. apply orb_true_r. Qed.
Lemma other_case r w : interp den4 (manual r) w -> den4 r w.
Proof.
  destruct r; try (intros _; exact Logic.I); cbn [den4].
  - cbn [manual interp den4]. intros (u & v & -> & Hu & Hv). destruct Hu as [|a b Ha Hb].
    + destruct Hv as [->|Hv]; [now left|right; exact Hv].
    + right. now do 2 apply other_left.
  - intros [H|H]; exact H.
  - cbn [manual]. unfold closed_stat. cbn [interp den4].
    intros [->|[H|[->|[H|[H|[H|[H|[H|[H|[H|[H|H]]]]]]]]]]]; try reflexivity; try exact H;
      (destruct H as (u & v & -> & -> & _); reflexivity).
  - cbn [manual open_stat interp den4]. intros [H|[H|[H|H]]]; try exact H.
    + destruct H as (u & v & -> & _ & a & b & -> & -> & _). apply other_right. reflexivity.
    + destruct H as (u & v & -> & -> & _); reflexivity.
    + destruct H as (u & v & -> & -> & _); reflexivity.
  - cbn [manual interp]. intros (u & v & -> & -> & _). reflexivity.
  - cbn [manual interp]. intros (u & v & -> & -> & _). reflexivity.
  - cbn [manual interp den4]. intros [(u & v & -> & _ & H)|(u & v & -> & _ & a & b & -> & _ & c & d & -> & _ & H)].
    + now apply other_right.
    + now do 3 apply other_right.
  - cbn [manual interp den4]. intros [H|[H|(t & -> & H)]]; [|exact H|destruct t; try discriminate H; reflexivity].
    destruct H as (u & v & -> & -> & _). reflexivity.
  - cbn [manual interp]. intros (u & v & -> & -> & _). reflexivity.
Qed.
Lemma no_index_program : ~ program manual (s2l "a.b").
Proof.
  intros P. eapply program_lex in P; [|vm_compute; reflexivity]. cbn [bare map fst snd] in P. inversion P as [w Hw E|].
  change [Variable_ [97%N]; Period; Variable_ [98%N]; EOF] with ([Variable_ [97%N]; Period; Variable_ [98%N]] ++ [EOF]) in E.
  apply app_inj_tail in E. destruct E as [-> _].
  apply (matches_interp _ _ other_case) in Hw. destruct Hw as [Hw|Hw]; discriminate Hw.
Qed.
(** a program of the restricted rules *)
Lemma r_rule r w : interp (fun r => matches restricted (Rule r)) (restricted r) w -> matches restricted (Rule r) w.
Proof. intros H. apply m_rule. now apply interp_matches. Qed.
Lemma restricted_program : program restricted (s2l "(f)() x = 2 - -1").
Proof.
  eapply program_lex; [vm_compute; reflexivity|]. cbn [bare map fst snd].
  assert (N : forall s, matches restricted (Rule RExp) [Numeral s]).
  { intros s. apply r_rule. cbn [restricted interp]. do 3 right. left. exists (Numeral s). auto. }
  assert (V : forall s, matches restricted (Rule RPrefixexp) [Variable_ s]).
  { intros s. apply r_rule. left. apply r_rule. left. exists (Variable_ s). auto. }
  apply (file_plain _ ([OpenRoundBracket; Variable_ _; CloseRoundBracket; OpenRoundBracket; CloseRoundBracket]
    ++ [Variable_ _; EqualsSign; Numeral _; Minus; Minus; Numeral _])). apply r_rule.
  eexists. eexists. split; [reflexivity|]. split.
  - right. split; [reflexivity|]. apply r_rule. right. apply r_rule. right. left. apply r_rule. left.
    exists [OpenRoundBracket; Variable_ (s2l "f"); CloseRoundBracket], [OpenRoundBracket; CloseRoundBracket]. split; [reflexivity|]. split.
    + apply r_rule. right. right. exists [OpenRoundBracket], [Variable_ (s2l "f"); CloseRoundBracket]. split; [reflexivity|]. split; [reflexivity|].
      exists [Variable_ (s2l "f")], [CloseRoundBracket]. split; [reflexivity|]. split; [|reflexivity].
      apply r_rule. cbn [restricted interp]. do 7 right. left. apply V.
    + apply r_rule. left. exists [OpenRoundBracket], [CloseRoundBracket]. split; [reflexivity|]. split; [reflexivity|].
      exists [], [CloseRoundBracket]. split; [reflexivity|]. split; [now left|reflexivity].
  - eexists. exists []. split; [rewrite app_nil_r; reflexivity|]. split; [|now left]. apply star_one. right. split; [reflexivity|].
    apply r_rule. left. exists [Variable_ (s2l "x")]. eexists. split; [reflexivity|]. split.
    { apply r_rule. exists [Variable_ (s2l "x")], []. split; [reflexivity|]. split; [|constructor]. apply r_rule. left. exists (Variable_ (s2l "x")). auto. }
    exists [EqualsSign]. eexists. split; [reflexivity|]. split; [reflexivity|].
    apply r_rule. eexists. exists []. split; [rewrite app_nil_r; reflexivity|]. split; [|constructor].
    apply r_rule. cbn [restricted interp]. do 9 right. left. exists [Numeral (s2l "2")]. eexists. split; [reflexivity|]. split; [apply N|].
    exists [Minus]. eexists. split; [reflexivity|]. split.
    { split; [reflexivity|]. apply r_rule. cbn [restricted manual interp]. tauto. }
    apply r_rule. cbn [restricted interp]. do 12 right. exists [Minus]. eexists. split; [reflexivity|]. split; [now left|].
    split; [reflexivity|]. apply N.
Qed.
