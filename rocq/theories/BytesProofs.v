(** Proofs about bytes and paths. *)
From Verif Require Import Base Lib Config State LuaLexer UtilProofs FileUtil Cli BytesSpec.

Lemma encodes_length c bs : encodes c bs -> List.length bs = len_utf8 c.
Proof.
  intros [a H|a b H1 H2 H|a b d H1 H2 H3 H|a b d e H1 H2 H3 H4 H]; unfold len_utf8; cbn [List.length].
  - destruct (N.ltb_spec a 128); [reflexivity|lia].
  - destruct (N.ltb_spec (a * 64 + b) 128); [lia|]. destruct (N.ltb_spec (a * 64 + b) 2048); [reflexivity|lia].
  - destruct (N.ltb_spec ((a * 64 + b) * 64 + d) 128); [lia|]. destruct (N.ltb_spec ((a * 64 + b) * 64 + d) 2048); [lia|].
    destruct (N.ltb_spec ((a * 64 + b) * 64 + d) 65536); [reflexivity|lia].
  - destruct (N.ltb_spec (((a * 64 + b) * 64 + d) * 64 + e) 128); [lia|]. destruct (N.ltb_spec (((a * 64 + b) * 64 + d) * 64 + e) 2048); [lia|].
    destruct (N.ltb_spec (((a * 64 + b) * 64 + d) * 64 + e) 65536); [lia|reflexivity].
Qed.
Lemma div64 c : exists q r, (c = q * 64 + r /\ r < 64)%N.
Proof. exists (c / 64)%N, (c mod 64)%N. pose proof (N.div_mod c 64). pose proof (N.mod_lt c 64). lia. Qed.
Lemma encodes_some c : (c < 2097152)%N -> exists bs, encodes c bs.
Proof.
  intros H. destruct (N.lt_ge_cases c 128); [eexists; now apply en_one|].
  destruct (div64 c) as (q & r & -> & Hr). destruct (N.lt_ge_cases q 32); [eexists; apply en_two; lia|].
  destruct (div64 q) as (q2 & r2 & -> & Hr2). destruct (N.lt_ge_cases q2 16); [eexists; apply en_three; lia|].
  destruct (div64 q2) as (q3 & r3 & -> & Hr3). eexists. apply en_four; lia.
Qed.
Lemma encoding_some s : Forall (fun c => c < 2097152)%N s -> exists bs, encoding s bs.
Proof.
  induction 1 as [|c s Hc _ [r IH]]; [eexists; constructor|]. destruct (encodes_some c Hc) as [bs E]. eexists. constructor; eauto.
Qed.
Lemma encoding_length s bs : encoding s bs -> List.length bs = blen s.
Proof. induction 1 as [|c bs s r E _ IH]; [reflexivity|]. rewrite app_length, IH, (encodes_length _ _ E). reflexivity. Qed.
Lemma encoding_app s t bs : encoding (s ++ t) bs <-> exists b1 b2, bs = b1 ++ b2 /\ encoding s b1 /\ encoding t b2.
Proof.
  split.
  - revert bs. induction s as [|c s IH]; intros bs H; [exists [], bs; repeat split; [constructor|exact H]|].
    cbn in H. inversion H as [|? cb ? r E H1]; subst. destruct (IH _ H1) as (b1 & b2 & -> & E1 & E2).
    exists (cb ++ b1), b2. rewrite app_assoc. repeat split; [now constructor|exact E2].
  - intros (b1 & b2 & -> & E1 & E2). induction E1 as [|c cb s r E _ IH]; [exact E2|]. cbn. rewrite <- app_assoc. now constructor.
Qed.

Lemma bskip_inv a s r : bskip a s = Some r -> exists p, s = p ++ r /\ blen p = a.
Proof.
  revert a. induction s as [|c s IH]; intros [|a] H; cbn [bskip] in H; try discriminate H.
  - injection H as <-. exists []. auto.
  - injection H as <-. exists []. auto.
  - destruct (len_utf8 c <=? S a) eqn:E; [|discriminate]. apply Nat.leb_le in E. destruct (IH _ H) as (p & -> & L).
    exists (c :: p). split; [reflexivity|]. cbn [blen]. lia.
Qed.
Lemma btake_inv a s u : btake a s = Some u -> exists q, s = u ++ q /\ blen u = a.
Proof.
  revert a u. induction s as [|c s IH]; intros [|a] u H; cbn [btake] in H; try discriminate H.
  - injection H as <-. exists []. auto.
  - injection H as <-. exists (c :: s). auto.
  - destruct (len_utf8 c <=? S a) eqn:E; [|discriminate]. apply Nat.leb_le in E. destruct (btake _ s) as [x|] eqn:B; [|discriminate].
    injection H as <-. destruct (IH _ _ B) as (q & -> & L). exists q. split; [reflexivity|]. cbn [blen]. lia.
Qed.
Lemma bslice_iff s a b u : bslice s a b = Some u <-> exists p q, s = p ++ u ++ q /\ blen p = a /\ blen p + blen u = b.
Proof.
  split.
  - unfold bslice. destruct (b <? a) eqn:E; [discriminate|]. apply Nat.ltb_ge in E. destruct (bskip a s) as [r|] eqn:K; [|discriminate].
    intros T. destruct (bskip_inv _ _ _ K) as (p & -> & L). destruct (btake_inv _ _ _ T) as (q & -> & L2). exists p, q. repeat split; lia.
  - intros (p & q & -> & <- & <-). apply bslice_app.
Qed.
Theorem byte_slices s bs a b u : encoding s bs -> (bslice s a b = Some u <-> exists p q bp bu bq, s = p ++ u ++ q /\ bs = bp ++ bu ++ bq /\
  encoding p bp /\ encoding u bu /\ encoding q bq /\ List.length bp = a /\ List.length (bp ++ bu) = b).
Proof.
  intros E. rewrite bslice_iff. split.
  - intros (p & q & -> & <- & <-). apply encoding_app in E. destruct E as (bp & br & -> & E1 & E). apply encoding_app in E.
    destruct E as (bu & bq & -> & E2 & E3). exists p, q, bp, bu, bq. rewrite app_length, (encoding_length _ _ E1), (encoding_length _ _ E2). repeat split; auto.
  - intros (p & q & bp & bu & bq & -> & _ & E1 & E2 & E3 & <- & <-). exists p, q. rewrite app_length, (encoding_length _ _ E1), (encoding_length _ _ E2). auto.
Qed.

(** ** paths *)
Lemma split_plain x : ~ In (chr "/") x -> split_on (chr "/") x = [x].
Proof.
  induction x as [|c x IH]; intros H; [reflexivity|]. cbn [split_on]. destruct (ceq c (chr "/")) eqn:E.
  - apply N.eqb_eq in E. subst c. exfalso. apply H. now left.
  - rewrite IH; [reflexivity|]. intros I. apply H. now right.
Qed.
Lemma split_more x r : ~ In (chr "/") x -> split_on (chr "/") (x ++ chr "/" :: r) = x :: split_on (chr "/") r.
Proof.
  induction x as [|c x IH]; intros H; [reflexivity|]. cbn [app split_on]. destruct (ceq c (chr "/")) eqn:E.
  - apply N.eqb_eq in E. subst c. exfalso. apply H. now left.
  - rewrite IH; [reflexivity|]. intros I. apply H. now right.
Qed.
Lemma first_slash s : ~ In (chr "/") s \/ exists x r, s = x ++ chr "/" :: r /\ ~ In (chr "/") x.
Proof.
  induction s as [|c s IH]; [left; intros []|]. destruct (N.eq_dec c (chr "/")) as [->|N]; [right; exists [], s; split; [reflexivity|intros []]|].
  destruct IH as [H|(x & r & -> & H)].
  - left. intros [E|I]; [now apply N|now apply H].
  - right. exists (c :: x), r. split; [reflexivity|]. intros [E|I]; [now apply N|now apply H].
Qed.
Lemma component_step p x : exists q, component p x q /\ forall l, normalize (rev p) (x :: l) = normalize (rev q) l.
Proof.
  cbn [normalize]. destruct x as [|c x]; [exists p; split; [constructor|reflexivity]|]. cbn [is_empty orb].
  destruct (str_eqb (c :: x) (s2l ".")) eqn:E1; [apply str_eqb_true in E1; rewrite E1; exists p; split; [constructor|reflexivity]|].
  destruct (str_eqb (c :: x) (s2l "..")) eqn:E2.
  - apply str_eqb_true in E2. rewrite E2. destruct p as [|z p] using rev_ind; [exists []; split; [constructor|reflexivity]|].
    exists p. split; [constructor|]. intros l. now rewrite rev_app_distr.
  - exists (p ++ [c :: x]). split; [|intros l; now rewrite rev_app_distr].
    constructor; [discriminate| |]; intros E; [rewrite E in E1|rewrite E in E2]; discriminate.
Qed.
Lemma component_unique p x q q' : component p x q -> component p x q' -> q = q'.
Proof.
  intros H H'. destruct H; inversion H'; subst; try reflexivity; try congruence; try (exfalso; congruence).
  - match goal with E : _ ++ [_] = _ ++ [_] |- _ => now apply app_inj_tail in E end.
  - match goal with E : [] = _ ++ [_] |- _ => now apply app_cons_not_nil in E | E : _ ++ [_] = [] |- _ => symmetry in E; now apply app_cons_not_nil in E end.
  - match goal with E : [] = _ ++ [_] |- _ => now apply app_cons_not_nil in E | E : _ ++ [_] = [] |- _ => symmetry in E; now apply app_cons_not_nil in E end.
Qed.
Lemma arrives_normalize k : forall s p q, List.length s <= k -> (arrives p s q <-> normalize (rev p) (split_on (chr "/") s) = q).
Proof.
  induction k as [k IH] using lt_wf_ind. intros s p q Hk. split.
  - intros A. destruct A as [p x q N C|p x q r z N C A].
    + rewrite split_plain by exact N. destruct (component_step p x) as (q' & C' & L). rewrite L. cbn. rewrite rev_involutive. exact (component_unique _ _ _ _ C' C).
    + rewrite split_more by exact N. destruct (component_step p x) as (q' & C' & L). rewrite L. rewrite (component_unique _ _ _ _ C' C).
      rewrite app_length in Hk. cbn in Hk. apply (IH (List.length r)); [lia|lia|exact A].
  - intros <-. destruct (first_slash s) as [N|(x & r & -> & N)].
    + rewrite split_plain by exact N. destruct (component_step p s) as (q' & C' & L). rewrite L. cbn. rewrite rev_involutive. now apply ar_last.
    + rewrite split_more by exact N. destruct (component_step p x) as (q' & C' & L). rewrite L. rewrite app_length in Hk. cbn in Hk.
      apply (ar_more _ _ q'); [exact N|exact C'|]. apply (IH (List.length r)); [lia|lia|reflexivity].
Qed.
Theorem path_meaning cwd a d : resolve cwd a = Some d <-> exists p, starts_at cwd a p /\ arrives p a d.
Proof.
  unfold resolve. destruct a as [|c r].
  - split; [discriminate|]. intros (p & [[[r E] _]|[(c & r & E & _) _]] & _); discriminate E.
  - split.
    + intros H. assert (I : forall x y : path, Some x = Some y -> x = y) by congruence. apply I in H. rewrite <- H. clear H I.
      set (cs := split_on (chr "/") (c :: r)). destruct (ceq c (chr "/")) eqn:E.
      * apply N.eqb_eq in E. subst c. exists []. split; [left; eauto|]. apply (proj2 (arrives_normalize _ _ _ _ (le_n _))). reflexivity.
      * exists cwd. split; [right; split; [do 2 eexists; split; [reflexivity|now apply N.eqb_neq]|reflexivity]|]. apply (proj2 (arrives_normalize _ _ _ _ (le_n _))). reflexivity.
    + intros (p & S & A). f_equal. apply (arrives_normalize _ _ _ _ (le_n _)) in A. rewrite <- A. destruct S as [[[r' E] ->]|[(c' & r' & E & N) ->]].
      * injection E as -> ->. reflexivity.
      * injection E as -> ->. apply N.eqb_neq in N. unfold ceq. now rewrite N.
Qed.
