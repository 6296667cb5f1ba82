From Verif Require Import Base Lib Config ConfigSpec.

(** ** The table of names *)
Definition optname_eqb (a b : optname) : bool :=
  match a, b with
  | OB x, OB y => bopt_beq x y
  | ON x, ON y => nopt_beq x y
  | OS x, OS y => sopt_beq x y
  | OLineRange, OLineRange => true
  | _, _ => false
  end.
Lemma optname_eqb_refl o : optname_eqb o o = true.
Proof. destruct o as [k|k|k|]; try destruct k; reflexivity. Qed.
Lemma optname_eqb_true a b : optname_eqb a b = true -> a = b.
Proof.
  destruct a, b; cbn; try discriminate; intros E; f_equal;
    auto using internal_bopt_dec_bl, internal_nopt_dec_bl, internal_sopt_dec_bl.
Qed.
Lemma incl_by {A} (eqb : A -> A -> bool) (l m : list A) :
  (forall x y, eqb x y = true -> x = y) -> forallb (fun x => existsb (eqb x) m) l = true -> incl l m.
Proof.
  intros E H x Hx. rewrite forallb_forall in H. specialize (H x Hx). apply existsb_exists in H.
  destruct H as (y & Hy & E'). apply E in E'. now subst.
Qed.
Definition row_eqb (a b : string * optname) : bool := String.eqb (fst a) (fst b) && optname_eqb (snd a) (snd b).
Lemma row_eqb_true a b : row_eqb a b = true -> a = b.
Proof.
  destruct a, b. unfold row_eqb. cbn. rewrite andb_true_iff. intros [E1 E2].
  apply String.eqb_eq in E1. apply optname_eqb_true in E2. congruence.
Qed.
Lemma options_same x : In x documented_options <-> In x option_names.
Proof.
  split; apply (incl_by row_eqb); auto using row_eqb_true; vm_compute; reflexivity.
Qed.
Lemma names_nodup : NoDup (map fst option_names).
Proof. apply (nodupb_sound String.eqb); [apply String.eqb_refl|vm_compute; reflexivity]. Qed.
Lemma optnames_nodup : NoDup (map snd option_names).
Proof. apply (nodupb_sound optname_eqb); [apply optname_eqb_refl|vm_compute; reflexivity]. Qed.

Lemma find_option_sound n l o : find_option n l = Some o -> exists s, n = s2l s /\ In (s, o) l.
Proof.
  induction l as [|[s o'] l IH]; cbn; [discriminate|].
  destruct (str_eqb n (s2l s)) eqn:E.
  - intros [= ->]. apply str_eqb_true in E. eauto.
  - intros H. destruct (IH H) as (s' & ? & ?). eauto.
Qed.
Lemma find_option_complete n l s o : NoDup (map fst l) -> n = s2l s -> In (s, o) l -> find_option n l = Some o.
Proof.
  induction l as [|[s' o'] l IH]; cbn; [tauto|].
  intros ND -> Hin. inversion ND as [|? ? Hn ND']; subst.
  destruct Hin as [[= -> ->]|Hin].
  - rewrite str_eqb_refl. reflexivity.
  - destruct (str_eqb (s2l s) (s2l s')) eqn:E.
    + apply str_eqb_true, s2l_inj in E. subst. exfalso. apply Hn. apply (in_map fst) in Hin. exact Hin.
    + auto.
Qed.
Lemma find_names n o : find_option n option_names = Some o <-> names n o.
Proof.
  split.
  - intros H. apply find_option_sound in H. destruct H as (s & E & Hin). exists s. rewrite options_same. auto.
  - intros (s & -> & H). rewrite options_same in H. eapply find_option_complete; eauto using names_nodup.
Qed.
Lemma find_none n : find_option n option_names = None <-> forall o, ~ names n o.
Proof.
  split.
  - intros H o Hn. apply find_names in Hn. congruence.
  - intros H. destruct (find_option n option_names) eqn:E; [|reflexivity].
    exfalso. apply (H o). apply find_names. exact E.
Qed.
Lemma names_fun n o o' : names n o -> names n o' -> o = o'.
Proof. rewrite <- !find_names. congruence. Qed.

Lemma in_bopts k : In k all_bopts. Proof. destruct k; cbn; tauto. Qed.
Lemma in_nopts k : In k all_nopts. Proof. destruct k; cbn; tauto. Qed.
Lemma in_sopts k : In k all_sopts. Proof. destruct k; cbn; tauto. Qed.

(** every option has a name *)
Definition named (o : optname) : bool := existsb (optname_eqb o) (map snd option_names).
Lemma option_named o : exists n, names n o.
Proof.
  assert (H : named o = true).
  { destruct o as [k|k|k|]; [destruct k| destruct k| destruct k|]; vm_compute; reflexivity. }
  apply existsb_exists in H. destruct H as (o' & Hin & E). apply optname_eqb_true in E. subst o'.
  apply in_map_iff in Hin. destruct Hin as ([s o'] & E & Hin). cbn in E. subst o'.
  exists (s2l s), s. rewrite options_same. auto.
Qed.
Lemma option_named_once n n' o : names n o -> names n' o -> n = n'.
Proof.
  intros (s & -> & H) (s' & -> & H'). rewrite options_same in H, H'.
  assert (forall l : list (string * optname), NoDup (map snd l) -> In (s, o) l -> In (s', o) l -> s = s') as G.
  { induction l as [|[a b] l IH]; cbn; [tauto|]. intros ND H1 H2. inversion ND as [|? ? Hn ND']; subst.
    destruct H1 as [[= -> ->]|H1], H2 as [H2|H2]; try congruence; auto.
    - exfalso. apply Hn. apply (in_map snd) in H2. exact H2.
    - injection H2 as -> ->. exfalso. apply Hn. apply (in_map snd) in H1. exact H1. }
  f_equal. eapply G; eauto using optnames_nodup.
Qed.

(** ** Values *)
Lemma bool_text_iff v b : parse_bool v = Some b <-> bool_text v b.
Proof.
  unfold parse_bool, bool_text. destruct (str_eqb v (s2l "true")) eqn:E1.
  - apply str_eqb_true in E1. subst. split; [intros [= <-]; reflexivity|].
    destruct b; [reflexivity|]. cbn. discriminate.
  - apply str_eqb_false in E1. destruct (str_eqb v (s2l "false")) eqn:E2.
    + apply str_eqb_true in E2. subst. split; [intros [= <-]; reflexivity|].
      destruct b; [|reflexivity]. cbn. discriminate.
    + apply str_eqb_false in E2. split; [discriminate|]. destruct b; tauto.
Qed.

Lemma decimal_value_ge acc ds : (acc <= decimal_value_from acc ds)%N.
Proof.
  revert acc; induction ds as [|c r IH]; intros; cbn; [lia|]. specialize (IH (10 * acc + (c - 48))%N). lia.
Qed.

Lemma parse_digits_iff ds acc n : (acc <= usize_max)%N ->
  parse_digits acc ds = Some n <->
  Forall (fun c => 48 <= c <= 57)%N ds /\ n = decimal_value_from acc ds /\ (n <= usize_max)%N.
Proof.
  revert acc; induction ds as [|c r IH]; intros acc Hacc; cbn.
  - split; [intros [= <-]|intros (_ & -> & _)]; auto.
  - destruct (is_digit c) eqn:D.
    + apply is_digit_iff in D. destruct (N.leb_spec (acc * 10 + (c - 48)) usize_max) as [L|L].
      * rewrite IH by exact L. replace (acc * 10 + (c - 48))%N with (10 * acc + (c - 48))%N by lia.
        split; intros (A & B & C); repeat split; auto. inversion A; auto.
      * split; [discriminate|]. intros (_ & -> & C). exfalso.
        pose proof (decimal_value_ge (10 * acc + (c - 48)) r). lia.
    + split; [discriminate|]. intros (A & _). inversion A as [|? ? Hc]; subst.
      apply is_digit_iff in Hc. congruence.
Qed.

Lemma usize_lt n : (n <= usize_max)%N <-> (n < 2 ^ 64)%N.
Proof. unfold usize_max. change (2 ^ 64)%N with 18446744073709551616%N. lia. Qed.

Lemma nat_text_iff v n : parse_usize v = Some n <-> nat_text v n.
Proof.
  unfold nat_text. destruct v as [|c r]; cbn -[parse_digits].
  - split; [discriminate|]. intros (ds & [E|E] & [Hn _] & _); [subst; congruence|discriminate].
  - destruct (ceq c (chr "+")) eqn:E.
    + apply ceq_true in E. subst c. destruct r as [|d r].
      * split; [discriminate|]. intros (ds & [<-|E] & [Hn F] & _).
        -- inversion F as [|? ? Hc]; subst. destruct Hc as [Hc _]. vm_compute in Hc. congruence.
        -- injection E as <-. congruence.
      * cbv iota. rewrite parse_digits_iff by (unfold usize_max; lia). split.
        -- intros (A & B & C). exists (d :: r). repeat split; auto. { discriminate. } apply usize_lt; exact C.
        -- intros (ds & [<-|H] & [Hn F] & Hv & Hlt).
           ++ inversion F as [|? ? Hc]; subst. destruct Hc as [Hc _]. vm_compute in Hc. congruence.
           ++ injection H as <-. repeat split; auto. apply usize_lt; exact Hlt.
    + apply ceq_false in E. rewrite parse_digits_iff by (unfold usize_max; lia). split.
      * intros (A & B & C). exists (c :: r). repeat split; auto. { discriminate. } apply usize_lt; exact C.
      * intros (ds & [<-|H] & [Hn F] & Hv & Hlt).
        -- repeat split; auto. apply usize_lt; exact Hlt.
        -- cbn in H. injection H as -> _. elim E. reflexivity.
Qed.

Lemma take_digits_spec s a b : take_digits s = (a, b) ->
  s = a ++ b /\ Forall (fun c => 48 <= c <= 57)%N a /\ match b with c :: _ => is_digit c = false | [] => True end.
Proof.
  revert a b; induction s as [|c r IH]; cbn; intros a b.
  - intros [= <- <-]. auto.
  - destruct (is_digit c) eqn:D.
    + destruct (take_digits r) as [a' b'] eqn:T. intros [= <- <-].
      destruct (IH _ _ eq_refl) as (E & F & G). subst r. apply is_digit_iff in D. auto.
    + intros [= <- <-]. auto.
Qed.
Lemma take_digits_app ds c r :
  Forall (fun c => 48 <= c <= 57)%N ds -> is_digit c = false -> take_digits (ds ++ c :: r) = (ds, c :: r).
Proof.
  induction 1 as [|d ds Hd F IH]; cbn; intros D; [now rewrite D|].
  apply is_digit_iff in Hd. rewrite Hd, IH by exact D. reflexivity.
Qed.
Lemma take_digits_all ds : Forall (fun c => 48 <= c <= 57)%N ds -> take_digits ds = (ds, []).
Proof.
  induction 1 as [|d ds Hd F IH]; cbn; [reflexivity|]. apply is_digit_iff in Hd. now rewrite Hd, IH.
Qed.
Lemma decimal_usize ds n : decimal ds -> (parse_usize ds = Some n <-> n = decimal_value ds /\ (n < 2 ^ 64)%N).
Proof.
  intros [Hn F]. rewrite nat_text_iff. split.
  - intros (ds' & [<-|E] & D & Hv & Hl); auto.
    exfalso. subst ds. cbn in F. inversion F as [|? ? Hc]; subst. destruct Hc as [Hc _]. vm_compute in Hc. congruence.
  - intros [-> H]. exists ds. repeat split; auto.
Qed.

Lemma range_text_iff v r : parse_range v = Some r <-> range_text v r.
Proof.
  unfold range_text, parse_range. split.
  - destruct (take_digits v) as [a r1] eqn:T1. destruct a as [|a0 a]; [discriminate|].
    destruct r1 as [|c r2]; [discriminate|]. destruct (ceq c (chr ":")) eqn:E; [|discriminate].
    destruct (take_digits r2) as [b r3] eqn:T2. destruct b as [|b0 b]; [discriminate|].
    destruct r3; [|discriminate].
    apply take_digits_spec in T1, T2. destruct T1 as (-> & Fa & _), T2 as (E2 & Fb & _).
    rewrite app_nil_r in E2. subst r2. apply ceq_true in E. subst c.
    assert (Da : decimal (a0 :: a)) by (split; [discriminate|exact Fa]).
    assert (Db : decimal (b0 :: b)) by (split; [discriminate|exact Fb]).
    destruct (parse_usize (a0 :: a)) eqn:Pa; [|discriminate].
    destruct (parse_usize (b0 :: b)) eqn:Pb; [|discriminate].
    intros [= <-]. apply (decimal_usize _ _ Da) in Pa. apply (decimal_usize _ _ Db) in Pb.
    destruct Pa as [-> ?], Pb as [-> ?].
    exists (a0 :: a), (b0 :: b). repeat split; auto; discriminate.
  - intros (a & b & -> & [Na Fa] & [Nb Fb] & -> & La & Lb).
    cbn [s2l app]. rewrite take_digits_app by (auto; reflexivity).
    destruct a as [|a0 a]; [congruence|]. rewrite (proj2 (ceq_true _ _) eq_refl).
    rewrite take_digits_all by exact Fb. destruct b as [|b0 b]; [congruence|].
    rewrite (proj2 (decimal_usize _ _ (conj Na Fa)) (conj eq_refl La)).
    rewrite (proj2 (decimal_usize _ _ (conj Nb Fb)) (conj eq_refl Lb)). reflexivity.
Qed.

(** ** [set_option] *)
Lemma bopt_beq_refl k : bopt_beq k k = true. Proof. destruct k; reflexivity. Qed.
Lemma nopt_beq_refl k : nopt_beq k k = true. Proof. destruct k; reflexivity. Qed.
Lemma sopt_beq_refl k : sopt_beq k k = true. Proof. destruct k; reflexivity. Qed.
Lemma bopt_beq_neq j k : j <> k -> bopt_beq j k = false.
Proof. intros H. destruct (bopt_beq j k) eqn:E; [|reflexivity]. apply internal_bopt_dec_bl in E. congruence. Qed.
Lemma nopt_beq_neq j k : j <> k -> nopt_beq j k = false.
Proof. intros H. destruct (nopt_beq j k) eqn:E; [|reflexivity]. apply internal_nopt_dec_bl in E. congruence. Qed.
Lemma sopt_beq_neq j k : j <> k -> sopt_beq j k = false.
Proof. intros H. destruct (sopt_beq j k) eqn:E; [|reflexivity]. apply internal_sopt_dec_bl in E. congruence. Qed.

Lemma set_option_unknown n v c : (forall o, ~ names n o) -> set_option n v c = c.
Proof. intros H. apply find_none in H. unfold set_option. now rewrite H. Qed.

Lemma set_option_invalid n v c o : names n o -> invalid_for o v -> set_option n v c = c.
Proof.
  intros Hn Hi. apply find_names in Hn. unfold set_option. rewrite Hn.
  destruct o as [k|k|k|]; cbn in Hi.
  - destruct (parse_bool v) eqn:E; [|reflexivity]. apply bool_text_iff in E. elim (Hi _ E).
  - destruct (parse_usize v) eqn:E; [|reflexivity]. apply nat_text_iff in E. elim (Hi _ E).
  - tauto.
  - destruct (parse_range v) eqn:E; [|reflexivity]. apply range_text_iff in E. elim (Hi _ E).
Qed.

Lemma set_option_valid n v c o : names n o -> ~ invalid_for o v -> updates o v c (set_option n v c).
Proof.
  intros Hn Hi. apply find_names in Hn. unfold set_option. rewrite Hn.
  destruct o as [k|k|k|]; cbn in *.
  - destruct (parse_bool v) as [b|] eqn:E.
    + apply bool_text_iff in E. cbn. rewrite bopt_beq_refl. repeat split; eauto.
      intros j Hj. now rewrite bopt_beq_neq.
    + elim Hi. intros b H. apply bool_text_iff in H. congruence.
  - destruct (parse_usize v) as [b|] eqn:E.
    + apply nat_text_iff in E. cbn. rewrite nopt_beq_refl. repeat split; eauto.
      intros j Hj. now rewrite nopt_beq_neq.
    + elim Hi. intros b H. apply nat_text_iff in H. congruence.
  - rewrite sopt_beq_refl. repeat split; eauto. intros j Hj. now rewrite sopt_beq_neq.
  - destruct (parse_range v) as [b|] eqn:E.
    + apply range_text_iff in E. cbn. repeat split; eauto.
    + elim Hi. intros b H. apply range_text_iff in H. congruence.
Qed.

Lemma invalid_dec o v : {invalid_for o v} + {~ invalid_for o v}.
Proof.
  destruct o as [k|k|k|]; cbn.
  - destruct (parse_bool v) as [b|] eqn:E.
    + right. apply bool_text_iff in E. intros Hall. exact (Hall _ E).
    + left. intros b H. apply bool_text_iff in H. congruence.
  - destruct (parse_usize v) as [b|] eqn:E.
    + right. apply nat_text_iff in E. intros Hall. exact (Hall _ E).
    + left. intros b H. apply nat_text_iff in H. congruence.
  - tauto.
  - destruct (parse_range v) as [b|] eqn:E.
    + right. apply range_text_iff in E. intros Hall. exact (Hall _ E).
    + left. intros b H. apply range_text_iff in H. congruence.
Qed.

Lemma names_dec n : {o | names n o} + {forall o, ~ names n o}.
Proof.
  destruct (find_option n option_names) as [o|] eqn:E.
  - left. exists o. now apply find_names.
  - right. now apply find_none.
Qed.

Lemma optname_dec (a b : optname) : {a = b} + {a <> b}.
Proof. decide equality; [apply bopt_eq_dec|apply nopt_eq_dec|apply sopt_eq_dec]. Qed.

Lemma same_at_refl o c : same_at o c c.
Proof. destruct o; reflexivity. Qed.
Lemma same_at_trans o a b c : same_at o a b -> same_at o b c -> same_at o a c.
Proof. destruct o; cbn; congruence. Qed.
Lemma same_at_sym o a b : same_at o a b -> same_at o b a.
Proof. destruct o; cbn; congruence. Qed.

(** a setting of another option, or an ineffective one, does not change option [o] *)
Lemma set_option_other n v c o : ~ (names n o /\ ~ invalid_for o v) -> same_at o (set_option n v c) c.
Proof.
  intros H. destruct (names_dec n) as [[o' Hn]|Hn].
  - destruct (invalid_dec o' v) as [Hi|Hi].
    + rewrite (set_option_invalid _ _ _ _ Hn Hi). apply same_at_refl.
    + assert (o' <> o) as Hd by (intros ->; tauto).
      pose proof (set_option_valid _ _ c _ Hn Hi) as U.
      destruct o', o; cbn in U |- *; repeat match goal with X : _ /\ _ |- _ => destruct X end; try congruence;
        first [solve [auto] | match goal with X : forall j, j <> _ -> _ |- _ => apply X; congruence end].
  - rewrite set_option_unknown by exact Hn. apply same_at_refl.
Qed.
Lemma set_option_this n v c o : names n o -> ~ invalid_for o v -> has_value o v (set_option n v c).
Proof.
  intros Hn Hi. pose proof (set_option_valid _ _ c _ Hn Hi) as U. destruct o; cbn in *; tauto.
Qed.

Lemma same_config_at a b : same_config a b <-> forall o, same_at o a b.
Proof.
  split.
  - intros (A & B & C & D) [k|k|k|]; cbn; auto.
  - intros H. repeat split.
    + exact (H OLineRange).
    + intros k; exact (H (OB k)).
    + intros k; exact (H (ON k)).
    + intros k; exact (H (OS k)).
Qed.

Lemma has_value_same o v a b : same_at o a b -> has_value o v b -> has_value o v a.
Proof. destruct o; cbn; intros ->; auto. Qed.

Lemma text_fun o v a b : has_value o v a -> has_value o v b -> same_at o a b.
Proof.
  destruct o; cbn; [intros (x & X & ->) (y & Y & ->)|intros (x & X & ->) (y & Y & ->)|congruence|
                    intros (x & X & ->) (y & Y & ->)]; f_equal.
  - apply bool_text_iff in X, Y. congruence.
  - apply nat_text_iff in X, Y. congruence.
  - apply range_text_iff in X, Y. congruence.
Qed.

Lemma set_option_commute n1 v1 n2 v2 c : n1 <> n2 ->
  same_config (set_option n1 v1 (set_option n2 v2 c)) (set_option n2 v2 (set_option n1 v1 c)).
Proof.
  intros Hd. apply same_config_at. intros o.
  destruct (names_dec n1) as [[o1 H1]|H1].
  2:{ rewrite !(set_option_unknown n1) by exact H1. apply same_at_refl. }
  destruct (invalid_dec o1 v1) as [I1|I1].
  { rewrite !(set_option_invalid _ _ _ _ H1 I1). apply same_at_refl. }
  destruct (optname_dec o o1) as [->|Ho].
  - assert (forall d, same_at o1 (set_option n2 v2 d) d) as K.
    { intros d. apply set_option_other. intros [Hn _]. apply Hd. eapply option_named_once; eauto. }
    eapply text_fun; [apply set_option_this; eauto|].
    eapply has_value_same; [apply K|]. apply set_option_this; auto.
  - assert (forall d, same_at o (set_option n1 v1 d) d) as K.
    { intros d. apply set_option_other. intros [Hn _]. apply Ho. eapply names_fun; eauto. }
    eapply same_at_trans; [apply K|].
    destruct (names_dec n2) as [[o2 H2]|H2].
    + destruct (invalid_dec o2 v2) as [I2|I2].
      * rewrite !(set_option_invalid _ _ _ _ H2 I2). apply same_at_sym, K.
      * destruct (optname_dec o o2) as [->|Ho2].
        -- eapply text_fun; apply set_option_this; auto.
        -- assert (forall d, same_at o (set_option n2 v2 d) d) as K2.
           { intros d. apply set_option_other. intros [Hn _]. apply Ho2. eapply names_fun; eauto. }
           eapply same_at_trans; [apply K2|]. eapply same_at_trans; [apply same_at_sym, K|].
           apply same_at_sym, K2.
    + rewrite !(set_option_unknown n2) by exact H2. apply same_at_sym, K.
Qed.

Lemma apply_none o l c : no_valid o l -> same_at o (apply_settings l c) c.
Proof.
  intros H. revert c. induction H as [|n v l Hn Hl IH]; intros c; cbn; [apply same_at_refl|].
  eapply same_at_trans; [apply IH|]. now apply set_option_other.
Qed.
Lemma apply_last o l v c : last_valid o l v -> has_value o v (apply_settings l c).
Proof.
  intros H. revert c. induction H as [n v l Hn Hi Hl|n v l w Hl IH]; intros c; cbn.
  - eapply has_value_same; [apply apply_none; exact Hl|]. now apply set_option_this.
  - apply IH.
Qed.
Lemma last_or_none o l : (exists v, last_valid o l v) \/ no_valid o l.
Proof.
  induction l as [|[n v] l [[w IH]|IH]].
  - right; constructor.
  - left. exists w. now constructor.
  - destruct (names_dec n) as [[o' Hn]|Hn].
    + destruct (optname_dec o' o) as [->|Hd].
      * destruct (invalid_dec o v) as [Hi|Hi].
        -- right. constructor; auto. tauto.
        -- left. exists v. now constructor.
      * right. constructor; auto. intros [H _]. apply Hd. eapply names_fun; eauto.
    + right. constructor; auto. intros [H _]. exact (Hn _ H).
Qed.

(** ** Statements in the form of the properties *)
Lemma c21_unchanged n v c :
  (forall o, names n o -> invalid_for o v) -> same_config (set_option n v c) c.
Proof.
  intros H. destruct (names_dec n) as [[o Hn]|Hn].
  - rewrite (set_option_invalid _ _ _ _ Hn (H _ Hn)). apply same_config_at. intros o'. apply same_at_refl.
  - rewrite set_option_unknown by exact Hn. apply same_config_at. intros o. apply same_at_refl.
Qed.
Lemma c21_changed n v c o : names n o -> ~ invalid_for o v ->
  has_value o v (set_option n v c) /\ forall o', o' <> o -> same_at o' (set_option n v c) c.
Proof.
  intros Hn Hi. split; [now apply set_option_this|].
  intros o' Hd. apply set_option_other. intros [Hn' _]. apply Hd. eapply names_fun; eauto.
Qed.
Lemma c22_last l c o :
  (forall v, last_valid o l v -> has_value o v (apply_settings l c))
  /\ (no_valid o l -> same_at o (apply_settings l c) c)
  /\ ((exists v, last_valid o l v) \/ no_valid o l).
Proof. split; [intros v; apply apply_last|split; [apply apply_none|apply last_or_none]]. Qed.
