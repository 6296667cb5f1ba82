From Verif Require Import Base Lib Config State LexUtil LuaLexer UtilSpec.

(** ** line ranges *)
Definition ends (s : str) : list nat := newline_positions 0 s ++ [List.length s].
Lemma newline_positions_shift i s : newline_positions (S i) s = map S (newline_positions i s).
Proof. revert i; induction s as [|c s IH]; intros i; cbn; [reflexivity|]. destruct (ceq c ch_nl); cbn; now rewrite IH. Qed.
Lemma ends_cons c s : ends (c :: s) = if ceq c ch_nl then 0 :: map S (ends s) else map S (ends s).
Proof.
  unfold ends. cbn. rewrite newline_positions_shift. destruct (ceq c ch_nl); cbn; now rewrite map_app.
Qed.
Lemma newlines_cons c s : newlines (c :: s) = (if ceq c ch_nl then 1 else 0) + newlines s.
Proof.
  unfold newlines, ceq, ch_nl. cbn. destruct (N.eq_dec c 10) as [->|H]; [reflexivity|].
  apply N.eqb_neq in H. now rewrite H.
Qed.
Lemma ends_length s : List.length (ends s) = lines s.
Proof.
  induction s as [|c s IH]; [reflexivity|]. unfold lines in *. rewrite ends_cons, newlines_cons.
  destruct (ceq c ch_nl); cbn; rewrite map_length, IH; reflexivity.
Qed.
Lemma ends_spec s k : k < lines s -> line_end s (S k) (nth k (ends s) 0).
Proof.
  revert k; induction s as [|c s IH]; intros k Hk.
  - unfold lines in Hk. cbn in Hk. assert (k = 0) as -> by lia. cbn. repeat split; auto.
  - unfold lines in *. rewrite ends_cons. rewrite newlines_cons in Hk. revert Hk. destruct (ceq c ch_nl) eqn:E; intros Hk.
    + apply ceq_true in E. subst c. destruct k as [|k].
      * cbn. split; [lia|split; [reflexivity|right; reflexivity]].
      * cbn [nth]. rewrite (nth_indep _ 0 (S 0)) by (rewrite map_length, ends_length; unfold lines; lia).
        rewrite map_nth. destruct (IH k ltac:(lia)) as (A & B & C). repeat split.
        -- cbn. lia.
        -- cbn [firstn]. rewrite newlines_cons. change (ceq ch_nl ch_nl) with true. cbn [Nat.add]. lia.
        -- cbn. destruct C as [->|C]; auto.
    + rewrite (nth_indep _ 0 (S 0)) by (rewrite map_length, ends_length; unfold lines; lia).
      rewrite map_nth. destruct (IH k ltac:(lia)) as (A & B & C). repeat split.
      * cbn. lia.
      * cbn [firstn]. rewrite newlines_cons, E. exact B.
      * cbn. destruct C as [->|C]; auto.
Qed.
Lemma newlines_firstn_mono a b s : a <= b -> newlines (firstn a s) <= newlines (firstn b s).
Proof.
  revert a b; induction s as [|c s IH]; intros [|a] [|b]; cbn [firstn]; try (cbn; lia).
  intros H. rewrite !newlines_cons. specialize (IH a b). lia.
Qed.
Lemma line_end_mono s k k' e e' : line_end s k e -> line_end s k' e' -> k <= k' -> e <= e'.
Proof.
  intros (A & B & C) (A' & B' & C') H. destruct (Nat.le_gt_cases e e') as [L|L]; [exact L|].
  exfalso. assert (newlines (firstn e' s) < newlines (firstn e s)); [|lia].
  destruct C' as [->|C']; [lia|]. clear - L C' A.
  revert e e' L C' A; induction s as [|c s IH]; intros [|e] [|e'] L C' A; cbn [firstn nth_error List.length] in *;
    try lia; try discriminate.
  - injection C' as ->. rewrite newlines_cons. change (ceq 10%N ch_nl) with true. cbn [Nat.add]. unfold newlines at 1.
    cbn. lia.
  - rewrite !newlines_cons. specialize (IH e e').
    assert (newlines (firstn e' s) < newlines (firstn e s)) by (apply IH; auto; lia). lia.
Qed.
Lemma last_ends s : nth (List.length (ends s) - 1) (ends s) 0 = List.length s.
Proof. unfold ends. rewrite app_length. cbn. rewrite Nat.add_sub. rewrite app_nth2, Nat.sub_diag by lia. reflexivity. Qed.

Lemma nth_pred_cons {A} k (x : A) l d : 0 < k -> nth k (x :: l) d = nth (k - 1) l d.
Proof. intros H. destruct k; [lia|]. cbn. now rewrite Nat.sub_0_r. Qed.

Lemma line_range_spec s l r : exists a b,
  line_range_to_pos_range s (Some (l, r)) = Some (a, b)
  /\ a <= b <= List.length s
  /\ ((1 < l <= r /\ l <= N.of_nat (lines s))%N -> line_end s (N.to_nat l - 1) a)
  /\ (~ (1 < l <= r /\ l <= N.of_nat (lines s))%N -> a = 0)
  /\ ((1 <= r /\ l <= r /\ r <= N.of_nat (lines s))%N -> line_end s (N.to_nat r) b)
  /\ (~ (1 <= r /\ l <= r /\ r <= N.of_nat (lines s))%N -> b = List.length s).
Proof.
  unfold line_range_to_pos_range. cbv zeta. fold (ends s).
  change (List.length (0 :: ends s)) with (S (List.length (ends s))). rewrite ends_length.
  cbv zeta. match goal with |- context [Some (nth (?x - 1) _ _, nth ?y _ _)] => set (L := x); set (R := y) end.
  exists (nth (L - 1) (0 :: ends s) 0), (nth R (0 :: ends s) 0). split; [reflexivity|].
  assert ((1 < l <= r /\ l <= N.of_nat (lines s))%N -> line_end s (N.to_nat l - 1) (nth (L - 1) (0 :: ends s) 0)) as HL.
  { intros [[A B] C]. unfold L.
    rewrite (proj2 (N.ltb_lt 0 l)), (proj2 (N.leb_le l r)), (proj2 (N.ltb_lt l _)) by lia. cbn [andb].
    rewrite nth_pred_cons by lia.
    replace (N.to_nat l - 1) with (S (N.to_nat l - 1 - 1)) at 1 by lia. apply ends_spec. lia. }
  assert (~ (1 < l <= r /\ l <= N.of_nat (lines s))%N -> nth (L - 1) (0 :: ends s) 0 = 0) as HL'.
  { intros H. unfold L. match goal with |- context [if ?b then _ else _] => destruct b eqn:E end; [|reflexivity].
    rewrite !andb_true_iff, !N.ltb_lt, N.leb_le in E. assert (l = 1%N) as -> by lia. reflexivity. }
  assert ((1 <= r /\ l <= r /\ r <= N.of_nat (lines s))%N -> line_end s (N.to_nat r) (nth R (0 :: ends s) 0)) as HR.
  { intros (A & B & C). unfold R.
    rewrite (proj2 (N.ltb_lt 0 r)), (proj2 (N.leb_le l r)), (proj2 (N.ltb_lt r _)) by lia. cbn [andb].
    rewrite nth_pred_cons by lia.
    replace (N.to_nat r) with (S (N.to_nat r - 1)) at 1 by lia. apply ends_spec. lia. }
  assert (~ (1 <= r /\ l <= r /\ r <= N.of_nat (lines s))%N -> nth R (0 :: ends s) 0 = List.length s) as HR'.
  { intros H. unfold R. match goal with |- context [if ?b then _ else _] => destruct b eqn:E end.
    - rewrite !andb_true_iff, !N.ltb_lt, N.leb_le in E. exfalso. apply H. lia.
    - rewrite nth_pred_cons by (unfold lines; lia). cbn [Nat.sub]. rewrite Nat.sub_0_r, <- ends_length. apply last_ends. }
  split; [|auto].
  assert (forall k, nth k (ends s) 0 <= List.length s) as Hb.
  { intros k. destruct (Nat.lt_ge_cases k (lines s)) as [H|H].
    - apply ends_spec in H. apply H.
    - rewrite nth_overflow; [lia|]. rewrite ends_length. exact H. }
  assert (nth R (0 :: ends s) 0 <= List.length s) as B1 by (destruct R; cbn [nth]; [lia|apply Hb]).
  split; [|exact B1].
  destruct (N.le_gt_cases l 1) as [H1|H1]; [rewrite HL' by lia; lia|].
  destruct (N.le_gt_cases l r) as [H2|H2]; [|rewrite HL' by lia; lia].
  destruct (N.le_gt_cases l (N.of_nat (lines s))) as [H3|H3]; [|rewrite HL' by lia; lia].
  destruct (N.le_gt_cases r (N.of_nat (lines s))) as [H4|H4].
  - eapply line_end_mono; [apply HL; lia|apply HR; lia|lia].
  - rewrite HR' by lia. apply HL. lia.
Qed.

(** ** byte positions *)
Lemma len_utf8_pos c : 1 <= len_utf8 c.
Proof. unfold len_utf8. repeat destruct (N.ltb _ _); lia. Qed.
Lemma blen_app a b : blen (a ++ b) = blen a + blen b.
Proof. induction a as [|c a IH]; cbn; [reflexivity|]. lia. Qed.
Lemma bskip_app a b : bskip (blen a) (a ++ b) = Some b.
Proof.
  induction a as [|c a IH]; cbn [blen app]; [destruct b; reflexivity|].
  pose proof (len_utf8_pos c) as P. cbn [bskip]. destruct (len_utf8 c + blen a) eqn:E; [lia|]. rewrite <- E.
  assert (len_utf8 c <=? len_utf8 c + blen a = true) as -> by (apply Nat.leb_le; lia).
  replace (len_utf8 c + blen a - len_utf8 c) with (blen a) by lia. exact IH.
Qed.
Lemma btake_app a b : btake (blen a) (a ++ b) = Some a.
Proof.
  induction a as [|c a IH]; cbn [blen app]; [destruct b; reflexivity|].
  pose proof (len_utf8_pos c) as P. cbn [btake]. destruct (len_utf8 c + blen a) eqn:E; [lia|]. rewrite <- E.
  assert (len_utf8 c <=? len_utf8 c + blen a = true) as -> by (apply Nat.leb_le; lia).
  replace (len_utf8 c + blen a - len_utf8 c) with (blen a) by lia. now rewrite IH.
Qed.
Lemma bslice_app x y z : bslice (x ++ y ++ z) (blen x) (blen x + blen y) = Some y.
Proof.
  unfold bslice. assert (blen x + blen y <? blen x = false) as -> by (apply Nat.ltb_ge; lia).
  rewrite bskip_app. replace (blen x + blen y - blen x) with (blen y) by lia. apply btake_app.
Qed.
Lemma slice_parts s a b : a <= b <= List.length s -> s = firstn a s ++ slice s a b ++ skipn b s.
Proof.
  intros H. unfold slice. rewrite <- (firstn_skipn a s) at 1. f_equal.
  rewrite <- (firstn_skipn (b - a) (skipn a s)) at 1. f_equal.
  rewrite skipn_skipn. f_equal. lia.
Qed.
Lemma slice_all s : slice s 0 (List.length s) = s.
Proof. unfold slice. rewrite Nat.sub_0_r, skipn_O. apply firstn_all. Qed.
Lemma byte_offsets_nth s : forall b i, i < List.length s -> nth_error (byte_offsets b s) i = Some (Some (b + blen (firstn i s))).
Proof.
  induction s as [|c s IH]; intros b i H; cbn in H; [lia|]. destruct i as [|i]; cbn.
  - now rewrite Nat.add_0_r.
  - rewrite IH by lia. do 2 f_equal. lia.
Qed.
Lemma byte_offsets_length s b : List.length (byte_offsets b s) = List.length s.
Proof. revert b; induction s as [|c s IH]; intros b; cbn; [reflexivity|]. now rewrite IH. Qed.
Lemma c2b_get s i : s <> [] -> i <= List.length s -> get_c2b (update_indexes s) i = Some (blen (firstn i s)).
Proof.
  intros Hn H. unfold get_c2b, update_indexes. destruct s as [|c s']; [congruence|]. set (s := c :: s') in *. clearbody s.
  destruct (Nat.eq_dec i (List.length s)) as [->|Hd].
  - rewrite nth_error_app2, byte_offsets_length, Nat.sub_diag by (rewrite byte_offsets_length; lia).
    cbn. now rewrite firstn_all.
  - rewrite nth_error_app1, byte_offsets_nth by (rewrite ?byte_offsets_length; lia). reflexivity.
Qed.
Lemma c2b_beyond s i : List.length s < i -> s <> [] -> get_c2b (update_indexes s) i = None.
Proof.
  intros H Hn. unfold get_c2b, update_indexes. destruct s as [|c s']; [congruence|]. set (s := c :: s') in *. clearbody s.
  rewrite (proj2 (nth_error_None _ _)); [reflexivity|]. rewrite app_length, byte_offsets_length. cbn. lia.
Qed.
Lemma blen_firstn_mono s i j : i <= j -> blen (firstn i s) <= blen (firstn j s).
Proof.
  revert i j; induction s as [|c s IH]; intros [|i] [|j] H; cbn; try lia. specialize (IH i j). lia.
Qed.
Lemma blen_firstn_lt s i j : i < j <= List.length s -> blen (firstn i s) < blen (firstn j s).
Proof.
  revert i j; induction s as [|c s IH]; intros [|i] [|j] H; cbn in *; try lia.
  - pose proof (len_utf8_pos c). lia.
  - specialize (IH i j). lia.
Qed.

Lemma firstn_slice s a b : a <= b <= List.length s -> firstn b s = firstn a s ++ slice s a b.
Proof.
  intros H. unfold slice. transitivity (firstn (a + (b - a)) s); [f_equal; lia|].
  revert a b H; induction s as [|c s IH]; intros a b H; cbn in *.
  - now rewrite !firstn_nil, skipn_nil, firstn_nil.
  - destruct a as [|a]; [reflexivity|]. cbn. f_equal. destruct b as [|b]; [lia|]. apply (IH a b). lia.
Qed.
Lemma slice_slice s o n a b : o + n <= List.length s -> a <= b <= n -> slice (slice s o (o + n)) a b = slice s (o + a) (o + b).
Proof.
  intros H Hab. unfold slice. replace (o + n - o) with n by lia. replace (o + b - (o + a)) with (b - a) by lia.
  rewrite skipn_firstn_comm, skipn_skipn, firstn_firstn. replace (a + o) with (o + a) by lia.
  f_equal. lia.
Qed.
Lemma slice_length s a b : a <= b <= List.length s -> List.length (slice s a b) = b - a.
Proof. intros H. unfold slice. rewrite firstn_length, skipn_length. lia. Qed.

Lemma substr_block buf o n a b st :
  c2b st = update_indexes buf -> o + n <= List.length buf -> a <= b <= n ->
  substr (a, b) (slice buf o (o + n)) st o = Some (slice (slice buf o (o + n)) a b).
Proof.
  intros E H Hab. destruct (list_eq_dec N.eq_dec buf []) as [->|Hn].
  - cbn in H. unfold substr. rewrite E. assert (o = 0) as -> by lia. assert (n = 0) as -> by lia.
    assert (a = 0) as -> by lia. assert (b = 0) as -> by lia. reflexivity.
  - unfold substr. rewrite E. cbn [fst snd]. rewrite !c2b_get by (auto; lia).
    pose proof (blen_firstn_mono buf o (a + o)). pose proof (blen_firstn_mono buf o (b + o)).
    rewrite (proj2 (Nat.leb_le _ _)), (proj2 (Nat.leb_le _ _)) by lia. cbn [andb].
    rewrite (firstn_slice buf o (a + o)), (firstn_slice buf o (b + o)), !blen_app by lia.
    replace (a + o) with (o + a) by lia. replace (b + o) with (o + b) by lia.
    replace (slice buf o (o + a)) with (slice (slice buf o (o + n)) 0 a) by (rewrite slice_slice by lia; f_equal; lia).
    replace (slice buf o (o + b)) with (slice (slice buf o (o + n)) 0 b) by (rewrite slice_slice by lia; f_equal; lia).
    assert (List.length (slice buf o (o + n)) = n) as Hl by (rewrite slice_length; lia).
    set (t := slice buf o (o + n)) in *. clearbody t.
    assert (forall i, i <= n -> slice t 0 i = firstn i t) as F.
    { intros i Hi. rewrite (firstn_slice t 0 i) by lia. reflexivity. }
    rewrite !F by lia. rewrite (firstn_slice t a b), blen_app by lia.
    replace (blen (firstn o buf) + blen (firstn a t) - blen (firstn o buf)) with (blen (firstn a t)) by lia.
    replace (blen (firstn o buf) + (blen (firstn a t) + blen (slice t a b)) - blen (firstn o buf))
      with (blen (firstn a t) + blen (slice t a b)) by lia.
    rewrite (slice_parts t a b) at 1 by lia. apply bslice_app.
Qed.
Lemma substr_code buf a b st :
  c2b st = update_indexes buf ->
  (a <= b <= List.length buf -> substr (a, b) buf st 0 = Some (slice buf a b))
  /\ (List.length buf < a \/ List.length buf < b -> substr (a, b) buf st 0 = Some [])
  /\ (substr (a, b) buf st 0 = None <-> b < a <= List.length buf).
Proof.
  intros E.
  assert (a <= b <= List.length buf -> substr (a, b) buf st 0 = Some (slice buf a b)) as A.
  { intros H. pose proof (substr_block buf 0 (List.length buf) a b st E) as S. cbn [Nat.add] in S.
    rewrite slice_all in S. apply S; lia. }
  assert (List.length buf < a \/ List.length buf < b -> substr (a, b) buf st 0 = Some []) as B.
  { intros H. unfold substr. rewrite E. cbn [fst snd]. rewrite !Nat.add_0_r.
    destruct (list_eq_dec N.eq_dec buf []) as [->|Hn].
    - change (get_c2b (update_indexes []) 0) with (@None nat).
      repeat match goal with |- context [match ?x with Some _ => _ | None => _ end] => destruct x end; reflexivity.
    - destruct H as [H|H]; rewrite (c2b_beyond _ _ H Hn); [reflexivity|]. destruct (get_c2b (update_indexes buf) a); reflexivity. }
  split; [exact A|split; [exact B|]]. split.
  - intros H. destruct (Nat.le_gt_cases a b) as [L|L].
    + destruct (Nat.le_gt_cases b (List.length buf)) as [M|M].
      * rewrite A in H by lia. discriminate.
      * rewrite B in H by lia. discriminate.
    + destruct (Nat.le_gt_cases a (List.length buf)) as [M|M]; [lia|]. rewrite B in H by lia. discriminate.
  - intros H. unfold substr. rewrite E. cbn [fst snd].
    destruct (list_eq_dec N.eq_dec buf []) as [->|Hn]; [cbn in H; lia|].
    rewrite !c2b_get by (auto; lia). cbn [firstn blen Nat.leb andb]. rewrite !Nat.sub_0_r, !Nat.add_0_r.
    unfold bslice. pose proof (blen_firstn_lt buf b a ltac:(lia)).
    rewrite (proj2 (Nat.ltb_lt _ _)) by lia. reflexivity.
Qed.

(** ** quotes *)
Lemma string_value_convert s : forall m,
  string_value m (charstring_loop (match m with Escape => true | _ => false end) s) = string_value m s.
Proof.
  induction s as [|c s IH]; intros m; [destruct m; reflexivity|].
  assert (negb false && ceq c ch_bsl = N.eqb c 92) as Eb by reflexivity.
  assert ((if N.eqb c 34 then string_value Escape (34%N :: charstring_loop false s)
           else if N.eqb c 92 then string_value Escape (charstring_loop (N.eqb c 92) s)
           else if N.eqb c 10 || N.eqb c 13 then None else put (utf8 c) (string_value Plain (charstring_loop (N.eqb c 92) s)))
          = (if N.eqb c 92 then string_value Escape s
             else if N.eqb c 10 || N.eqb c 13 then None else put (utf8 c) (string_value Plain s))) as P.
  { destruct (N.eqb c 34) eqn:Eq.
    - apply N.eqb_eq in Eq. subst c. cbn -[utf8]. rewrite (IH Plain). reflexivity.
    - destruct (N.eqb c 92) eqn:Ebs; [apply (IH Escape)|]. rewrite (IH Plain). reflexivity. }
  destruct m as [| |d| |n k|n k| |n].
  - (* plain *)
    cbn [charstring_loop]. rewrite Eb, andb_true_r. unfold ceq, ch_quot. destruct (N.eqb c 34) eqn:Eq.
    + apply N.eqb_eq in Eq. subst c. cbn [app string_value]. cbn [N.eqb Pos.eqb] in *. exact P.
    + cbn [app string_value]. exact P.
  - (* escape *)
    cbn [charstring_loop negb andb]. rewrite andb_false_r. cbn [app string_value].
    rewrite (IH Plain), (IH (EscapedLine c)), (IH SkipSpace), (IH (Hex 0 0)), (IH Unicode0).
    destruct (simple_escape c); [reflexivity|]. destruct (_ || _); [reflexivity|].
    destruct (N.eqb c 122); [reflexivity|]. destruct (N.eqb c 120); [reflexivity|].
    destruct (N.eqb c 117); [reflexivity|]. destruct (digit_value c) as [d|]; [|reflexivity]. apply (IH (Decimal d 1)).
  - (* escaped line break *)
    cbn [charstring_loop]. rewrite Eb, andb_true_r. unfold ceq, ch_quot. destruct (N.eqb c 34) eqn:Eq.
    + apply N.eqb_eq in Eq. subst c. cbn [app string_value]. cbn [N.eqb Pos.eqb orb andb] in *. exact P.
    + cbn [app string_value]. rewrite P. destruct (_ && negb _) eqn:Ep; [|reflexivity].
      assert (N.eqb c 92 = false) as ->; [|apply (IH Plain)].
      rewrite andb_true_iff, orb_true_iff, !N.eqb_eq in Ep. apply N.eqb_neq. lia.
  - (* skipping *)
    cbn [charstring_loop]. rewrite Eb, andb_true_r. unfold ceq, ch_quot. destruct (N.eqb c 34) eqn:Eq.
    + apply N.eqb_eq in Eq. subst c. cbn [app string_value]. change (lua_space ch_bsl) with false.
      change (lua_space 34%N) with false. cbn [N.eqb Pos.eqb] in *. exact P.
    + cbn [app string_value]. rewrite P. destruct (lua_space c) eqn:Es; [|reflexivity].
      assert (N.eqb c 92 = false) as ->; [|apply (IH SkipSpace)].
      unfold lua_space in Es. rewrite orb_true_iff, andb_true_iff, !N.leb_le, N.eqb_eq in Es. apply N.eqb_neq. lia.
  - (* decimal *)
    cbn [charstring_loop]. rewrite Eb, andb_true_r. unfold ceq, ch_quot. destruct (N.eqb c 34) eqn:Eq.
    + apply N.eqb_eq in Eq. subst c. cbn [app string_value]. change (digit_value ch_bsl) with (@None N).
      change (digit_value 34%N) with (@None N). cbn [N.eqb Pos.eqb] in *. rewrite <- P. reflexivity.
    + cbn [app string_value]. rewrite P. destruct (digit_value c) as [d|] eqn:Ed; [|reflexivity].
      destruct (k <? 3); [|reflexivity].
      assert (N.eqb c 92 = false) as ->; [|apply (IH (Decimal (n * 10 + d) (S k)))].
      unfold digit_value in Ed. destruct (_ && _)%bool eqn:Er in Ed; [|discriminate].
      rewrite andb_true_iff, !N.leb_le in Er. apply N.eqb_neq. lia.
  - (* hex *)
    cbn [charstring_loop]. rewrite Eb, andb_true_r. unfold ceq, ch_quot. destruct (N.eqb c 34) eqn:Eq.
    + apply N.eqb_eq in Eq. subst c. reflexivity.
    + cbn [app string_value]. destruct (hex_value c) as [d|] eqn:Eh; [|reflexivity].
      assert (N.eqb c 92 = false) as ->.
      { apply N.eqb_neq. intros ->. vm_compute in Eh. discriminate. }
      rewrite (IH (Hex d 1)), (IH Plain). reflexivity.
  - (* unicode *)
    cbn [charstring_loop]. rewrite Eb, andb_true_r. unfold ceq, ch_quot. destruct (N.eqb c 34) eqn:Eq.
    + apply N.eqb_eq in Eq. subst c. reflexivity.
    + cbn [app string_value]. destruct (N.eqb c 123) eqn:E3; [|reflexivity].
      apply N.eqb_eq in E3. subst c. apply (IH (Unicode None)).
  - cbn [charstring_loop]. rewrite Eb, andb_true_r. unfold ceq, ch_quot. destruct (N.eqb c 34) eqn:Eq.
    + apply N.eqb_eq in Eq. subst c. cbn. destruct n; reflexivity.
    + cbn [app string_value]. destruct (hex_value c) as [d|] eqn:Eh.
      * assert (N.eqb c 92 = false) as ->.
        { apply N.eqb_neq. intros ->. vm_compute in Eh. discriminate. }
        apply (IH (Unicode _)).
      * destruct n as [x|]; [|reflexivity]. destruct (N.eqb c 125) eqn:E5; cbn [andb]; [|reflexivity].
        apply N.eqb_eq in E5. subst c. change (N.eqb 125 92) with false. now rewrite (IH Plain).
Qed.

(** [s] closes at its end: no unescaped [q] in it and no open escape at the end *)
Fixpoint closes (q : char) (esc : bool) (s : str) : bool :=
  match s with
  | [] => negb esc
  | c :: r => negb (negb esc && ceq c q) && closes q (negb esc && ceq c ch_bsl) r
  end.
Lemma seek_string q esc endp pos rest e res c :
  seek_loop (fun ch escaped => negb escaped && ceq ch q) esc endp pos rest = (e, true, res, c) ->
  closes q esc res = true /\ exists rest', rest = res ++ q :: rest'.
Proof.
  revert esc endp pos e res c; induction rest as [|ch r IH]; intros esc endp pos e res c; cbn [seek_loop].
  - intros [=].
  - destruct (negb esc && ceq ch q) eqn:E.
    + intros [= <- <- <-]. apply andb_true_iff in E. destruct E as [E1 E2]. apply ceq_true in E2. subst.
      cbn. split; [exact E1|eauto].
    + destruct (seek_loop _ _ pos (S pos) r) as [[[e' s'] res'] c'] eqn:S. intros [= <- -> <- <-].
      apply IH in S. destruct S as (A & r' & ->). cbn. rewrite E. cbn. eauto.
Qed.
Lemma seek_string_back q res : forall esc endp pos rest,
  closes q esc res = true ->
  seek_loop (fun ch escaped => negb escaped && ceq ch q) esc endp pos (res ++ q :: rest)
  = (pos + List.length res, true, res, (pos + List.length res, q :: rest)).
Proof.
  induction res as [|ch r IH]; intros esc endp pos rest H.
  - cbn in *. rewrite H, (proj2 (ceq_true q q) eq_refl). cbn. now rewrite Nat.add_0_r.
  - cbn [closes] in H. apply andb_true_iff in H. destruct H as [H1 H2]. apply negb_true_iff in H1.
    cbn [app seek_loop]. rewrite H1. rewrite (IH _ _ _ _ H2). cbn [List.length]. rewrite Nat.add_succ_r. reflexivity.
Qed.
Lemma closes_convert s : forall esc, closes ch_apos esc s = true -> closes ch_quot esc (charstring_loop esc s) = true.
Proof.
  induction s as [|c s IH]; intros esc; cbn [closes charstring_loop]; [auto|].
  intros H. apply andb_true_iff in H. destruct H as [H1 H2]. apply IH in H2.
  destruct (ceq c ch_quot && negb esc) eqn:E.
  - apply andb_true_iff in E. destruct E as [E1 E2]. apply ceq_true in E1. subst c. apply negb_true_iff in E2. subst esc. exact H2.
  - cbn [app closes]. rewrite H2, (andb_comm (negb esc)), E. reflexivity.
Qed.

Lemma apos_step i r : lex_step i ch_apos r =
  (let '(_, e, succ, v, c) := get_string_ends (S i, r) ch_apos i in
   if succ then LTok i (CharStringLiteral v) e c else LErr UnexpectedEOF).
Proof. reflexivity. Qed.
Lemma quot_step i r : lex_step i ch_quot r =
  (let '(_, e, succ, v, c) := get_string_ends (S i, r) ch_quot i in
   if succ then LTok i (NormalStringLiteral v) e c else LErr UnexpectedEOF).
Proof. reflexivity. Qed.
Lemma get_string_ends_closes q i r te e v c :
  get_string_ends (S i, r) q i = (te, e, true, v, c) -> closes q false v = true /\ exists r', r = v ++ q :: r'.
Proof.
  unfold get_string_ends, seek_end_by_predicate. cbn [fst snd].
  destruct r as [|ch r]; [discriminate|].
  destruct (seek_loop _ _ _ _ (ch :: r)) as [[[e' s'] res'] c'] eqn:S. destruct s'; intros [= <- <- <- <-].
  eapply seek_string; eauto.
Qed.
Lemma get_string_ends_back q i v rest : closes q false v = true ->
  get_string_ends (S i, v ++ q :: rest) q i
  = (S i + List.length v, S i + List.length v + 1, true, v, (S (S i + List.length v), rest)).
Proof.
  intros H. unfold get_string_ends, seek_end_by_predicate. cbn [fst snd].
  destruct (v ++ q :: rest) as [|x y] eqn:E; [destruct v; discriminate|]. rewrite <- E.
  rewrite seek_string_back by exact H. reflexivity.
Qed.
Lemma quote_relex i r l t e c :
  lex_step i ch_apos r = LTok l (CharStringLiteral t) e c ->
  forall j rest, lex_step j ch_quot (charstring_to_normalstring t ++ ch_quot :: rest)
    = LTok j (NormalStringLiteral (charstring_to_normalstring t))
        (j + List.length (charstring_to_normalstring t) + 2)
        (j + List.length (charstring_to_normalstring t) + 2, rest).
Proof.
  rewrite apos_step. destruct (get_string_ends (S i, r) ch_apos i) as [[[[te e'] succ] v] c'] eqn:G.
  destruct succ; [|discriminate]. intros [= <- <- <- <-]. intros j rest.
  apply get_string_ends_closes in G. destruct G as [G _].
  rewrite quot_step, get_string_ends_back by (apply closes_convert; exact G).
  f_equal; [lia|f_equal; lia].
Qed.
Lemma quote_value t : lua_value (charstring_to_normalstring t) = lua_value t.
Proof. apply (string_value_convert t Plain). Qed.
