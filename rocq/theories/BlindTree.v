(** The gaps of a tree lie between its tokens. *)
From Verif Require Import Base Lib Config State Ast LR LuaGrammar LuaParser LuaLexer WriterBase LuaWriter LexSpec LexLoop LayoutSpec LayoutProofs SpanProofs RangeKeepSpec Recon ReconProofs ReconRange RangeProofs RangeTree RenderProofs TotalProofs BlindFrame BlindGap BlindProofs.

(** ** tokens before and behind a gap *)
Definition solid_slot (s : slot) : bool := match s with STok _ | SSep _ => true | STrail z => negb (str_eqb z []) | _ => false end.
Definition solid (ss : list slot) : bool := existsb solid_slot ss.
Definition at_word (p : nat) (w : list ptok) : Prop := match w with (l, _, _) :: _ => p <= l | [] => True end.
Definition wide (w : list ptok) : Prop := Forall (fun x => fst (fst x) < snd x) w.
Lemma solid_app a b : solid (a ++ b) = solid a || solid b.
Proof. apply existsb_app. Qed.
Lemma sep_nonempty t z : is_sep t z -> z <> [].
Proof. intros [[-> | ->] ->]; discriminate. Qed.
Lemma lay_solid p ss e w : lay p ss e w -> w <> [] -> solid ss = true.
Proof.
  induction 1; intros Hw; cbn; auto; try congruence.
  apply sep_nonempty in H. destruct z; [congruence|reflexivity].
Qed.
Lemma lay_mono p ss e w : lay p ss e w -> at_word p w -> sorted w -> wide w -> p <= e /\ (solid ss = true -> p < e).
Proof.
  assert (S : forall l t r e ss w, at_word l ((l, t, r) :: w) -> sorted ((l, t, r) :: w) -> wide ((l, t, r) :: w) ->
    (at_word r w -> sorted w -> wide w -> r <= e /\ (solid ss = true -> r < e)) -> l < e).
  { intros l t r e0 ss0 w0 _ (_ & H2 & H3) H4 IH. apply Forall_cons_iff in H4 as [H4 H5]. cbn in H4.
    assert (A : at_word r w0) by (destruct w0 as [|[[? ?] ?] ?]; cbn; auto). destruct (IH A H3 H5) as [IH1 _]. lia. }
  induction 1 as [p|a b ss e w Hb H IH|l t r ss e w H IH|l t z r ss e w Hz H IH|l t z r ss e w Hz H IH|p ss e w H IH|p ss e w H IH]; intros A1 A2 A3.
  - split; [lia|discriminate].
  - assert (a <= b /\ at_word b w) as [B1 B2].
    { destruct Hb as [->|(t & r & w' & ->)]; [auto|]. cbn in *. lia. }
    destruct (IH B2 A2 A3) as [K1 K2]. split; [lia|]. intros E. cbn in E. specialize (K2 E). lia.
  - assert (l < e) by (eapply S; eauto). split; [lia|auto].
  - assert (l < e) by (eapply S; eauto). split; [lia|auto].
  - assert (l < e) by (eapply S; eauto). split; [lia|auto].
  - exact (IH A1 A2 A3).
  - exact (IH A1 A2 A3).
Qed.
Lemma lay_split s1 a b s2 : forall p e w, lay p (s1 ++ SGap (a, b) :: s2) e w -> at_word p w -> sorted w -> wide w ->
  p <= a /\ a <= b /\ b <= e /\ (solid s1 = true -> p < a) /\ (solid s2 = true -> b < e).
Proof.
  induction s1 as [|s s1 IH]; intros p e w H A1 A2 A3; cbn [app] in H.
  - inversion H as [|a' b' ss e' w' Hb Hl| | | | |]; subst.
    assert (a <= b /\ at_word b w) as [B1 B2].
    { destruct Hb as [->|(t & r & w' & ->)]; [auto|]. cbn in *. lia. }
    destruct (lay_mono _ _ _ _ Hl B2 A2 A3) as [K1 K2]. repeat split; auto. discriminate.
  - assert (S : forall l t r w0, w = (l, t, r) :: w0 -> p = l -> lay r (s1 ++ SGap (a, b) :: s2) e w0 ->
      p <= a /\ a <= b /\ b <= e /\ (solid (s :: s1) = true -> p < a) /\ (solid s2 = true -> b < e)).
    { intros l t r w0 -> -> Hl. destruct A2 as (_ & A4 & A5). apply Forall_cons_iff in A3 as [A6 A7]. cbn in A6.
      assert (A : at_word r w0) by (destruct w0 as [|[[? ?] ?] ?]; cbn; auto). destruct (IH _ _ _ Hl A A5 A7) as (K1 & K2 & K3 & _ & K5). repeat split; auto; lia. }
    inversion H as [|a' b' ss e' w' Hb Hl| | | |p' ss e' w' Hl|p' ss e' w' Hl]; subst; try (eapply S; [reflexivity|reflexivity|eassumption]).
    + assert (p <= b' /\ at_word b' w) as [B1 B2].
      { destruct Hb as [->|(t & r & w' & ->)]; [auto|]. cbn in *. lia. }
      destruct (IH _ _ _ Hl B2 A2 A3) as (K1 & K2 & K3 & K4 & K5). repeat split; auto; try lia. intros E. specialize (K4 E). lia.
    + exact (IH _ _ _ Hl A1 A2 A3).
    + exact (IH _ _ _ Hl A1 A2 A3).
Qed.

(** ** where the gaps are *)
Definition midst (ss : list slot) (l : loc) : Prop := exists s1 s2, ss = s1 ++ SGap l :: s2 /\ solid s1 = true /\ solid s2 = true.
Lemma midst_front a ss l : midst ss l -> midst (a ++ ss) l.
Proof. intros (s1 & s2 & -> & H1 & H2). exists (a ++ s1), s2. rewrite app_assoc, solid_app, H1, orb_true_r. auto. Qed.
Lemma midst_back a ss l : midst ss l -> midst (ss ++ a) l.
Proof. intros (s1 & s2 & -> & H1 & H2). exists s1, (s2 ++ a). rewrite <- app_assoc, solid_app, H2. auto. Qed.
Lemma nth_solid ks j : Forall (fun k => solid k = true) ks -> solid (nth j ks nil_slots) = true.
Proof. intros H. destruct (nth_in_or_default j ks nil_slots) as [Hi| ->]; [|reflexivity]. rewrite Forall_forall in H. auto. Qed.
Lemma fill_solid ls ks ps i j : Forall (fun k => solid k = true) ks -> ps <> [] -> solid (fill ls ks i j ps) = true.
Proof.
  intros H. destruct ps as [|[t|] ps]; [congruence| |]; intros _; cbn [fill]; rewrite solid_app; [reflexivity|]. now rewrite nth_solid.
Qed.
Lemma fill_midst ls ks ps : Forall (fun k => solid k = true) ks -> forall i0 j i, i0 <= i < i0 + pred (List.length ps) -> midst (fill ls ks i0 j ps) (nth i ls dummy_loc).
Proof.
  intros H. induction ps as [|p ps IH]; intros i0 j i Hi; [cbn in Hi; lia|]. cbn [fill]. destruct ps as [|q ps]; [cbn in Hi; lia|].
  set (j' := match p with TT _ => j | TK => S j end). destruct (Nat.eq_dec i i0) as [->|Ne].
  - exists (match p with TT t => [STok t] | TK => nth j ks nil_slots end), (fill ls ks (S i0) j' (q :: ps)). split; [reflexivity|]. split.
    + destruct p; [reflexivity|now apply nth_solid].
    + apply fill_solid; [exact H|discriminate].
  - apply midst_front. change (midst ([SGap (nth i0 ls dummy_loc)] ++ fill ls ks (S i0) j' (q :: ps)) (nth i ls dummy_loc)). apply midst_front. apply IH. cbn in *. lia.
Qed.
Lemma listed_midst (l : list (loc * list slot)) : Forall (fun x => solid (snd x) = true) l -> Forall (midst (listed l)) (tl (map fst l)).
Proof.
  intros F. destruct l as [|[p x] l]; [constructor|]. cbn [map tl]. apply Forall_forall. intros q Hq. apply in_map_iff in Hq as ([q' y] & <- & Hy).
  apply in_split in Hy as (l1 & l2 & ->). cbn [fst]. inversion F as [|? ? F1 F2]; subst. apply Forall_app in F2 as [_ F2]. inversion F2 as [|? ? F3 _]; subst. cbn [snd] in *.
  exists (SGap p :: x ++ listed l1), (y ++ listed l2). split.
  - unfold listed. cbn [flat_map fst snd]. rewrite flat_map_app. cbn [flat_map fst snd app]. now rewrite <- app_assoc.
  - cbn [solid existsb]. split; [change (existsb solid_slot) with solid; now rewrite solid_app, F1|now rewrite solid_app, F3].
Qed.
Section Seps.
  Variable run : list sslots -> list slot.
  Variable sepr : str -> list sslots -> list slot.
  Hypothesis run_cons : forall p x q z r, run ((p, x, q, z) :: r) = SGap p :: x ++ SGap q :: sepr z r.
  Hypothesis sep_cons : forall z y r, exists s, sepr z (y :: r) = s ++ run (y :: r).
  Lemma run_midst (l : list sslots) : Forall (fun x => solid (snd (fst (fst x))) = true) l -> Forall (midst (run l)) (tl (map (fun x => fst (fst (fst x))) l)).
  Proof.
    assert (A : forall l y r, exists s, run (l ++ y :: r) = s ++ run (y :: r)).
    { induction l0 as [|[[[p x] q] z] l0 IH]; intros y r; [now exists []|]. cbn [app]. rewrite run_cons. destruct (IH y r) as [s E].
      destruct (l0 ++ y :: r) as [|y' r'] eqn:El; [destruct l0; discriminate|]. destruct (sep_cons z y' r') as [s2 E2]. rewrite E2, E.
      exists (SGap p :: x ++ SGap q :: s2 ++ s). cbn [app]. rewrite <- app_assoc. cbn [app]. now rewrite <- app_assoc. }
    intros F. destruct l as [|[[[p x] q] z] l]; [constructor|]. cbn [map tl]. apply Forall_forall. intros t Ht. apply in_map_iff in Ht as (y & <- & Hy).
    inversion F as [|? ? F1 F2]; subst. cbn [fst snd] in F1.
    assert (B : exists s r, sepr z l = s ++ run (y :: r) /\ In y (y :: r)).
    { apply in_split in Hy as (l1 & l2 & ->). destruct (A l1 y l2) as [s E]. destruct (l1 ++ y :: l2) as [|y' r'] eqn:El; [destruct l1; discriminate|].
      destruct (sep_cons z y' r') as [s2 E2]. exists (s2 ++ s), l2. split; [|now left]. refine (eq_trans E2 _). refine (eq_trans (f_equal (fun x => s2 ++ x) (eq_trans (f_equal run (eq_sym El)) E)) _). apply app_assoc. }
    destruct B as (s & r & E & _). rewrite run_cons, E. destruct y as [[[py xy] qy] zy]. rewrite Forall_forall in F2. specialize (F2 _ Hy). cbn [fst snd] in *.
    exists (SGap p :: x ++ SGap q :: s), (xy ++ SGap qy :: sepr zy r). split.
    - rewrite run_cons. cbn [app]. rewrite <- app_assoc. reflexivity.
    - cbn [solid existsb]. change (existsb solid_slot) with solid. split; [now rewrite solid_app, F1|now rewrite solid_app, F2].
  Qed.
End Seps.
Lemma commas_midst t l : Forall (fun x : sslots => solid (snd (fst (fst x))) = true) l -> Forall (midst (commas t l)) (tl (map (fun x => fst (fst (fst x))) l)).
Proof.
  apply (run_midst (commas t) (fun _ r => match r with [] => [] | _ => STok t :: commas t r end)); [reflexivity|]. intros. now exists [STok t].
Qed.
Lemma fields_midst l : Forall (fun x : sslots => solid (snd (fst (fst x))) = true) l -> Forall (midst (fields l)) (tl (map (fun x => fst (fst (fst x))) l)).
Proof.
  apply (run_midst fields (fun z r => match r with [] => [STrail z] | _ => SSep z :: fields r end)); [reflexivity|]. intros. now exists [SSep z].
Qed.

Definition children_solid (n : node) : Prop := forall x, In x (children n) -> solid (layout x) = true.
Lemma kids_solid n : children_solid n -> Forall (fun k => solid k = true) (map layout (n_kids n)).
Proof. intros H. apply Forall_forall. intros k Hk. apply in_map_iff in Hk as (x & <- & Hx). apply H. unfold children. rewrite !in_app_iff. auto. Qed.
Lemma gaps_midst n i : children_solid n -> bare_kind (n_kind n) = false -> i < n_gaps (n_kind n) -> midst (layout n) (nloc n i).
Proof.
  intros Hc Hb Hi. pose proof (kids_solid n Hc) as K. destruct n as [k s ls t lv ks is ss o]. unfold nloc. cbn [n_kind n_locs n_kids] in *.
  assert (Hr : i < pred (List.length (template k)) -> midst (fill ls (map layout ks) 0 0 (template k)) (nth i ls dummy_loc)).
  { intros Hi'. apply fill_midst; [exact K|]. lia. }
  destruct k; try discriminate; cbn [layout]; try (cbn in Hi; lia); try (apply Hr; exact Hi).
  - pose proof (nth_solid (map layout ks) 0 K) as K0. pose proof (nth_solid (map layout ks) 1 K) as K1. cbn in Hi. destruct i as [|[|]]; [| |lia].
    + exists (nth 0 (map layout ks) nil_slots), ([STok (op_token t); SGap (nth 1 ls dummy_loc)] ++ nth 1 (map layout ks) nil_slots). auto.
    + exists (nth 0 (map layout ks) nil_slots ++ [SGap (nth 0 ls dummy_loc); STok (op_token t)]), (nth 1 (map layout ks) nil_slots).
      rewrite <- app_assoc, solid_app, K0. auto.
  - pose proof (nth_solid (map layout ks) 0 K) as K0. cbn in Hi. destruct i; [|lia]. exists [STok (op_token t)], (nth 0 (map layout ks) nil_slots). auto.
  - apply (midst_front [SVoid]). apply Hr. exact Hi.
Qed.
Lemma items_midst n : children_solid n -> is_list (n_kind n) = true -> Forall (midst (layout n)) (tl (map fst (n_items n))).
Proof.
  intros Hc Hk. destruct n as [k s ls t lv ks is ss o]. cbn [n_kind n_items] in *.
  assert (E : layout (Nd k s ls t lv ks is ss o) = listed (map (fun x => (fst x, layout (snd x))) is)) by (destruct k; try discriminate; reflexivity).
  rewrite E. replace (map fst is) with (map fst (map (fun x : loc * node => (fst x, layout (snd x))) is)) by (rewrite map_map; reflexivity).
  apply listed_midst. apply Forall_forall. intros y Hy. apply in_map_iff in Hy as (x & <- & Hx). cbn [snd]. apply Hc. unfold children. rewrite !in_app_iff. right. right. now apply in_map.
Qed.
Lemma seps_midst n : children_solid n -> is_seps (n_kind n) = true -> Forall (midst (layout n)) (tl (map si_loc (n_seps n))).
Proof.
  intros Hc Hk. destruct n as [k s ls t lv ks is ss o]. cbn [n_kind n_seps] in *.
  set (Ss := map (fun x : sitem => (fst (fst (fst x)), layout (snd (fst (fst x))), snd (fst x), snd x)) ss).
  assert (F : Forall (fun x : sslots => solid (snd (fst (fst x))) = true) Ss).
  { apply Forall_forall. intros y Hy. apply in_map_iff in Hy as (x & <- & Hx). cbn [fst snd]. apply Hc. unfold children. rewrite !in_app_iff. left. now apply (in_map si_node). }
  assert (E : map si_loc ss = map (fun x : sslots => fst (fst (fst x))) Ss) by (unfold Ss; rewrite map_map; reflexivity).
  rewrite E. destruct k; try discriminate; cbn [layout]; fold Ss; try (now apply commas_midst); [now apply fields_midst|].
  pose proof (commas_midst Period Ss F) as M. eapply Forall_impl; [|exact M]. intros l. apply midst_back.
Qed.

(** ** the tree of a text *)
Theorem placed_seated src ts n : tiles src 0 ts -> placed ts n -> seated (List.length src) n.
Proof.
  intros T. induction 1 as [n (w1 & w & w2 & E & Hw & Hc & Hl) Hn Hch IH].
  assert (Pn : placed ts n) by (constructor; [exists w1, w, w2; auto|assumption|assumption]).
  destruct (shebang_kind (n_kind n)) eqn:Ks.
  - apply se_node; try assumption; destruct (n_kind n); try discriminate; cbn; try discriminate; lia.
  - destruct Hc as [Hc|Hc]; [|congruence]. destruct (place src ts T n Pn Ks) as (P1 & P2 & _).
    assert (St : sorted w) by (pose proof (tiles_sorted _ _ _ T) as S; rewrite E in S; apply sorted_app in S as [_ S]; now apply sorted_app in S as [S _]).
    assert (Wi : wide w).
    { apply Forall_forall. intros [[l t] r] Hx. cbn. unfold clean in Hc. rewrite Forall_forall in Hc. specialize (Hc _ Hx). cbn in Hc.
      assert (Hin : In (l, t, r) ts) by (rewrite E; apply in_or_app; right; apply in_or_app; now left).
      destruct (tiles_bounds _ _ _ _ _ _ T Hin) as [B _]; [intros ->; discriminate|exact B]. }
    assert (At : at_word (fst (n_span n)) w) by (destruct Hw as [(t & r & w' & ->) _]; cbn; lia).
    assert (Mi : forall l, midst (layout n) l -> inside (List.length src) l).
    { intros [a b] (s1 & s2 & El & S1 & S2). rewrite El in Hl. destruct (lay_split _ _ _ _ _ _ _ Hl At St Wi) as (A1 & A2 & A3 & A4 & A5).
      specialize (A4 S1). specialize (A5 S2). split; cbn [fst snd]; lia. }
    assert (Cs : children_solid n).
    { intros x Hx. specialize (Hch x Hx). inversion Hch as [m (v1 & v & v2 & _ & Hv & _ & Hlx) _ _]; subst m. apply (lay_solid _ _ _ _ Hlx). intros ->.
      destruct Hv as [(t & r & w' & Ev) _]. discriminate. }
    apply se_node.
    + intros Hb i Hi. apply Mi. now apply gaps_midst.
    + intros Hk. eapply Forall_impl; [exact Mi|]. now apply items_midst.
    + intros Hk. eapply Forall_impl; [exact Mi|]. now apply seps_midst.
    + intros _. left. auto.
    + exact IH.
Qed.

(** ** the tree that is written *)
Section Written.
  Variable c : config.
  Lemma ritems_places l : forall s, map fst (fst (ritems c l s)) = map fst l.
  Proof.
    induction l as [|[p x] l IH]; intros s; [reflexivity|]. cbn [ritems]. destruct (recon c None x s) as [x' s1]. specialize (IH s1).
    destruct (ritems c l s1). cbn in *. now rewrite IH.
  Qed.
  Lemma rseps_places l : forall sc s, map si_loc (fst (rseps c sc l s)) = map si_loc l.
  Proof.
    induction l as [|[[[p x] q] z] l IH]; intros sc s; [reflexivity|]. cbn [rseps]. destruct (recon c sc x s) as [x' s1]. specialize (IH sc s1).
    destruct (rseps c sc l s1). cbn in *. now rewrite IH.
  Qed.
  Lemma recon_places n sc s : map fst (n_items (fst (recon c sc n s))) = map fst (n_items n)
    /\ map si_loc (n_seps (fst (recon c sc n s))) = map si_loc (n_seps n).
  Proof.
    destruct n as [k sp ls t lv ks is ss o]. rewrite recon_eq.
    assert (A : let n' := fst (let '(ks', s1) := rkids c (match k with KFieldSequential => sc | _ => None end) ks (update_pos_range sp s) in
        let '(is', s2) := ritems c is s1 in
        let '(ss', s3) := rseps c None ss s2 in
        (Nd k sp ls t lv ks' is' ss' o, s3)) in map fst (n_items n') = map fst is /\ map si_loc (n_seps n') = map si_loc ss).
    { destruct (rkids _ _ _ _) as [ks' s1]. pose proof (ritems_places is s1) as A1. destruct (ritems _ _ _) as [is' s2].
      pose proof (rseps_places ss None s2) as A2. destruct (rseps _ _ _ _) as [ss' s3]. cbn in *. auto. }
    destruct k; try exact A; clear A.
    - destruct (on c _); auto.
    - destruct (rkids _ _ _ _). auto.
    - pose proof (rseps_places ss (Some (List.length ss =? 1)) s) as A. destruct (rseps _ _ _ _). auto.
    - pose proof (rseps_places ss None (update_pos_range sp s)) as A. destruct (rseps _ _ _ _) as [ss' s1]. destruct (rkids _ _ _ _). auto.
    - pose proof (ritems_places is ((fst s + 1)%Z, snd s)) as A. destruct (ritems _ _ _). auto.
  Qed.
  Lemma seated_single L b n : seated L n -> seated L (set_single b n).
  Proof.
    intros H. destruct n as [k sp ls t lv ks is ss o]. destruct k; try exact H. inversion H as [m H1 H2 H3 H4 H5]; subst m. apply se_node; auto.
  Qed.
  Lemma seated_recon L n : seated L n -> forall sc s, seated L (fst (recon c sc n s)).
  Proof.
    induction 1 as [n H1 H2 H3 H4 H5 IH]. intros sc s. destruct (recon_alike c sc n s) as (E1 & E2 & E3). destruct (recon_places n sc s) as [P1 P2].
    assert (Ch : forall x, In x (children (fst (recon c sc n s))) -> seated L x).
    { intros y Hy. apply recon_children in Hy as (x & Hx & [(sc' & s' & [-> |(b & ->)])| ->]); auto. apply seated_single. now apply IH. }
    destruct E3 as [E3|E3].
    - apply se_node; auto; rewrite E3.
      + intros Hb i Hi. unfold nloc. rewrite E2. now apply H1.
      + rewrite P1. exact H2.
      + rewrite P2. exact H3.
      + intros Hk. rewrite E1. destruct (H4 Hk) as [K|(K1 & K2 & K3)]; [now left|]. right. split; [exact K1|]. split; [|exact K3].
        rewrite K2 in P1. destruct (n_items (fst (recon c sc n s))); [reflexivity|discriminate].
    - assert (K : n_kind (fst (recon c sc n s)) = KCharStringLiteral \/ n_kind (fst (recon c sc n s)) = KNormalStringLiteral).
      { destruct n as [k sp ls t lv ks is ss o]. cbn in E3. subst k. rewrite recon_eq. destruct (on c _); auto. }
      assert (Sp : fst (n_span n) < snd (n_span n) /\ snd (n_span n) <= L) by (destruct H4 as [A|(A & _)]; [now rewrite E3|exact A|congruence]).
      apply se_node; auto; rewrite ?E1; destruct K as [-> | ->]; cbn; intros; auto; try discriminate; lia.
  Qed.

  (** the range of lines has no influence on the tree *)
  Variable r : option (N * N).
  Notation c' := (set_line_range r c).
  Definition blind (n : node) : Prop := forall sc s t, fst (recon c' sc n s) = fst (recon c sc n t).
  Lemma rkids_blind l : Forall blind l -> forall sc s t, fst (rkids c' sc l s) = fst (rkids c sc l t).
  Proof.
    induction 1 as [|x l Hx Hl IH]; intros sc s t; [reflexivity|]. cbn [rkids]. specialize (Hx sc s t). destruct (recon c' sc x s) as [x1 s1], (recon c sc x t) as [x2 s2].
    specialize (IH sc s1 s2). destruct (rkids c' sc l s1), (rkids c sc l s2). cbn in *. congruence.
  Qed.
  Lemma ritems_blind l : Forall (fun x => blind (snd x)) l -> forall s t, fst (ritems c' l s) = fst (ritems c l t).
  Proof.
    induction 1 as [|[p x] l Hx Hl IH]; intros s t; [reflexivity|]. cbn [ritems]. specialize (Hx None s t). cbn [snd] in Hx. destruct (recon c' None x s) as [x1 s1], (recon c None x t) as [x2 s2].
    specialize (IH s1 s2). destruct (ritems c' l s1), (ritems c l s2). cbn in *. congruence.
  Qed.
  Lemma rseps_blind l : Forall (fun x => blind (snd (fst (fst x)))) l -> forall sc s t, fst (rseps c' sc l s) = fst (rseps c sc l t).
  Proof.
    induction 1 as [|[[[p x] q] z] l Hx Hl IH]; intros sc s t; [reflexivity|]. cbn [rseps]. specialize (Hx sc s t). cbn [snd fst] in Hx. destruct (recon c' sc x s) as [x1 s1], (recon c sc x t) as [x2 s2].
    specialize (IH sc s1 s2). destruct (rseps c' sc l s1), (rseps c sc l s2). cbn in *. congruence.
  Qed.
  Theorem recon_blind n : blind n.
  Proof.
    induction n as [k sp ls t lv ks is ss o Hk Hi Hs] using node_rect'. intros sc s1 s2.
    pose proof (rkids_blind ks Hk) as Bk. pose proof (ritems_blind is Hi) as Bi. pose proof (rseps_blind ss Hs) as Bs. clear Hk Hi Hs.
    assert (A : fst (let '(ks', s3) := rkids c' (match k with KFieldSequential => sc | _ => None end) ks (update_pos_range sp s1) in
        let '(is', s4) := ritems c' is s3 in
        let '(ss', s5) := rseps c' None ss s4 in
        (Nd k sp ls t lv ks' is' ss' o, s5)) = fst (let '(ks', s3) := rkids c (match k with KFieldSequential => sc | _ => None end) ks (update_pos_range sp s2) in
        let '(is', s4) := ritems c is s3 in
        let '(ss', s5) := rseps c None ss s4 in
        (Nd k sp ls t lv ks' is' ss' o, s5))).
    { specialize (Bk (match k with KFieldSequential => sc | _ => None end) (update_pos_range sp s1) (update_pos_range sp s2)).
      destruct (rkids c' _ _ _) as [k1 a1], (rkids c _ _ _) as [k2 a2]. specialize (Bi a1 a2). destruct (ritems c' _ _) as [i1 b1], (ritems c _ _) as [i2 b2].
      specialize (Bs None b1 b2). destruct (rseps c' _ _ _), (rseps c _ _ _). cbn in *. congruence. }
    rewrite !recon_eq. destruct k; try exact A; clear A.
    - change (on c' B_convert_charstring_to_normalstring) with (on c B_convert_charstring_to_normalstring). destruct (on c _); reflexivity.
    - specialize (Bk None (update_pos_range sp s1) (update_pos_range sp s2)). destruct (rkids c' _ _ _), (rkids c _ _ _). cbn [fst] in *. subst. reflexivity.
    - specialize (Bs (Some (List.length ss =? 1)) s1 s2). destruct (rseps c' _ _ _), (rseps c _ _ _). cbn in *. congruence.
    - specialize (Bs None (update_pos_range sp s1) (update_pos_range sp s2)). destruct (rseps c' _ _ _) as [? a1], (rseps c _ _ _) as [? a2].
      specialize (Bk None a1 a2). destruct (rkids c' _ _ _), (rkids c _ _ _). cbn in *. congruence.
    - specialize (Bi ((fst s1 + 1)%Z, snd s1) ((fst s2 + 1)%Z, snd s2)). destruct (ritems c' _ _), (ritems c _ _). cbn in *. congruence.
  Qed.
End Written.

Lemma root_seated src n : parse_lua src = Parsed n -> seated (List.length src) n.
Proof.
  intros P. destruct (tree_placed src n P) as (ts & Lx & [[Ei Es] C]). destruct (LayoutText.tree_spans src n P) as [No _]. pose proof (lex_tiles src ts Lx) as T.
  assert (Ec : children n = n_kids n) by (unfold children; now rewrite Es, Ei, app_nil_r).
  assert (Kn : n_kind n = KChunk \/ n_kind n = KSheBangChunk) by (destruct C as [[-> _]|[[-> _]|[-> _]]]; auto).
  assert (Kids : (exists e, n_kids n = [nlist KStatementList (e, e) []]) \/ Forall (placed ts) (n_kids n)).
  { destruct C as [(_ & e & E)|[(_ & b & q & r & E & _ & _ & _ & Pb)|(_ & a & b & q & r & E & _ & _ & _ & _ & Pa & Pb)]]; [left; eauto|right; rewrite E; auto..]. }
  clear C. rewrite Ec in No. apply se_node.
  - destruct Kn as [-> | ->]; discriminate.
  - destruct Kn as [-> | ->]; discriminate.
  - destruct Kn as [-> | ->]; discriminate.
  - destruct Kn as [-> | ->]; discriminate.
  - rewrite Ec. intros x Hx. destruct Kids as [(e & E)|F].
    + rewrite E in *. destruct Hx as [<-|[]]. cbn in No. apply se_node; cbn; try contradiction.
      * intros _ i Hi. lia.
      * intros _. constructor.
      * intros _. constructor.
      * intros _. right. repeat split; lia.
    + rewrite Forall_forall in F. eapply placed_seated; eauto.
Qed.
Lemma whole_stays src c n : parse_lua src = Parsed n ->
  snd (snd (recon c None n (0%Z, Some (0, List.length src)))) = Some (0, List.length src).
Proof.
  intros P. destruct (LayoutText.tree_spans src n P) as [No Nc]. destruct (tree_placed src n P) as (ts & _ & [[Ei Es] C]).
  assert (Kn : n_kind n = KChunk \/ n_kind n = KSheBangChunk) by (destruct C as [[-> _]|[[-> _]|[-> _]]]; auto). clear C.
  assert (Ec : children n = n_kids n) by (unfold children; now rewrite Es, Ei, app_nil_r). rewrite Ec in No, Nc.
  set (L := List.length src) in *.
  assert (F : Forall (lams (fun sp => snd sp <= L)) (n_kids n)).
  { apply Forall_forall. intros m Hm y Hy. rewrite Forall_forall in Nc. pose proof (within_inside _ _ (Nc _ Hm) Hy). apply ordered_inside in No. rewrite Forall_forall in No.
    destruct (No (n_span m)) as [_ H1]; [now apply in_map|]. lia. }
  assert (U : forall sp s, snd sp <= L -> snd s = Some (0, L) -> snd (update_pos_range sp s) = Some (0, L)).
  { intros sp [lv pr] H E. cbn [snd] in E. subst pr. unfold update_pos_range. destruct (Z.eqb lv 1); [|reflexivity]. destruct (_ && _); [|reflexivity].
    cbn [snd]. rewrite Nat.min_0_r, Nat.max_r by lia. reflexivity. }
  pose proof (rkids_inv (fun pr => pr = Some (0, L)) _ c U (n_kids n) F None (0%Z, Some (0, L)) eq_refl) as A.
  destruct n as [k sp ls t lv ks is ss o]. cbn [n_kind n_kids n_items n_seps] in *. subst is ss. rewrite recon_eq.
  destruct Kn as [-> | ->]; cbn [update_pos_range Z.eqb]; destruct (rkids c None ks _); exact A.
Qed.

(** ** tables with fields *)
(** the first token of the slots is not a closing brace *)
Fixpoint opens (ss : list slot) : bool :=
  match ss with
  | [] => true
  | STok CloseCurlyBracket :: _ => false
  | STok _ :: _ | SSep _ :: _ => true
  | STrail z :: r => match z with [] => opens r | _ => true end
  | SGap _ :: r | SVoid :: r => opens r
  end.
Lemma opens_app a b : opens a = true -> opens b = true -> opens (a ++ b) = true.
Proof.
  intros Ha Hb. induction a as [|s a IH]; [exact Hb|]. destruct s as [x|x|x|x|]; cbn [opens app] in *; auto; destruct x; auto.
Qed.
Lemma op_opens t r : opens (STok (op_token t) :: r) = true.
Proof.
  unfold op_token. destruct (find _ op_tokens) as [x|] eqn:E; [|reflexivity]. apply find_some in E as [E _].
  repeat (destruct E as [<-|E]; [reflexivity|]). destruct E.
Qed.
Fixpoint fine (ps : list part) : bool := match ps with TT CloseCurlyBracket :: _ => false | TT _ :: _ => true | TK :: r => fine r | [] => true end.
Lemma fill_opens ls ks ps : Forall (fun k => opens k = true) ks -> forall i j, fine ps = true -> opens (fill ls ks i j ps) = true.
Proof.
  intros H. induction ps as [|p ps IH]; intros i j Hf; [reflexivity|]. cbn [fill]. destruct p as [t|].
  - destruct t; try reflexivity. discriminate.
  - apply opens_app.
    + destruct (nth_in_or_default j ks nil_slots) as [Hi| ->]; [|reflexivity]. rewrite Forall_forall in H. auto.
    + destruct ps; [reflexivity|]. cbn [opens]. apply IH. exact Hf.
Qed.
Lemma layout_opens n : opens (layout n) = true.
Proof.
  induction n as [k sp ls t lv ks is ss o Hk Hi Hs] using node_rect'.
  assert (K : Forall (fun k => opens k = true) (map layout ks)) by (apply Forall_map; exact Hk).
  assert (K' : forall j, opens (nth j (map layout ks) nil_slots) = true).
  { intros j. destruct (nth_in_or_default j (map layout ks) nil_slots) as [Hj| ->]; [|reflexivity]. rewrite Forall_forall in K. auto. }
  assert (I : opens (listed (map (fun x => (fst x, layout (snd x))) is)) = true).
  { clear -Hi. induction Hi as [|[q x] l Hx _ IH]; [reflexivity|]. cbn. apply opens_app; auto. }
  assert (C : forall u, u <> CloseCurlyBracket -> opens (commas u (map (fun x => (fst (fst (fst x)), layout (snd (fst (fst x))), snd (fst x), snd x)) ss)) = true).
  { clear -Hs. intros u Hu. induction Hs as [|[[[q x] q2] z] l Hx _ IH]; [reflexivity|]. cbn [map commas fst snd opens]. apply opens_app; [exact Hx|]. cbn [opens].
    destruct l; [reflexivity|]. cbn [map]. destruct u; try reflexivity. congruence. }
  assert (G : opens (fields (map (fun x => (fst (fst (fst x)), layout (snd (fst (fst x))), snd (fst x), snd x)) ss)) = true).
  { clear -Hs. induction Hs as [|[[[q x] q2] z] l Hx _ IH]; [reflexivity|]. cbn [map fields fst snd opens]. apply opens_app; [exact Hx|]. cbn [opens].
    destruct l; [|reflexivity]. cbn. now destruct z. }
  destruct k; cbn [layout]; try reflexivity; try exact I; try exact G; try (apply C; discriminate); try (apply fill_opens; [exact K|reflexivity]).
  - apply opens_app; [apply K'|]. cbn [app]. change (opens (SGap (nth 0 ls dummy_loc) :: ?x)) with (opens x). apply op_opens.
  - apply op_opens.
  - apply opens_app; [apply C; discriminate|reflexivity].
  - cbn [opens]. apply opens_app; [apply K'|reflexivity].
  - cbn [opens]. apply opens_app; [apply K'|]. cbn [opens]. apply opens_app; [apply K'|reflexivity].
Qed.
Lemma lay_opens ss rest : forall p e w, lay p (ss ++ rest) e w -> opens ss = true -> solid ss = true ->
  exists x w', w = x :: w' /\ snd (fst x) <> CloseCurlyBracket.
Proof.
  induction ss as [|s ss IH]; intros p e w Hl Ho Hs; [discriminate|]. cbn [app] in Hl.
  inversion Hl as [|a b ? ? ? _ Hr|l t r ? ? ? Hr|l t z r ? ? ? Hz Hr|l t z r ? ? ? Hz Hr|? ? ? ? Hr|? ? ? ? Hr]; subst.
  - exact (IH _ _ _ Hr Ho Hs).
  - do 2 eexists. split; [reflexivity|]. cbn. intros ->. discriminate.
  - do 2 eexists. split; [reflexivity|]. cbn. destruct Hz as [[-> | ->] _]; discriminate.
  - do 2 eexists. split; [reflexivity|]. cbn. destruct Hz as [[-> | ->] _]; discriminate.
  - exact (IH _ _ _ Hr Ho Hs).
  - exact (IH _ _ _ Hr Ho Hs).
Qed.
(** every opening brace is directly followed by a closing one *)
Definition empty_tables (ts : list ptok) : Prop := forall a l r x b, ts = a ++ (l, OpenCurlyBracket, r) :: x :: b -> snd (fst x) = CloseCurlyBracket.
Definition unvoid (s : slot) : Prop := s <> SVoid.
Lemma fill_unvoid ls ks ps : Forall (Forall unvoid) ks -> forall i j, Forall unvoid (fill ls ks i j ps).
Proof.
  intros H. induction ps as [|p ps IH]; intros i j; [constructor|]. cbn [fill]. apply Forall_app. split.
  - destruct p; [repeat constructor; discriminate|]. destruct (nth_in_or_default j ks nil_slots) as [Hi| ->]; [|repeat constructor; discriminate].
    rewrite Forall_forall in H. auto.
  - destruct ps; [constructor|]. constructor; [discriminate|apply IH].
Qed.
Lemma layout_unvoid n : n_kind n <> KTableConstructor -> (forall x, In x (children n) -> Forall unvoid (layout x)) -> Forall unvoid (layout n).
Proof.
  intros Hk Hc. destruct n as [k sp ls t lv ks is ss o]. unfold children in Hc. cbn [n_kind n_seps n_kids n_items] in *.
  assert (K : Forall (Forall unvoid) (map layout ks)) by (apply Forall_map, Forall_forall; intros x Hx; apply Hc; rewrite !in_app_iff; auto).
  assert (K' : forall j, Forall unvoid (nth j (map layout ks) nil_slots)).
  { intros j. destruct (nth_in_or_default j (map layout ks) nil_slots) as [Hj| ->]; [|repeat constructor; discriminate]. rewrite Forall_forall in K. auto. }
  assert (I : Forall unvoid (listed (map (fun x => (fst x, layout (snd x))) is))).
  { assert (Hi : forall x, In x is -> Forall unvoid (layout (snd x))) by (intros x Hx; apply Hc; rewrite !in_app_iff; right; right; now apply in_map).
    clear -Hi. induction is as [|[q x] l IH]; [constructor|]. cbn. constructor; [discriminate|]. apply Forall_app. split; [apply (Hi (q, x)); now left|apply IH; intros; apply Hi; now right]. }
  assert (Hs : forall x, In x ss -> Forall unvoid (layout (snd (fst (fst x))))) by (intros x Hx; apply Hc; rewrite !in_app_iff; left; exact (in_map si_node _ _ Hx)).
  assert (C : forall u, Forall unvoid (commas u (map (fun x => (fst (fst (fst x)), layout (snd (fst (fst x))), snd (fst x), snd x)) ss))).
  { clear -Hs. intros u. induction ss as [|[[[q x] q2] z] l IH]; [constructor|]. cbn [map commas fst snd]. constructor; [discriminate|]. apply Forall_app.
    split; [apply (Hs (q, x, q2, z)); now left|]. constructor; [discriminate|]. assert (A := IH (fun y Hy => Hs y (or_intror Hy))).
    destruct l; [constructor|]. cbn [map] in *. constructor; [discriminate|exact A]. }
  assert (G : Forall unvoid (fields (map (fun x => (fst (fst (fst x)), layout (snd (fst (fst x))), snd (fst x), snd x)) ss))).
  { clear -Hs. induction ss as [|[[[q x] q2] z] l IH]; [constructor|]. cbn [map fields fst snd]. constructor; [discriminate|]. apply Forall_app.
    split; [apply (Hs (q, x, q2, z)); now left|]. constructor; [discriminate|]. assert (A := IH (fun y Hy => Hs y (or_intror Hy))).
    destruct l; [repeat constructor; discriminate|]. cbn [map] in *. constructor; [discriminate|exact A]. }
  destruct k; cbn [layout]; try congruence; try exact I; try exact G; try apply C; try (apply fill_unvoid; exact K); try (repeat constructor; discriminate).
  all: repeat first [apply Forall_app; split | apply Forall_cons; [discriminate|] | apply Forall_nil | apply K' | apply C].
Qed.
Lemma placed_unvoid ts n : empty_tables ts -> placed ts n -> Forall unvoid (layout n).
Proof.
  intros E. induction 1 as [n (w1 & w & w2 & Et & _ & _ & Hl) _ Hch IH]. assert (D : {n_kind n = KTableConstructor} + {n_kind n <> KTableConstructor}) by decide equality. destruct D as [Ek|Hk].
  - exfalso.
    assert (S : opens (nth 0 (map layout (n_kids n)) nil_slots) = true /\ solid (nth 0 (map layout (n_kids n)) nil_slots) = true).
    { destruct (n_kids n) as [|k ks] eqn:Ek2; [split; reflexivity|]. cbn [map nth]. split; [apply layout_opens|].
      assert (Hx : In k (children n)) by (unfold children; rewrite !in_app_iff, Ek2; right; left; now left).
      specialize (Hch k Hx). inversion Hch as [m (v1 & v & v2 & _ & Hv & _ & Hlx) _ _]; subst m. apply (lay_solid _ _ _ _ Hlx). intros ->.
      destruct Hv as [(t & r & w' & Ev) _]. discriminate. }
    destruct n as [k sp ls t lv ks is ss o]. cbn [n_kind n_kids n_span layout] in *. subst k. cbn [layout template fill app] in Hl.
    inversion Hl as [| | | | | |p0 ? ? ? Hl1]; subst. inversion Hl1 as [| |l0 ? r0 ? ? w0 Hl2| | | |]; subst. inversion Hl2 as [|a b ? ? ? _ Hl3| | | | |]; subst.
    destruct S as [S1 S2]. destruct (lay_opens _ _ _ _ _ Hl3 S1 S2) as (x & w' & -> & Hx). apply Hx. eapply (E w1). reflexivity.
  - apply layout_unvoid; [exact Hk|exact IH].
Qed.
Lemma root_unvoid src n : parse_lua src = Parsed n -> (forall ts, lex src = LexOk ts -> empty_tables ts) -> Forall unvoid (layout n).
Proof.
  intros P E. destruct (tree_placed src n P) as (ts & Lx & [[Ei Es] C]). specialize (E ts Lx).
  assert (Ec : children n = n_kids n) by (unfold children; now rewrite Es, Ei, app_nil_r).
  apply layout_unvoid; rewrite ?Ec.
  - destruct C as [[-> _]|[[-> _]|[-> _]]]; discriminate.
  - intros x Hx. destruct C as [(_ & e & Ek)|[(_ & b & q & r & Ek & _ & _ & _ & Pb)|(_ & a & b & q & r & Ek & _ & _ & _ & _ & Pa & Pb)]]; rewrite Ek in Hx; cbn in Hx.
    + destruct Hx as [<-|[]]. constructor.
    + destruct Hx as [<-|[]]. exact (placed_unvoid _ _ E Pb).
    + destruct Hx as [<-|[<-|[]]]; [exact (placed_unvoid _ _ E Pa)|exact (placed_unvoid _ _ E Pb)].
Qed.

(** ** the whole text *)
From Verif Require Import OutcomeProofs Formatter BlindRange.
Lemma process_whole src c L R : line_range_to_pos_range src (Some (L, R)) = Some (0, List.length src) ->
  line_range c = None -> table_free c \/ (forall ts, lex src = LexOk ts -> empty_tables ts) -> process_buffer src c <> Panicked ->
  process_buffer src (set_line_range (Some (L, R)) c) = process_buffer src c.
Proof.
  intros Hr Hn Ht. unfold process_buffer. destruct (parse_lua src) as [n| |] eqn:P; [|reflexivity|reflexivity].
  unfold reconstruct. change (line_range (set_line_range (Some (L, R)) c)) with (Some (L, R)). rewrite Hr, Hn. cbn [line_range_to_pos_range].
  pose proof (recon_blind c (Some (L, R)) n None (0%Z, Some (0, List.length src)) (0%Z, None)) as B.
  pose proof (whole_stays src (set_line_range (Some (L, R)) c) n P) as St.
  assert (Sn : snd (snd (recon c None n (0%Z, None))) = None).
  { apply (recon_inv (fun pr => pr = None) (fun _ => True)); [|intros y _; exact Logic.I|reflexivity]. intros sp [lv pr] _ E. cbn [snd] in E. subst pr.
    unfold update_pos_range. destruct (Z.eqb lv 1); reflexivity. }
  assert (G : good (slotq c src) (fun _ => True) (fst (recon c None n (0%Z, None)))).
  { pose proof (written_tree src c n None (0%Z, None) P) as [G1 G2]. split; [|exact G2]. destruct Ht as [Ht|Ht].
    - eapply Forall_impl; [|exact G1]. intros s Hs. split; auto.
    - pose proof (root_unvoid src n P Ht) as U. rewrite recon_layout in *. apply Forall_forall. intros s Hs. rewrite Forall_forall in G1. split; [auto|].
      intros ->. exfalso. apply in_map_iff in Hs as (u & Eu & Hu). rewrite Forall_forall in U. apply (U u Hu). destruct u as [x|x|x|x|]; try discriminate Eu; try reflexivity. cbn [conv] in Eu. destruct x; try discriminate Eu.
      all: destruct (on c B_convert_charstring_to_normalstring); discriminate. } pose proof (seated_recon c _ n (root_seated src n P) None (0%Z, None)) as Se.
  destruct (recon (set_line_range (Some (L, R)) c) None n (0%Z, Some (0, List.length src))) as [n1 s1], (recon c None n (0%Z, None)) as [n2 s2].
  cbn [fst snd] in *. subst n1. rewrite St, Sn.
  assert (V : slot_ok src (SGap (0, 0))) by (cbn; split; [lia|]; split; [lia|]; exists []; split; [left; constructor|reflexivity]).
  pose proof (write_sees c src (Some (L, R)) V (write_fuel n2) c n2 (reach_refl c) (conj Se G)
    (mk_world [] (start_state src (Some (0, List.length src))) [] []) (mk_world [] (start_state src None) [] [])) as W.
  assert (R0 : rel (lua_S src) (mk_world [] (start_state src (Some (0, List.length src))) [] []) (mk_world [] (start_state src None) [] [])).
  { split; [reflexivity|]. split; [|split; reflexivity]. cbn. repeat split; reflexivity. }
  specialize (W R0). clear R0. unfold same in W.
  destruct (write (write_fuel n2) src c n2 _) as [[[]| | |] v]; try congruence; destruct (write (write_fuel n2) src (set_line_range (Some (L, R)) c) n2 _) as [x w];
    cbn [fst snd] in W; destruct W as [-> (E & _)]; try reflexivity. now rewrite E.
Qed.
