(** Runs of the program, for the examples of C49. *)
From Verif Require Import Base Lib Config ConfigSpec Formatter FileUtil FileSpec FileProofs Cli CliSpec CliProofs RefuteSpec IdemSpec IdemProofs SettleSpec SettleNeeded RerunSpec RerunProofs.

Definition quiet_settings : str :=
  s2l "remove_spaces_between_tokens = true replace_zero_spaces_with_hint = true hint_before_comment = ' '".
Definition tree_with (a : str) : entry :=
  EDir (Some [(s2l "p", EDir (Some [(s2l ".luafmt.lua", EFile (Some quiet_settings) true);
                                    (s2l "s", EDir (Some [(s2l "a.lua", EFile (Some a) true)]));
                                    (s2l "b.lua", EFile (Some (s2l "x = = y")) true)]))]).
Definition untidy : entry := tree_with (s2l "x  =y--[[z]]").
Definition tidied : entry := tree_with (s2l "x = y --[[z]]").

Lemma untidy_wf : wf_entry untidy.
Proof.
  unfold untidy, tree_with. constructor; [repeat constructor; cbn; intuition discriminate|]. intros x e [E|[]]. injection E as <- <-.
  constructor; [repeat constructor; cbn; intuition discriminate|]. intros x e [E|[E|[E|[]]]]; injection E as <- <-; try constructor.
  - repeat constructor; cbn; intuition discriminate.
  - intros x e [E|[]]; injection E as <- <-. constructor.
Qed.
Lemma untidy_files p t w : leads untidy p (EFile t w) ->
  (p = [s2l "p"; s2l ".luafmt.lua"] /\ t = Some quiet_settings) \/ (p = [s2l "p"; s2l "s"; s2l "a.lua"] /\ t = Some (s2l "x  =y--[[z]]"))
  \/ (p = [s2l "p"; s2l "b.lua"] /\ t = Some (s2l "x = = y")).
Proof.
  unfold untidy, tree_with. intros H. inversion H as [|l x e q e' Hin L]; subst. destruct Hin as [E|[]]. injection E as <- <-.
  inversion L as [|l x e q' e' Hin L2]; subst. destruct Hin as [E|[E|[E|[]]]]; injection E as <- <-.
  - inversion L2; subst. auto.
  - inversion L2 as [|l x e q e' Hin L3]; subst. destruct Hin as [E|[]]. injection E as <- <-. inversion L3; subst. auto.
  - inversion L2; subst. auto.
Qed.
Lemma calm_all c : Forall (fun P => P) (calm_parts c) -> calm c.
Proof. apply calm_is_parts. Qed.
Lemma quiet_calm c' : reload_format quiet_settings default_config = Some c' -> calm c'.
Proof.
  intros H. assert (c' = match reload_format quiet_settings default_config with Some c => c | None => default_config end) as -> by now rewrite H.
  clear H. apply calm_all. unfold calm_parts. repeat (apply Forall_cons; [one_part|]). apply Forall_nil.
Qed.
Lemma untidy_calm : calm_run untidy [s2l "p"] [s2l "-i"; s2l "-r"; s2l "."].
Proof.
  assert (fst (parse_options (filter dash [s2l "-i"; s2l "-r"; s2l "."])) = default_config) as C by reflexivity.
  assert (recursive (snd (parse_options (filter dash [s2l "-i"; s2l "-r"; s2l "."]))) = true) as R by reflexivity.
  unfold calm_run. rewrite C, R. cbn zeta. clear C R.
  assert (forall p, selected_by untidy [s2l "p"] true [s2l "-i"; s2l "-r"; s2l "."] p -> exists d x, p = d ++ [x] /\ ~ luafmt_name x) as S.
  { intros p (a & d & Ha & D & Rs & [[(t & w & L) ->]|(_ & mid & x & -> & _ & _ & _ & N)]).
    - destruct Ha as [<-|[<-|[<-|[]]]]; try discriminate. vm_compute in Rs. injection Rs as <-.
      apply untidy_files in L. destruct L as [[L _]|[[L _]|[L _]]]; discriminate.
    - exists (d ++ mid), x. rewrite app_assoc. auto. }
  split.
  - intros p t w c' Hs L [[N _]|(N & d & q & u & w' & _ & (x & -> & _ & Lx & _) & _ & Lq & Rl)]; [elim N; repeat split; intros []; reflexivity|].
    apply untidy_files in Lq. destruct Lq as [[_ E]|[[E _]|[E _]]].
    + injection E as ->. split; [now apply quiet_calm|]. apply plainly_readable.
      apply untidy_files in L. destruct L as [[-> _]|[[_ E]|[_ E]]].
      * destruct (S _ Hs) as (d' & x' & E & N'). change [s2l "p"; s2l ".luafmt.lua"] with ([s2l "p"] ++ [s2l ".luafmt.lua"]) in E.
        apply app_inj_tail in E. destruct E as [_ <-]. elim N'. exists (s2l ".lua"). reflexivity.
      * injection E as ->. intros ts Lx'. vm_compute in Lx'. injection Lx' as <-. repeat constructor.
      * injection E as ->. intros ts Lx'. vm_compute in Lx'. injection Lx' as <-. repeat constructor.
    + exfalso. change [s2l "p"; s2l "s"; s2l "a.lua"] with ([s2l "p"; s2l "s"] ++ [s2l "a.lua"]) in E. apply app_inj_tail in E. destruct E as [_ ->].
      destruct Lx as (b & E). discriminate E.
    + exfalso. change [s2l "p"; s2l "b.lua"] with ([s2l "p"] ++ [s2l "b.lua"]) in E. apply app_inj_tail in E. destruct E as [_ ->].
      destruct Lx as (b & E). discriminate E.
  - intros _ d x Hs. destruct (S _ Hs) as (d' & x' & E & N). apply app_inj_tail in E. destruct E as [_ ->]. exact N.
Qed.

(** a table that is put on one line by the second run only *)
Definition one_file (a : str) : entry := EDir (Some [(s2l "a.lua", EFile (Some a) true)]).
Lemma run_again_changes : exists (root : entry) (cwd : path) (args : list str) (r1 r2 : entry) (es1 es2 : list effect),
  wf_entry root /\ main root cwd None args = (r1, es1, Exited) /\ main r1 cwd None args = (r2, es2, Exited) /\ r2 <> r1.
Proof.
  exists (one_file (s2l "f{a" ++ [10%N] ++ s2l ",--[[]]}")), [],
    [s2l "-i"; s2l "--replace_zero_spaces_with_hint=true"; s2l "--remove_spaces_between_tokens=true"; s2l "--hint_before_comment= ";
     s2l "--force_single_line_table=true"; s2l "--max_width=20"; s2l "a.lua"].
  do 4 eexists. split; [|split; [vm_compute; reflexivity|split; [vm_compute; reflexivity|vm_compute; discriminate]]].
  constructor; [repeat constructor; cbn; tauto|]. intros x e [E|[]]. injection E as <- <-. constructor.
Qed.
