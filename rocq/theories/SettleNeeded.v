(** Every condition of [calm] is needed. *)
From Coq Require Import Lia.
From Verif Require Import Base Lib Config State LuaLexer Formatter RefuteSpec SafeSpec PrettySpec IdemSpec IdemProofs SettleSpec.

Lemma calm_is_parts c : calm c <-> Forall (fun P => P) (calm_parts c).
Proof.
  split.
  - intros (A0 & A1 & A2 & A3 & A4 & A5 & A6 & A7 & A8 & A9 & A10). unfold calm_parts.
    repeat (apply Forall_cons; [first [assumption | (intros s; apply A7; cbn; tauto)]|]). apply Forall_nil.
  - intros F. unfold calm_parts in F. repeat match goal with H : Forall _ (_ :: _) |- _ => inversion H; subst; clear H end.
    repeat (split; [assumption|]). split; [|split; [assumption|split; assumption]].
    intros k s Hk. cbn in Hk. decompose [or] Hk; subst; auto; contradiction.
Qed.
Ltac options := intros k h H E; cbn in H; decompose [or] H; subst; try contradiction; vm_compute in E; try discriminate; injection E as <-.
Ltac one_part :=
  lazymatch goal with
  | |- tidy _ =>
      split; [reflexivity|]; split; [exists [32%N]; split; [reflexivity|]; split; [discriminate|repeat constructor]|]; split;
      [options; repeat constructor|split; [options; (split; [discriminate|repeat constructor])|
       intros h E; vm_compute in E; try discriminate; injection E as <-; eexists; (split; [first [left; reflexivity|right; reflexivity]|repeat constructor])]]
  | |- no_forcing _ => intros k H; cbn in H; decompose [or] H; subst; try contradiction; reflexivity
  | |- forall s, _ -> _ <= _ => intros s E; vm_compute in E; try discriminate E; injection E as <-; cbn; lia
  | |- _ <> _ => vm_compute; discriminate
  | |- _ -> _ => vm_compute; first [discriminate|auto]
  | |- _ => vm_compute; reflexivity
  end.
Lemma all_but i c : (forall j, j <> i -> nth j (calm_parts c) True) -> calm_but i c.
Proof. intros H j P E N. specialize (H j N). now rewrite (nth_error_nth _ _ _ E) in H. Qed.
Lemma each_part c (Q : nat -> Prop) : (~ Q 0 -> tidy c) -> (~ Q 1 -> no_forcing c) -> (~ Q 2 -> line_range c = None)
  -> (~ Q 3 -> on c B_remove_spaces_between_tokens = true) -> (~ Q 4 -> on c B_remove_comments = false)
  -> (~ Q 5 -> on c B_write_newline_at_multiline_table = false) -> (~ Q 6 -> cb c B_write_trailing_field_separator <> Some false)
  -> (~ Q 7 -> forall s, cs c S_field_separator = Some s -> List.length s <= 1)
  -> (~ Q 8 -> forall s, cs c S_hint_after_multiline_comment = Some s -> List.length s <= 1)
  -> (~ Q 9 -> forall s, cs c S_hint_table_constructor = Some s -> List.length s <= 1)
  -> (~ Q 10 -> nis c N_newline_format_first_oneline_comment 1 = true -> nis c N_newline_format_oneline_comment 1 = true)
  -> (~ Q 11 -> nis c N_newline_format_first_multiline_comment 1 = true -> nis c N_newline_format_multiline_comment 1 = true)
  -> (~ Q 12 -> on c B_remove_all_newlines = true -> nis c N_newline_format_oneline_comment 1 = true /\ nis c N_newline_format_multiline_comment 1 = true)
  -> forall j, ~ Q j -> nth j (calm_parts c) True.
Proof. intros ? ? ? ? ? ? ? ? ? ? ? ? ? j N. unfold calm_parts. do 13 (destruct j as [|j]; cbn [nth]; [auto|]). now destruct j. Qed.
Ltac parts := apply all_but; match goal with |- forall j, j <> ?i -> _ => apply (each_part _ (fun j => j = i)) end;
  (intros N; first [exfalso; apply N; reflexivity|clear N; one_part]).
Definition changes (i : nat) : Prop := exists (src o o2 : str) (c : config),
  calm_but i c /\ readable c src /\ process_buffer src c = Formatted o /\ process_buffer o c = Formatted o2 /\ o2 <> o.
Ltac witness src opts :=
  unfold changes; exists src; do 2 eexists; exists (with_options opts); split; [parts|]; split;
  [apply plainly_readable; (let ts := fresh in let L := fresh in intros ts L; vm_compute in L; injection L as <-); repeat constructor|];
  split; [vm_compute; reflexivity|]; split; [vm_compute; reflexivity|]; vm_compute; discriminate.
Definition nl : str := [10%N].
Definition o0 := "--replace_zero_spaces_with_hint=true"%string.
Definition o1 := "--remove_spaces_between_tokens=true"%string.
Definition o2 := "--hint_before_comment= "%string.
Definition oi := "--indentation_string=  "%string.

Lemma need0 : changes 0. Proof. witness (s2l "x=a- -b") [o1; o2]%string. Qed.
Lemma need1 : changes 1. Proof. witness (s2l "f{a" ++ nl ++ s2l ",--[[]]}") [o0; o1; o2; "--force_single_line_table=true"; "--max_width=20"]%string. Qed.
Lemma need2 : changes 2.
Proof. witness (s2l "a()" ++ nl ++ nl ++ s2l "b( )") [o0; o1; o2; "--remove_all_newlines=true"; "--newline_format_oneline_comment=1"; "--newline_format_multiline_comment=1"; "--line_range=1:2"]%string. Qed.
Lemma need3 : changes 3. Proof. witness (s2l "f{d}") [o0; o2; oi; "--newline_format_table_field=1"]%string. Qed.
Lemma need4 : changes 4. Proof. witness (s2l "f--[[x]]--[[y]](a)") [o0; o1; o2; "--remove_comments=true"]%string. Qed.
Lemma need5 : changes 5. Proof. witness (s2l "do a=a,{...}end") [o0; o1; o2; oi; "--newline_format_exp_list=1"; "--write_newline_at_multiline_table=true"]%string. Qed.
Lemma need6 : changes 6. Proof. witness (s2l "f{a" ++ nl ++ s2l ",--[[]]}") [o0; o1; o2; "--write_trailing_field_separator=false"]%string. Qed.
Lemma need7 : changes 7. Proof. witness (s2l "f{a;b}") [o0; o1; o2; "--field_separator=, "; "--newline_format_table_field=2"]%string. Qed.
Lemma need8 : changes 8. Proof. witness (s2l "--[[]]") [o0; o1; o2; "--hint_after_multiline_comment=  "; "--write_newline_at_eof=true"]%string. Qed.
Lemma need9 : changes 9. Proof. witness (s2l "f{a}") [o0; o1; o2; "--hint_table_constructor=  "; "--newline_format_table_field=1"]%string. Qed.
Lemma need10 : changes 10. Proof. witness (s2l "f{--" ++ nl ++ s2l "a}") [o0; o1; o2; oi; "--newline_format_first_oneline_comment=1"]%string. Qed.
Lemma need11 : changes 11. Proof. witness (s2l "f{--[[]]a}") [o0; o1; o2; oi; "--newline_format_first_multiline_comment=1"]%string. Qed.
Lemma need12 : changes 12. Proof. witness (s2l "--" ++ nl ++ nl ++ s2l "--") [o0; o1; o2; "--remove_all_newlines=true"]%string. Qed.
Theorem all_needed i : i < 13 -> changes i.
Proof.
  intros H. do 13 (destruct i as [|i]; [first [exact need0|exact need1|exact need2|exact need3|exact need4|exact need5|exact need6|exact need7|exact need8|exact need9|exact need10|exact need11|exact need12]|]). lia.
Qed.
