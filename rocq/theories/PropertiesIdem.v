(** C34: formatting a formatted text again. *)
From Verif Require Import Base Config LuaLexer Formatter RefuteSpec FormatSpec SafeSpec CanonSpec IdemSpec IdemProofs.

(** C34, for texts without comments and configurations that remove all line feeds and blanks of the source, measure nothing in
    it and write what can be read back: a formatted text is formatted to itself. (In general C34 is false, see
    [C34_idempotent_refuted] and below.) *)
Theorem C34_idempotent_partial : forall (src : str) (c : config) (o : str), settled c -> on c B_remove_all_newlines = true ->
  readable c src -> gaps_are only_blanks src -> process_buffer src c = Formatted o -> process_buffer o c = Formatted o.
Proof. exact format_settles. Qed.
Print Assumptions C34_idempotent_partial.

(** With single line feeds removed only, when neither the source nor the output has comments or empty lines. *)
Theorem C34_single_newlines_partial : forall (src : str) (c : config) (o : str), settled c -> readable c src ->
  process_buffer src c = Formatted o -> gaps_are (removed_gap c) src -> gaps_are (removed_gap c) o -> process_buffer o c = Formatted o.
Proof. exact format_again. Qed.
Print Assumptions C34_single_newlines_partial.

Definition nl : str := [10%N].
(** The separators, the quotes, the blanks and the line feeds change, once. *)
Example C34_case : let src := s2l "x ={a;'b' ;" ++ nl ++ s2l " c=1}do y()end" in
  settled C34_options /\ readable C34_options src /\ gaps_are only_blanks src
  /\ process_buffer src C34_options = Formatted (s2l "x = {a, ""b"", c = 1,}" ++ nl ++ s2l "do" ++ nl ++ s2l "  y()" ++ nl ++ s2l "end").
Proof.
  cbn zeta. split; [exact (proj1 C34_options_settled)|]. split; [|split; [|vm_compute; reflexivity]].
  - intros ts L. vm_compute in L. injection L as <-. split.
    + intros (a & p & q & r & s & lv & body & b & E). repeat (destruct a as [|? a]; [discriminate|injection E as _ E]). destruct a; discriminate.
    + intros (a & p & s & q & e & E & _). repeat (destruct a as [|? a]; [discriminate|injection E as _ E]). destruct a; discriminate.
  - eexists. split; [vm_compute; reflexivity|]. cbn. repeat (apply Forall_cons; [unfold only_blanks; repeat (apply Forall_cons; [cbn; tauto|]); apply Forall_nil|]). apply Forall_nil.
Qed.

(** Comments are a reason why C34 fails also for these configurations: between two removed comments a blank is written that is
    removed the next time. *)
Theorem C34_comments_refuted : exists (src out out2 : str) (c : config), settled c /\ on c B_remove_all_newlines = true /\ readable c src
  /\ process_buffer src c = Formatted out /\ process_buffer out c = Formatted out2 /\ out2 <> out.
Proof. exact removed_comments. Qed.
Print Assumptions C34_comments_refuted.
