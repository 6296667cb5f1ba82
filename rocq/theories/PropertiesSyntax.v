(** C44, C45, C46: the texts that luafmt accepts and the grammar of the reference manual. *)
From Verif Require Import Base LuaLexer LuaParser EbnfSpec EbnfProofs EbnfBack EbnfManual.

(** C44: the accepted texts are the programs of one extended BNF. *)
Theorem C44_accepted_language : forall (src : str), (exists n, parse_lua src = Parsed n) <-> program luafmt src.
Proof. exact accepted_ebnf. Qed.
Print Assumptions C44_accepted_language.

(** C45 restricted to the programs of the restricted manual. Missing: a statement that starts with a parenthesis after an
    open one, and a unary operator after [^] or after [-], [#], [~], for which it is false. *)
Theorem C45_manual_accepted_partial : forall (src : str),
  program restricted src -> program manual src /\ exists n, parse_lua src = Parsed n.
Proof. exact restricted_accepted. Qed.
Print Assumptions C45_manual_accepted_partial.

(** C45 is false: two signs, a sign after [^], a parenthesis after an assignment. *)
Theorem C45_signs_refuted : exists src, program manual src /\ parse_lua src = ParseError.
Proof. exists (s2l "x = - -1"). split; [exact signs_program|]. vm_compute. reflexivity. Qed.
Print Assumptions C45_signs_refuted.
Theorem C45_power_refuted : exists src, program manual src /\ parse_lua src = ParseError.
Proof. exists (s2l "x = 2^-3"). split; [exact power_program|]. vm_compute. reflexivity. Qed.
Print Assumptions C45_power_refuted.
Theorem C45_parenthesis_refuted : exists src, program manual src /\ parse_lua src = ParseError.
Proof. exists (s2l "x = 1 (f)()"). split; [exact round_program|]. vm_compute. reflexivity. Qed.
Print Assumptions C45_parenthesis_refuted.

(** C46 with the extended manual. Missing: prefix expressions as statements or on the left of [=], and parameters after
    [...], for which it is false. *)
Theorem C46_accepted_is_lua_partial : forall (src : str) n, parse_lua src = Parsed n -> program extended src.
Proof. exact accepted_extended. Qed.
Print Assumptions C46_accepted_is_lua_partial.

(** C46 is false: [a.b] is no statement. *)
Theorem C46_index_refuted : exists src n, parse_lua src = Parsed n /\ ~ program manual src.
Proof. exists (s2l "a.b"). eexists. split; [vm_compute; reflexivity|exact no_index_program]. Qed.
Print Assumptions C46_index_refuted.

Definition sample : str := s2l "local t = {1; x = -y^2 .. z}
f(t)
for i = 1, #t do (g or h)(i)[1], t.x = i, not i end
return function(a, ...) return a(b - -1) end".
Example C44_case : (exists n, parse_lua sample = Parsed n) /\ parse_lua (s2l "f(a") = ParseError.
Proof. split; [eexists|]; vm_compute; reflexivity. Qed.
Example C44_case_rejected : ~ program luafmt (s2l "f(a").
Proof. intros H. apply C44_accepted_language in H. destruct H as [n H]. vm_compute in H. discriminate H. Qed.
Example C46_case : program extended sample.
Proof. eapply C46_accepted_is_lua_partial. vm_compute. reflexivity. Qed.
Example C45_case : program restricted (s2l "(f)() x = 2 - -1").
Proof. exact restricted_program. Qed.
