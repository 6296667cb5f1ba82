(** C05, C06: reading the formatted text again. *)
From Verif Require Import Base Config State LuaLexer Ast LuaParser Formatter Shipped RefuteSpec LexSpec LayoutSpec FormatSpec SafeSpec RelexProofs.

(** C05: the place where a separator of table fields may be added or dropped is directly before a closing brace. (The
    rest of C05 is [C05_tokens_in_order].) *)
Theorem C05_trailing_before_brace : forall (src : str) (n : node) (a : list slot) (z : str) (b : list slot),
  parse_lua src = Parsed n -> layout n = a ++ STrail z :: b ->
  exists gs r, b = gs ++ STok CloseCurlyBracket :: r /\ Forall (fun s => match s with SGap _ | SVoid => True | _ => False end) gs.
Proof. exact trail_before_brace. Qed.
Print Assumptions C05_trailing_before_brace.

Example C05_trailing_case : exists n a z b, parse_lua (s2l "x={1,2;}") = Parsed n /\ layout n = a ++ STrail z :: b /\ z = s2l ";".
Proof. eexists. eexists [_; _; _; _; _; _; _; _; _; _; _; _; _; _; _; _; _; _; _], _, _. vm_compute. repeat split. Qed.

(** C06, with one proviso more: the source does not end in a numeral with an open exponent or
    in [0x], unless a line feed at the end is asked for. The output can be
    read, and its tokens are those that are to be written for the source's tree. *)
Theorem C06_preserved_partial : forall (src : str) (c : config) (o : str) (ts : list ptok), tidy c -> line_range c = None ->
  process_buffer src c = Formatted o -> lex src = LexOk ts -> ~ brackets_meet ts -> (open_numeral ts -> on c B_write_newline_at_eof = true) ->
  exists n ts', parse_lua src = Parsed n /\ lex o = LexOk ts' /\ writes c (layout n) (tokens_of ts').
Proof. exact format_relex. Qed.
Print Assumptions C06_preserved_partial.

(** The same for the tokens of both texts. *)
Theorem C06_same_program_partial : forall (src : str) (c : config) (o : str) (ts : list ptok), tidy c -> line_range c = None ->
  process_buffer src c = Formatted o -> lex src = LexOk ts -> ~ brackets_meet ts -> (open_numeral ts -> on c B_write_newline_at_eof = true) ->
  exists ts', lex o = LexOk ts' /\ same_program c (tokens_of ts) (tokens_of ts').
Proof. exact format_same_program. Qed.
Print Assumptions C06_same_program_partial.

(** C06, C07: the shipped configuration is one of these, and asks for the line feed. *)
Theorem C07_shipped_preserves_partial : forall (src o : str) (ts : list ptok), process_buffer src shipped = Formatted o -> lex src = LexOk ts ->
  ~ brackets_meet ts -> exists ts', lex o = LexOk ts' /\ same_program shipped (tokens_of ts) (tokens_of ts').
Proof. exact shipped_same_program. Qed.
Print Assumptions C07_shipped_preserves_partial.

Example C06_case :
  process_buffer (s2l "local x=- --[[c]]y..z f{a;[ ""k""]=2,}--d") shipped
  = Formatted (s2l "local x = - --[[ c ]] y .. z
f { a, [""k""] = 2 } -- d
").
Proof. vm_compute. reflexivity. Qed.

(** Without the proviso C06 is false: [x=1e] and a line feed can be read, but [x = 1e] cannot. *)
Theorem C06_preserved_refuted : exists (src : str) (c : config) (o : str) (ts : list ptok), tidy c /\ line_range c = None /\
  process_buffer src c = Formatted o /\ lex src = LexOk ts /\ ~ brackets_meet ts /\ forall ts', lex o <> LexOk ts'.
Proof. exact numeral_lost. Qed.
Print Assumptions C06_preserved_refuted.

(** The other proviso is needed too: [a[ [[b]] ]] is written as [a[[[b]]]]. *)
Theorem C06_brackets_refuted : exists (src : str) (c : config) (o : str) (ts : list ptok), tidy c /\ line_range c = None /\
  process_buffer src c = Formatted o /\ lex src = LexOk ts /\ ~ open_numeral ts /\
  forall ts', lex o = LexOk ts' -> ~ same_program c (tokens_of ts) (tokens_of ts').
Proof. exact brackets_glued. Qed.
Print Assumptions C06_brackets_refuted.
