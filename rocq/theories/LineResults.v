(** Statements and blocks of a formatted text are on indented lines. *)
From Coq Require Import Lia.
From Verif Require Import Base Lib Config State LuaLexer Ast LuaParser Formatter LexSpec LexProofs LexLoop LayoutSpec LayoutProofs SafeSpec PrettySpec PrettyProofs IdemSpec SettleSpec SettleWalk SettleProds SettleHole SettleGap SettleProofs LineSpec LineProofs LineTree LineNodes LineProds.

Theorem lines_indented src c o : calm c -> readable c src -> breaking c -> process_buffer src c = Formatted o ->
  exists n, parse_lua o = Parsed n /\ forall m e op q d, within c n 0 None m e op -> opens_line m e q d -> line_at c o q d.
Proof.
  intros C Rd Br E. pose proof C as (_ & NF & Hl & _). pose proof (format_stays src c o C Rd E) as S.
  assert (P : exists n, parse_lua o = Parsed n) by (unfold process_buffer in S; destruct (parse_lua o); try discriminate; eauto).
  destruct P as (n & P). assert (L : exists ts, lex o = LexOk ts) by (unfold parse_lua in P; destruct (lex o); try discriminate; eauto).
  destruct L as (ts & L). destruct (format_layout o c n o NF Hl P S) as [Pr _]. destruct (parsed_walk c C o ts n L P) as (q0 & m0 & e0 & l0 & r0 & Q & Wk).
  exists n. split; [exact P|]. intros m e op q d I O. destruct (within_in c Br n 0 None m e op I (parsed_fine c C o n P)) as [F (X & Y & EP)].
  assert (G : good c m) by (inversion F; assumption). pose proof (line_in_context X _ Y q d (opens_in c Br m e q d O G op)) as K. rewrite <- EP in K.
  destruct K as (A & p & B & EB & <- & HA & (G0 & w & R & -> & HG)). apply lex_correct in L.
  refine (lines_at c C (List.length (pieces c n 0 None)) (pieces c n 0 None) true false ts (q0, m0, e0, [(l0, EOF, r0)]) [] o (le_n _) Q _ Wk _ _ L Pr A p d G0 w R EB _ HG).
  - do 5 eexists. reflexivity.
  - split; [apply firm_nil|now left].
  - discriminate.
  - destruct HA as (A0 & w0 & ->). right. eauto.
Qed.
