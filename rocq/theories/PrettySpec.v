(** The shape of the output, for configurations without the options that force constructs onto one line: a syntax tree
    read from left to right as tokens, gaps and line breaks, each with its depth, and the text these stand for. *)
From Verif Require Import Base Config State LuaLexer Ast LexSpec LayoutSpec CommentLexer CommentSpec RenderSpec.

Definition no_forcing (c : config) : Prop :=
  forall k, In k [B_force_single_line_table; B_force_single_line_var_suffix; B_force_single_line_exp_list;
                  B_force_single_line_iv_table_field; B_force_single_line_kv_table_field; B_force_single_line_binary_op;
                  B_force_single_line_if; B_force_single_line_top_level_function; B_force_single_line_scoped_function] ->
    on c k = false.

(** ** the text of a gap *)

(** the comments and line feeds of a gap, each with the blanks before it, and the blanks at the end *)
Fixpoint units (b : str) (g : list gitem) : list (str * ctoken) * str :=
  match g with
  | [] => ([], b)
  | GBlank x :: r => units (b ++ [x]) r
  | i :: r =>
      let u := units [] r in
      match comment_token i with Some t => ((b, t) :: fst u, snd u) | None => u end
  end.

Definition ends_line (f : str) : bool := match rev f with x :: _ => N.eqb x 10 | [] => false end.
Definition sp_tab (x : char) : bool := N.eqb x 32 || N.eqb x 9.
Fixpoint drop_blanks (s : str) : str := match s with x :: r => if sp_tab x then drop_blanks r else s | [] => [] end.
Definition without_end_blanks (s : str) : str := rev (drop_blanks (rev s)).
(** one blank less at the end, unless it is the whole text *)
Definition without_last_blank (f : str) : str :=
  match rev f with
  | x :: y :: r => if sp_tab x then rev (y :: r) else f
  | _ => f
  end.
Definition indentation (c : config) (d : nat) : str :=
  match cs c S_indentation_string with Some t => List.concat (repeat t d) | None => [] end.
(** a line break after [f] in place of the text [b], and the indentation of depth [d] *)
Definition break_line (c : config) (d : nat) (f b : str) : str :=
  match without_end_blanks b with
  | [] => let f := without_last_blank f in f ++ (if ends_line f then [] else [10%N])
  | b => f ++ b ++ (if ends_line b then [] else [10%N])
  end ++ indentation c d.

Definition text (o : option str) : str := match o with Some s => s | None => [] end.
Definition kept_blanks (c : config) (b : str) : str := if on c B_remove_spaces_between_tokens then [] else b.
Definition own_line (c : config) (first : bool) (t : ctoken) : bool :=
  match t with
  | COneLine _ => nis c (if first then N_newline_format_first_oneline_comment else N_newline_format_oneline_comment) 1
  | CMultiLine _ _ => nis c (if first then N_newline_format_first_multiline_comment else N_newline_format_multiline_comment) 1
  | _ => false
  end.
Definition is_newline (t : ctoken) : bool := match t with CNewLine => true | _ => false end.
(** the comments and line feeds [us] after [f]; [prev] is the one before them. A comment next to a comment gets a hint. *)
Fixpoint comments_from (c : config) (d : nat) (f : str) (prev : option ctoken) (us : list (str * ctoken)) : str :=
  match us with
  | [] => f
  | (b, t) :: r =>
      let f1 :=
        match prev with
        | None => let f := f ++ kept_blanks c b in if own_line c true t then break_line c d f [] else f
        | Some p =>
            if own_line c false t then break_line c d f (kept_blanks c b)
            else f ++ (if on c B_remove_spaces_between_tokens
                       then if is_newline p || is_newline t then [] else text (cs c S_hint_before_comment) else b)
        end in
      comments_from c d (f1 ++ comment_text c t) (Some t) r
  end.
(** the gap [g] at depth [d] when the last character written is [x] *)
Definition block (c : config) (d : nat) (x : char) (g : list gitem) : str :=
  let (us, e) := units [] g in
  tl (match us with
      | [(b, CNewLine)] => if on c B_remove_single_newlines then [x] ++ kept_blanks c b else comments_from c d [x] None us
      | _ => comments_from c d [x] None us
      end) ++ kept_blanks c e.
(** the block with the hints around it, or the hint [h] in place of nothing *)
Definition dressed (c : config) (h b : str) : str :=
  match b with
  | [] => if on c B_replace_zero_spaces_with_hint then h else []
  | x :: _ =>
      (if N.eqb x 45 then text (cs c S_hint_before_comment) else [])
      ++ b
      ++ match rev b with y :: _ => if N.eqb y 93 then text (cs c S_hint_after_multiline_comment) else [] | [] => [] end
  end.

(** ** pieces *)
Inductive piece :=
| PTok (s : str)
| PGap (p : loc) (d : nat) (h : str)        (* a gap with the hint [h] *)
| PLine (p : loc) (d : nat)                 (* a gap turned into a line break *)
| PFull (p : loc) (d : nat) (h : str)       (* a line break if the line is full, else a gap *)
| PEmpty (p : loc) (d : nat) (h : str).     (* a line break if the gap has one, else a gap *)

Definition last_char (f : str) : char := match rev f with x :: _ => x | [] => 32%N end.
Definition line_length (f : str) : nat :=
  (fix go s := match s with x :: r => if N.eqb x 10 then 0 else S (go r) | [] => 0 end) (rev f).
Definition full (c : config) (f : str) : bool :=
  match cn c N_max_width with Some m => N.leb m (N.of_nat (line_length f)) | None => false end.

Definition put_gap (c : config) (d : nat) (h f : str) (g : list gitem) : str := f ++ dressed c h (block c d (last_char f) g).
Definition put_line (c : config) (d : nat) (f : str) (g : list gitem) : str :=
  break_line c d f (dressed c [] (block c d 32%N g)).
Definition put_full (c : config) (d : nat) (h f : str) (g : list gitem) : str :=
  if full c f then put_line c d f g else put_gap c d h f g.
Definition put_empty (c : config) (d : nat) (h f : str) (g : list gitem) : str :=
  if existsb (N.eqb 10) (dressed c h (block c d 32%N g)) then put_line c d f g else put_gap c d h f g.

(** the gap [g] is the text of [src] at [p] *)
Definition gap_text_at (src : str) (p : loc) (g : list gitem) : Prop :=
  fst p <= snd p /\ snd p <= List.length src /\ gap_at src (snd p) g /\ text_at src (fst p) (snd p) = gap_text g.

(** [prints c src f ps o]: written after [f], the pieces give [o] *)
Inductive prints (c : config) (src : str) : str -> list piece -> str -> Prop :=
| pr_nil : forall f, prints c src f [] f
| pr_tok : forall f s ps o, prints c src (f ++ s) ps o -> prints c src f (PTok s :: ps) o
| pr_gap : forall f p d h g ps o, gap_text_at src p g -> prints c src (put_gap c d h f g) ps o ->
    prints c src f (PGap p d h :: ps) o
| pr_line : forall f p d g ps o, gap_text_at src p g -> prints c src (put_line c d f g) ps o ->
    prints c src f (PLine p d :: ps) o
| pr_full : forall f p d h g ps o, gap_text_at src p g -> prints c src (put_full c d h f g) ps o ->
    prints c src f (PFull p d h :: ps) o
| pr_empty : forall f p d h g ps o, gap_text_at src p g -> prints c src (put_empty c d h f g) ps o ->
    prints c src f (PEmpty p d h :: ps) o.

(** ** the pieces of a tree *)
Definition space : str := [32%N].

(** where a gap and the node after it are: at the depth of the construct, one deeper, or one deeper if child [k] hangs *)
Inductive place := Here | Deeper | Hanging (k : nat).
Definition glue := (place * bool * str)%type.
Definition tight : glue := (Here, false, []).
Definition blank : glue := (Here, false, space).
Definition line (b : bool) : glue := (Here, b, space).
Definition open (b : bool) : glue := (Deeper, b, space).
Definition param : glue := (Deeper, false, []).
Definition hang (k : nat) (h : str) : glue := (Hanging k, false, h).

(** what stands between the parts of a regular construct; [true] asks for a line break *)
Definition glues (c : config) (k : kind) : list glue :=
  let fn := nis c N_newline_format_function 1 in
  let iff := nis c N_newline_format_if 1 in
  let whl := nis c N_newline_format_while 1 in
  let rep := nis c N_newline_format_repeat_until 1 in
  let for_ := nis c N_newline_format_for 1 in
  let de := nis c N_newline_format_do_end 1 in
  match k with
  | KUnaryNot => [blank]
  | KVar => [hang 1 []]
  | KRoundBrackets => [tight; tight]
  | KArgsRoundBrackets => [hang 0 []; tight]
  | KArgsRoundBracketsEmpty => [tight]
  | KFieldNamedBracket => [tight; tight; blank; blank]
  | KFieldNamed => [blank; blank]
  | KTableIndex => [tight; tight]
  | KTableMember => [tight]
  | KVarRoundSuffix => [tight; tight; hang 1 []]
  | KFnMethodCall => [tight; tight]
  | KFunctionDef => [tight]
  | KFuncBody => [tight; line fn]
  | KFuncBodyB => [tight; open fn; line fn]
  | KFuncPBody => [param; param; line fn]
  | KFuncPBodyB => [param; param; open fn; line fn]
  | KFuncDecl => [blank; tight]
  | KLocalFuncDecl => [blank; blank; tight]
  | KDoEnd => [blank]
  | KDoBEnd => [open de; line de]
  | KVarsExprs => [blank; hang 1 space]
  | KLabel => [tight; tight]
  | KGoTo => [blank]
  | KWhileDo => [blank; blank; line whl]
  | KWhileDoB => [blank; blank; open whl; line whl]
  | KRepeatUntil => [line rep; blank]
  | KRepeatBUntil => [open rep; line rep; blank]
  | KForInt => [blank; blank; blank; tight; blank; blank; blank]
  | KForIntB => [blank; blank; blank; tight; blank; blank; open for_; line for_]
  | KForIntStep => [blank; blank; blank; tight; blank; tight; blank; blank; line for_]
  | KForIntStepB => [blank; blank; blank; tight; blank; tight; blank; blank; open for_; line for_]
  | KForRange => [blank; blank; hang 1 space; blank; line for_]
  | KForRangeB => [blank; blank; hang 1 space; blank; open for_; line for_]
  | KLocalNames => [blank]
  | KLocalNamesExprs => [blank; blank; hang 1 space]
  | KIfThen => [blank; blank; line iff]
  | KIfThenB => [blank; blank; open iff; line iff]
  | KIfThenElse => [blank; blank; blank; line iff]
  | KIfThenBElse => [blank; blank; open iff; line iff; line iff]
  | KIfThenElseB => [blank; blank; blank; open iff; line iff]
  | KIfThenBElseB => [blank; blank; open iff; line iff; open iff; line iff]
  | KIfThenElseIf => [blank; blank; line iff; line iff]
  | KIfThenBElseIf => [blank; blank; open iff; line iff; line iff]
  | KIfThenElseIfElse => [blank; blank; line iff; line iff; line iff]
  | KIfThenBElseIfElse => [blank; blank; open iff; line iff; line iff; line iff]
  | KIfThenElseIfElseB => [blank; blank; line iff; line iff; open iff; line iff]
  | KIfThenBElseIfElseB => [blank; blank; open iff; line iff; line iff; open iff; line iff]
  | KElseIfThen => [blank; blank]
  | KElseIfThenB => [blank; blank; open iff]
  | KRetStatExpr => [hang 0 space]
  | KRetStatNoneComma => [tight]
  | KRetStatExprComma => [hang 0 space; (Hanging 0, false, [])]
  | KStatsRetStat => [line (nsome c N_newline_format_statement)]
  | _ => []
  end.

(** lists: is the item [x] of a list of kind [k] put on a new line? *)
Definition starts_line (c : config) (k : kind) (first : bool) (x : node) : bool :=
  match k with
  | KStatementList => negb first && nsome c N_newline_format_statement
  | KElseIfThenVec => negb first && nis c N_newline_format_if 1
  | KVarSuffixList =>
      nsome c N_newline_format_var_suffix && match n_kind x with KFnMethodCall | KTableMember => true | _ => false end
  | KFields => nsome c N_newline_format_table_field
  | KExpList =>
      if first then nis c N_newline_format_exp_list_first 1
      else nis c N_newline_format_exp_list 1
           || ((nsome c N_newline_format_exp_list || nsome c N_newline_format_exp_list_first)
               && match n_kind x with KTableConstructor => true | _ => false end
               && on c B_write_newline_at_explist_multiline_table
               && match cb c B_write_newline_at_multiline_table with Some false => true | _ => false end)
  | _ => false
  end.
Fixpoint any_line (c : config) (k : kind) (first : bool) (l : list node) : bool :=
  match l with [] => false | x :: r => starts_line c k first x || any_line c k false r end.

(** does the list [n] get an indentation of its own? *)
Definition hangs (c : config) (n : node) : bool :=
  match n_kind n with
  | KVarSuffixList =>
      match n_items n with
      | [] => false
      | l => on c B_indent_var_suffix && (on c B_indent_one_line_var_suffix || any_line c (n_kind n) true (map snd l))
      end
  | KExpList =>
      match n_seps n with
      | [] => false
      | l => on c B_indent_exp_list && (on c B_indent_one_line_exp_list || any_line c (n_kind n) true (map si_node l))
      end
  | KFields => any_line c (n_kind n) true (map si_node (n_seps n))
  | _ => false
  end.

(** the hint between two items of a list without separators *)
Definition item_hint (x : node) : str :=
  match n_kind x with
  | KSemicolon | KArgsRoundBrackets | KArgsRoundBracketsEmpty | KTableIndex | KTableMember | KFnMethodCall
  | KTableConstructor | KTableConstructorEmpty => []
  | _ => space
  end.

(** the pieces of a node at a depth, inside an expression with the given operator *)
Definition printer := nat -> option str -> list piece.
Definition no_printer : printer := fun _ _ => [PTok (s2l "nil")].

(** the text between double quotes for a text between single quotes *)
Fixpoint requote (s : str) : str :=
  match s with
  | [] => []
  | x :: r =>
      if N.eqb x 92 then match r with y :: r' => 92%N :: y :: requote r' | [] => [92%N] end
      else if N.eqb x 34 then 92%N :: 34%N :: requote r
      else x :: requote r
  end.
Definition quoted (q : char) (s : str) : str := [q] ++ s ++ [q].

Section Pieces.
  Variable c : config.
  Definition gap_or_line (b : bool) (p : loc) (d : nat) (h : str) : piece := if b then PLine p d else PGap p d h.

  Fixpoint weave (K : list printer) (hung : nat -> bool) (ls : list loc) (d : nat) (op : option str)
      (i j : nat) (here : nat * option str) (gl : list glue) (ps : list part) : list piece :=
    match ps with
    | [] => []
    | p :: r =>
        let j' := match p with TT _ => j | TK => S j end in
        match p with TT t => [PTok (spelling t)] | TK => nth j K no_printer (fst here) (snd here) end
        ++ match r with
           | [] => []
           | _ =>
               let '(w, b, h) := hd tight gl in
               let deep := match w with Here => false | Deeper => true | Hanging k => hung k end in
               let there := if deep then (S d, None) else (d, op) in
               gap_or_line b (nth i ls dummy_loc) (fst there) h
               :: weave K hung ls d op (S i) j' there (tl gl) r
           end
    end.

  (** the items of a list, [sep] being written after each but the last one and [trail] after the last one *)
  Fixpoint items_from (k : kind) (first : bool) (d : nat) (op : option str) (l : list (loc * node * printer)) : list piece :=
    match l with
    | [] => []
    | (p, x, P) :: r =>
        gap_or_line (starts_line c k first x) p d (if first then [] else item_hint x) :: P d op
        ++ items_from k false d op r
    end.
  Fixpoint seps_from (k : kind) (first : bool) (d : nat) (op : option str) (h : str) (sep trail : str -> str)
      (l : list (loc * node * loc * str * printer)) : list piece :=
    match l with
    | [] => []
    | (p, x, q, z, P) :: r =>
        gap_or_line (starts_line c k first x) p d (if first then [] else h) :: P d op
        ++ PGap q d [] :: PTok (match r with [] => trail z | _ => sep z end)
        :: seps_from k false d op h sep trail r
    end.

  Definition table_hint : str := text (cs c S_hint_table_constructor).
  Definition field_separator (z : str) : str := match cs c S_field_separator with Some s => s | None => z end.
  Definition last_separator (z : str) : str :=
    match cb c B_write_trailing_field_separator with
    | Some true => field_separator z
    | Some false => []
    | None => if is_empty z then [] else field_separator z
    end.

  Fixpoint pieces (n : node) : printer :=
    let '(Nd k _ ls t lv ks is ss _) := n in fun d op =>
    let K := map pieces ks in
    let at_ i := nth i ls dummy_loc in
    let kid_ i d op := nth i K no_printer d op in
    let commas h s :=
      seps_from k true d op h (fun _ => s) (fun _ => [])
        (map (fun x => (x, pieces (snd (fst (fst x))))) ss) in
    match k with
    | KBinaryOp =>
        let d' := match op with Some o => if str_eqb o t then d else S d | None => S d end in
        kid_ 0 d' (Some t)
        ++ [gap_or_line (nis c N_newline_format_binary_op 1) (at_ 0) d' space; PTok t;
            gap_or_line (nis c N_newline_format_binary_op 2) (at_ 1) d' space]
        ++ kid_ 1 d' (Some t)
    | KUnaryOp => [PTok t; PGap (at_ 0) d []] ++ kid_ 0 d op
    | KName | KNumeral => [PTok t]
    | KNormalStringLiteral => [PTok (quoted 34%N t)]
    | KCharStringLiteral =>
        [PTok (if on c B_convert_charstring_to_normalstring then quoted 34%N (requote t) else quoted 39%N t)]
    | KMultiLineStringLiteral => [PTok (long lv t)]
    | KSheBang => [PTok (t ++ [10%N])]
    | KStatementList | KVarSuffixList | KElseIfThenVec =>
        items_from k true d op (map (fun x => (x, pieces (snd x))) is)
    | KExpList | KNameList | KVarList | KParList => commas space (s2l ",")
    | KFuncName => commas [] (s2l ".")
    | KFuncNameSelf => commas [] (s2l ".") ++ [PGap (at_ 0) d []; PTok (s2l ":"); PGap (at_ 1) d []] ++ kid_ 0 d op
    | KFields =>
        seps_from k true d op space field_separator last_separator (map (fun x => (x, pieces (snd (fst (fst x))))) ss)
    | KTableConstructor =>
        [gap_or_line (on c B_write_newline_at_multiline_table) (0, 0) d table_hint; PTok (s2l "{");
         PGap (at_ 0) (S d) table_hint]
        ++ kid_ 0 (S d) None
        ++ [if nis c N_newline_format_table_constructor 1 then PLine (at_ 1) d else PFull (at_ 1) d table_hint;
            PTok (s2l "}")]
    | KTableConstructorEmpty => [PTok (s2l "{"); PEmpty (at_ 0) d table_hint; PTok (s2l "}")]
    | KChunk => PGap (at_ 0) d [] :: kid_ 0 d op ++ [gap_or_line (on c B_write_newline_at_eof) (at_ 1) d []]
    | KSheBangChunk =>
        PGap (at_ 0) d [] :: kid_ 0 d op ++ PGap (at_ 1) d [] :: kid_ 1 d op
        ++ [gap_or_line (on c B_write_newline_at_eof) (at_ 2) d []]
    | _ => weave K (fun j => hangs c (nth j ks dummy_node)) ls d op 0 0 (d, op) (glues c k) (template k)
    end.
End Pieces.
