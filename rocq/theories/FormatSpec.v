(** What a formatted text consists of. *)
From Verif Require Import Base State LuaLexer CommentLexer Ast LuaParser LexSpec CommentSpec Config LayoutSpec UtilSpec RenderSpec.

(** ** tokens *)
(** A single-quoted string becomes a double-quoted one of the same value when that is asked for. *)
Definition token_becomes (c : config) (t t' : token) : Prop :=
  match t with
  | CharStringLiteral s =>
      if on c B_convert_charstring_to_normalstring
      then exists s', t' = NormalStringLiteral s' /\ token_ok t' /\ lua_value s' = lua_value s
      else t' = t
  | _ => t' = t
  end.
(** a token as it is written; a shebang line with its line feed *)
Definition token_out (t : token) : str := match t with SheBang s => s ++ [10%N] | _ => spelling t end.

(** [x] is [y], perhaps without some blanks at its end *)
Definition cut_of (y x : str) : Prop := exists b, y = x ++ b /\ Forall (fun a => a = 32%N \/ a = 9%N) b.

(** ** separators of table fields *)
Definition separator_out (c : config) (z : str) : str := match cs c S_field_separator with Some s => s | None => z end.
(** After the last field, where [z] is what the source has: the same (with the separator asked for), always one, or none.
    None is also written for a table on one line. *)
Definition trailing_out (c : config) (z x : str) : Prop :=
  exists o, (o = cb c B_write_trailing_field_separator \/ (on c B_force_single_line_table = true /\ o = Some false))
    /\ cut_of (match o with
               | Some true => separator_out c z
               | Some false => []
               | None => match z with [] => [] | _ => separator_out c z end
               end) x.

(** ** slots *)
Definition comments (gs : list gitem) : list ctoken :=
  flat_map (fun g => match comment_token g with Some t => [t] | None => [] end) gs.
(** [x] is written for the slot [s]; [P gs x] says what is written for a gap that is the items [gs] in the source *)
Definition slot_with (P : list gitem -> str -> Prop) (c : config) (src : str) (s : slot) (x : str) : Prop :=
  match s with
  | STok t => exists t', token_becomes c t t' /\ x = token_out t'
  | SGap (a, b) => exists gs, gap_at src b gs /\ text_at src a b = gap_text gs /\ P gs x
  | SSep z => cut_of (separator_out c z) x
  | STrail z => trailing_out c z x
  | SVoid => P [] x
  end.
Definition slot_written (c : config) : str -> slot -> str -> Prop := slot_with (fun gs => gap_written c (comments gs)) c.
(** the output [o] for [src]: the slots of its tree in their order, each written once *)
Definition output_with (P : list gitem -> str -> Prop) (c : config) (src o : str) : Prop :=
  exists n xs, parse_lua src = Parsed n /\ Forall2 (slot_with P c src) (layout n) xs /\ o = List.concat xs.

(** ** properties of gaps, for special configurations *)
(** the text of a comment: the same, or with the white space at an end replaced by the hint for it *)
Definition same_text (lead trail : option str) (s s' : str) : Prop :=
  exists a m b, s = a ++ m ++ b /\ s' = match lead with Some p => p | None => a end ++ m ++ match trail with Some q => q | None => b end
    /\ (lead <> None -> forallb is_whitespace a = true) /\ (trail <> None -> forallb is_whitespace b = true).
(** [x] is a comment of the same kind, of the same level and with the same text as [g] *)
Definition same_comment (c : config) (g : gitem) (x : str) : Prop :=
  match g with
  | GLine s | GLast s => exists s', x = [45; 45]%N ++ s' ++ [10%N]
      /\ (same_text (cs c S_hint_before_oneline_comment_text) None s s' \/ (forallb is_whitespace s = true /\ s' = []))
  | GLong level s => exists s', x = [45; 45]%N ++ long level s'
      /\ same_text (cs c S_hint_before_multiline_comment_text) (cs c S_hint_after_multiline_comment_text) s s'
  | GBlank _ | GNewline => False
  end.
(** [x] is the comments of [gs] in their order, each once, with line feeds, blanks and hints between them *)
Inductive keeps (c : config) : list gitem -> str -> Prop :=
| ks_nil : keeps c [] []
| ks_filler : forall x gs y, filler c True x -> keeps c gs y -> keeps c gs (x ++ y)
| ks_blank : forall b gs y, keeps c gs y -> keeps c (GBlank b :: gs) y
| ks_newline : forall gs y, keeps c gs y -> keeps c (GNewline :: gs) y
| ks_comment : forall g x gs y, same_comment c g x -> keeps c gs y -> keeps c (g :: gs) (x ++ y).

(** hints and inserted line feeds, without any character of the source *)
Inductive hints (c : config) (nl : Prop) : str -> Prop :=
| hi_nil : hints c nl []
| hi_app : forall x y, hints c nl x -> hints c nl y -> hints c nl (x ++ y)
| hi_text : forall k h, In k [S_hint_before_comment; S_hint_after_multiline_comment] -> cs c k = Some h -> hints c nl h
| hi_zero : forall h, on c B_replace_zero_spaces_with_hint = true -> h = [32%N] \/ cs c S_hint_table_constructor = Some h -> hints c nl h
| hi_line : forall h, nl -> h = [10%N] \/ cs c S_indentation_string = Some h -> hints c nl h
| hi_cut : forall x b, hints c nl (x ++ [b]) -> b = 32%N \/ b = 9%N -> hints c nl x.
(** the comments and line feeds [ts] with nothing but hints between them *)
Inductive hinted (c : config) (nl : Prop) : list ctoken -> str -> Prop :=
| hd_nil : hinted c nl [] []
| hd_hints : forall x ts y, hints c nl x -> hinted c nl ts y -> hinted c nl ts (x ++ y)
| hd_comment : forall t ts y, hinted c nl ts y -> hinted c nl (t :: ts) (comment_text c t ++ y).

(** ** without options *)
Definition unset (c : config) : Prop := (forall k, cb c k = None) /\ (forall k, cs c k = None) /\ (forall k, cn c k = None).
(** if there is a line feed, there is one at the end *)
Definition lines_end (x : str) : Prop := ~ In 10%N x \/ exists y, x = y ++ [10%N].
(** the text [src] of the slots [ss] ends inside a one-line comment, or in a shebang line without line feed *)
Definition open_line (src : str) (ss : list slot) : Prop :=
  (exists a gs s, In (SGap (a, List.length src)) ss /\ text_at src a (List.length src) = gap_text (gs ++ [GLast s]) /\ last_gap (gs ++ [GLast s]))
  \/ exists s a, In (STok (SheBang s)) ss /\ src = a ++ s.
