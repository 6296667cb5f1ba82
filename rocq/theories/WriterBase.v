(** The writing monad, position hints, decorations and lists:
    src/formatting/{loc_hint,decoration,list,util}.rs and src/parser/comment_ast.rs. *)
From Verif Require Import Base Config State Ast CommentGrammar CommentParser.

(** What a Rust call can see and change: the output buffer, the [State], and the [Cell]s inside the tree.
    [w_oneline] holds the positions of the tables whose [is_oneline] is set (lua_ast.rs:18), [w_indent] the
    values of [has_indent] (lua_ast.rs:31) by position of the field list; both default to false. *)
Record world := mk_world {
  w_f : str;
  w_st : state;
  w_oneline : list nat;
  w_indent : list (nat * bool)
}.

(** [RErr] is [Err(fmt::Error)], [RPanic] a Rust panic, [RFuel] the model running out of fuel (never, see
    OutcomeProofs.v). *)
Inductive res (A : Type) := ROk (a : A) | RErr | RPanic | RFuel.
Arguments ROk {A}. Arguments RErr {A}. Arguments RPanic {A}. Arguments RFuel {A}.

Definition M (A : Type) := world -> res A * world.

Definition ret {A} (a : A) : M A := fun w => (ROk a, w).
Definition err {A} : M A := fun w => (RErr, w).
Definition panic {A} : M A := fun w => (RPanic, w).
Definition nofuel {A} : M A := fun w => (RFuel, w).
Definition bind {A B} (m : M A) (k : A -> M B) : M B :=
  fun w => match m w with
           | (ROk a, w') => k a w'
           | (RErr, w') => (RErr, w')
           | (RPanic, w') => (RPanic, w')
           | (RFuel, w') => (RFuel, w')
           end.
Notation "x <- m ;; k" := (bind m (fun x => k)) (at level 61, m at next level, right associativity).
Notation "m ;;; k" := (bind m (fun _ => k)) (at level 61, right associativity).

Definition set_f (f : str) (w : world) : world := mk_world f (w_st w) (w_oneline w) (w_indent w).
Definition set_st (s : state) (w : world) : world := mk_world (w_f w) s (w_oneline w) (w_indent w).

(** [write!(f, "{}", s)] *)
Definition emit (s : str) : M unit := fun w => (ROk tt, set_f (w_f w ++ s) w).
Definition get_f : M str := fun w => (ROk (w_f w), w).
Definition get_st : M state := fun w => (ROk (w_st w), w).
Definition put_st (s : state) : M unit := fun w => (ROk tt, set_st s w).
Definition emit_opt (o : option str) : M unit := match o with Some s => emit s | None => panic end.

(** writes into a fresh [String] instead of [f]; the state is the same one *)
Definition in_buffer (start : str) (m : M unit) : M str :=
  fun w => match m (set_f start w) with
           | (ROk _, w') => (ROk (w_f w'), set_f (w_f w) w')
           | (RErr, w') => (RErr, set_f (w_f w) w')
           | (RPanic, w') => (RPanic, w')
           | (RFuel, w') => (RFuel, w')
           end.

(** util.rs:120-127 *)
Definition write_indent (c : config) : M unit := s <- get_st ;; emit (indent_text c s).

(** Positions are written by a function of the hint: [CommentLocHint(loc, hint)] or
    [SpaceLocHint(loc, hint)]. *)
Definition hinted := str -> M unit.

(** decoration.rs:6-48 [IfNewLine] *)
Definition pop_blank (f : str) : str :=
  if (1 <? blen f) then
    match rev f with
    | c :: r => if is_sp_tab c then rev r else f
    | [] => f
    end
  else f.
Definition ends_nl (f : str) : bool :=
  match lastc f with Some c => ceq c ch_nl | None => false end.
Definition if_newline (c : config) (b : bool) (H : hinted) (hint : str) : M unit :=
  if negb b then H hint
  else
    block <- in_buffer [] (H []) ;;
    let trimmed := trim_end_spaces_and_tabs block in
    (if negb (is_empty trimmed) then
       emit trimmed ;;;
       (if ends_nl trimmed then ret tt else emit [ch_nl])
     else
       fun w =>
         let f := pop_blank (w_f w) in
         (ROk tt, set_f (if ends_nl f then f else f ++ [ch_nl]) w)) ;;;
    write_indent c.

(** decoration.rs:50-60 *)
Definition opt_str_eqb (a b : option str) : bool :=
  match a, b with
  | Some x, Some y => str_eqb x y
  | None, None => true
  | _, _ => false
  end.
Definition inc_indent_st (o : option str) (s : state) : state :=
  let top_differs := match stack_indent s with t :: _ => negb (opt_str_eqb t o) | [] => true end in
  set_indent (if is_none o || top_differs then (indent_level s + 1)%Z else indent_level s)
    (o :: stack_indent s) s.
Definition inc_indent (o : option str) : M unit := s <- get_st ;; put_st (inc_indent_st o s).

(** decoration.rs:62-72 *)
Definition dec_indent_st (s : state) : state :=
  match stack_indent s with
  | [] => s
  | last :: rest =>
      let top_differs := match rest with t :: _ => negb (opt_str_eqb t last) | [] => true end in
      set_indent (if is_none last || top_differs then (indent_level s - 1)%Z else indent_level s) rest s
  end.
Definition dec_indent : M unit := s <- get_st ;; put_st (dec_indent_st s).

(** decoration.rs:74-88 *)
Definition inc_func_level : M unit := s <- get_st ;; put_st (set_func_level (function_nested_level s + 1) s).
Definition dec_func_level : M unit := s <- get_st ;; put_st (set_func_level (function_nested_level s - 1) s).

(** common.rs:8-12: a bare [Loc] written from the text [buf] *)
Definition write_loc (buf : str) (l : loc) : M unit := s <- get_st ;; emit_opt (substr l buf s 0).

Section List.
  Context {node : Type}.
  Variables (c : config)
    (buf : str)                                  (* the text positions refer to *)
    (LH : loc -> hinted)                         (* [Hint::new] *)
    (W : node -> M unit)                         (* [configured_write] of an item *)
    (need_newlines : bool)                       (* [list_node.need_newlines(cfg)] *)
    (first_nl : node -> M bool)                  (* [need_first_newline] *)
    (nl : node -> node -> M bool)                (* [need_newline], previous item first *)
    (prefix_hint : node -> str).                 (* [list_item_prefix_hint] *)

  Definition lazy_and (b : bool) (m : M bool) : M bool := if b then m else ret false.

  (** list.rs:109-126 *)
  Fixpoint write_list_rest (indent : bool) (prev : node) (l : list (loc * node)) : M bool :=
    match l with
    | [] => ret indent
    | (p, x) :: r =>
        s <- get_st ;;
        indent' <- (if test_out_of_range (pos_range s) p then write_loc buf p ;;; ret indent
                    else
                      b <- lazy_and need_newlines (nl prev x) ;;
                      if_newline c b (LH p) (prefix_hint x) ;;; ret (indent || b)) ;;
        W x ;;; write_list_rest indent' x r
    end.

  (** list.rs:89-131 [cfg_write_list] *)
  Definition write_list (l : list (loc * node)) : M bool :=
    match l with
    | [] => ret false
    | (p, x) :: r =>
        b <- lazy_and need_newlines (first_nl x) ;;
        if_newline c b (LH p) [] ;;;
        W x ;;;
        write_list_rest b x r
    end.

  Variables (sep : option str) (trailing : M (option bool)) (elem_hint : str).

  Definition get_sep (item_sep : str) : str := match sep with Some s => s | None => item_sep end.

  (** list.rs:58-76; [prev], [psep] are the previous item and its own separator *)
  Fixpoint write_seps_rest (indent : bool) (prev : node) (psep : str) (l : list (loc * node * loc * str))
    : M (bool * str) :=
    match l with
    | [] => ret (indent, psep)
    | (p, x, q, z) :: r =>
        emit (get_sep psep) ;;;
        s <- get_st ;;
        indent' <- (if test_out_of_range (pos_range s) p then write_loc buf p ;;; ret indent
                    else
                      b <- lazy_and need_newlines (nl prev x) ;;
                      if_newline c b (LH p) elem_hint ;;; ret (indent || b)) ;;
        W x ;;; LH q [] ;;; write_seps_rest indent' x z r
    end.

  (** list.rs:31-87 [cfg_write_sep_list] *)
  Definition write_seps (l : list (loc * node * loc * str)) : M bool :=
    match l with
    | [] => ret false
    | (p, x, q, z) :: r =>
        b <- lazy_and need_newlines (first_nl x) ;;
        if_newline c b (LH p) [] ;;;
        W x ;;;
        LH q [] ;;;
        res <- write_seps_rest b x z r ;;
        t <- trailing ;;
        (if (is_none t && negb (is_empty (snd res))) || obool_is t true
         then emit (get_sep (snd res)) else ret tt) ;;;
        ret (fst res)
    end.
End List.

(** * Comments, comment_ast.rs *)
Section Comment.
  Variables (c : config) (cbuf : str).

  Definition sopt_or (o : option str) : str := match o with Some s => s | None => [] end.

  (** util.rs:26-32 [out_of_range_comment_only_write!] followed by the rest *)
  Definition comment_range_or (span : loc) (m : M unit) : M unit :=
    s <- get_st ;;
    if test_out_of_range (comment_pos_range s) span
    then emit_opt (substr span cbuf s (comment_offset s))
    else m.

  (** loc_hint.rs:91-101 [SpaceLocHint] *)
  Definition space_hint (l : loc) : hinted :=
    fun hint =>
      comment_range_or l
        (if on c B_remove_spaces_between_tokens then emit hint
         else s <- get_st ;; emit_opt (substr l cbuf s (comment_offset s))).

  Definition atom_span (a : catom) : loc :=
    match a with AOneLine sp _ => sp | AMultiLine sp _ _ => sp | ANewLine sp => sp end.

  Definition level_str (n : nat) : str := repeat_str n [chr "="].
  Definition open_long (lv : nat) : str := [chr "["] ++ level_str lv ++ [chr "["].
  Definition close_long (lv : nat) : str := [chr "]"] ++ level_str lv ++ [chr "]"].
  Definition dashes : str := s2l "--".

  (** comment_ast.rs:123-180 *)
  Definition atom_text (a : catom) : str :=
    match a with
    | AOneLine _ s =>
        if on c B_remove_comments then
          if on c B_remove_all_newlines then [] else [ch_nl]
        else
          match cs c S_hint_before_oneline_comment_text with
          | Some prefix =>
              let t := trim_start s in
              if is_empty t then dashes ++ [ch_nl] else dashes ++ prefix ++ t ++ [ch_nl]
          | None => dashes ++ s ++ [ch_nl]
          end
    | AMultiLine _ lv s =>
        if on c B_remove_comments then []
        else
          dashes ++ open_long lv
            ++ match cs c S_hint_before_multiline_comment_text, cs c S_hint_after_multiline_comment_text with
               | Some p, Some q => p ++ trim s ++ q
               | Some p, None => p ++ trim_start s
               | None, Some q => trim_end s ++ q
               | None, None => s
               end
            ++ close_long lv
    | ANewLine _ => if on c B_remove_all_newlines then [] else [ch_nl]
    end.
  Definition write_atom (a : catom) : M unit := comment_range_or (atom_span a) (emit (atom_text a)).

  (** comment_ast.rs:41-50 *)
  Definition atom_hint (a : catom) : str :=
    match a with
    | ANewLine _ => []
    | _ => sopt_or (cs c S_hint_before_comment)
    end.
  (** comment_ast.rs:52-67 for atoms *)
  Definition atom_nl (a : catom) : bool :=
    match a with
    | AOneLine _ _ => nis c N_newline_format_oneline_comment 1
    | AMultiLine _ _ _ => nis c N_newline_format_multiline_comment 1
    | ANewLine _ => false
    end.

  (** comment_ast.rs:112-121; [need_newlines] is true for comment lists only (31-37) *)
  Definition write_group (g : cgroup) : M unit :=
    match g with
    | GComments sp l =>
        comment_range_or sp
          (write_list c cbuf space_hint write_atom true (fun _ => ret false)
             (fun _ a => ret (atom_nl a)) atom_hint l ;;; ret tt)
    | GNewLines sp l =>
        comment_range_or sp
          (write_list c cbuf space_hint write_atom false (fun _ => ret false)
             (fun _ a => ret (atom_nl a)) atom_hint l ;;; ret tt)
    end.

  (** comment_ast.rs:52-67 and 69-82 for the items of the top list *)
  Definition group_nl (g : cgroup) : bool :=
    match g with
    | GComments _ ((_, AOneLine _ _) :: _) => nis c N_newline_format_oneline_comment 1
    | GComments _ ((_, AMultiLine _ _ _) :: _) => nis c N_newline_format_multiline_comment 1
    | _ => false
    end.
  Definition group_first_nl (g : cgroup) : bool :=
    match g with
    | GComments _ ((_, AOneLine _ _) :: _) => nis c N_newline_format_first_oneline_comment 1
    | GComments _ ((_, AMultiLine _ _ _) :: _) => nis c N_newline_format_first_multiline_comment 1
    | _ => false
    end.

  (** comment_ast.rs:98-111 *)
  Definition write_variants (sp : loc) (gs : list (loc * cgroup)) : M unit :=
    comment_range_or sp
      (if on c B_remove_single_newlines
          && match gs with [(_, GNewLines _ [_])] => true | _ => false end
       then ret tt
       else
         write_list c cbuf space_hint write_group true (fun g => ret (group_first_nl g))
           (fun _ g => ret (group_nl g)) (fun _ => []) gs ;;; ret tt).

  (** comment_ast.rs:94-97 *)
  Definition write_cchunk (t : cchunk) : M unit :=
    comment_range_or (fst (cc_locl t), snd (cc_locr t))
      (space_hint (cc_locl t) [] ;;;
       write_variants (cc_span t) (cc_groups t) ;;;
       space_hint (cc_locr t) []).
End Comment.

(** loc_hint.rs:39-62 [write_formatted_comment_block] *)
Definition formatted_block (c : config) (hint block : str) : str :=
  match block with
  | [] => if on c B_replace_zero_spaces_with_hint then hint else []
  | ch :: _ =>
      (if ceq ch (chr "-") then sopt_or (cs c S_hint_before_comment) else [])
        ++ block
        ++ (match lastc block with
            | Some l => if ceq l (chr "]") then sopt_or (cs c S_hint_after_multiline_comment) else []
            | None => []
            end)
  end.

(** loc_hint.rs:65-89 [CommentLocHint]. The block is written after a copy of the last character of [f], which is
    then cut off with [&s[1..]]: a panic when that character takes more than one byte. *)
Definition comment_hint (c : config) (buf : str) (l : loc) : hinted :=
  fun hint =>
    s <- get_st ;;
    if test_out_of_range (pos_range s) l then emit_opt (substr l buf s 0)
    else
      match substr l buf s 0 with
      | None => panic
      | Some cbuf =>
          put_st (set_comment (fst l)
                    (match pos_range s with
                     | Some (a, b) => Some (a - Nat.min a (fst l), b - Nat.min b (fst l))
                     | None => None
                     end) s) ;;;
          match parse_comment cbuf with
          | None => err
          | Some t =>
              f <- get_f ;;
              block <- in_buffer [match lastc f with Some x => x | None => ch_sp end] (write_cchunk c cbuf t) ;;
              match bslice block 1 (blen block) with
              | Some b => emit (formatted_block c hint b)
              | None => panic
              end
          end
      end.
