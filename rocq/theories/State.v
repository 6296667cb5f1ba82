(** The formatting state (src/config.rs:408-433), byte offsets, and the helpers of
    src/formatting/util.rs and src/parser/common.rs. *)
From Verif Require Import Base Config.

(** config.rs:409-418. [c2b] is the map [chars_to_bytes]: entry number [i] is the value of key [i]. *)
Record state := mk_state {
  indent_level : Z;
  stack_indent : list (option str);       (* the top of the stack first *)
  function_nested_level : Z;
  block_nested_level : Z;
  pos_range : option (nat * nat);
  comment_pos_range : option (nat * nat);
  comment_offset : nat;
  c2b : list (option nat)
}.

(** config.rs:421-432 *)
Definition default_state : state := mk_state 0 [] 0 0 None None 0 [].

Definition set_indent (lv : Z) (sk : list (option str)) (s : state) : state :=
  mk_state lv sk (function_nested_level s) (block_nested_level s) (pos_range s) (comment_pos_range s)
    (comment_offset s) (c2b s).
Definition set_func_level (z : Z) (s : state) : state :=
  mk_state (indent_level s) (stack_indent s) z (block_nested_level s) (pos_range s) (comment_pos_range s)
    (comment_offset s) (c2b s).
Definition set_comment (off : nat) (r : option (nat * nat)) (s : state) : state :=
  mk_state (indent_level s) (stack_indent s) (function_nested_level s) (block_nested_level s) (pos_range s)
    r off (c2b s).

(** [char::len_utf8] and [str::len] *)
Definition len_utf8 (c : char) : nat :=
  if N.ltb c 128 then 1 else if N.ltb c 2048 then 2 else if N.ltb c 65536 then 3 else 4.
Fixpoint blen (s : str) : nat :=
  match s with [] => 0 | c :: r => len_utf8 c + blen r end.

(** the suffix of a text from byte [a] on; [None] when [a] is past the end or inside a character *)
Fixpoint bskip (a : nat) (s : str) : option str :=
  match a with
  | O => Some s
  | _ => match s with
         | [] => None
         | c :: r => if len_utf8 c <=? a then bskip (a - len_utf8 c) r else None
         end
  end.
(** its prefix of [a] bytes *)
Fixpoint btake (a : nat) (s : str) : option str :=
  match a with
  | O => Some []
  | _ => match s with
         | [] => None
         | c :: r => if len_utf8 c <=? a
                     then match btake (a - len_utf8 c) r with Some x => Some (c :: x) | None => None end
                     else None
         end
  end.
(** Rust's [&s[a..b]]; [None] is the panic *)
Definition bslice (s : str) (a b : nat) : option str :=
  if b <? a then None
  else match bskip a s with Some r => btake (b - a) r | None => None end.

(** [HashMap::get] *)
Definition get_c2b (m : list (option nat)) (i : nat) : option nat :=
  match nth_error m i with Some o => o | None => None end.

(** common.rs:15-29 [Loc::substr]; [None] is a panic *)
Definition substr (l : loc) (buf : str) (s : state) (offset : nat) : option str :=
  match get_c2b (c2b s) (fst l + offset), get_c2b (c2b s) (snd l + offset), get_c2b (c2b s) offset with
  | Some from, Some to, Some bo =>
      if (bo <=? from) && (bo <=? to) then bslice buf (from - bo) (to - bo) else Some []
  | _, _, _ => Some []
  end.

(** reconstruction.rs:19-25 [update_indexes] on an empty map. The index of the end is one more than the
    last character index seen, starting from 0, so an empty text gets the entry 1 and no entry 0. *)
Fixpoint byte_offsets (b : nat) (s : str) : list (option nat) :=
  match s with [] => [] | c :: r => Some b :: byte_offsets (b + len_utf8 c) r end.
Definition update_indexes (buf : str) : list (option nat) :=
  match buf with
  | [] => [None; Some 0]
  | _ => byte_offsets 0 buf ++ [Some (blen buf)]
  end.

(** util.rs:71-77 *)
Definition test_out_of_range (range : option (nat * nat)) (span : loc) : bool :=
  match range with
  | Some (l, r) => (snd span <=? l) || (r <=? fst span)
  | None => false
  end.

(** util.rs:79-85 *)
Definition test_not_completely_contained (range : option (nat * nat)) (span : loc) : bool :=
  match range with
  | Some (l, r) => ((fst span <? l) && (l <? snd span)) || ((fst span <? r) && (r <? snd span))
  | None => false
  end.

Definition is_sp_tab (c : char) : bool := ceq c ch_sp || ceq c ch_tab.

Fixpoint drop_while (p : char -> bool) (s : str) : str :=
  match s with [] => [] | c :: r => if p c then drop_while p r else s end.

(** util.rs:87-89 *)
Definition trim_end_spaces_and_tabs (s : str) : str := rev (drop_while is_sp_tab (rev s)).

Fixpoint count_while (p : char -> bool) (s : str) : nat :=
  match s with [] => 0 | c :: r => if p c then S (count_while p r) else 0 end.
Definition not_nl (c : char) : bool := negb (ceq c ch_nl).

(** util.rs:91-101 *)
Definition get_len_after_newline (s : str) : nat := count_while not_nl (rev s).
Definition get_len_till_newline (s : str) : nat := count_while not_nl s.
Definition has_newlines (s : str) : bool := existsb (fun c => ceq c ch_nl) s.

(** util.rs:103-118 *)
Fixpoint charstring_loop (escaped : bool) (s : str) : str :=
  match s with
  | [] => []
  | ch :: r =>
      (if ceq ch ch_quot && negb escaped then [ch_bsl; ch_quot] else [ch])
        ++ charstring_loop (negb escaped && ceq ch ch_bsl) r
  end.
Definition charstring_to_normalstring (s : str) : str := charstring_loop false s.

Fixpoint repeat_str (n : nat) (s : str) : str :=
  match n with O => [] | S k => s ++ repeat_str k s end.

(** util.rs:120-127 *)
Definition indent_text (c : config) (s : state) : str :=
  match cs c S_indentation_string with
  | Some t => repeat_str (Z.to_nat (indent_level s)) t
  | None => []
  end.

(** util.rs:129-148 *)
Fixpoint newline_positions (i : nat) (s : str) : list nat :=
  match s with
  | [] => []
  | c :: r => if ceq c ch_nl then i :: newline_positions (S i) r else newline_positions (S i) r
  end.
Definition line_range_to_pos_range (buf : str) (lr : option (N * N)) : option (nat * nat) :=
  let nlpos := 0 :: newline_positions 0 buf ++ [List.length buf] in
  match lr with
  | Some (l, r) =>
      let len := N.of_nat (List.length nlpos) in
      let left := if (N.ltb 0 l && N.leb l r && N.ltb l len)%bool then N.to_nat l else 1 in
      let right := if (N.ltb 0 r && N.leb l r && N.ltb r len)%bool then N.to_nat r else List.length nlpos - 1 in
      Some (nth (left - 1) nlpos 0, nth right nlpos 0)
  | None => None
  end.

(** [char::is_whitespace] (Unicode White_Space), for [str::trim*] *)
Definition is_whitespace (c : char) : bool :=
  (in_range 9 13 c || ceq c 32 || ceq c 133 || ceq c 160 || ceq c 5760 || in_range 8192 8202 c
   || ceq c 8232 || ceq c 8233 || ceq c 8239 || ceq c 8287 || ceq c 12288)%N.
Definition trim_start (s : str) : str := drop_while is_whitespace s.
Definition trim_end (s : str) : str := rev (drop_while is_whitespace (rev s)).
Definition trim (s : str) : str := trim_end (trim_start s).
