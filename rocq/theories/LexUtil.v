(** Model of src/parser/lexer_util.rs. *)
From Verif Require Import Base.

(** lexer_util.rs:1 [TChars]: the iterator is (index of the next character, remaining characters). *)
Definition tchars := (nat * str)%type.

(** lexer_util.rs:3-28 [seek_end_by_predicate], the loop after the emptiness test.
    [endp] is the variable [end]. *)
Fixpoint seek_loop (f : char -> bool -> bool) (escaped : bool) (endp pos : nat) (rest : str)
  : nat * bool * str * tchars :=
  match rest with
  | [] => (endp + 1, false, [], (pos, []))
  | ch :: r =>
      if f ch escaped then (pos, true, [], (pos, rest))
      else
        let '(e, s, res, c) := seek_loop f (negb escaped && ceq ch ch_bsl) pos (S pos) r in
        (e, s, ch :: res, c)
  end.

(** lexer_util.rs:3-28 [seek_end_by_predicate] *)
Definition seek_end_by_predicate (f : char -> bool -> bool) (cs : tchars) (start : nat)
  : nat * bool * str * tchars :=
  match snd cs with
  | [] => (start, false, [], cs)
  | _ => seek_loop f false start (fst cs) (snd cs)
  end.

(** [chars.next()], result dropped *)
Definition advance (cs : tchars) : tchars :=
  match snd cs with [] => cs | _ :: r => (S (fst cs), r) end.

(** lexer_util.rs:30-40 [get_shebang_ends]: (text end, token end, text) *)
Definition get_shebang_ends (cs : tchars) (start : nat) : nat * nat * str * tchars :=
  let '(e, succ, res, c) := seek_end_by_predicate (fun ch _ => ceq ch ch_nl) cs start in
  if succ then (e, e + 1, res, advance c) else (e, e, res, c).

(** lexer_util.rs:42-51 [get_integer_end] *)
Definition get_integer_end (cs : tchars) (start : nat) : nat * bool * str * tchars :=
  let '(e, succ, res, c) := seek_end_by_predicate (fun ch _ => negb (is_digit ch)) cs start in
  if (e <=? start) && negb succ then (e, false, res, c) else (e, true, res, c).

Definition is_hex_letter (ch : char) : bool :=
  in_range (chr "A") (chr "F") ch || in_range (chr "a") (chr "f") ch.

(** lexer_util.rs:53-64 [get_hex_integer_end] *)
Definition get_hex_integer_end (cs : tchars) (start : nat) : nat * bool * str * tchars :=
  let '(e, succ, res, c) :=
    seek_end_by_predicate (fun ch _ => negb (is_digit ch) && negb (is_hex_letter ch)) cs start in
  if (e <=? start) && negb succ then (e, false, res, c) else (e, true, res, c).

(** lexer_util.rs:66-98 [get_float_end] *)
Definition get_float_end (cs : tchars) (start : nat) : nat * bool * str * tchars :=
  let '(e, _, res, c) :=
    seek_end_by_predicate (fun ch _ => negb (is_digit ch) && negb (ceq ch (chr "."))) cs start in
  match snd c with
  | ch :: _ =>
      if ceq ch (chr "e") || ceq ch (chr "E") then
        let i := fst c in
        let c1 := advance c in
        match snd c1 with
        | [] => (i + 1, false, [], c1)
        | ch2 :: _ =>
            let '(sign, cur_ind, c2) :=
              if ceq ch2 (chr "-") then ([chr "-"], fst c1, advance c1) else ([], i, c1) in
            let '(e2, flag, int_end, c3) := get_integer_end c2 (cur_ind + 1) in
            if flag then (e2, true, res ++ [ch] ++ sign ++ int_end, c3)
            else (e2, false, res ++ [ch] ++ sign, c3)
        end
      else (e, true, res, c)
  | [] => (e, true, res, c)
  end.

Definition is_ident_char (ch : char) : bool := is_alpha ch || is_digit ch || ceq ch (chr "_").

(** lexer_util.rs:100-111 [get_variable_end] *)
Definition get_variable_end (cs : tchars) (start : nat) : nat * bool * str * tchars :=
  let '(e, succ, res, c) := seek_end_by_predicate (fun ch _ => negb (is_ident_char ch)) cs start in
  if negb succ && (e <=? start) then (e, false, res, c) else (e, true, res, c).

(** lexer_util.rs:113-125 [get_string_ends]: (text end, token end, success, text) *)
Definition get_string_ends (cs : tchars) (prefix : char) (start : nat) : nat * nat * bool * str * tchars :=
  let '(e, succ, res, c) :=
    seek_end_by_predicate (fun ch escaped => negb escaped && ceq ch prefix) cs start in
  if succ then (e, e + 1, true, res, advance c) else (e, e, false, res, c).

(** lexer_util.rs:127-138 [get_oneline_comment_ends] *)
Definition get_oneline_comment_ends (cs : tchars) (start : nat) : nat * nat * bool * str * tchars :=
  let '(e, succ, res, c) := seek_end_by_predicate (fun ch _ => ceq ch ch_nl) cs start in
  if succ then (e, e + 1, true, res, advance c) else (e, e, true, res, c).

(** lexer_util.rs:140-147 [get_multiline_string_level] *)
Definition get_multiline_string_level (cs : tchars) (start : nat) : nat * tchars :=
  let '(e, _, _, c) := seek_end_by_predicate (fun ch _ => negb (ceq ch (chr "="))) cs start in
  (if start <=? e then e - start else 0, c).

(** number of leading '=' characters: what the level scan of lexer_util.rs:158 consumes *)
Fixpoint count_eq (s : str) : nat :=
  match s with
  | c :: r => if ceq c (chr "=") then S (count_eq r) else 0
  | [] => 0
  end.

Definition eqs (n : nat) : str := repeat (chr "=") n.

(** lexer_util.rs:149-183 [get_multiline_string_ends]. Written structurally: after a [']'] the Rust
    code consumes the following '=' run with [get_multiline_string_level]; here these characters
    are passed over by the counter [skip]. *)
Fixpoint ml_loop (level : nat) (escaped : bool) (skip endp pos : nat) (rest : str)
  : nat * nat * bool * str * tchars :=
  match rest with
  | [] => (endp + 1, endp + 1, false, [], (pos, []))
  | ch :: r =>
      match skip with
      | S k => ml_loop level escaped k endp (S pos) r
      | O =>
          if negb escaped && ceq ch (chr "]") then
            let cur := count_eq r in
            match (if Nat.eqb level cur then Some (nth_error r cur) else None) with
            | Some None => (pos + cur + 1, pos + cur + 1, false, [], (S pos + cur, []))
            | Some (Some c2) =>
                if ceq c2 (chr "]") then (pos, pos + cur + 2, true, [], (pos + cur + 2, skipn (S cur) r))
                else
                  let '(te, ke, s, res, c) := ml_loop level false cur pos (S pos) r in
                  (te, ke, s, chr "]" :: eqs cur ++ res, c)
            | None =>
                let '(te, ke, s, res, c) := ml_loop level false cur pos (S pos) r in
                (te, ke, s, chr "]" :: eqs cur ++ res, c)
            end
          else
            let '(te, ke, s, res, c) := ml_loop level (ceq ch ch_bsl) 0 pos (S pos) r in
            (te, ke, s, ch :: res, c)
      end
  end.

Definition get_multiline_string_ends (cs : tchars) (level start : nat) : nat * nat * bool * str * tchars :=
  ml_loop level false 0 start (fst cs) (snd cs).

(** lexer_util.rs:185-235 [get_comment_start_ends_and_type]:
    (text start, text end, token end, level, success, text) *)
Definition get_comment_start_ends_and_type (cs : tchars) (start : nat)
  : nat * nat * nat * option nat * bool * str * tchars :=
  match snd cs with
  | b :: _ =>
      if ceq b (chr "[") then
        let c1 := advance cs in
        match snd c1 with
        | [] => (start, start + 1, start + 1, None, true, [], c1)
        | ch :: _ =>
            if ceq ch (chr "=") then
              let '(level, c2) := get_multiline_string_level c1 (fst c1) in
              match snd c2 with
              | [] => (start, start + level + 1, start + level + 1, None, true, [], c2)
              | ch2 :: _ =>
                  if ceq ch2 (chr "[") then
                    let c3 := advance c2 in
                    let text_start := fst c2 + 1 in
                    let '(te, ke, succ, res, c4) := get_multiline_string_ends c3 level text_start in
                    (text_start, te, ke, Some level, succ, res, c4)
                  else
                    let '(te, ke, succ, res, c4) := get_oneline_comment_ends c2 (fst c2) in
                    (start, te, ke, None, succ, chr "[" :: eqs level ++ res, c4)
              end
            else if ceq ch (chr "[") then
              let c2 := advance c1 in
              let text_start := fst c1 + 1 in
              let '(te, ke, succ, res, c3) := get_multiline_string_ends c2 0 text_start in
              (text_start, te, ke, Some 0, succ, res, c3)
            else
              let '(te, ke, succ, res, c3) := get_oneline_comment_ends c1 (fst c1) in
              (start, te, ke, None, succ, chr "[" :: res, c3)
        end
      else
        let '(te, ke, succ, res, c1) := get_oneline_comment_ends cs start in
        (start, te, ke, None, succ, res, c1)
  | [] =>
      let '(te, ke, succ, res, c1) := get_oneline_comment_ends cs start in
      (start, te, ke, None, succ, res, c1)
  end.
