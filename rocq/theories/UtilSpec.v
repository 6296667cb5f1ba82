(** Specification vocabulary for line ranges, text positions and string quotes. *)
From Verif Require Import Base.

(** ** lines *)
(** the number of line feeds *)
Definition newlines (s : str) : nat := count_occ N.eq_dec s 10%N.
(** the number of lines; a text ending in a line feed has an empty last line *)
Definition lines (s : str) : nat := S (newlines s).
(** line [k], counted from 1, ends just before index [e] *)
Definition line_end (s : str) (k e : nat) : Prop :=
  e <= List.length s /\ S (newlines (firstn e s)) = k /\ (e = List.length s \/ nth_error s e = Some 10%N).

(** ** the value of a quoted Lua string (Lua 5.3 reference manual, section 3.1), in bytes *)
Definition utf8 (c : N) : list N :=
  (if c <? 128 then [c]
   else if c <? 2048 then [192 + c / 64; 128 + c mod 64]
   else if c <? 65536 then [224 + c / 4096; 128 + c / 64 mod 64; 128 + c mod 64]
   else [240 + c / 262144; 128 + c / 4096 mod 64; 128 + c / 64 mod 64; 128 + c mod 64])%N.

Definition digit_value (c : char) : option N :=
  if (48 <=? c)%N && (c <=? 57)%N then Some (c - 48)%N else None.
Definition hex_value (c : char) : option N :=
  if (48 <=? c)%N && (c <=? 57)%N then Some (c - 48)%N
  else if (65 <=? c)%N && (c <=? 70)%N then Some (c - 55)%N
  else if (97 <=? c)%N && (c <=? 102)%N then Some (c - 87)%N
  else None.
(** the escapes for one byte: bell, backspace, form feed, line feed, carriage return, tab, vertical tab,
    backslash, and both quotes *)
Definition simple_escape (c : char) : option N :=
  if N.eqb c 97 then Some 7%N else if N.eqb c 98 then Some 8%N else if N.eqb c 102 then Some 12%N
  else if N.eqb c 110 then Some 10%N else if N.eqb c 114 then Some 13%N else if N.eqb c 116 then Some 9%N
  else if N.eqb c 118 then Some 11%N else if N.eqb c 92 then Some 92%N else if N.eqb c 34 then Some 34%N
  else if N.eqb c 39 then Some 39%N else None.
Definition lua_space (c : char) : bool := ((9 <=? c) && (c <=? 13) || (c =? 32))%N.

(** What has been read of the current escape. *)
Inductive reading :=
| Plain                          (* no escape *)
| Escape                         (* a backslash *)
| EscapedLine (c : char)         (* a backslash and a line break character *)
| SkipSpace                      (* backslash z and white space *)
| Decimal (n : N) (k : nat)      (* a backslash and [k] digits of value [n] *)
| Hex (n : N) (k : nat)          (* backslash x and [k] digits *)
| Unicode0                       (* backslash u *)
| Unicode (n : option N).        (* backslash u, an opening brace and digits *)

Definition put (l : list N) (o : option (list N)) : option (list N) :=
  match o with Some v => Some (l ++ v) | None => None end.

(** The bytes denoted by the text between the quotes; [None] if it is not a valid Lua string. *)
Fixpoint string_value (m : reading) (s : str) : option (list N) :=
  match s with
  | [] => match m with
          | Plain | EscapedLine _ | SkipSpace => Some []
          | Decimal n _ => if (n <=? 255)%N then Some [n] else None
          | _ => None
          end
  | c :: r =>
      let plain :=
        if N.eqb c 92 then string_value Escape r
        else if N.eqb c 10 || N.eqb c 13 then None
        else put (utf8 c) (string_value Plain r) in
      match m with
      | Plain => plain
      | Escape =>
          match simple_escape c with
          | Some b => put [b] (string_value Plain r)
          | None =>
              if N.eqb c 10 || N.eqb c 13 then put [10%N] (string_value (EscapedLine c) r)
              else if N.eqb c 122 then string_value SkipSpace r
              else if N.eqb c 120 then string_value (Hex 0 0) r
              else if N.eqb c 117 then string_value Unicode0 r
              else match digit_value c with Some d => string_value (Decimal d 1) r | None => None end
          end
      | EscapedLine d =>
          if (N.eqb c 10 || N.eqb c 13) && negb (N.eqb c d) then string_value Plain r else plain
      | SkipSpace => if lua_space c then string_value SkipSpace r else plain
      | Decimal n k =>
          match digit_value c with
          | Some d => if k <? 3 then string_value (Decimal (n * 10 + d) (S k)) r
                      else if (n <=? 255)%N then put [n] plain else None
          | None => if (n <=? 255)%N then put [n] plain else None
          end
      | Hex n k =>
          match hex_value c with
          | Some d => match k with
                      | O => string_value (Hex d 1) r
                      | _ => put [(n * 16 + d)%N] (string_value Plain r)
                      end
          | None => None
          end
      | Unicode0 => if N.eqb c 123 then string_value (Unicode None) r else None
      | Unicode n =>
          match hex_value c with
          | Some d => string_value (Unicode (Some (match n with Some x => x * 16 + d | None => d end)%N)) r
          | None => match n with
                    | Some x => if N.eqb c 125 && (x <=? 1114111)%N then put (utf8 x) (string_value Plain r) else None
                    | None => None
                    end
          end
      end
  end.
Definition lua_value (s : str) : option (list N) := string_value Plain s.
