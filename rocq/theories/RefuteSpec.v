(** Vocabulary for the claims that do not hold. *)
From Verif Require Import Base Config LuaLexer Formatter Cli.

(** The configuration given by command line arguments. *)
Definition with_options (l : list string) : config := fst (parse_options (map s2l l)).

(** The tokens of a text without their positions. *)
Definition tokens (s : str) : option (list token) :=
  match lex s with LexOk ts => Some (map (fun t => snd (fst t)) ts) | _ => None end.

(** [p] is what a long string of this level should contain: the closing bracket occurs right after [p] and not
    before. *)
Definition closing (level : nat) : str := [93%N] ++ repeat 61%N level ++ [93%N].
Definition first_closing (level : nat) (s p rest : str) : Prop :=
  s = p ++ closing level ++ rest
  /\ forall p' rest', s = p' ++ closing level ++ rest' -> List.length p <= List.length p'.

(** Decimal numerals of the Lua reference manual: digits with an optional point and an optional exponent. *)
Definition digits (s : str) : Prop := Forall (fun c => 48 <= c <= 57)%N s.
Definition mantissa (s : str) : Prop :=
  (s <> [] /\ digits s)
  \/ exists a b, s = a ++ [46%N] ++ b /\ digits a /\ digits b /\ (a <> [] \/ b <> []).
Definition exponent (sign : list str) (s : str) : Prop :=
  exists e g d, s = [e] ++ g ++ d /\ (e = 101%N \/ e = 69%N) /\ In g sign /\ digits d /\ d <> [].
Definition numeral (sign : list str) (s : str) : Prop :=
  exists m x, s = m ++ x /\ mantissa m /\ (x = [] \/ exponent sign x).

(** The text has the lines 1 to [n] and no others. *)
Definition line_count (s : str) (n : N) : Prop := n = N.of_nat (S (count_occ N.eq_dec s 10%N)).
