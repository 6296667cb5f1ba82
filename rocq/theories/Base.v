(** Characters, text and positions shared by the whole model. *)
From Coq Require Export List NArith ZArith Bool String Ascii Arith Lia.
Export ListNotations.
Open Scope list_scope.
Open Scope nat_scope.

(** A character is a Unicode code point; Rust [char]. *)
Notation char := N (only parsing).
(** Rust [String] / [&str], as its sequence of [char]s. *)
Notation str := (list N) (only parsing).

(** Literals: [s2l "abc"] and [chr "a"]. *)
Definition chr (a : ascii) : char := N_of_ascii a.
Fixpoint s2l (s : string) : str :=
  match s with
  | EmptyString => []
  | String a r => chr a :: s2l r
  end.

Definition ch_nl : char := 10%N.
Definition ch_tab : char := 9%N.
Definition ch_cr : char := 13%N.
Definition ch_sp : char := 32%N.
Definition ch_quot : char := 34%N.   (* double quote *)
Definition ch_apos : char := 39%N.   (* single quote *)
Definition ch_bsl : char := 92%N.    (* backslash *)

Definition ceq (a b : char) : bool := N.eqb a b.

Fixpoint str_eqb (a b : str) : bool :=
  match a, b with
  | [], [] => true
  | x :: a', y :: b' => ceq x y && str_eqb a' b'
  | _, _ => false
  end.

Definition cleb (a b : char) : bool := N.leb a b.
Definition in_range (a b c : char) : bool := cleb a c && cleb c b.

(** [char::is_ascii_digit], [char::is_ascii_alphabetic] *)
Definition is_digit (c : char) : bool := in_range (chr "0") (chr "9") c.
Definition is_lower (c : char) : bool := in_range (chr "a") (chr "z") c.
Definition is_upper (c : char) : bool := in_range (chr "A") (chr "Z") c.
Definition is_alpha (c : char) : bool := is_lower c || is_upper c.

Definition is_some {A} (o : option A) : bool := match o with Some _ => true | None => false end.
Definition is_none {A} (o : option A) : bool := negb (is_some o).
Definition is_empty {A} (l : list A) : bool := match l with [] => true | _ => false end.

Definition obool_is (o : option bool) (b : bool) : bool :=
  match o with Some x => Bool.eqb x b | None => false end.
Definition onat_is (o : option nat) (n : nat) : bool :=
  match o with Some x => Nat.eqb x n | None => false end.

(** src/parser/common.rs:6 [pub struct Loc(pub usize, pub usize)] *)
Definition loc := (nat * nat)%type.

Definition lastc (s : str) : option char :=
  match rev s with [] => None | c :: _ => Some c end.

(** characters [a .. b) of a text *)
Definition slice (s : str) (a b : nat) : str := firstn (b - a) (skipn a s).
