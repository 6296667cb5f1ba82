(** Expressions as trees of operators, grouped by precedence and associativity. *)
From Verif Require Import Base Ast LayoutSpec.

(** The operators at the root of a node; everything else is an operand. *)
Inductive tree := Atom (n : node) | Unary (op : str) (a : tree) | Binary (op : str) (a b : tree).
Fixpoint operators (n : node) : tree :=
  match n with
  | Nd KBinaryOp _ _ op _ [a; b] _ _ _ => Binary op (operators a) (operators b)
  | Nd KUnaryOp _ _ op _ [a] _ _ _ => Unary op (operators a)
  | Nd KUnaryNot _ _ _ _ [a] _ _ _ => Unary (s2l "not") (operators a)
  | _ => Atom n
  end.

(** A tree as it is written. *)
Inductive word := Operand (n : node) | Operator (op : str).
Fixpoint words (t : tree) : list word :=
  match t with
  | Atom n => [Operand n]
  | Unary op a => Operator op :: words a
  | Binary op a b => words a ++ Operator op :: words b
  end.

(** The precedences of the reference manual of Lua 5.3, section 3.4.8, from low to high; unary operators are between
    the last two lines. *)
Definition table : list (list string) :=
  [["or"]; ["and"]; ["<"; ">"; "<="; ">="; "~="; "=="]; ["|"]; ["~"]; ["&"]; ["<<"; ">>"]; [".."]; ["+"; "-"];
   ["*"; "/"; "//"; "%"]; []; ["^"]]%string.
Fixpoint row (i : nat) (rows : list (list string)) (op : str) : option nat :=
  match rows with
  | [] => None
  | r :: rest => if existsb (fun x => str_eqb (s2l x) op) r then Some i else row (S i) rest op
  end.
(** none for what is no binary operator *)
Definition precedence (op : str) : option nat := row 1 table op.
Definition unary_precedence : nat := 11.
Definition is_unary (op : str) : bool := existsb (fun x => str_eqb (s2l x) op) ["not"; "#"; "-"; "~"]%string.

(** [binds p t]: the operator at the root of [t], if there is one, has precedence [p] or higher. *)
Definition binds (p : nat) (t : tree) : Prop :=
  match t with
  | Atom _ => True
  | Unary _ _ => p <= unary_precedence
  | Binary op _ _ => match precedence op with Some q => p <= q | None => False end
  end.
(** A tree is grouped if no operator has an operand that binds less, and operators of the same precedence are grouped
    to the left, except for those in [right]. *)
Fixpoint grouped (right : str -> bool) (t : tree) : Prop :=
  match t with
  | Atom _ => True
  | Unary op a => is_unary op = true /\ binds unary_precedence a /\ grouped right a
  | Binary op a b =>
      match precedence op with
      | Some p => (if right op then binds (S p) a /\ binds p b else binds p a /\ binds (S p) b)
                  /\ grouped right a /\ grouped right b
      | None => False
      end
  end.
Definition all_left (op : str) : bool := false.
(** the manual: concatenation and exponentiation are right associative *)
Definition manual_right (op : str) : bool := str_eqb op (s2l "..") || str_eqb op (s2l "^").
(** [a .. b .. c] or [a ^ b ^ c], grouped to the left *)
Fixpoint left_chain (t : tree) : Prop :=
  match t with
  | Atom _ => False
  | Unary _ a => left_chain a
  | Binary op a b => (manual_right op = true /\ match a with Binary op' _ _ => op' = op | _ => False end) \/ left_chain a \/ left_chain b
  end.

(** the nodes of a tree *)
Inductive within (m : node) : node -> Prop :=
| within_here : within m m
| within_below : forall c n, In c (children n) -> within m c -> within m n.
