(** Specification vocabulary: UTF-8 (RFC 3629, section 3) and the places that path arguments name. *)
From Verif Require Import Base FileUtil.

(** The bytes of one character. *)
Inductive encodes : char -> list N -> Prop :=
| en_one : forall a, (a < 128)%N -> encodes a [a]
| en_two : forall a b, (a < 32 -> b < 64 -> 2 <= a -> encodes (a * 64 + b) [192 + a; 128 + b])%N
| en_three : forall a b c, (a < 16 -> b < 64 -> c < 64 -> 32 <= a * 64 + b ->
    encodes ((a * 64 + b) * 64 + c) [224 + a; 128 + b; 128 + c])%N
| en_four : forall a b c d, (a < 8 -> b < 64 -> c < 64 -> d < 64 -> 16 <= a * 64 + b ->
    encodes (((a * 64 + b) * 64 + c) * 64 + d) [240 + a; 128 + b; 128 + c; 128 + d])%N.
(** The bytes of a text. *)
Inductive encoding : str -> list N -> Prop :=
| en_nil : encoding [] []
| en_cons : forall c bs s r, encodes c bs -> encoding s r -> encoding (c :: s) (bs ++ r).

(** One step from directory [p] by a component of a path: nothing and [.] stay, [..] goes to the parent, and the root is its own
    parent. *)
Inductive component : path -> str -> path -> Prop :=
| co_empty : forall p, component p [] p
| co_dot : forall p, component p (s2l ".") p
| co_up : forall p x, component (p ++ [x]) (s2l "..") p
| co_root : component [] (s2l "..") []
| co_name : forall p x, x <> [] -> x <> s2l "." -> x <> s2l ".." -> component p x (p ++ [x]).
(** A whole path: components with slashes between them. *)
Inductive arrives : path -> str -> path -> Prop :=
| ar_last : forall p x q, ~ In (chr "/") x -> component p x q -> arrives p x q
| ar_more : forall p x q r z, ~ In (chr "/") x -> component p x q -> arrives q r z -> arrives p (x ++ chr "/" :: r) z.
(** A path that starts with a slash starts at the root, any other one in the current directory. *)
Definition starts_at (cwd : path) (a : str) (p : path) : Prop :=
  (exists r, a = chr "/" :: r) /\ p = [] \/ (exists c r, a = c :: r /\ c <> chr "/") /\ p = cwd.
