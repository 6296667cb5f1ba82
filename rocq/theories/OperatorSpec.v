(** Specification vocabulary for operators and expressions at line breaks. *)
From Verif Require Import Base Config State Ast WriterBase TotalSpec PrettySpec.

(** the steps succeed one after the other, from [w] to [w'] *)
Inductive in_turn : list (M unit) -> world -> world -> Prop :=
| it_none w : in_turn [] w w
| it_step m ms w w1 w' : m w = (ROk tt, w1) -> in_turn ms w1 w' -> in_turn (m :: ms) w w'.

(** [t] without what follows its first line feed *)
Definition first_line (t l : str) : Prop := ~ In 10%N l /\ (t = l \/ exists r, t = l ++ 10%N :: r).
(** [w] and [w'] have the same text and depth *)
Definition same_place (w w' : world) : Prop := w_f w = w_f w' /\ w_st w = w_st w'.
(** after [w] a new line has begun at [w'], indented by its depth; blanks before it may be gone *)
Definition new_line (c : config) (w w' : world) : Prop :=
  exists y blanks z x, w_f w = y ++ blanks /\ Forall (fun a => a = 32 \/ a = 9)%N blanks /\ y ++ z = x ++ [10%N] /\
    w_f w' = y ++ z ++ indentation c (Z.to_nat (indent_level (w_st w'))).

(** what the steps [ms] write alone ends its first line below column [mw], if it is put after the text of [w] *)
Definition fits (mw : N) (ms : list (M unit)) (w : world) : Prop :=
  exists wt l k, in_turn ms (set_f [] w) wt /\ first_line (w_f wt) l /\ last_line (w_f w ++ l) k /\ (N.of_nat k < mw)%N.

(** [x] after [gap], from [w] to [w']: on a new line if line breaks are [wanted] and [part] of it does not fit, else not *)
Inductive placed (c : config) (mw : N) (wanted : Prop) (part : list (M unit)) (gap x : M unit) (w w' : world) : Prop :=
| pl_same w1 : (wanted -> fits mw part w) -> same_place w1 w -> in_turn [gap; x] w1 w' -> placed c mw wanted part gap x w w'
| pl_new w1 w2 : wanted -> ~ fits mw part w -> same_place w1 w -> new_line c w1 w2 -> in_turn [x] w2 w' -> placed c mw wanted part gap x w w'.

(** expressions with their gaps after another expression, each after a comma *)
Inductive expressions (c : config) (mw : N) (gap : loc -> str -> M unit) (x : node -> M unit) : list (loc * node * loc * str) -> world -> world -> Prop :=
| ex_none w : expressions c mw gap x [] w w
| ex_more p m q z l w w1 w2 w3 w' : in_turn [emit (s2l ",")] w w1 ->
    placed c mw (cn c N_newline_format_exp_list = Some 1%N) [x m] (gap p [32%N]) (x m) w1 w2 -> in_turn [gap q []] w2 w3 ->
    expressions c mw gap x l w3 w' -> expressions c mw gap x ((p, m, q, z) :: l) w w'.

(** suffixes of an expression that may begin a line *)
Definition suffix_breaks (c : config) (m : node) : Prop :=
  (n_kind m = KFnMethodCall \/ n_kind m = KTableMember) /\ cn c N_newline_format_var_suffix <> None.
(** of a method call with arguments that have line breaks of their own, only the name needs to fit *)
Definition name_only (c : config) (m : node) : Prop :=
  n_kind m = KFnMethodCall /\
  (In (n_kind (kid m 1)) [KTableConstructor; KTableConstructorEmpty; KArgsRoundBracketsEmpty]
   \/ n_kind (kid m 1) = KArgsRoundBrackets /\ cn c N_newline_format_exp_list_first <> None).
Definition suffix_part (c : config) (gap : loc -> str -> M unit) (x : node -> M unit) (m : node) (part : list (M unit)) : Prop :=
  name_only c m /\ part = [emit (s2l ":"); gap (nloc m 0) []; x (kid m 0)] \/ ~ name_only c m /\ part = [x m].
(** the blank before a suffix: one before an argument without brackets *)
Definition suffix_gap (m : node) : str :=
  if existsb (kind_beq (n_kind m)) [KArgsRoundBrackets; KArgsRoundBracketsEmpty; KTableIndex; KTableMember; KFnMethodCall; KTableConstructor; KTableConstructorEmpty; KSemicolon]
  then [] else [32%N].
Inductive suffixes (c : config) (mw : N) (gap : loc -> str -> M unit) (x : node -> M unit) : list (loc * node) -> world -> world -> Prop :=
| su_none w : suffixes c mw gap x [] w w
| su_more p m l part w w1 w' : suffix_part c gap x m part -> placed c mw (suffix_breaks c m) part (gap p (suffix_gap m)) (x m) w w1 ->
    suffixes c mw gap x l w1 w' -> suffixes c mw gap x ((p, m) :: l) w w'.

(** a field [m] of a table may stay on the line: less than [2 * mw] characters in the source; written alone it is one line and fits *)
Definition field_short (mw : N) (m : node) (x : M unit) (w : world) : Prop :=
  In (n_kind m) [KFieldNamedBracket; KFieldNamed; KFieldSequential] /\
  (N.of_nat (snd (n_span m) - fst (n_span m)) < (2 * mw) mod 2 ^ 64)%N /\
  exists wt k, in_turn [x] (set_f [] w) wt /\ ~ In 10%N (w_f wt) /\ last_line (w_f w ++ w_f wt) k /\ (N.of_nat k < mw)%N.
Inductive field_placed (c : config) (mw : N) (m : node) (gap x : M unit) (w w' : world) : Prop :=
| fp_same w1 : field_short mw m x w -> same_place w1 w -> in_turn [gap; x] w1 w' -> field_placed c mw m gap x w w'
| fp_new w1 w2 : ~ field_short mw m x w -> same_place w1 w -> new_line c w1 w2 -> in_turn [x] w2 w' -> field_placed c mw m gap x w w'.
(** fields after one with the separator [z] of its own, each after [field_separator] if that is set; [z'] is the separator of the last *)
Definition used_separator (c : config) (z : str) : str := match cs c S_field_separator with Some s => s | None => z end.
Inductive fields (c : config) (mw : N) (gap : loc -> str -> M unit) (x : node -> M unit) : str -> list (loc * node * loc * str) -> str -> world -> world -> Prop :=
| fi_none z w : fields c mw gap x z [] z w w
| fi_more z p m q z1 l z' w w1 w2 w3 w' : in_turn [emit (used_separator c z)] w w1 ->
    field_placed c mw m (gap p [32%N]) (x m) w1 w2 -> in_turn [gap q []] w2 w3 ->
    fields c mw gap x z1 l z' w3 w' -> fields c mw gap x z ((p, m, q, z1) :: l) z' w w'.
(** the last field has a separator behind it: by option, or because [z] is there in the source *)
Definition trailing (c : config) (z : str) : Prop :=
  cb c B_write_trailing_field_separator = Some true \/ cb c B_write_trailing_field_separator = None /\ z <> [].
