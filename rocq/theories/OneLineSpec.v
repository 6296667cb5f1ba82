(** Specification vocabulary for conditionals and functions on one line. *)
From Verif Require Import Base Config State Ast TotalSpec PrettySpec.

(** [c] without line breaks of the construct *)
Definition without_breaks (k : nopt) (c c' : config) : Prop :=
  line_range c' = line_range c /\ (forall j, cs c' j = cs c j) /\ (forall j, cb c' j = cb c j) /\
  cn c' k = None /\ (forall j, j <> k -> cn c' j = cn c j).

(** the kinds of conditionals and of function bodies *)
Definition conditionals : list kind :=
  [KIfThen; KIfThenB; KIfThenElse; KIfThenBElse; KIfThenElseB; KIfThenBElseB; KIfThenElseIf; KIfThenBElseIf; KIfThenElseIfElse;
   KIfThenBElseIfElse; KIfThenElseIfElseB; KIfThenBElseIfElseB].
Definition functions : list kind := [KFuncBody; KFuncPBody; KFuncBodyB; KFuncPBodyB].

(** [n] may be put on one line of width [mw]: it is a conditional, or a function in no other function or table, or a function in one,
    and the option for it is on; [k] is the option that breaks its lines. In the source it has less than [2 * mw] characters. *)
Definition on_one_line (c : config) (depth : Z) (n : node) (k : nopt) (mw : N) : Prop :=
  (In (n_kind n) conditionals /\ k = N_newline_format_if /\ cb c B_force_single_line_if = Some true
   \/ In (n_kind n) functions /\ k = N_newline_format_function
      /\ (depth = 0%Z /\ cb c B_force_single_line_top_level_function = Some true
          \/ (0 < depth)%Z /\ cb c B_force_single_line_scoped_function = Some true)) /\
  cn c N_max_width = Some mw /\ cn c k <> None /\
  (N.of_nat (snd (n_span n) - fst (n_span n)) < (2 * mw) mod 2 ^ 64)%N.

(** [n] has line breaks by option [k]; [f] ends with a line of its own for the [end] of [n] *)
Definition broken_by (n : node) (k : nopt) : Prop :=
  In (n_kind n) conditionals /\ k = N_newline_format_if \/ In (n_kind n) functions /\ k = N_newline_format_function.
Definition end_line (c : config) (depth : Z) (f : str) : Prop := exists x, f = x ++ [10%N] ++ indentation c (Z.to_nat depth) ++ s2l "end".
