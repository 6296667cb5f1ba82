(** Specification vocabulary for formatting a range of lines. *)
From Verif Require Import Base Ast UtilSpec.

(** the line, counted from 1, of the character at index [p] *)
Definition line_at (s : str) (p : nat) : nat := S (newlines (firstn p s)).

(** the places of the top-level statements of a syntax tree *)
Definition item_places (n : node) : list loc := map (fun x => n_span (snd x)) (n_items n).
Definition block_places (b : node) : list loc :=
  match n_kind b with
  | KStatementList => item_places b
  | KStatsRetStat => match n_kids b with [a; r] => item_places a ++ [n_span r] | _ => [] end
  | KRetStatNone | KRetStatExpr | KRetStatNoneComma | KRetStatExprComma => [n_span b]
  | _ => []
  end.
Definition statements (n : node) : list loc :=
  match n_kind n, n_kids n with
  | KChunk, [b] => block_places b
  | KSheBangChunk, [_; b] => block_places b
  | _, _ => []
  end.

(** [u] is the text [t] up to the end of the file, where the blanks and tabs are removed and a line feed is added when
    there is none, if [nl] *)
Definition spaces (s : str) : Prop := Forall (fun c => c = 32%N \/ c = 9%N) s.
Definition eof_text (nl : bool) (t u : str) : Prop :=
  if nl then exists s c b, t = (s ++ [c]) ++ b /\ spaces b /\ ~ spaces [c]
               /\ u = if N.eqb c 10 then s ++ [c] else (s ++ [c]) ++ [10%N]
  else u = t.
