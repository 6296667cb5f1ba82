(** C47, C48: how operators are grouped. *)
From Verif Require Import Base Ast LuaParser LayoutSpec GroupSpec GroupProofs.

(** C47: every expression in the tree of a text is grouped by the precedences of the manual and, for operators of the same
    precedence, to the left; no other tree with the same operands and operators is. *)
Theorem C47_grouped_to_the_left : forall (src : str) (n m : node), parse_lua src = Parsed n -> within m n ->
  grouped all_left (operators m) /\ forall t, grouped all_left t -> words t = words (operators m) -> t = operators m.
Proof. exact parsed_grouped. Qed.
Print Assumptions C47_grouped_to_the_left.

(** C48 exactly where it holds: an expression is grouped as in the manual iff there is no chain of [..] or of [^]. *)
Theorem C48_grouped_as_manual_partial : forall (src : str) (n m : node), parse_lua src = Parsed n -> within m n ->
  (grouped manual_right (operators m) <-> ~ left_chain (operators m)).
Proof. exact parsed_manual. Qed.
Print Assumptions C48_grouped_as_manual_partial.

(** C48 is false: [a ^ b ^ c] is grouped to the left. *)
Theorem C48_grouped_as_manual_refuted : exists src n m, parse_lua src = Parsed n /\ within m n /\ ~ grouped manual_right (operators m).
Proof.
  exists (s2l "x = a ^ b ^ c").
  destruct (parse_lua (s2l "x = a ^ b ^ c")) as [n| |] eqn:P; [|vm_compute in P; discriminate ..]. exists n.
  vm_compute in P. injection P as <-. eexists. split; [reflexivity|]. split.
  - do 4 (eapply within_below; [unfold children; cbn [n_seps n_kids n_items map app snd si_node fst]; first [right; left; reflexivity | left; reflexivity]|]).
    apply within_here.
  - cbn. vm_compute. intros H. repeat match goal with H : _ /\ _ |- _ => destruct H end. lia.
Qed.
Print Assumptions C48_grouped_as_manual_refuted.

(** the operators of the first expression after [return] *)
Definition returned (src : str) : option tree :=
  match parse_lua src with
  | Parsed n => Some (operators (si_node (nth 0 (n_seps (kid (kid n 0) 0)) (dummy_loc, dummy_node, dummy_loc, []))))
  | _ => None
  end.
Fixpoint bracketed (t : tree) : str :=
  match t with
  | Atom n => n_text n
  | Unary op a => s2l "(" ++ op ++ s2l " " ++ bracketed a ++ s2l ")"
  | Binary op a b => s2l "(" ++ bracketed a ++ s2l " " ++ op ++ s2l " " ++ bracketed b ++ s2l ")"
  end.
Example C47_case : option_map bracketed (returned (s2l "return not a == b + c * -d ^ e ^ f .. g or h")) =
  Some (s2l "(((not a) == ((b + (c * (- ((d ^ e) ^ f)))) .. g)) or h)").
Proof. vm_compute. reflexivity. Qed.
Example C48_case : option_map bracketed (returned (s2l "return a .. b .. c")) = Some (s2l "((a .. b) .. c)").
Proof. vm_compute. reflexivity. Qed.
