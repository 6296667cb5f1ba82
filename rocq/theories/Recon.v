(** src/formatting/reconstruction.rs: the pass over the tree before writing. It widens the position range to
    whole top-level nodes, fills in the table options and converts quotes. *)
From Verif Require Import Base Config State Ast.

(** the part of the state the pass uses: [block_nested_level], [pos_range] *)
Definition rstate := (Z * option (nat * nat))%type.

(** reconstruction.rs:6-17 *)
Definition update_pos_range (span : loc) (s : rstate) : rstate :=
  let '(lv, pr) := s in
  if Z.eqb lv 1 then
    match pr with
    | Some (l, r) =>
        if (fst span <? r) && (l <? snd span)
        then (lv, Some (Nat.min (fst span) l, Nat.max (snd span) r))
        else s
    | None => s
    end
  else s.

Definition set_single (v : option bool) (n : node) : node :=
  match n with
  | Nd KFields sp ls t lv ks is ss o => Nd KFields sp ls t lv ks is ss (mk_opts (o_iv o) v)
  | _ => n
  end.

Definition is_field_sequential (n : node) : bool := kind_beq (n_kind n) KFieldSequential.

Section Recon.
  Variable cfg : config.

  (** reconstruction.rs:27-215. [sc] is the value the enclosing field list stores into
      [is_single_child] of a table that is a positional field, before the recursive call
      (reconstruction.rs:176-179). *)
  Fixpoint recon (sc : option bool) (n : node) (s : rstate) {struct n} : node * rstate :=
    let '(Nd k sp ls t lv ks is ss o) := n in
    let go_kids :=
      fix go (sc : option bool) (l : list node) (s : rstate) {struct l} : list node * rstate :=
        match l with
        | [] => ([], s)
        | x :: r => let '(x', s1) := recon sc x s in let '(r', s2) := go sc r s1 in (x' :: r', s2)
        end in
    let go_items :=
      fix go (l : list (loc * node)) (s : rstate) {struct l} : list (loc * node) * rstate :=
        match l with
        | [] => ([], s)
        | (p, x) :: r => let '(x', s1) := recon None x s in let '(r', s2) := go r s1 in ((p, x') :: r', s2)
        end in
    let go_seps :=
      fix go (sc : option bool) (l : list sitem) (s : rstate) {struct l} : list sitem * rstate :=
        match l with
        | [] => ([], s)
        | (p, x, q, z) :: r =>
            let '(x', s1) := recon sc x s in
            let '(r', s2) := go sc r s1 in ((p, x', q, z) :: r', s2)
        end in
    match k with
    | KStatementList =>                                                    (* reconstruction.rs:153-159 *)
        let '(is', s1) := go_items is ((fst s + 1)%Z, snd s) in
        (Nd k sp ls t lv ks is' ss o, ((fst s1 - 1)%Z, snd s1))
    | KFields =>                                                           (* reconstruction.rs:170-189 *)
        let single := Nat.eqb (List.length ss) 1 in
        let iv := forallb (fun i => is_field_sequential (si_node i)) ss in
        let '(ss', s1) := go_seps (Some single) ss s in
        (Nd k sp ls t lv ks is ss' (mk_opts (Some iv) (o_single o)), s1)
    | KTableConstructor =>                                                 (* reconstruction.rs:190-206 *)
        let s0 := update_pos_range sp s in
        let single :=
          match (match sc with Some b => Some b | None => o_single o end) with
          | Some b => Some b
          | None => Some true
          end in
        let '(ks', s1) := go_kids None ks s0 in
        let iv := match ks' with
                  | [f] => if kind_beq (n_kind f) KFields then o_iv (n_opts f) else o_iv o
                  | _ => o_iv o
                  end in
        (Nd k sp ls t lv (map (set_single single) ks') is ss (mk_opts iv single), s1)
    | KCharStringLiteral =>                                                (* reconstruction.rs:207-213 *)
        let s0 := update_pos_range sp s in
        if on cfg B_convert_charstring_to_normalstring
        then (Nd KNormalStringLiteral sp ls (charstring_to_normalstring t) lv ks is ss o, s0)
        else (n, s0)
    | KFuncNameSelf =>                                                     (* reconstruction.rs:160-167 *)
        let s0 := update_pos_range sp s in
        let '(ss', s1) := go_seps None ss s0 in
        let '(ks', s2) := go_kids None ks s1 in
        (Nd k sp ls t lv ks' is ss' o, s2)
    | _ =>                                                                 (* reconstruction.rs:30-152 *)
        let s0 := update_pos_range sp s in
        let '(ks', s1) := go_kids (match k with KFieldSequential => sc | _ => None end) ks s0 in
        let '(is', s2) := go_items is s1 in
        let '(ss', s3) := go_seps None ss s2 in
        (Nd k sp ls t lv ks' is' ss' o, s3)
    end.

  Definition reconstruct (n : node) (pr : option (nat * nat)) : node * option (nat * nat) :=
    let '(n', s) := recon None n (0%Z, pr) in (n', snd s).
End Recon.
