(** Context-free grammars with semantic actions and an LR(1) automaton interpreter: the model of
    the parsers LALRPOP generates from the .lalrpop files. LALRPOP compiles the grammar into LR(1)
    tables and runs them over the token stream; the interpreter below does the same over tables
    given as data. That the tables decide the grammar is proved in LRProofs.v, not assumed. *)
From Verif Require Import Base.

(** Symbols are numbered. *)
Inductive sym := T (t : N) | NT (n : N).

Definition sym_eqb (a b : sym) : bool :=
  match a, b with
  | T x, T y => N.eqb x y
  | NT x, NT y => N.eqb x y
  | _, _ => false
  end.

(** A semantic value with the start and end index of the text it was read from. *)
Definition located (val : Type) := (nat * val * nat)%type.

Record prod (val : Type) := mk_prod {
  p_lhs : N;
  p_rhs : list sym;
  p_act : list (located val) -> val
}.
Arguments mk_prod {val}. Arguments p_lhs {val}. Arguments p_rhs {val}. Arguments p_act {val}.

Record grammar (tok val : Type) := mk_grammar {
  g_term : tok -> N;           (* terminal of a token *)
  g_tval : tok -> val;         (* semantic value of a token *)
  g_prods : list (prod val);
  g_start : N                  (* start nonterminal *)
}.
Arguments mk_grammar {tok val}. Arguments g_term {tok val}. Arguments g_tval {tok val}.
Arguments g_prods {tok val}. Arguments g_start {tok val}.

Definition a_start {val} (args : list (located val)) : nat :=
  match args with [] => 0 | (l, _, _) :: _ => l end.
Fixpoint a_end {val} (args : list (located val)) : nat :=
  match args with [] => 0 | [(_, _, r)] => r | _ :: rest => a_end rest end.

(** Binary tries indexed by [N]. *)
Inductive trie (A : Type) := TLeaf | TNode (l : trie A) (o : option A) (r : trie A).
Arguments TLeaf {A}. Arguments TNode {A}.

Fixpoint tget {A} (p : positive) (t : trie A) : option A :=
  match t with
  | TLeaf => None
  | TNode l o r => match p with xH => o | xO q => tget q l | xI q => tget q r end
  end.
Fixpoint tset {A} (p : positive) (v : A) (t : trie A) : trie A :=
  match p, t with
  | xH, TLeaf => TNode TLeaf (Some v) TLeaf
  | xH, TNode l _ r => TNode l (Some v) r
  | xO q, TLeaf => TNode (tset q v TLeaf) None TLeaf
  | xO q, TNode l o r => TNode (tset q v l) o r
  | xI q, TLeaf => TNode TLeaf None (tset q v TLeaf)
  | xI q, TNode l o r => TNode l o (tset q v r)
  end.
Definition nget {A} (n : N) (t : trie A) : option A := tget (N.succ_pos n) t.
Fixpoint trie_of_list {A} (i : N) (l : list A) (t : trie A) : trie A :=
  match l with
  | [] => t
  | x :: r => trie_of_list (N.succ i) r (tset (N.succ_pos i) x t)
  end.

Fixpoint assocN {A} (k : N) (l : list (N * A)) : option A :=
  match l with
  | [] => None
  | (k', v) :: r => if N.eqb k k' then Some v else assocN k r
  end.

(** One row of the tables: shifts by terminal, reductions (production number, set of lookahead
    terminals as a bit mask), gotos by nonterminal. *)
Record row := mk_row {
  r_shift : list (N * N);
  r_reduce : list (N * N);
  r_goto : list (N * N)
}.

Inductive action := Shift (s : N) | Reduce (p : N) | NoAction.

Fixpoint find_reduce (a : N) (l : list (N * N)) : action :=
  match l with
  | [] => NoAction
  | (p, m) :: r => if N.testbit m a then Reduce p else find_reduce a r
  end.

Definition row_action (r : row) (a : N) : action :=
  match assocN a (r_shift r) with
  | Some s => Shift s
  | None => find_reduce a (r_reduce r)
  end.

Record automaton := mk_automaton {
  au_rows : trie row;
  au_eoi : N              (* the end-of-input pseudo terminal *)
}.

Section Run.
  Context {tok val : Type}.
  Variable g : grammar tok val.
  Variable prods : trie (prod val).
  Variable au : automaton.

  (** stack entries: state reached, symbol, value; the top first; state 0 is below *)
  Definition entry := (N * sym * located val)%type.

  Definition top_state (st : list entry) : N :=
    match st with [] => 0%N | (s, _, _) :: _ => s end.

  (** pop the right-hand side [rrhs] (reversed) off the stack *)
  Fixpoint pop_rhs (rrhs : list sym) (st : list entry) (acc : list (located val))
    : option (list (located val) * list entry) :=
    match rrhs with
    | [] => Some (acc, st)
    | x :: rest =>
        match st with
        | [] => None
        | (_, y, v) :: st' => if sym_eqb x y then pop_rhs rest st' (v :: acc) else None
        end
    end.

  Inductive parse_result := POk (v : val) | PFail | PFuel.

  Definition lookahead (input : list (nat * tok * nat)) : N :=
    match input with [] => au_eoi au | (_, t, _) :: _ => g_term g t end.

  Inductive sres :=
  | SNext (st : list entry) (input : list (nat * tok * nat))
  | SAccept (v : val)
  | SFail.

  (** one move: shift, reduce, or accept when the start symbol is complete at the end of input *)
  Definition lr_step (st : list entry) (input : list (nat * tok * nat)) : sres :=
    match nget (top_state st) (au_rows au) with
    | None => SFail
    | Some row =>
        match row_action row (lookahead input) with
        | NoAction => SFail
        | Shift s' =>
            match input with
            | [] => SFail
            | (l, t, r) :: rest => SNext ((s', T (g_term g t), (l, g_tval g t, r)) :: st) rest
            end
        | Reduce pi =>
            match nget pi prods with
            | None => SFail
            | Some p =>
                match pop_rhs (rev (p_rhs p)) st [] with
                | None => SFail
                | Some (args, st') =>
                    let v := p_act p args in
                    let e := (a_start args, v, a_end args) in
                    if is_empty st' && is_empty input && N.eqb (p_lhs p) (g_start g) then SAccept v
                    else
                      match nget (top_state st') (au_rows au) with
                      | None => SFail
                      | Some row' =>
                          match assocN (p_lhs p) (r_goto row') with
                          | None => SFail
                          | Some s' => SNext ((s', NT (p_lhs p), e) :: st') input
                          end
                      end
                end
            end
        end
    end.

  Fixpoint lr_run (fuel : nat) (st : list entry) (input : list (nat * tok * nat)) : parse_result :=
    match fuel with
    | O => PFuel
    | S k =>
        match lr_step st input with
        | SNext st' input' => lr_run k st' input'
        | SAccept v => POk v
        | SFail => PFail
        end
    end.
End Run.
Arguments POk {val}. Arguments PFail {val}. Arguments PFuel {val}.

(** A bound on the number of moves over [n] tokens when every chain of unit productions is at most
    [r] long; that it is one is proved in LRProofs.v. *)
Definition lr_fuel (r n : nat) : nat := (2 * r + 3) * S n.

(** Everything needed to run a parser for [g]. *)
Definition lr_parse {tok val} (g : grammar tok val) (rows : list row) (eoi : N) (r : nat)
  (input : list (nat * tok * nat)) : parse_result :=
  lr_run g (trie_of_list 0%N (g_prods g) TLeaf) (mk_automaton (trie_of_list 0%N rows TLeaf) eoi)
    (lr_fuel r (List.length input)) [] input.
