(** Model of src/parser/comment_lexer.rs. *)
From Verif Require Import Base LexUtil LuaLexer.

(** comment_lexer.rs:8-13 [enum Token] *)
Inductive ctoken :=
| COneLine (s : str)
| CMultiLine (level : nat) (s : str)
| CNewLine
| CEOF.

(** comment_lexer.rs:71-118, one iteration for a non-empty rest [ch :: r] at index [i]. *)
Definition clex_step (i : nat) (ch : char) (r : str) : lstep ctoken :=
  let c1 : tchars := (S i, r) in
  if ceq ch ch_sp || ceq ch ch_cr || ceq ch ch_tab then LSkip c1
  else if ceq ch ch_nl then LTok i CNewLine (i + 1) c1
  else if ceq ch (chr "-") then
    match r with
    | c2 :: _ =>
        if ceq c2 (chr "-") then
          let '(_, _, token_end, opt_level, succ, v, c) :=
            get_comment_start_ends_and_type (advance c1) (i + 2) in
          if succ then
            LTok i (match opt_level with Some l => CMultiLine l v | None => COneLine v end) token_end c
          else LErr UnexpectedEOF
        else LErr (UnrecognizedSymbol (S i) c2)
    | [] => LErr UnexpectedEOF
    end
  else LErr (UnrecognizedSymbol i ch).

Fixpoint clex_loop (n fuel : nat) (cs : tchars) : lexres ctoken :=
  match fuel with
  | O => LexFuel
  | S k =>
      match snd cs with
      | [] => LexOk [(n, CEOF, n)]
      | ch :: r =>
          match clex_step (fst cs) ch r with
          | LSkip c => clex_loop n k c
          | LTok l t e c =>
              match clex_loop n k c with
              | LexOk ts => LexOk ((l, t, e) :: ts)
              | x => x
              end
          | LErr e => LexFail e
          end
      end
  end.

Definition clex (src : str) : lexres ctoken := clex_loop (List.length src) (S (List.length src)) (0, src).
