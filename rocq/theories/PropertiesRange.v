(** C10: formatting a range of lines. *)
From Verif Require Import Base Config State LuaLexer Ast LuaParser Formatter Shipped RefuteSpec UtilSpec RangeSpec RangeProofs.

(** C10, from statement to statement: the output starts with the source up to the end of the last statement that ends
    before the lines of the range, and ends with the source from the beginning of the first statement that starts
    behind them. Left out are the gaps on both sides of the range; they are reformatted, see
    [C10_outside_lines_refuted]. *)
Theorem C10_outside_lines_partial : forall (src : str) (c : config) (L R : N) (n : node) (o : str),
  line_range c = Some (L, R) -> (1 <= L <= R)%N -> (L <= N.of_nat (lines src))%N ->
  parse_lua src = Parsed n -> process_buffer src c = Formatted o ->
  forall a b, In (a, b) (statements n) ->
    ((N.of_nat (line_at src b) < L)%N -> exists t, o = firstn b src ++ t)
    /\ ((R < N.of_nat (line_at src a))%N -> exists t u, o = t ++ u /\ eof_text (on c B_write_newline_at_eof) (skipn a src) u).
Proof. exact outside_lines. Qed.
Print Assumptions C10_outside_lines_partial.

Definition text_of_lines (l : list string) : str := flat_map (fun s => s2l s ++ [10%N]) l.
Definition range_source : str := text_of_lines ["#!/bin/lua"; "a  =  1 -- x"; "b  =  2"; "c  =  {1,2}  do   end"; "return   a "]%string.
Definition range_config : config :=
  with_options ["--line_range=3:3"; "--write_newline_at_eof=true"; "--remove_spaces_between_tokens=true"; "--replace_zero_spaces_with_hint=true"]%string.
Example C10_outside_lines_case : line_range range_config = Some (3, 3)%N /\ lines range_source = 6
  /\ (exists n, parse_lua range_source = Parsed n /\ statements n = [(11, 18); (24, 31); (32, 43); (45, 53); (54, 64)])
  /\ map (fun x => (line_at range_source (fst x), line_at range_source (snd x))) [(11, 18); (24, 31); (32, 43); (45, 53); (54, 64)]
     = [(2, 2); (3, 3); (4, 4); (4, 4); (5, 5)]
  /\ process_buffer range_source range_config
     = Formatted (text_of_lines ["#!/bin/lua"; "a  =  1 -- x"; "b = 2"; "c  =  {1,2}  do   end"; "return   a "]%string).
Proof.
  split; [vm_compute; reflexivity|]. split; [vm_compute; reflexivity|]. split; [eexists; split; vm_compute; reflexivity|].
  split; vm_compute; reflexivity.
Qed.

(** C10, false as it stands: the gap before the first statement of the range is formatted, although it belongs to a
    line outside of it. Here a range of the second line removes the comment of the first one. *)
Theorem C10_outside_lines_refuted : exists (src : str) (c : config) (L R : N) (n : node) (o : str) (z y : loc),
  line_range c = Some (L, R) /\ (1 <= L <= R)%N /\ (R <= N.of_nat (lines src))%N
  /\ parse_lua src = Parsed n /\ process_buffer src c = Formatted o /\ statements n = [z; y]
  /\ (N.of_nat (line_at src (snd z)) < L)%N /\ (L <= N.of_nat (line_at src (fst y)) <= R)%N
  /\ ~ (exists t, o = firstn (fst y) src ++ t) /\ ~ (exists t, o = s2l "a=1 --c" ++ t) /\ (exists t, src = s2l "a=1 --c" ++ [10%N] ++ t).
Proof.
  exists (text_of_lines ["a=1 --c"; "b=2"]%string), (with_options ["--line_range=2:2"; "--remove_comments=true"]%string), 2%N, 2%N. do 4 eexists.
  split; [vm_compute; reflexivity|]. split; [vm_compute; split; discriminate|]. split; [vm_compute; discriminate|].
  split; [vm_compute; reflexivity|]. split; [vm_compute; reflexivity|]. split; [vm_compute; reflexivity|].
  split; [vm_compute; reflexivity|]. split; [vm_compute; split; discriminate|].
  split; [intros [t E]; vm_compute in E; discriminate E|]. split; [intros [t E]; vm_compute in E; discriminate E|].
  eexists. vm_compute. reflexivity.
Qed.
Print Assumptions C10_outside_lines_refuted.

(** C36, false: a range of lines behind the last line formats the whole text. *)
Theorem C36_range_behind_end_refuted : exists (src : str) (c : config) (L R : N) (n : node) (o : str),
  line_range c = Some (L, R) /\ (N.of_nat (lines src) < L <= R)%N
  /\ parse_lua src = Parsed n /\ process_buffer src c = Formatted o /\ on c B_write_newline_at_eof = false /\ o <> src.
Proof.
  exists (s2l "a  = 1"), (with_options ["--line_range=5:9"; "--remove_spaces_between_tokens=true"]%string), 5%N, 9%N. do 2 eexists.
  split; [vm_compute; reflexivity|]. split; [vm_compute; split; [reflexivity|discriminate]|]. split; [vm_compute; reflexivity|].
  split; [vm_compute; reflexivity|]. split; [vm_compute; reflexivity|]. vm_compute. discriminate.
Qed.
Print Assumptions C36_range_behind_end_refuted.
