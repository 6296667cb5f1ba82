(** C11: formatting a range of lines loses nothing. *)
From Verif Require Import Base Config State LuaLexer CommentLexer Ast LuaParser Formatter RefuteSpec CommentSpec LexSpec LayoutSpec UtilSpec RenderSpec FormatSpec RangeKeepSpec RangeTree.

(** C11, for ASCII texts and except for certain expressions of a last [return]: whatever the range, the output consists of
    the tokens of the source in their order, each as it was or as the options ask for, and between two tokens of the
    comments of the source in their order, with nothing but blanks, line feeds and hints around them.
    Left out are expressions [(e)] with something behind them that cover several lines and are not part of a proper
    statement of the outermost block; they really lose code, see [C11_partial_keeps_code_refuted]. Left out are texts with
    other characters, for which a range that ends among comments mixes their parts up. *)
Theorem C11_partial_keeps_code_partial : forall (src : str) (c : config) (o : str),
  ascii src -> (forall n, parse_lua src = Parsed n -> prefixes_kept src n) ->
  process_buffer src c = Formatted o -> output_kept c src o.
Proof. exact range_kept. Qed.
Print Assumptions C11_partial_keeps_code_partial.

Definition kept_lines (l : list string) : str := flat_map (fun s => s2l s ++ [10%N]) l.
Definition kept_source : str := kept_lines ["f  (1) --x"; "for  i=1,  2 do  (  'a'"; ")  ();  --[[y]] local  t  =  {1 ,  --[[z]]2}"; "  h  (t)  end"; "u  =  3 -- w"]%string.
Definition kept_config : config :=
  with_options ["--line_range=3:3"; "--remove_spaces_between_tokens=true"; "--replace_zero_spaces_with_hint=true"; "--remove_comments=true";
    "--convert_charstring_to_normalstring=true"; "--field_separator=; "]%string.
Definition is_round (n : node) : bool := match n_kind n with KVarRoundSuffix => true | _ => false end.
Definition kept_tree : node := match parse_lua kept_source with Parsed n => n | _ => dummy_node end.
(* the loop holds an expression over two lines; the range begins in it *)
Example C11_partial_keeps_code_partial_case :
  ascii kept_source /\ parse_lua kept_source = Parsed kept_tree /\ prefixes_kept kept_source kept_tree
  /\ (exists x, within kept_tree x /\ is_round x = true /\ In 10%N (text_at kept_source (fst (n_span x)) (snd (n_span x))))
  /\ process_buffer kept_source kept_config
     = Formatted (kept_lines ["f  (1) --x"; "for i = 1, 2 do (""a"""; ")(); local t = {1;  2}"; "h(t) end"; "u  =  3 -- w"]%string).
Proof.
  split; [apply Forall_forall; intros a Ha; apply N.ltb_lt; revert a Ha; apply forallb_forall; vm_compute; reflexivity|].
  split; [vm_compute; reflexivity|].
  split; [apply plain_kept with (b := nth 0 (n_kids kept_tree) dummy_node); vm_compute; reflexivity|].
  split; [|vm_compute; reflexivity].
  pose (b := nth 0 (children kept_tree) dummy_node). pose (y := nth 1 (children b) dummy_node). pose (l := nth 3 (children y) dummy_node).
  exists (nth 0 (children l) dummy_node). split; [|vm_compute; auto 20].
  apply (wi_part _ b); [vm_compute; auto|]. apply (wi_part _ y); [vm_compute; auto|]. apply (wi_part _ l); [vm_compute; auto 6|].
  apply (wi_part _ (nth 0 (children l) dummy_node)); [vm_compute; auto|apply wi_here].
Qed.
