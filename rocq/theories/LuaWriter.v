(** Writing the Lua tree: src/parser/lua_ast.rs:135-1220.

    An arm of [configured_write] is a sequence of macro arguments; here it is a list of [item]s interpreted by
    [run_items]. Recursion goes through [W], which [write] ties with fuel (an arm may write its own node again
    under a changed configuration, so the recursion is not structural). *)
From Verif Require Import Base Config State Ast WriterBase.

(** Arguments of [cfg_write!] (config.rs:10-26). Indices refer to the node's [locs] and children. *)
Inductive item :=
| ITok (s : str)                              (* a literal or the node's own text *)
| IRaw (i : nat)                              (* locs[i] *)
| IHint (i : nat) (hint : str)                (* Hint(&locs[i], hint) *)
| INl (b : bool) (i : nat) (hint : str)       (* IfNewLine(b, Hint(&locs[i], hint)) *)
| IKid (i : nat)
| IInc (o : option str)                       (* IncIndent(o) *)
| IDec                                        (* DecIndent() *)
| IIncF                                       (* IncFuncLevel() *)
| IDecF                                       (* DecFuncLevel() *)
| IIf (b : bool) (x : item).                  (* If(b, &x) *)

(** Items written first, then possibly [test_indent] of a child with a position and a hint, whose result the
    remaining items depend on. *)
Record clause := mk_clause {
  cl_pre : list item;
  cl_test : option (nat * nat * str);
  cl_post : bool -> list item
}.
Definition plain (l : list item) : clause := mk_clause l None (fun _ => []).
Definition tested (l : list item) (k p : nat) (h : str) (post : bool -> list item) : clause :=
  mk_clause l (Some (k, p, h)) post.

Definition sp : str := [ch_sp].

(** The arguments of [out_of_range_write!] in each arm. *)
Definition raw_items (n : node) : option (list item) :=
  match n_kind n with
  | KBinaryOp => (* lua_ast.rs:489-506 *)
      Some [IKid 0; IRaw 0; ITok (n_text n); IRaw 1; IKid 1]
  | KUnaryOp => (* lua_ast.rs:507-511 *)
      Some [ITok (n_text n); IRaw 0; IKid 0]
  | KUnaryNot => (* lua_ast.rs:512-516 *)
      Some [ITok (s2l "not"); IRaw 0; IKid 0]
  | KVar => (* lua_ast.rs:518-524 *)
      Some [IKid 0; IRaw 0; IKid 1]
  | KRoundBrackets => (* lua_ast.rs:525-530 *)
      Some [ITok (s2l "("); IRaw 0; IKid 0; IRaw 1; ITok (s2l ")")]
  | KArgsRoundBrackets => (* lua_ast.rs:531-540 *)
      Some [ITok (s2l "("); IRaw 0; IKid 0; IRaw 1; ITok (s2l ")")]
  | KArgsRoundBracketsEmpty => (* lua_ast.rs:541-544 *)
      Some [ITok (s2l "("); IRaw 0; ITok (s2l ")")]
  | KTableConstructor => (* lua_ast.rs:561-608 *)
      Some [ITok (s2l "{"); IRaw 0; IKid 0; IRaw 1; ITok (s2l "}")]
  | KTableConstructorEmpty => (* lua_ast.rs:609-621 *)
      Some [ITok (s2l "{"); IRaw 0; ITok (s2l "}")]
  | KFieldNamedBracket => (* lua_ast.rs:628-635 *)
      Some [ITok (s2l "["); IRaw 0; IKid 0; IRaw 1; ITok (s2l "]"); IRaw 2; ITok (s2l "="); IRaw 3; IKid 1]
  | KFieldNamed => (* lua_ast.rs:636-639 *)
      Some [IKid 0; IRaw 0; ITok (s2l "="); IRaw 1; IKid 1]
  | KFieldSequential => (* lua_ast.rs:640-643 *)
      Some [IKid 0]
  | KTableIndex => (* lua_ast.rs:645-648 *)
      Some [ITok (s2l "["); IRaw 0; IKid 0; IRaw 1; ITok (s2l "]")]
  | KTableMember => (* lua_ast.rs:649-652 *)
      Some [ITok (s2l "."); IRaw 0; IKid 0]
  | KDoEnd => (* lua_ast.rs:673-676 *)
      Some [ITok (s2l "do"); IRaw 0; ITok (s2l "end")]
  | KDoBEnd => (* lua_ast.rs:677-685 *)
      Some [ITok (s2l "do"); IRaw 0; IKid 0; IRaw 1; ITok (s2l "end")]
  | KVarsExprs => (* lua_ast.rs:686-695 *)
      Some [IKid 0; IRaw 0; ITok (s2l "="); IRaw 1; IKid 1]
  | KVarRoundSuffix => (* lua_ast.rs:697-707 *)
      Some [ITok (s2l "("); IRaw 0; IKid 0; IRaw 1; ITok (s2l ")")]
  | KFnMethodCall => (* lua_ast.rs:713-718 *)
      Some [ITok (s2l ":"); IRaw 0; IKid 0; IRaw 1; IKid 1]
  | KFunctionDef => (* lua_ast.rs:724-727 *)
      Some [ITok (s2l "function"); IRaw 0; IKid 0]
  | KFuncBody => (* lua_ast.rs:728-739 *)
      Some [ITok (s2l "("); IRaw 0; ITok (s2l ")"); IRaw 1; ITok (s2l "end")]
  | KFuncBodyB => (* lua_ast.rs:740-753 *)
      Some [ITok (s2l "("); IRaw 0; ITok (s2l ")"); IRaw 1; IKid 0; IRaw 2; ITok (s2l "end")]
  | KFuncPBody => (* lua_ast.rs:754-766 *)
      Some [ITok (s2l "("); IRaw 0; IKid 0; IRaw 1; ITok (s2l ")"); IRaw 2; ITok (s2l "end")]
  | KFuncPBodyB => (* lua_ast.rs:767-781 *)
      Some [ITok (s2l "("); IRaw 0; IKid 0; IRaw 1; ITok (s2l ")"); IRaw 2; IKid 1; IRaw 3; ITok (s2l "end")]
  | KFuncDecl => (* lua_ast.rs:795-800 *)
      Some [ITok (s2l "function"); IRaw 0; IKid 0; IRaw 1; IKid 1]
  | KLocalFuncDecl => (* lua_ast.rs:801-807 *)
      Some [ITok (s2l "local"); IRaw 0; ITok (s2l "function"); IRaw 1; IKid 0; IRaw 2; IKid 1]
  | KLocalNames => (* lua_ast.rs:809-813 *)
      Some [ITok (s2l "local"); IRaw 0; IKid 0]
  | KLocalNamesExprs => (* lua_ast.rs:814-824 *)
      Some [ITok (s2l "local"); IRaw 0; IKid 0; IRaw 1; ITok (s2l "="); IRaw 2; IKid 1]
  | KIfThen => (* lua_ast.rs:827-839 *)
      Some [ITok (s2l "if"); IRaw 0; IKid 0; IRaw 1; ITok (s2l "then"); IRaw 2; ITok (s2l "end")]
  | KIfThenB => (* lua_ast.rs:840-855 *)
      Some [ITok (s2l "if"); IRaw 0; IKid 0; IRaw 1; ITok (s2l "then"); IRaw 2; IKid 1; IRaw 3; ITok (s2l "end")]
  | KIfThenElse => (* lua_ast.rs:856-870 *)
      Some [ITok (s2l "if"); IRaw 0; IKid 0; IRaw 1; ITok (s2l "then"); IRaw 2; ITok (s2l "else"); IRaw 3; ITok
        (s2l "end")]
  | KIfThenBElse => (* lua_ast.rs:871-886 *)
      Some [ITok (s2l "if"); IRaw 0; IKid 0; IRaw 1; ITok (s2l "then"); IRaw 2; IKid 1; IRaw 3; ITok (s2l "else");
        IRaw 4; ITok (s2l "end")]
  | KIfThenElseB => (* lua_ast.rs:887-902 *)
      Some [ITok (s2l "if"); IRaw 0; IKid 0; IRaw 1; ITok (s2l "then"); IRaw 2; ITok (s2l "else"); IRaw 3; IKid 1;
        IRaw 4; ITok (s2l "end")]
  | KIfThenBElseB => (* lua_ast.rs:903-920 *)
      Some [ITok (s2l "if"); IRaw 0; IKid 0; IRaw 1; ITok (s2l "then"); IRaw 2; IKid 1; IRaw 3; ITok (s2l "else");
        IRaw 4; IKid 2; IRaw 5; ITok (s2l "end")]
  | KIfThenElseIf => (* lua_ast.rs:921-935 *)
      Some [ITok (s2l "if"); IRaw 0; IKid 0; IRaw 1; ITok (s2l "then"); IRaw 2; IKid 1; IRaw 3; ITok (s2l "end")]
  | KIfThenBElseIf => (* lua_ast.rs:936-951 *)
      Some [ITok (s2l "if"); IRaw 0; IKid 0; IRaw 1; ITok (s2l "then"); IRaw 2; IKid 1; IRaw 3; IKid 2; IRaw 4;
        ITok (s2l "end")]
  | KIfThenElseIfElse => (* lua_ast.rs:952-967 *)
      Some [ITok (s2l "if"); IRaw 0; IKid 0; IRaw 1; ITok (s2l "then"); IRaw 2; IKid 1; IRaw 3; ITok (s2l "else");
        IRaw 4; ITok (s2l "end")]
  | KIfThenBElseIfElse => (* lua_ast.rs:968-984 *)
      Some [ITok (s2l "if"); IRaw 0; IKid 0; IRaw 1; ITok (s2l "then"); IRaw 2; IKid 1; IRaw 3; IKid 2; IRaw 4;
        ITok (s2l "else"); IRaw 5; ITok (s2l "end")]
  | KIfThenElseIfElseB => (* lua_ast.rs:985-1001 *)
      Some [ITok (s2l "if"); IRaw 0; IKid 0; IRaw 1; ITok (s2l "then"); IRaw 2; IKid 1; IRaw 3; ITok (s2l "else");
        IRaw 4; IKid 2; IRaw 5; ITok (s2l "end")]
  | KIfThenBElseIfElseB => (* lua_ast.rs:1002-1019 *)
      Some [ITok (s2l "if"); IRaw 0; IKid 0; IRaw 1; ITok (s2l "then"); IRaw 2; IKid 1; IRaw 3; IKid 2; IRaw 4;
        ITok (s2l "else"); IRaw 5; IKid 3; IRaw 6; ITok (s2l "end")]
  | KElseIfThen => (* lua_ast.rs:1025-1030 *)
      Some [ITok (s2l "elseif"); IRaw 0; IKid 0; IRaw 1; ITok (s2l "then")]
  | KElseIfThenB => (* lua_ast.rs:1031-1039 *)
      Some [ITok (s2l "elseif"); IRaw 0; IKid 0; IRaw 1; ITok (s2l "then"); IRaw 2; IKid 1]
  | KLabel => (* lua_ast.rs:1042-1045 *)
      Some [ITok (s2l "::"); IRaw 0; IKid 0; IRaw 1; ITok (s2l "::")]
  | KGoTo => (* lua_ast.rs:1046-1049 *)
      Some [ITok (s2l "goto"); IRaw 0; IKid 0]
  | KWhileDo => (* lua_ast.rs:1050-1059 *)
      Some [ITok (s2l "while"); IRaw 0; IKid 0; IRaw 1; ITok (s2l "do"); IRaw 2; ITok (s2l "end")]
  | KWhileDoB => (* lua_ast.rs:1060-1071 *)
      Some [ITok (s2l "while"); IRaw 0; IKid 0; IRaw 1; ITok (s2l "do"); IRaw 2; IKid 1; IRaw 3; ITok (s2l "end")]
  | KRepeatUntil => (* lua_ast.rs:1072-1080 *)
      Some [ITok (s2l "repeat"); IRaw 0; ITok (s2l "until"); IRaw 1; IKid 0]
  | KRepeatBUntil => (* lua_ast.rs:1081-1089 *)
      Some [ITok (s2l "repeat"); IRaw 0; IKid 0; IRaw 1; ITok (s2l "until"); IRaw 2; IKid 1]
  | KForInt => (* lua_ast.rs:1091-1100 *)
      Some [ITok (s2l "for"); IRaw 0; IKid 0; IRaw 1; ITok (s2l "="); IRaw 2; IKid 1; IRaw 3; ITok (s2l ","); IRaw
        4; IKid 2; IRaw 5; ITok (s2l "do"); IRaw 6; ITok (s2l "end")]
  | KForIntB => (* lua_ast.rs:1101-1113 *)
      Some [ITok (s2l "for"); IRaw 0; IKid 0; IRaw 1; ITok (s2l "="); IRaw 2; IKid 1; IRaw 3; ITok (s2l ","); IRaw
        4; IKid 2; IRaw 5; ITok (s2l "do"); IRaw 6; IKid 3; IRaw 7; ITok (s2l "end")]
  | KForIntStep => (* lua_ast.rs:1114-1126 *)
      Some [ITok (s2l "for"); IRaw 0; IKid 0; IRaw 1; ITok (s2l "="); IRaw 2; IKid 1; IRaw 3; ITok (s2l ","); IRaw
        4; IKid 2; IRaw 5; ITok (s2l ","); IRaw 6; IKid 3; IRaw 7; ITok (s2l "do"); IRaw 8; ITok (s2l "end")]
  | KForIntStepB => (* lua_ast.rs:1127-1139 *)
      Some [ITok (s2l "for"); IRaw 0; IKid 0; IRaw 1; ITok (s2l "="); IRaw 2; IKid 1; IRaw 3; ITok (s2l ","); IRaw
        4; IKid 2; IRaw 5; ITok (s2l ","); IRaw 6; IKid 3; IRaw 7; ITok (s2l "do"); IRaw 8; IKid 4; IRaw 9; ITok
        (s2l "end")]
  | KForRange => (* lua_ast.rs:1140-1155 *)
      Some [ITok (s2l "for"); IRaw 0; IKid 0; IRaw 1; ITok (s2l "in"); IRaw 2; IKid 1; IRaw 3; ITok (s2l "do");
        IRaw 4; ITok (s2l "end")]
  | KForRangeB => (* lua_ast.rs:1156-1171 *)
      Some [ITok (s2l "for"); IRaw 0; IKid 0; IRaw 1; ITok (s2l "in"); IRaw 2; IKid 1; IRaw 3; ITok (s2l "do");
        IRaw 4; IKid 2; IRaw 5; ITok (s2l "end")]
  | KRetStatExpr => (* lua_ast.rs:1174-1182 *)
      Some [ITok (s2l "return"); IRaw 0; IKid 0]
  | KRetStatNoneComma => (* lua_ast.rs:1183-1187 *)
      Some [ITok (s2l "return"); IRaw 0; ITok (s2l ";")]
  | KRetStatExprComma => (* lua_ast.rs:1188-1200 *)
      Some [ITok (s2l "return"); IRaw 0; IKid 0; IRaw 1; ITok (s2l ";")]
  | KStatsRetStat => (* lua_ast.rs:1201-1206 *)
      Some [IKid 0; IRaw 0; IKid 1]
  | _ => None
  end.

(** The regular arms. *)
Definition clause_of (c : config) (n : node) : clause :=
  match n_kind n with
  | KUnaryOp => (* lua_ast.rs:507-511 *)
      plain [ITok (n_text n); IHint 0 []; IKid 0]
  | KUnaryNot => (* lua_ast.rs:512-516 *)
      plain [ITok (s2l "not"); IHint 0 sp; IKid 0]
  | KVar => (* lua_ast.rs:518-524 *)
      tested [IKid 0]
        1 0 []
        (fun ind => [IIf ind (IInc None); IHint 0 []; IKid 1; IIf ind IDec])
  | KRoundBrackets => (* lua_ast.rs:525-530 *)
      plain [ITok (s2l "("); IHint 0 []; IKid 0; IHint 1 []; ITok (s2l ")")]
  | KArgsRoundBrackets => (* lua_ast.rs:531-540 *)
      tested [ITok (s2l "(")]
        0 0 []
        (fun ind => [IIf ind (IInc None); IHint 0 []; IKid 0; IIf ind IDec; IHint 1 []; ITok (s2l ")")])
  | KArgsRoundBracketsEmpty => (* lua_ast.rs:541-544 *)
      plain [ITok (s2l "("); IHint 0 []; ITok (s2l ")")]
  | KNil => (* lua_ast.rs:546 *)
      plain [ITok (s2l "nil")]
  | KFalse => (* lua_ast.rs:547 *)
      plain [ITok (s2l "false")]
  | KTrue => (* lua_ast.rs:548 *)
      plain [ITok (s2l "true")]
  | KVarArg => (* lua_ast.rs:549 *)
      plain [ITok (s2l "...")]
  | KBreak => (* lua_ast.rs:550 *)
      plain [ITok (s2l "break")]
  | KNumeral => (* lua_ast.rs:553 *)
      plain [ITok (n_text n)]
  | KNormalStringLiteral => (* lua_ast.rs:554 *)
      plain [ITok ([ch_quot] ++ n_text n ++ [ch_quot])]
  | KCharStringLiteral => (* lua_ast.rs:555 *)
      plain [ITok ([ch_apos] ++ n_text n ++ [ch_apos])]
  | KFieldNamedBracket => (* lua_ast.rs:628-635 *)
      plain [ITok (s2l "["); IHint 0 []; IKid 0; IHint 1 []; ITok (s2l "]"); IHint 2 sp; ITok (s2l "="); IHint 3
        sp; IKid 1]
  | KFieldNamed => (* lua_ast.rs:636-639 *)
      plain [IKid 0; IHint 0 sp; ITok (s2l "="); IHint 1 sp; IKid 1]
  | KFieldSequential => (* lua_ast.rs:640-643 *)
      plain [IKid 0]
  | KTableIndex => (* lua_ast.rs:645-648 *)
      plain [ITok (s2l "["); IHint 0 []; IKid 0; IHint 1 []; ITok (s2l "]")]
  | KTableMember => (* lua_ast.rs:649-652 *)
      plain [ITok (s2l "."); IHint 0 []; IKid 0]
  | KDoEnd => (* lua_ast.rs:673-676 *)
      plain [ITok (s2l "do"); IHint 0 sp; ITok (s2l "end")]
  | KDoBEnd => (* lua_ast.rs:677-685 *)
      let nl := nis c N_newline_format_do_end 1 in
      plain [ITok (s2l "do"); IInc None; INl nl 0 sp; IKid 0; IDec; INl nl 1 sp; ITok (s2l "end")]
  | KVarsExprs => (* lua_ast.rs:686-695 *)
      tested [IKid 0; IHint 0 sp; ITok (s2l "=")]
        1 1 sp
        (fun ind => [IIf ind (IInc None); IHint 1 sp; IKid 1; IIf ind IDec])
  | KVarRoundSuffix => (* lua_ast.rs:697-707 *)
      tested [ITok (s2l "("); IHint 0 []; IKid 0; IHint 1 []; ITok (s2l ")")]
        1 0 []
        (fun ind => [IIf ind (IInc None); IHint 2 []; IKid 1; IIf ind IDec])
  | KFnMethodCall => (* lua_ast.rs:713-718 *)
      plain [ITok (s2l ":"); IHint 0 []; IKid 0; IHint 1 []; IKid 1]
  | KFunctionDef => (* lua_ast.rs:724-727 *)
      plain [ITok (s2l "function"); IHint 0 []; IKid 0]
  | KFuncBody => (* lua_ast.rs:728-739 *)
      let nl := nis c N_newline_format_function 1 in
      plain [ITok (s2l "("); IHint 0 []; ITok (s2l ")"); INl nl 1 sp; ITok (s2l "end")]
  | KFuncBodyB => (* lua_ast.rs:740-753 *)
      let nl := nis c N_newline_format_function 1 in
      plain [ITok (s2l "("); IHint 0 []; ITok (s2l ")"); IInc None; IIncF; INl nl 1 sp; IKid 0; IDec; IDecF; INl
        nl 2 sp; ITok (s2l "end")]
  | KFuncPBody => (* lua_ast.rs:754-766 *)
      let nl := nis c N_newline_format_function 1 in
      plain [ITok (s2l "("); IInc None; IHint 0 []; IKid 0; IHint 1 []; IDec; ITok (s2l ")"); INl nl 2 sp; ITok
        (s2l "end")]
  | KFuncPBodyB => (* lua_ast.rs:767-781 *)
      let nl := nis c N_newline_format_function 1 in
      plain [ITok (s2l "("); IInc None; IHint 0 []; IKid 0; IHint 1 []; IDec; ITok (s2l ")"); IInc None; IIncF;
        INl nl 2 sp; IKid 1; IDec; IDecF; INl nl 3 sp; ITok (s2l "end")]
  | KFuncDecl => (* lua_ast.rs:795-800 *)
      plain [ITok (s2l "function"); IHint 0 sp; IKid 0; IHint 1 []; IKid 1]
  | KLocalFuncDecl => (* lua_ast.rs:801-807 *)
      plain [ITok (s2l "local"); IHint 0 sp; ITok (s2l "function"); IHint 1 sp; IKid 0; IHint 2 []; IKid 1]
  | KLocalNames => (* lua_ast.rs:809-813 *)
      plain [ITok (s2l "local"); IHint 0 sp; IKid 0]
  | KLocalNamesExprs => (* lua_ast.rs:814-824 *)
      tested [ITok (s2l "local"); IHint 0 sp; IKid 0; IHint 1 sp; ITok (s2l "=")]
        1 2 sp
        (fun ind => [IIf ind (IInc None); IHint 2 sp; IKid 1; IIf ind IDec])
  | KIfThen => (* lua_ast.rs:827-839 *)
      let nl := nis c N_newline_format_if 1 in
      plain [ITok (s2l "if"); IHint 0 sp; IKid 0; IHint 1 sp; ITok (s2l "then"); INl nl 2 sp; ITok (s2l "end")]
  | KIfThenB => (* lua_ast.rs:840-855 *)
      let nl := nis c N_newline_format_if 1 in
      plain [ITok (s2l "if"); IHint 0 sp; IKid 0; IHint 1 sp; ITok (s2l "then"); IInc None; INl nl 2 sp; IKid 1;
        IDec; INl nl 3 sp; ITok (s2l "end")]
  | KIfThenElse => (* lua_ast.rs:856-870 *)
      let nl := nis c N_newline_format_if 1 in
      plain [ITok (s2l "if"); IHint 0 sp; IKid 0; IHint 1 sp; ITok (s2l "then"); IHint 2 sp; ITok (s2l "else");
        INl nl 3 sp; ITok (s2l "end")]
  | KIfThenBElse => (* lua_ast.rs:871-886 *)
      let nl := nis c N_newline_format_if 1 in
      plain [ITok (s2l "if"); IHint 0 sp; IKid 0; IHint 1 sp; ITok (s2l "then"); IInc None; INl nl 2 sp; IKid 1;
        IDec; INl nl 3 sp; ITok (s2l "else"); INl nl 4 sp; ITok (s2l "end")]
  | KIfThenElseB => (* lua_ast.rs:887-902 *)
      let nl := nis c N_newline_format_if 1 in
      plain [ITok (s2l "if"); IHint 0 sp; IKid 0; IHint 1 sp; ITok (s2l "then"); IHint 2 sp; ITok (s2l "else");
        IInc None; INl nl 3 sp; IKid 1; IDec; INl nl 4 sp; ITok (s2l "end")]
  | KIfThenBElseB => (* lua_ast.rs:903-920 *)
      let nl := nis c N_newline_format_if 1 in
      plain [ITok (s2l "if"); IHint 0 sp; IKid 0; IHint 1 sp; ITok (s2l "then"); IInc None; INl nl 2 sp; IKid 1;
        IDec; INl nl 3 sp; ITok (s2l "else"); IInc None; INl nl 4 sp; IKid 2; IDec; INl nl 5 sp; ITok (s2l "end")]
  | KIfThenElseIf => (* lua_ast.rs:921-935 *)
      let nl := nis c N_newline_format_if 1 in
      plain [ITok (s2l "if"); IHint 0 sp; IKid 0; IHint 1 sp; ITok (s2l "then"); INl nl 2 sp; IKid 1; INl nl 3 sp;
        ITok (s2l "end")]
  | KIfThenBElseIf => (* lua_ast.rs:936-951 *)
      let nl := nis c N_newline_format_if 1 in
      plain [ITok (s2l "if"); IHint 0 sp; IKid 0; IHint 1 sp; ITok (s2l "then"); IInc None; INl nl 2 sp; IKid 1;
        IDec; INl nl 3 sp; IKid 2; INl nl 4 sp; ITok (s2l "end")]
  | KIfThenElseIfElse => (* lua_ast.rs:952-967 *)
      let nl := nis c N_newline_format_if 1 in
      plain [ITok (s2l "if"); IHint 0 sp; IKid 0; IHint 1 sp; ITok (s2l "then"); INl nl 2 sp; IKid 1; INl nl 3 sp;
        ITok (s2l "else"); INl nl 4 sp; ITok (s2l "end")]
  | KIfThenBElseIfElse => (* lua_ast.rs:968-984 *)
      let nl := nis c N_newline_format_if 1 in
      plain [ITok (s2l "if"); IHint 0 sp; IKid 0; IHint 1 sp; ITok (s2l "then"); IInc None; INl nl 2 sp; IKid 1;
        IDec; INl nl 3 sp; IKid 2; INl nl 4 sp; ITok (s2l "else"); INl nl 5 sp; ITok (s2l "end")]
  | KIfThenElseIfElseB => (* lua_ast.rs:985-1001 *)
      let nl := nis c N_newline_format_if 1 in
      plain [ITok (s2l "if"); IHint 0 sp; IKid 0; IHint 1 sp; ITok (s2l "then"); INl nl 2 sp; IKid 1; INl nl 3 sp;
        ITok (s2l "else"); IInc None; INl nl 4 sp; IKid 2; IDec; INl nl 5 sp; ITok (s2l "end")]
  | KIfThenBElseIfElseB => (* lua_ast.rs:1002-1019 *)
      let nl := nis c N_newline_format_if 1 in
      plain [ITok (s2l "if"); IHint 0 sp; IKid 0; IHint 1 sp; ITok (s2l "then"); IInc None; INl nl 2 sp; IKid 1;
        IDec; INl nl 3 sp; IKid 2; INl nl 4 sp; ITok (s2l "else"); IInc None; INl nl 5 sp; IKid 3; IDec; INl nl 6
        sp; ITok (s2l "end")]
  | KElseIfThen => (* lua_ast.rs:1025-1030 *)
      plain [ITok (s2l "elseif"); IHint 0 sp; IKid 0; IHint 1 sp; ITok (s2l "then")]
  | KElseIfThenB => (* lua_ast.rs:1031-1039 *)
      let nl := nis c N_newline_format_if 1 in
      plain [ITok (s2l "elseif"); IHint 0 sp; IKid 0; IHint 1 sp; ITok (s2l "then"); IInc None; INl nl 2 sp; IKid
        1; IDec]
  | KName => (* lua_ast.rs:1041 *)
      plain [ITok (n_text n)]
  | KLabel => (* lua_ast.rs:1042-1045 *)
      plain [ITok (s2l "::"); IHint 0 []; IKid 0; IHint 1 []; ITok (s2l "::")]
  | KGoTo => (* lua_ast.rs:1046-1049 *)
      plain [ITok (s2l "goto"); IHint 0 sp; IKid 0]
  | KWhileDo => (* lua_ast.rs:1050-1059 *)
      let nl := nis c N_newline_format_while 1 in
      plain [ITok (s2l "while"); IHint 0 sp; IKid 0; IHint 1 sp; ITok (s2l "do"); INl nl 2 sp; ITok (s2l "end")]
  | KWhileDoB => (* lua_ast.rs:1060-1071 *)
      let nl := nis c N_newline_format_while 1 in
      plain [ITok (s2l "while"); IHint 0 sp; IKid 0; IHint 1 sp; ITok (s2l "do"); IInc None; INl nl 2 sp; IKid 1;
        IDec; INl nl 3 sp; ITok (s2l "end")]
  | KRepeatUntil => (* lua_ast.rs:1072-1080 *)
      let nl := nis c N_newline_format_repeat_until 1 in
      plain [ITok (s2l "repeat"); INl nl 0 sp; ITok (s2l "until"); IHint 1 sp; IKid 0]
  | KRepeatBUntil => (* lua_ast.rs:1081-1089 *)
      let nl := nis c N_newline_format_repeat_until 1 in
      plain [ITok (s2l "repeat"); IInc None; INl nl 0 sp; IKid 0; IDec; INl nl 1 sp; ITok (s2l "until"); IHint 2
        sp; IKid 1]
  | KForInt => (* lua_ast.rs:1091-1100 *)
      plain [ITok (s2l "for"); IHint 0 sp; IKid 0; IHint 1 sp; ITok (s2l "="); IHint 2 sp; IKid 1; IHint 3 [];
        ITok (s2l ","); IHint 4 sp; IKid 2; IHint 5 sp; ITok (s2l "do"); IHint 6 sp; ITok (s2l "end")]
  | KForIntB => (* lua_ast.rs:1101-1113 *)
      let nl := nis c N_newline_format_for 1 in
      plain [ITok (s2l "for"); IHint 0 sp; IKid 0; IHint 1 sp; ITok (s2l "="); IHint 2 sp; IKid 1; IHint 3 [];
        ITok (s2l ","); IHint 4 sp; IKid 2; IHint 5 sp; ITok (s2l "do"); IInc None; INl nl 6 sp; IKid 3; IDec; INl
        nl 7 sp; ITok (s2l "end")]
  | KForIntStep => (* lua_ast.rs:1114-1126 *)
      let nl := nis c N_newline_format_for 1 in
      plain [ITok (s2l "for"); IHint 0 sp; IKid 0; IHint 1 sp; ITok (s2l "="); IHint 2 sp; IKid 1; IHint 3 [];
        ITok (s2l ","); IHint 4 sp; IKid 2; IHint 5 []; ITok (s2l ","); IHint 6 sp; IKid 3; IHint 7 sp; ITok (s2l
        "do"); INl nl 8 sp; ITok (s2l "end")]
  | KForIntStepB => (* lua_ast.rs:1127-1139 *)
      let nl := nis c N_newline_format_for 1 in
      plain [ITok (s2l "for"); IHint 0 sp; IKid 0; IHint 1 sp; ITok (s2l "="); IHint 2 sp; IKid 1; IHint 3 [];
        ITok (s2l ","); IHint 4 sp; IKid 2; IHint 5 []; ITok (s2l ","); IHint 6 sp; IKid 3; IHint 7 sp; ITok (s2l
        "do"); IInc None; INl nl 8 sp; IKid 4; IDec; INl nl 9 sp; ITok (s2l "end")]
  | KForRange => (* lua_ast.rs:1140-1155 *)
      let nl := nis c N_newline_format_for 1 in
      tested [ITok (s2l "for"); IHint 0 sp; IKid 0; IHint 1 sp; ITok (s2l "in")]
        1 2 sp
        (fun ind => [IIf ind (IInc None); IHint 2 sp; IKid 1; IIf ind IDec; IHint 3 sp; ITok (s2l "do"); INl nl 4
          sp; ITok (s2l "end")])
  | KForRangeB => (* lua_ast.rs:1156-1171 *)
      let nl := nis c N_newline_format_for 1 in
      tested [ITok (s2l "for"); IHint 0 sp; IKid 0; IHint 1 sp; ITok (s2l "in")]
        1 2 sp
        (fun ind => [IIf ind (IInc None); IHint 2 sp; IKid 1; IIf ind IDec; IHint 3 sp; ITok (s2l "do"); IInc
          None; INl nl 4 sp; IKid 2; IDec; INl nl 5 sp; ITok (s2l "end")])
  | KRetStatNone => (* lua_ast.rs:1173 *)
      plain [ITok (s2l "return")]
  | KRetStatExpr => (* lua_ast.rs:1174-1182 *)
      tested [ITok (s2l "return")]
        0 0 sp
        (fun ind => [IIf ind (IInc None); IHint 0 sp; IKid 0; IIf ind IDec])
  | KRetStatNoneComma => (* lua_ast.rs:1183-1187 *)
      plain [ITok (s2l "return"); IHint 0 []; ITok (s2l ";")]
  | KRetStatExprComma => (* lua_ast.rs:1188-1200 *)
      tested [ITok (s2l "return")]
        0 0 sp
        (fun ind => [IIf ind (IInc None); IHint 0 sp; IKid 0; IHint 1 []; IIf ind IDec; ITok (s2l ";")])
  | KStatsRetStat => (* lua_ast.rs:1201-1206 *)
      let nl := nsome c N_newline_format_statement in
      plain [IKid 0; INl nl 0 sp; IKid 1]
  | KChunk => (* lua_ast.rs:1207-1210 *)
      let nl := on c B_write_newline_at_eof in
      plain [IHint 0 []; IKid 0; INl nl 1 []]
  | KSheBangChunk => (* lua_ast.rs:1211-1214 *)
      let nl := on c B_write_newline_at_eof in
      plain [IHint 0 []; IKid 0; IHint 1 []; IKid 1; INl nl 2 []]
  | KSemicolon => (* lua_ast.rs:1216 *)
      plain [ITok (s2l ";")]
  | _ => plain []
  end.

(** * Tests: util.rs:34-69 *)

(** the arguments are written one after the other even if one of them fails *)
Fixpoint run_all (ms : list (M unit)) (failed : bool) (w : world) : res bool * world :=
  match ms with
  | [] => (ROk failed, w)
  | m :: r =>
      match m w with
      | (ROk _, w') => run_all r failed w'
      | (RErr, w') => run_all r true w'
      | (RPanic, w') => (RPanic, w')
      | (RFuel, w') => (RFuel, w')
      end
  end.

(** back to the buffer and state of [w], keeping the cells of [w'] *)
Definition restore (w w' : world) : world := mk_world (w_f w) (w_st w) (w_oneline w') (w_indent w').

(** util.rs:34-59 [test_oneline!]; [max_width.unwrap()] panics *)
Definition test_oneline (c : config) (ms : list (M unit)) : M (option str) :=
  fun w =>
    match run_all ms false (set_f [] w) with
    | (ROk true, w') => (ROk None, restore w w')
    | (ROk false, w') =>
        match cn c N_max_width with
        | Some mw =>
            (ROk (if N.ltb (N.of_nat (get_len_after_newline (w_f w) + get_len_till_newline (w_f w'))) mw
                  then Some (w_f w') else None), restore w w')
        | None => (RPanic, restore w w')
        end
    | (RErr, w') => (RErr, restore w w')
    | (RPanic, w') => (RPanic, restore w w')
    | (RFuel, w') => (RFuel, restore w w')
    end.

(** util.rs:61-69 [test_oneline_no_nl!] *)
Definition test_oneline_no_nl (c : config) (ms : list (M unit)) : M (option str) :=
  r <- test_oneline c ms ;;
  ret (match r with Some b => if has_newlines b then None else Some b | None => None end).

(** * Cells *)
Definition get_oneline (n : node) : M bool :=
  fun w => (ROk (existsb (Nat.eqb (fst (n_span n))) (w_oneline w)), w).
Definition set_oneline (n : node) : M unit :=
  fun w => (ROk tt, mk_world (w_f w) (w_st w) (fst (n_span n) :: w_oneline w) (w_indent w)).
Definition lookup_indent (p : nat) (l : list (nat * bool)) : bool :=
  match find (fun x => Nat.eqb (fst x) p) l with Some x => snd x | None => false end.
Definition get_indent (n : node) : M bool := fun w => (ROk (lookup_indent (fst (n_span n)) (w_indent w)), w).
Definition set_indent_cell (n : node) (b : bool) : M unit :=
  fun w => (ROk tt, mk_world (w_f w) (w_st w) (w_oneline w) ((fst (n_span n), b) :: w_indent w)).

Definition is_kind (k : kind) (n : node) : bool := kind_beq (n_kind n) k.

(** [span.1 - span.0 < 2 * max_width]; the product is taken modulo 2^64 as in a release build *)
Definition fits_twice (c : config) (n : node) : bool :=
  match cn c N_max_width with
  | Some mw => N.ltb (N.of_nat (snd (n_span n) - fst (n_span n))) ((2 * mw) mod 18446744073709551616)
  | None => false
  end.

(** lua_ast.rs:341-361 *)
Definition oneline_table_cfg (c : config) (n : node) : option config :=
  if is_kind KTableConstructor n && nsome c N_max_width && nsome c N_newline_format_table_constructor
     && on c B_force_single_line_table && fits_twice c n
  then Some (set_b B_write_newline_at_explist_multiline_table (Some false)
               (set_b B_write_newline_at_multiline_table (Some false)
                  (set_b B_write_trailing_field_separator (Some false)
                     (set_n N_newline_format_table_field None
                        (set_n N_newline_format_table_constructor None c)))))
  else None.

Definition is_if (n : node) : bool :=
  match n_kind n with
  | KIfThen | KIfThenB | KIfThenElse | KIfThenBElse | KIfThenElseB | KIfThenBElseB | KIfThenElseIf
  | KIfThenBElseIf | KIfThenElseIfElse | KIfThenBElseIfElse | KIfThenElseIfElseB | KIfThenBElseIfElseB => true
  | _ => false
  end.
Definition is_func_body (n : node) : bool :=
  match n_kind n with KFuncBody | KFuncPBody | KFuncBodyB | KFuncPBodyB => true | _ => false end.

(** lua_ast.rs:377-405 the guard and the test configuration *)
Definition oneline_if_cfg (c : config) (n : node) : option config :=
  if is_if n && nsome c N_max_width && on c B_force_single_line_if && nsome c N_newline_format_if
     && fits_twice c n
  then Some (set_n N_newline_format_if None c) else None.

(** lua_ast.rs:407-427 *)
Definition oneline_function_cfg (c : config) (s : state) (n : node) : option config :=
  if is_func_body n && nsome c N_max_width && nsome c N_newline_format_function && fits_twice c n
     && ((Z.eqb (function_nested_level s) 0 && on c B_force_single_line_top_level_function)
         || (Z.ltb 0 (function_nested_level s) && on c B_force_single_line_scoped_function))
  then Some (set_n N_newline_format_function None c) else None.

(** * Lists: lua_ast.rs:135-338 *)

(** lua_ast.rs:136-149 *)
Definition list_prefix_hint (n : node) : str :=
  match n_kind n with
  | KSemicolon | KArgsRoundBrackets | KArgsRoundBracketsEmpty | KTableIndex | KTableMember | KFnMethodCall
  | KTableConstructor | KTableConstructorEmpty => []
  | _ => sp
  end.

(** lua_ast.rs:272-279 *)
Definition elem_prefix_hint (parent : node) : str :=
  match n_kind parent with
  | KFields | KExpList | KNameList | KVarList | KParList => sp
  | _ => []
  end.

(** lua_ast.rs:281-289 *)
Definition separator (c : config) (parent : node) : option str :=
  match n_kind parent with
  | KFields => cs c S_field_separator
  | KExpList | KNameList | KVarList | KParList => Some (s2l ",")
  | KFuncName | KFuncNameSelf => Some (s2l ".")
  | _ => None
  end.

(** lua_ast.rs:291-308 *)
Definition trailing_separator (c : config) (parent : node) : M (option bool) :=
  match n_kind parent with
  | KFields =>
      h <- get_indent parent ;;
      ret (if on c B_force_single_line_table
              && ((negb (nsome c N_newline_format_table_field)
                   && negb (nsome c N_newline_format_table_constructor))
                  || (obool_is (o_iv (n_opts parent)) true && negb h))
           then Some false else cb c B_write_trailing_field_separator)
  | KExpList | KNameList | KVarList | KParList | KFuncName | KFuncNameSelf => ret (Some false)
  | _ => ret None
  end.

(** lua_ast.rs:310-317 *)
Definition sep_need_newlines (c : config) (parent : node) : bool :=
  match n_kind parent with
  | KFields => nsome c N_newline_format_table_field
  | KExpList => nsome c N_newline_format_exp_list || nsome c N_newline_format_exp_list_first
  | _ => false
  end.

(** lua_ast.rs:329-337 *)
Definition list_need_newlines (c : config) (parent : node) : bool :=
  match n_kind parent with
  | KStatementList => nsome c N_newline_format_statement
  | KElseIfThenVec => nsome c N_newline_format_if
  | KVarSuffixList => nsome c N_newline_format_var_suffix
  | _ => false
  end.

Section Write.
  Variables (c : config) (buf : str) (W : config -> node -> M unit).

  Definition H (l : loc) : hinted := comment_hint c buf l.

  Fixpoint run_item (n : node) (x : item) : M unit :=
    match x with
    | ITok s => emit s
    | IRaw i => write_loc buf (nloc n i)
    | IHint i h => H (nloc n i) h
    | INl b i h => if_newline c b (H (nloc n i)) h
    | IKid i => W c (kid n i)
    | IInc o => inc_indent o
    | IDec => dec_indent
    | IIncF => inc_func_level
    | IDecF => dec_func_level
    | IIf b y => if b then run_item n y else ret tt
    end.
  Fixpoint run_items (n : node) (l : list item) : M unit :=
    match l with [] => ret tt | x :: r => run_item n x ;;; run_items n r end.

  Definition isnone {A} (m : M (option A)) : M bool := r <- m ;; ret (is_none r).
  Definition issome {A} (m : M (option A)) : M bool := r <- m ;; ret (is_some r).

  (** lua_ast.rs:363-375 *)
  Definition test_oneline_table_field (x : node) : M (option str) :=
    match n_kind x with
    | KFieldNamedBracket | KFieldNamed | KFieldSequential =>
        if nsome c N_max_width && nsome c N_newline_format_table_field && fits_twice c x
        then test_oneline_no_nl c [W c x] else ret None
    | _ => ret None
    end.

  (** lua_ast.rs:193-214 *)
  Definition suffix_newline (x : node) : M bool :=
    match n_kind x with
    | KFnMethodCall | KTableMember =>
        if negb (nsome c N_newline_format_var_suffix) then ret false
        else if on c B_force_single_line_var_suffix then
          match n_kind x with
          | KFnMethodCall =>
              let short := [emit (s2l ":"); H (nloc x 0) []; W c (kid x 0)] in
              match n_kind (kid x 1) with
              | KTableConstructorEmpty | KTableConstructor | KArgsRoundBracketsEmpty =>
                  isnone (test_oneline c short)
              | KArgsRoundBrackets =>
                  if nsome c N_newline_format_exp_list_first then isnone (test_oneline c short)
                  else isnone (test_oneline c [W c x])
              | _ => isnone (test_oneline c [W c x])
              end
          | _ => isnone (test_oneline c [W c x])
          end
        else ret true
    | _ => ret false
    end.

  (** lua_ast.rs:151-217 *)
  Definition need_newline (parent prev x : node) : M bool :=
    match n_kind parent with
    | KStatementList => ret (nsome c N_newline_format_statement)
    | KExpList =>
        if is_kind KTableConstructor x && on c B_write_newline_at_explist_multiline_table
           && obool_is (cb c B_write_newline_at_multiline_table) false
        then ret true
        else if nis c N_newline_format_exp_list 1 then
          if on c B_force_single_line_exp_list then isnone (test_oneline c [W c x]) else ret true
        else ret false
    | KElseIfThenVec => ret (nis c N_newline_format_if 1)
    | KFields =>
        if negb (nsome c N_newline_format_table_field) then ret false
        else if obool_is (o_iv (n_opts parent)) true && on c B_force_single_line_iv_table_field then
          if on c B_force_single_line_table && is_kind KFieldSequential prev then
            if is_kind KTableConstructor (kid prev 0) then
              b <- get_oneline (kid prev 0) ;;
              if b then ret true else issome (test_oneline_no_nl c [W c x])
            else isnone (test_oneline_no_nl c [W c x])
          else ret false
        else if on c B_force_single_line_kv_table_field && obool_is (o_iv (n_opts parent)) false then
          isnone (test_oneline_table_field x)
        else ret true
    | KVarSuffixList => suffix_newline x
    | _ => ret false
    end.

  (** lua_ast.rs:219-254 *)
  Definition need_first_newline (parent x : node) : M bool :=
    match n_kind parent with
    | KFields =>
        if negb (nsome c N_newline_format_table_field) then ret false
        else if on c B_force_single_line_table && obool_is (o_iv (n_opts parent)) true
                && on c B_force_single_line_iv_table_field then
          h <- get_indent parent ;; ret (h || negb (obool_is (o_single (n_opts parent)) true))
        else if (on c B_force_single_line_iv_table_field && obool_is (o_iv (n_opts parent)) true)
                || (on c B_force_single_line_kv_table_field && obool_is (o_iv (n_opts parent)) false) then
          isnone (test_oneline_table_field x)
        else ret true
    | KExpList =>
        if nis c N_newline_format_exp_list_first 1 then
          if on c B_force_single_line_exp_list then isnone (test_oneline c [W c x]) else ret true
        else ret false
    | KVarSuffixList => suffix_newline x
    | _ => ret false
    end.

  Definition lua_list (n : node) : M bool :=
    write_list c buf H (W c) (list_need_newlines c n) (need_first_newline n) (need_newline n)
      list_prefix_hint (n_items n).
  Definition lua_seps (n : node) : M bool :=
    write_seps c buf H (W c) (sep_need_newlines c n) (need_first_newline n) (need_newline n)
      (separator c n) (trailing_separator c n) (elem_prefix_hint n) (n_seps n).

  (** Runs [m] on copies of the buffer and of the state and gives [r == Ok(true)] for its result. *)
  Definition on_copy (m : M bool) : M bool :=
    fun w =>
      match m w with
      | (ROk b, w') => (ROk b, restore w w')
      | (RErr, w') => (ROk false, restore w w')
      | (RPanic, w') => (RPanic, restore w w')
      | (RFuel, w') => (RFuel, restore w w')
      end.

  (** lua_ast.rs:429-476, compared with [Ok(true)] as at each of its calls *)
  Definition test_indent (n : node) (l : loc) (hint : str) : M bool :=
    match n_kind n with
    | KVarSuffixList =>
        match n_items n with
        | [] => ret false
        | _ =>
            on_copy (H l hint ;;;
                     (if on c B_indent_var_suffix
                      then if on c B_indent_one_line_var_suffix then ret true else lua_list n
                      else ret false))
        end
    | KExpList =>
        let whole :=
          on_copy (H l hint ;;;
                   (if on c B_indent_exp_list
                    then if on c B_indent_one_line_exp_list then ret true else lua_seps n
                    else ret false)) in
        match n_seps n with
        | [] => ret false
        | [_] =>
            if negb (nsome c N_newline_format_exp_list_first)
            then ret (on c B_indent_exp_list && on c B_indent_one_line_exp_list)
            else whole
        | _ => whole
        end
    | KFields =>
        match n_seps n with
        | [] => ret false
        | _ => on_copy (H l hint ;;; lua_seps n)
        end
    | _ => ret false
    end.

  (** util.rs:5-23 [out_of_range_write!] and [out_of_range_only_write!] around the rest of an arm *)
  Definition range_or (n : node) (m : M unit) : M unit :=
    s <- get_st ;;
    if test_out_of_range (pos_range s) (n_span n) then write_loc buf (n_span n)
    else match raw_items n with
         | Some l =>
             if test_not_completely_contained (pos_range s) (n_span n) then run_items n l else m
         | None => m
         end.

  (** a self test that succeeded replaces the rest of the arm *)
  Definition oneline_or (tc : option config) (n : node) (done : M unit) (m : M unit) : M unit :=
    match tc with
    | Some c' =>
        r <- test_oneline_no_nl c' [W c' n] ;;
        match r with Some line => done ;;; emit line | None => m end
    | None => m
    end.

  Definition run_clause (n : node) (cl : clause) : M unit :=
    run_items n (cl_pre cl) ;;;
    ind <- (match cl_test cl with
            | Some (k, p, h) => test_indent (kid n k) (nloc n p) h
            | None => ret false
            end) ;;
    run_items n (cl_post cl ind).

  (** lua_ast.rs:489-506 *)
  Definition write_binary (n : node) : M unit :=
    let tok := n_text n in
    run_items n [IInc (Some tok); IKid 0] ;;;
    let nl1 := nis c N_newline_format_binary_op 1 in
    let nl2 := nis c N_newline_format_binary_op 2 in
    short <- (if (nl1 || nl2) && on c B_force_single_line_binary_op
              then issome (test_oneline c [H (nloc n 0) sp; emit tok; H (nloc n 1) sp; W c (kid n 1)])
              else ret false) ;;
    run_items n [INl (nl1 && negb short) 0 sp; ITok tok; INl (nl2 && negb short) 1 sp; IKid 1; IDec].

  Definition table_hint : str := sopt_or (cs c S_hint_table_constructor).

  (** lua_ast.rs:564-607 *)
  Definition write_table (n : node) : M unit :=
    oneline_or (oneline_table_cfg c n) n (set_oneline n)
      (one <- get_oneline n ;;
       let bnl := on c B_write_newline_at_multiline_table && negb one in
       if_newline c bnl (H (0, 0)) table_hint ;;;
       run_items n [ITok (s2l "{"); IIncF] ;;;
       ind <- (if on c B_force_single_line_table && obool_is (o_iv (n_opts n)) true
                  && obool_is (o_single (n_opts n)) true
               then test_indent (kid n 0) (nloc n 0) table_hint
               else ret true) ;;
       (if is_kind KFields (kid n 0) then set_indent_cell (kid n 0) ind else ret tt) ;;;
       run_items n [IIf ind (IInc None); IHint 0 table_hint; IKid 0] ;;;
       f <- get_f ;;
       let wide := match cn c N_max_width with
                   | Some mw => N.leb mw (N.of_nat (get_len_after_newline f))
                   | None => false
                   end in
       let nl := (nis c N_newline_format_table_constructor 1 || wide) && ind in
       run_items n [IIf ind IDec; IDecF; INl nl 1 table_hint; ITok (s2l "}")]).

  (** lua_ast.rs:612-620 *)
  Definition write_empty_table (n : node) : M unit :=
    t <- in_buffer [] (H (nloc n 0) table_hint) ;;
    run_items n [ITok (s2l "{"); INl (has_newlines t) 0 table_hint; ITok (s2l "}")].

  (** lua_ast.rs:480-1219 *)
  Definition write_body (n : node) : M unit :=
    match n_kind n with
    | KFields | KExpList | KNameList | KVarList | KParList | KFuncName =>
        (* lua_ast.rs:622-627, 653-667, 719-723, 782-786 *)
        range_or n (lua_seps n ;;; ret tt)
    | KStatementList | KVarSuffixList | KElseIfThenVec =>
        (* lua_ast.rs:668-672, 708-712, 1020-1024 *)
        range_or n (lua_list n ;;; ret tt)
    | KFuncNameSelf =>                                                     (* lua_ast.rs:787-794 *)
        range_or n (lua_seps n ;;; run_items n [IHint 0 []; ITok (s2l ":"); IHint 1 []; IKid 0])
    | KBinaryOp => range_or n (write_binary n)
    | KTableConstructor => range_or n (write_table n)
    | KTableConstructorEmpty => range_or n (write_empty_table n)
    | KMultiLineStringLiteral =>                                           (* lua_ast.rs:556-559 *)
        emit (open_long (n_level n) ++ n_text n ++ close_long (n_level n))
    | KSheBang => emit (n_text n ++ [ch_nl])                               (* lua_ast.rs:1217 *)
    | KNil | KFalse | KTrue | KVarArg | KBreak | KNumeral | KNormalStringLiteral | KCharStringLiteral
    | KName | KRetStatNone | KChunk | KSheBangChunk | KSemicolon => run_clause n (clause_of c n)
    | _ =>
        range_or n
          (s <- get_st ;;
           let tc := match oneline_if_cfg c n with
                     | Some c' => Some c'
                     | None => oneline_function_cfg c s n
                     end in
           oneline_or tc n (ret tt) (run_clause n (clause_of c n)))
    end.
End Write.

(** [configured_write] *)
Fixpoint write (fuel : nat) (buf : str) (c : config) (n : node) {struct fuel} : M unit :=
  match fuel with
  | O => nofuel
  | S k => write_body c buf (write k buf) n
  end.

(** Enough fuel: one unit per level of the tree, and one for each of the three options a self test turns
    off. *)
Definition write_fuel (n : node) : nat := height n + 4.
