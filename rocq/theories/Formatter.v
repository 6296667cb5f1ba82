(** src/formatter.rs:64-87 [process_buffer_with_config]. *)
From Verif Require Import Base Config State Ast LuaParser Recon WriterBase LuaWriter.

(** [Formatted] is [Ok]; the text inside the two [FormatterError]s is not modelled (it goes to stderr only).
    [Panicked] is a Rust panic and [Internal] the model running out of fuel. *)
Inductive outcome :=
| Formatted (s : str)
| ParsingError
| FormattingError
| Panicked
| Internal.

(** the [State] at the first write: formatter.rs:73-78 *)
Definition start_state (buf : str) (pr : option (nat * nat)) : state :=
  mk_state 0 [] 0 0 pr None 0 (update_indexes buf).

Definition process_buffer (content : str) (c : config) : outcome :=
  match parse_lua content with
  | Parsed tree =>
      let '(tree', pr) := reconstruct c tree (line_range_to_pos_range content (line_range c)) in
      match write (write_fuel tree') content c tree' (mk_world [] (start_state content pr) [] []) with
      | (ROk _, w) => Formatted (w_f w)
      | (RErr, _) => FormattingError
      | (RPanic, _) => Panicked
      | (RFuel, _) => Internal
      end
  | ParseError => ParsingError
  | ParseInternal => Internal
  end.
