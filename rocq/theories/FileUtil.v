(** src/file_util.rs over a file system given as a tree.

    Simplified: names are valid UTF-8, there are no symbolic links, the order of [fs::read_dir] is the order of
    the list of entries, and a directory that cannot be listed fails as a whole. *)
From Verif Require Import Base.

Definition name := str.

(** A file whose content is [None] cannot be read as UTF-8 text; one that is not writable makes [fs::write] fail.
    A directory whose entries are [None] cannot be listed. [EOther] is anything else (socket, dangling link). *)
Inductive entry :=
| EFile (content : option str) (writable : bool)
| EDir (entries : option (list (name * entry)))
| EOther.

(** absolute path as its components *)
Definition path := list name.

Fixpoint find_entry (x : name) (l : list (name * entry)) : option entry :=
  match l with
  | [] => None
  | (y, e) :: r => if str_eqb x y then Some e else find_entry x r
  end.

Fixpoint lookup (p : path) (e : entry) : option entry :=
  match p with
  | [] => Some e
  | x :: r =>
      match e with
      | EDir (Some l) => match find_entry x l with Some e' => lookup r e' | None => None end
      | _ => None
      end
  end.

Fixpoint starts_with (p s : str) : bool :=
  match p, s with
  | [], _ => true
  | x :: p', y :: s' => ceq x y && starts_with p' s'
  | _, _ => false
  end.

(** the part of [s] after its last [c], and whether there is one *)
Fixpoint after_last (c : char) (s : str) : option str :=
  match s with
  | [] => None
  | x :: r => match after_last c r with
              | Some t => Some t
              | None => if ceq x c then Some r else None
              end
  end.

(** [Path::extension]: what follows the last dot, unless that dot starts the name *)
Definition extension (n : name) : option str :=
  match n with
  | [] => None
  | _ :: r => if str_eqb n (s2l "..") then None else after_last (chr ".") r
  end.

Definition is_ext (n : name) (ext : str) : bool :=
  match extension n with Some x => str_eqb x ext | None => false end.

(** file_util.rs:6-30 [get_path_files] at a path [p] that leads to [e]; [None] is the [Err] case *)
Fixpoint get_files (recursive : bool) (ext prefix : str) (p : path) (e : entry) {struct e} : option (list path) :=
  match e with
  | EDir None => None
  | EDir (Some l) =>
      (fix go (l : list (name * entry)) : option (list path) :=
         match l with
         | [] => Some []
         | (x, e') :: r =>
             match
               (match e' with
                | EDir _ => if recursive then get_files recursive ext prefix (p ++ [x]) e' else Some []
                | EFile _ _ => Some (if is_ext x ext && negb (starts_with prefix x) then [p ++ [x]] else [])
                | EOther => Some []
                end)
             with
             | Some a => match go r with Some b => Some (a ++ b) | None => None end
             | None => None
             end
         end) l
  | EFile _ _ => Some [p]
  | EOther => None
  end.

Definition get_path_files (root : entry) (p : path) (recursive : bool) (ext prefix : str) : option (list path) :=
  match lookup p root with Some e => get_files recursive ext prefix p e | None => None end.

(** file_util.rs:32-46; [Ok(None)] and [Err] are the same to the only caller *)
Fixpoint first_config (prefix ext : str) (l : list (name * entry)) : option name :=
  match l with
  | [] => None
  | (x, e) :: r =>
      match e with
      | EFile _ _ => if starts_with prefix x && is_ext x ext then Some x else first_config prefix ext r
      | _ => first_config prefix ext r
      end
  end.
Definition test_file_in_dir (root : entry) (p : path) (prefix ext : str) : option path :=
  match lookup p root with
  | Some (EDir (Some l)) => match first_config prefix ext l with Some x => Some (p ++ [x]) | None => None end
  | _ => None
  end.

(** file_util.rs:48-61. [rp] is the reversed path of the current directory. *)
Fixpoint climb (root : entry) (prefix : str) (rp : path) : option path :=
  match test_file_in_dir root (rev rp) prefix (s2l "lua") with
  | Some p => Some p
  | None => match rp with [] => None | _ :: up => climb root prefix up end
  end.
Definition get_file_config (root : entry) (p : path) (prefix : str) : option path :=
  match lookup p root with
  | Some _ => match rev p with [] => None | _ :: up => climb root prefix up end
  | None => None
  end.

(** [fs::write] to an existing file *)
Fixpoint write_entry (p : path) (s : str) (e : entry) {struct p} : entry :=
  match p with
  | [] => match e with EFile _ w => EFile (Some s) w | _ => e end
  | x :: r =>
      match e with
      | EDir (Some l) =>
          EDir (Some (map (fun ye => if str_eqb x (fst ye) then (fst ye, write_entry r s (snd ye)) else ye) l))
      | _ => e
      end
  end.
