(** Splitting strings and file paths.
    Source: /repo/tkrzw_str_util.cc:534-552 (StrSplit by a character) and /repo/tkrzw_file_util.cc:49-178 (paths).
    Only the POSIX constants (tkrzw_file_util.cc:57-62) are modelled: the separator is '/'.  Counters are unbounded:
    the int32_t index of NormalizePath (line 127) is assumed not to wrap (fewer than 2^31 components). *)
From Coq Require Import List NArith Bool Arith Lia.
Import ListNotations.
From Verif Require Import Bytes.
Local Open Scope nat_scope.

(** std::string_view::find(char, pos), applied to the rest of the string from pos on. *)
Fixpoint find_char (c : N) (s : bytes) : option nat :=
  match s with [] => None | d :: r => if (d =? c)%N then Some 0 else option_map S (find_char c r) end.
(** std::string::rfind(char). *)
Fixpoint rfind_char (c : N) (s : bytes) : option nat :=
  match s with
  | [] => None
  | d :: r => match rfind_char c r with Some i => Some (S i) | None => if (d =? c)%N then Some 0 else None end
  end.
(** StrSplit, tkrzw_str_util.cc:534-552: [s] is what is left from position i on. *)
Definition seg (skip_empty : bool) (s : bytes) : list bytes := if negb skip_empty || (0 <? length s) then [s] else [].
Fixpoint split_loop (fuel : nat) (delim : N) (skip_empty : bool) (s : bytes) : list bytes :=
  match fuel, s with
  | S f, _ :: _ =>
      match find_char delim s with
      | None => seg skip_empty s
      | Some pos => seg skip_empty (firstn pos s) ++ split_loop f delim skip_empty (skipn (S pos) s)
      end
  | _, _ => seg skip_empty s
  end.
Definition str_split (delim : N) (skip_empty : bool) (s : bytes) : list bytes := split_loop (length s) delim skip_empty s.

(** DIR_SEP_CHR, EXT_SEP_CHR, CURRENT_DIR_NAME and PARENT_DIR_NAME, tkrzw_file_util.cc:57-62. *)
Definition sep : N := 47.
Definition dot : N := 46.
Definition this_dir : bytes := [dot].
Definition up_dir : bytes := [dot; dot].
(** JoinPath, tkrzw_file_util.cc:77-93. *)
Definition join_path (base child : bytes) : bytes :=
  match child with
  | [] => base
  | c :: _ =>
      if (c =? sep)%N then child
      else let joined := match base with [] => [sep] | _ => base end in
           (if (last joined 0 =? sep)%N then joined else joined ++ [sep]) ++ child
  end.
(** The loop of NormalizePath, tkrzw_file_util.cc:108-122; the vector output_elems is kept with its back first. *)
Definition norm_elem (is_absolute : bool) (out : list bytes) (elem : bytes) : list bytes :=
  if beqb elem this_dir then out
  else if beqb elem up_dir then
    match out with
    | [] => if is_absolute then [] else [up_dir]
    | e :: r => if beqb e up_dir then up_dir :: out else r
    end
  else elem :: out.
(** Lines 127-132: the components with separators between them. *)
Fixpoint join_elems (l : list bytes) : bytes :=
  match l with [] => [] | [e] => e | e :: r => e ++ [sep] ++ join_elems r end.
(** NormalizePath, tkrzw_file_util.cc:95-134. *)
Definition is_absolute (path : bytes) : bool := match path with c :: _ => (c =? sep)%N | [] => false end.
Definition normalize_path (path : bytes) : bytes :=
  match path with
  | [] => []
  | _ => let out := fold_left (norm_elem (is_absolute path)) (str_split sep true path) [] in
         (if is_absolute path then [sep] else []) ++ join_elems (rev out)
  end.
(** Lines 137-141 and 153-157: separators are dropped from the end, but for the first character. *)
Fixpoint trim_loop (n : nat) (path : bytes) : nat :=
  match n with
  | O => O
  | S m => if (0 <? m) && (nth m path 0 =? sep)%N then trim_loop m path else n
  end.
Definition trim (path : bytes) : bytes := firstn (trim_loop (length path) path) path.
(** PathToBaseName, tkrzw_file_util.cc:136-150. *)
Definition base_name (path : bytes) : bytes :=
  let t := trim path in
  if beqb t [sep] then t else match rfind_char sep t with None => t | Some pos => skipn (S pos) t end.
(** PathToDirectoryName, tkrzw_file_util.cc:152-169. *)
Definition dir_name (path : bytes) : bytes :=
  let t := trim path in
  if beqb t [sep] then t
  else match rfind_char sep t with None => this_dir | Some O => [sep] | Some pos => firstn pos t end.
(** PathToExtension, tkrzw_file_util.cc:171-178. *)
Definition extension (path : bytes) : bytes :=
  let b := base_name path in match rfind_char dot b with None => [] | Some pos => skipn (S pos) b end.
