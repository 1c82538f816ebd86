(** Splitting, joining, replacing and trimming strings.  Source: /repo/tkrzw_str_util.h, /repo/tkrzw_str_util.cc.
    Sizes are [nat]: the int32_t counters of StrStripSpace and StrSqueezeAndStripSpace are taken not to overflow. *)
From Coq Require Import List NArith ZArith Bool Arith.
Import ListNotations.
From Verif Require Import Bytes StrSearchModel SearchModel ComparatorModel.

Local Open Scope nat_scope.
Definition substr (s : bytes) (pos n : nat) : bytes := firstn n (skipn pos s).

(** StrJoin of strings, tkrzw_str_util.h:247-257. *)
Definition str_join (elems : list bytes) (delim : bytes) : bytes :=
  fold_left (fun str elem => (match str with [] => str | _ => str ++ delim end) ++ elem) elems [].

(** The common loop of StrSplit and StrSplitAny; [fnd i] is str.find(delim, i) or str.find_first_of(delims, i), [w] the size of a
    delimiter.  The last segment is pushed after the loop.  tkrzw_str_util.cc:538-550, 564-577, 587-600 *)
Definition split_end (s : bytes) (skip : bool) (i : nat) (segs : list bytes) : list bytes :=
  if negb skip || (i <? length s) then segs ++ [skipn i s] else segs.
Fixpoint split_loop (fuel : nat) (fnd : nat -> option nat) (w : nat) (s : bytes) (skip : bool) (i : nat) (segs : list bytes) : list bytes :=
  match fuel with
  | O => segs
  | S fu =>
      if i <? length s then
        match fnd i with
        | None => split_end s skip i segs
        | Some pos => split_loop fu fnd w s skip (pos + w) (if negb skip || (i <? pos) then segs ++ [substr s i (pos - i)] else segs)
        end
      else split_end s skip i segs
  end.
(** StrSplit with a character, tkrzw_str_util.cc:534-552. *)
Definition str_split_char (s : bytes) (delim : N) (skip : bool) : list bytes := split_loop (S (length s)) (sv_find s [delim]) 1 s skip 0 [].
(** StrSplit with a string, tkrzw_str_util.cc:554-580. *)
Definition str_split (s delim : bytes) (skip : bool) : list bytes :=
  match delim with
  | [] => map (fun c => [c]) s
  | _ => split_loop (S (length s)) (sv_find s delim) (length delim) s skip 0 []
  end.
(** std::string_view::find_first_of by its documentation. *)
Definition find_first_of (s delims : bytes) (pos : nat) : option nat :=
  find (fun i => match nth_error s i with Some c => existsb (N.eqb c) delims | None => false end) (seq pos (length s - pos)).
(** StrSplitAny, tkrzw_str_util.cc:583-602. *)
Definition str_split_any (s delims : bytes) (skip : bool) : list bytes := split_loop (S (length s)) (find_first_of s delims) 1 s skip 0 [].

(** std::map: an association list without its order; emplace keeps a record that is there. *)
Fixpoint assoc (m : list (bytes * bytes)) (k : bytes) : option bytes :=
  match m with [] => None | (x, v) :: m => if beqb k x then Some v else assoc m k end.
Definition emplace (m : list (bytes * bytes)) (k v : bytes) : list (bytes * bytes) := match assoc m k with Some _ => m | None => m ++ [(k, v)] end.
(** StrSplitIntoMap, tkrzw_str_util.cc:604-614. *)
Definition str_split_into_map (s delim_records delim_kv : bytes) : list (bytes * bytes) :=
  fold_left (fun m r => match sv_find r delim_kv 0 with
                        | Some pos => emplace m (substr r 0 pos) (skipn (pos + length delim_kv) r)
                        | None => m
                        end) (str_split s delim_records true) [].

(** StrUpperCase, tkrzw_str_util.cc:616-636, both versions.  The comparisons are of signed characters: bytes from 128 on are below 'a'. *)
Definition upper (c : N) : N := (if (97 <=? c) && (c <=? 122) then c - 32 else c)%N.
Definition upper_case (s : bytes) : bytes := map upper s.

(** StrReplace, tkrzw_str_util.cc:660-688.  In the loop [i + j] is in the string, as [i < end]. *)
Fixpoint replace_loop (fuel : nat) (s before after : bytes) (stop i : nat) (result : bytes) : bytes :=
  match fuel with
  | O => result
  | S fu =>
      if i <? stop then
        if same_prefix (skipn i s) before then replace_loop fu s before after stop (i + length before) (result ++ after)
        else replace_loop fu s before after stop (i + 1) (result ++ substr s i 1)
      else result ++ skipn i s
  end.
Definition str_replace (s before after : bytes) : bytes :=
  if (length s <? length before) || (length before =? 0) then s
  else replace_loop (S (length s)) s before after (length s - length before + 1) 0 [].

(** StrReplaceCharacters, tkrzw_str_util.cc:690-708: the string is read and written in place. *)
Fixpoint index_of (c : N) (l : bytes) : option nat :=
  match l with [] => None | x :: l => if (c =? x)%N then Some 0 else option_map S (index_of c l) end.
Definition set_at (s : bytes) (i : nat) (c : N) : option bytes :=
  if i <? length s then Some (firstn i s ++ c :: skipn (S i) s) else None.
Fixpoint rep_chars_loop (n : nat) (s before after : bytes) (in_size out_size : nat) : option (bytes * nat) :=
  match n with
  | O => Some (s, out_size)
  | S n =>
      match nth_error s in_size with
      | None => None
      | Some c =>
          match index_of c before with
          | None => match set_at s out_size c with Some s' => rep_chars_loop n s' before after (S in_size) (S out_size) | None => None end
          | Some m =>
              match nth_error after m with
              | Some d => match set_at s out_size d with Some s' => rep_chars_loop n s' before after (S in_size) (S out_size) | None => None end
              | None => rep_chars_loop n s before after (S in_size) out_size
              end
          end
      end
  end.
Definition str_replace_characters (s before after : bytes) : option bytes :=
  match rep_chars_loop (length s) s before after 0 0 with Some (s', out) => Some (firstn out s') | None => None end.

(** StrStripSpace, tkrzw_str_util.cc:1437-1455.  The string resized is never shorter than its new size. *)
Definition space (c : N) : bool := (c <=? 32)%N.
Definition str_strip_space (s : bytes) : bytes :=
  let '(converted, content_size) :=
    fold_left (fun st c => let '(converted, content_size) := st in
                           if space c then match converted with [] => st | _ => (converted ++ [c], content_size) end
                           else (converted ++ [c], length (converted ++ [c]))) s ([], 0) in
  firstn content_size converted.
(** StrStripLine, tkrzw_str_util.cc:1457-1478, both versions; [None]: read outside. *)
Fixpoint strip_line_size (s : bytes) (size : nat) : option nat :=
  match size with
  | O => Some O
  | S n => match nth_error s n with
           | None => None
           | Some c => if ((c =? 13) || (c =? 10))%N then strip_line_size s n else Some size
           end
  end.
Definition str_strip_line (s : bytes) : option bytes := option_map (fun n => firstn n s) (strip_line_size s (length s)).
(** StrSqueezeAndStripSpace, tkrzw_str_util.cc:1480-1501. *)
Definition str_squeeze (s : bytes) : bytes :=
  let '(converted, content_size, _) :=
    fold_left (fun st c => let '(converted, content_size, last_is_space) := st in
                           if space c then if (last_is_space : bool) then st else (converted ++ [c], content_size, true)
                           else (converted ++ [c], length (converted ++ [c]), false)) s ([], 0, true) in
  firstn content_size converted.
(** StrTrimForTSV, tkrzw_str_util.cc:1503-1516. *)
Definition str_trim_tsv (s : bytes) (keep_tab : bool) : bytes :=
  map (fun c => if (space c || (c =? 127)%N) && (negb (c =? 9)%N || negb keep_tab) then 32%N else c) s.

(** StrToIntOct, tkrzw_str_util.cc:198-219, in uint64_t. *)
Fixpoint oct_loop (s : bytes) (num : N) (has : bool) : N * bool :=
  match s with
  | c :: s' => if ((48 <=? c) && (c <=? 55))%N then oct_loop s' ((num * 8 + (c - 48)) mod 2^64)%N true else (num, has)
  | [] => (num, has)
  end.
Definition str_to_int_oct (s : bytes) (defval : N) : N := let '(num, has) := oct_loop (skip_space s) 0 false in if has then num else defval.
(** StrToBool, tkrzw_str_util.cc:457-466: true t yes y 1, false f no n 0. *)
Definition trues : list bytes := [[116; 114; 117; 101]; [116]; [121; 101; 115]; [121]; [49]]%N.
Definition falses : list bytes := [[102; 97; 108; 115; 101]; [102]; [110; 111]; [110]; [48]]%N.
Definition str_to_bool (s : bytes) (defval : bool) : bool :=
  let lower := lower_case (str_strip_space s) in
  if existsb (beqb lower) trues then true else if existsb (beqb lower) falses then false else defval.
