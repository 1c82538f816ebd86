(** Searching texts for words and databases for keys.
    Source: /repo/tkrzw_str_util.cc:638-648, 710-831, 1313-1434 and /repo/tkrzw_dbm_common_impl.cc:58-171, 243-378.
    Positions are unbounded numbers (texts below 2^31 bytes).  Regular expressions (std::regex) are not modelled.
    Statuses other than those of the ordered iterator are SUCCESS: ProcessEach on the database is assumed to succeed. *)
From Coq Require Import List NArith ZArith Bool Arith.
Import ListNotations.
From Verif Require Import Bytes StatusModel DbmModel StrSearchModel TextCodecModel OmapSpec OmapHist PathModel TopkModel.
Local Open Scope nat_scope.

(** * Texts *)
(** StrLowerCase and the loops of the same effect, tkrzw_str_util.cc:638-648, 1326-1332. *)
Definition lower (c : N) : N := (if (65 <=? c) && (c <=? 90) then c + 32 else c)%N.
Definition lower_case (s : bytes) : bytes := map lower s.
(** tkrzw_isalnum, tkrzw_str_util.cc:68-70. *)
Definition isalnum (c : N) : bool :=
  ((48 <=? c) && (c <=? 57) || (97 <=? c) && (c <=? 122) || (65 <=? c) && (c <=? 90))%N.
(** A character of the text; None is a read outside of it. *)
Definition alnum_at (t : bytes) (i : nat) : option bool := option_map isalnum (nth_error t i).
(** The operator && of C++, from left to right. *)
Definition andthen (a b : option bool) : option bool := match a with Some true => b | _ => a end.
Inductive wres := WHit (i : nat) | WMiss | WBad.
(** StrContains, StrBeginsWith and StrEndsWith, tkrzw_str_util.cc:710-712, 817-830.  tkrzw_memmem (lines 21-66) finds
    the first occurrence, as memmem does. *)
Definition contains (t p : bytes) : bool := match sv_find t p 0 with Some _ => true | None => false end.
Definition begins_with (t p : bytes) : bool :=
  if length t <? length p then false else beqb (firstn (length p) t) p.
Definition ends_with (t p : bytes) : bool :=
  if length t <? length p then false else beqb (skipn (length t - length p) t) p.
(** The comparison of StrCaseSearch, tkrzw_str_util.cc:1336-1344: the text is lowered as it is read. *)
Fixpoint lower_prefix (t p : bytes) : bool :=
  match p, t with
  | [], _ => true
  | c :: p', d :: t' => (lower d =? c)%N && lower_prefix t' p'
  | _, [] => false
  end.
(** The boundaries of a hit at i, tkrzw_str_util.cc:1370-1380 and 1420-1427; [n] is the size of the pattern. *)
Definition left_split (t : bytes) (i : nat) : option bool :=
  if i =? 0 then Some false else andthen (alnum_at t (i - 1)) (alnum_at t i).
Definition right_split (t : bytes) (i n : nat) : option bool :=
  if i + n =? length t then Some false else andthen (alnum_at t (i + n)) (alnum_at t (i + n - 1)).
(** The loops of StrCaseSearch and StrCaseWordSearch, tkrzw_str_util.cc:1334-1350 and 1407-1430, for ti from [i] on;
    [word] tells the latter.  The last test of the latter, ti != end - 1, is that the hit does not end the text. *)
Fixpoint case_loop (fuel : nat) (word : bool) (t buffer : bytes) (i : nat) : wres :=
  match fuel with
  | O => WMiss
  | S f =>
      if lower_prefix (skipn i t) buffer then
        if word then
          match left_split t i with
          | None => WBad
          | Some true => case_loop f word t buffer (S i)
          | Some false =>
              match right_split t i (length buffer) with
              | None => WBad
              | Some true => case_loop f word t buffer (S i)
              | Some false => WHit i
              end
          end
        else WHit i
      else case_loop f word t buffer (S i)
  end.
(** StrCaseSearch and StrCaseWordSearch, tkrzw_str_util.cc:1313-1355, 1386-1434. *)
Definition case_search_gen (word : bool) (t p : bytes) : wres :=
  if length t <? length p then WMiss
  else match p with [] => WHit 0 | _ => case_loop (length t - length p + 1) word t (lower_case p) 0 end.
Definition case_search : bytes -> bytes -> wres := case_search_gen false.
Definition case_word_search : bytes -> bytes -> wres := case_search_gen true.
(** The loop of StrWordSearch, tkrzw_str_util.cc:1364-1382, and of StrCaseWordContainsBatchLower, lines 788-807;
    [rp] is the index where the rest to search begins. *)
Fixpoint word_loop (fuel : nat) (t p : bytes) (rp : nat) : wres :=
  match fuel with
  | O => WMiss
  | S f =>
      if length t <=? rp then WMiss
      else match sv_find t p rp with
           | None => WMiss
           | Some i =>
               match left_split t i with
               | None => WBad
               | Some true => word_loop f t p (S i)
               | Some false =>
                   match right_split t i (length p) with
                   | None => WBad
                   | Some true => word_loop f t p (S i)
                   | Some false => WHit i
                   end
               end
           end
  end.
(** StrWordSearch, tkrzw_str_util.cc:1357-1384. *)
Definition word_search (t p : bytes) : wres :=
  if length t <? length p then WMiss else match p with [] => WHit 0 | _ => word_loop (S (length t)) t p 0 end.
(** One pass of the loop over the patterns in StrCaseWordContainsBatchLower, tkrzw_str_util.cc:780-808. *)
Definition lower_word_search (t p : bytes) : wres :=
  match p with [] => WHit 0 | _ => word_loop (S (length t)) (lower_case t) p 0 end.
(** rv >= 0. *)
Definition hit (r : wres) : option bool := match r with WHit _ => Some true | WMiss => Some false | WBad => None end.
(** The batch functions, tkrzw_str_util.cc:726-769: the first pattern that hits ends the loop. *)
Fixpoint any_hit (f : bytes -> bytes -> option bool) (t : bytes) (ps : list bytes) : option bool :=
  match ps with
  | [] => Some false
  | p :: r => match f t p with Some false => any_hit f t r | x => x end
  end.

(** * Databases *)
(** if (capacity == 0) { capacity = SIZE_MAX; }, e.g. tkrzw_dbm_common_impl.cc:62-64. *)
Definition limit (capacity : N) : N := if (capacity =? 0)%N then 18446744073709551615%N else capacity.
(** The Exporter of SearchDBM and SearchDBMLambda, tkrzw_dbm_common_impl.cc:66-80, 94-107; None once a matcher has
    read outside of its text. *)
Definition exporter (capacity : N) (matcher : bytes -> option bool) : proc (option (list bytes)) :=
  mkProc (fun k _ st =>
            (ANoop, match st with
                    | None => None
                    | Some m => if (N.of_nat (length m) <? capacity)%N
                                then match matcher k with Some true => Some (m ++ [k]) | Some false => Some m | None => None end
                                else Some m
                    end))
         (fun _ st => (ANoop, st)).
(** SearchDBM and SearchDBMLambda, tkrzw_dbm_common_impl.cc:58-111, on a database whose ProcessEach visits the records
    [recs] in this order. *)
Definition search_dbm (recs : list (bytes * bytes)) (matcher : bytes -> option bool) (capacity : N) : option (list bytes) :=
  snd (o_each recs (exporter (limit capacity) matcher) false (Some [])).
(** The matchers that SearchDBMModal gives to them, tkrzw_dbm_common_impl.cc:318-366. *)
Inductive mode := MContain | MBegin | MEnd | MCase | MWord | MCaseWord | MContainAny | MCaseAny | MWordAny | MCaseWordAny.
Definition newline : N := 10.
Definition matcher (m : mode) (pattern : bytes) (key : bytes) : option bool :=
  let patterns := str_split newline true pattern in
  match m with
  | MContain => Some (contains key pattern)
  | MBegin => Some (begins_with key pattern)
  | MEnd => Some (ends_with key pattern)
  | MCase => hit (case_search key pattern)
  | MWord => hit (word_search key pattern)
  | MCaseWord => hit (case_word_search key pattern)
  | MContainAny => any_hit (fun t p => Some (contains t p)) key patterns
  | MCaseAny => any_hit (fun t p => hit (case_search t p)) key patterns
  | MWordAny => any_hit (fun t p => hit (word_search t p)) key patterns
  | MCaseWordAny => any_hit (fun t p => hit (lower_word_search t p)) key (map lower_case patterns)
  end.
(** SearchDBMModal for these modes ("begin" on a database that is not ordered, line 143). *)
Definition search_modal (recs : list (bytes * bytes)) (m : mode) (pattern : bytes) (capacity : N) : option (list bytes) :=
  search_dbm recs (matcher m pattern) capacity.

(** SearchDBMEditDistance and SearchDBMEditDistanceBinary, tkrzw_dbm_common_impl.cc:243-313.  [code] is
    ConvertUTF8ToUCS4 for the former and nothing for the latter.  None is undefined behaviour. *)
Fixpoint costs (code : bytes -> list N) (pattern : list N) (keys : list bytes) : option (list entry) :=
  match keys with
  | [] => Some []
  | k :: r => match edit_distance pattern (code k), costs code pattern r with
              | Some d, Some l => Some ((Z.of_N d, k) :: l)
              | _, _ => None
              end
  end.
Inductive search_edit (code : bytes -> list N) (recs : list (bytes * bytes)) (pattern : bytes) (capacity : N) :
  option (list bytes) -> Prop :=
| se_far : costs code (code pattern) (map fst recs) = None -> search_edit code recs pattern capacity None
| se_bad l : costs code (code pattern) (map fst recs) = Some l -> adds (N.to_nat (limit capacity)) [] l None ->
    search_edit code recs pattern capacity None
| se_done l h out : costs code (code pattern) (map fst recs) = Some l -> adds (N.to_nat (limit capacity)) [] l (Some h) ->
    finish h [] out -> search_edit code recs pattern capacity (Some (map snd out)).
Definition ucs_code : bytes -> list N := utf8_decode.
Definition raw_code : bytes -> list N := fun s => s.

(** * Ordered databases *)
(** Iterator::Get(&key), tkrzw_dbm.h:822-825, 684-714: the key is left in the state. *)
Definition get_key : proc bytes := mkProc (fun k _ _ => (ANoop, k)) (fun _ st => (ANoop, st)).
Section Ordered.
  Variable cmp : bytes -> bytes -> comparison.
  (** The database and its one iterator do what [OmapHist.ostep] allows, as BabyDBM and TreeDBM are proved to.
      The loop of SearchDBMOrder, tkrzw_dbm_common_impl.cc:122-136. *)
  Inductive order_loop (upper : bool) (capacity : N) : ost -> list bytes -> code -> list bytes -> Prop :=
  | ol_full o m : (capacity <= N.of_nat (length m))%N -> order_loop upper capacity o m SUCCESS m
  | ol_end o m o1 key : (N.of_nat (length m) < capacity)%N ->
      ostep cmp bytes (KItProcess 0 get_key false) o [] NOT_FOUND_ERROR o1 key -> order_loop upper capacity o m SUCCESS m
  | ol_fail o m o1 key cd : (N.of_nat (length m) < capacity)%N ->
      ostep cmp bytes (KItProcess 0 get_key false) o [] cd o1 key -> cd <> SUCCESS -> cd <> NOT_FOUND_ERROR ->
      order_loop upper capacity o m cd m
  | ol_stuck o m o1 key cd o2 key2 : (N.of_nat (length m) < capacity)%N ->
      ostep cmp bytes (KItProcess 0 get_key false) o [] SUCCESS o1 key ->
      ostep cmp bytes (if upper then KItNext 0 else KItPrev 0) o1 [] cd o2 key2 -> cd <> SUCCESS ->
      order_loop upper capacity o m cd (m ++ [key])
  | ol_next o m o1 key o2 key2 cd out : (N.of_nat (length m) < capacity)%N ->
      ostep cmp bytes (KItProcess 0 get_key false) o [] SUCCESS o1 key ->
      ostep cmp bytes (if upper then KItNext 0 else KItPrev 0) o1 [] SUCCESS o2 key2 ->
      order_loop upper capacity o2 (m ++ [key]) cd out -> order_loop upper capacity o m cd out.
  (** SearchDBMOrder, tkrzw_dbm_common_impl.cc:113-138.  [matched] is the vector of the caller, which is not cleared. *)
  Inductive search_order (L : omap) (pattern : bytes) (upper inclusive : bool) (capacity : N) (matched : list bytes) :
    code -> list bytes -> Prop :=
  | so_fail cd o1 key :
      ostep cmp bytes (if upper then KItUpper 0 pattern inclusive else KItLower 0 pattern inclusive)
        (mkO L (fun _ => None)) [] cd o1 key -> cd <> SUCCESS ->
      search_order L pattern upper inclusive capacity matched cd matched
  | so_run o1 key cd out :
      ostep cmp bytes (if upper then KItUpper 0 pattern inclusive else KItLower 0 pattern inclusive)
        (mkO L (fun _ => None)) [] SUCCESS o1 key ->
      order_loop upper capacity o1 matched cd out ->
      search_order L pattern upper inclusive capacity matched cd out.
  (** The loop of SearchDBMForwardMatch, tkrzw_dbm_common_impl.cc:155-169; the status of Next is not looked at. *)
  Inductive forward_loop (pattern : bytes) (capacity : N) : ost -> list bytes -> code -> list bytes -> Prop :=
  | fl_full o m : (capacity <= N.of_nat (length m))%N -> forward_loop pattern capacity o m SUCCESS m
  | fl_end o m o1 key : (N.of_nat (length m) < capacity)%N ->
      ostep cmp bytes (KItProcess 0 get_key false) o [] NOT_FOUND_ERROR o1 key -> forward_loop pattern capacity o m SUCCESS m
  | fl_fail o m o1 key cd : (N.of_nat (length m) < capacity)%N ->
      ostep cmp bytes (KItProcess 0 get_key false) o [] cd o1 key -> cd <> SUCCESS -> cd <> NOT_FOUND_ERROR ->
      forward_loop pattern capacity o m cd m
  | fl_other o m o1 key : (N.of_nat (length m) < capacity)%N ->
      ostep cmp bytes (KItProcess 0 get_key false) o [] SUCCESS o1 key -> begins_with key pattern = false ->
      forward_loop pattern capacity o m SUCCESS m
  | fl_next o m o1 key cd1 o2 key2 cd out : (N.of_nat (length m) < capacity)%N ->
      ostep cmp bytes (KItProcess 0 get_key false) o [] SUCCESS o1 key -> begins_with key pattern = true ->
      ostep cmp bytes (KItNext 0) o1 [] cd1 o2 key2 ->
      forward_loop pattern capacity o2 (m ++ [key]) cd out -> forward_loop pattern capacity o m cd out.
  (** SearchDBMForwardMatch on an ordered database, tkrzw_dbm_common_impl.cc:140-171. *)
  Inductive search_forward (L : omap) (pattern : bytes) (capacity : N) : code -> list bytes -> Prop :=
  | sf_fail cd o1 key : ostep cmp bytes (KItJump 0 pattern) (mkO L (fun _ => None)) [] cd o1 key -> cd <> SUCCESS ->
      search_forward L pattern capacity cd []
  | sf_run o1 key cd out : ostep cmp bytes (KItJump 0 pattern) (mkO L (fun _ => None)) [] SUCCESS o1 key ->
      forward_loop pattern (limit capacity) o1 [] cd out -> search_forward L pattern capacity cd out.
End Ordered.
