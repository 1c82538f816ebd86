(** Secondary indices.  Source: /repo/tkrzw_index.h.
    FileIndex, MemIndex and PolyIndex keep the serialized pairs as keys of an ordered database (TreeDBM, BabyDBM); here the database is
    any one whose calls act as in OmapHist.v.  StdIndex and StdIndexStr keep the pairs in a std::set.
    The mutexes are left out: one call runs at a time.  Opening, closing, rebuilding and synchronizing are left out. *)
From Coq Require Import List NArith Bool Arith.
Import ListNotations.
From Verif Require Import Bytes DbmModel StatusModel OmapSpec OmapHist StrSerialModel SearchModel.
Local Open Scope nat_scope.

(** The calls of an index; iterators are numbered. *)
Inductive icall (K V : Type) :=
| IAdd (k : K) (v : V) | IRemove (k : K) (v : V) | ICheck (k : K) (v : V) | IValues (k : K) (max : nat) | ICount | IClear
| IFirst (j : nat) | ILast (j : nat) | IJump (j : nat) (k : K) (v : V) | INext (j : nat) | IPrev (j : nat) | IGet (j : nat).
Arguments IAdd {K V}. Arguments IRemove {K V}. Arguments ICheck {K V}. Arguments IValues {K V}. Arguments ICount {K V}. Arguments IClear {K V}.
Arguments IFirst {K V}. Arguments ILast {K V}. Arguments IJump {K V}. Arguments INext {K V}. Arguments IPrev {K V}. Arguments IGet {K V}.
(** What a call returns.  RUndef: the views of DeserializeStrPair reach outside of the record. *)
Inductive ires (K V : Type) :=
| RVoid | RCode (c : code) | RBool (b : bool) | RVals (l : list V) | RNum (n : nat) | RRec (r : option (K * V)) | RUndef.
Arguments RVoid {K V}. Arguments RCode {K V}. Arguments RBool {K V}. Arguments RVals {K V}. Arguments RNum {K V}. Arguments RRec {K V}. Arguments RUndef {K V}.

Section DbIndex.
  Variable cmp : bytes -> bytes -> comparison.
  (** The loop of GetValues, tkrzw_index.h:938-959 (FileIndex), 1077-1098 (PolyIndex) and 1192-1213 (MemIndex); the temporary iterator
      has number 0.  None: a view reaches outside of the record. *)
  Inductive values_loop (key : bytes) (max : nat) : ost -> list bytes -> option (list bytes) -> ost -> Prop :=
  | vl_full o m : 0 < max -> max <= length m -> values_loop key max o m (Some m) o
  | vl_end o m o1 x cd : ~ (0 < max /\ max <= length m) ->
      ostep cmp bytes (KItProcess 0 get_key false) o [] cd o1 x -> cd <> SUCCESS -> values_loop key max o m (Some m) o1
  | vl_undef o m o1 rec : ~ (0 < max /\ max <= length m) ->
      ostep cmp bytes (KItProcess 0 get_key false) o [] SUCCESS o1 rec -> deserialize_pair rec = None -> values_loop key max o m None o1
  | vl_other o m o1 rec rk rv : ~ (0 < max /\ max <= length m) ->
      ostep cmp bytes (KItProcess 0 get_key false) o [] SUCCESS o1 rec -> deserialize_pair rec = Some (rk, rv) -> rk <> key ->
      values_loop key max o m (Some m) o1
  | vl_next o m o1 rec rv cd o2 x out o3 : ~ (0 < max /\ max <= length m) ->
      ostep cmp bytes (KItProcess 0 get_key false) o [] SUCCESS o1 rec -> deserialize_pair rec = Some (key, rv) ->
      ostep cmp bytes (KItNext 0) o1 [] cd o2 x ->
      values_loop key max o2 (m ++ [rv]) out o3 -> values_loop key max o m out o3.
  (** The methods of FileIndex, tkrzw_index.h:934-1043; those of PolyIndex (1073-1183) and MemIndex (1185-1273) are the same but that the
      ones of MemIndex return no status.  Iterator number j of the caller is number j + 1 of the database. *)
  Inductive ix_step : icall bytes bytes -> ost -> ires bytes bytes -> ost -> Prop :=
  (** Add, tkrzw_index.h:961-963; Set is that of DbmModel.v. *)
  | ix_add k v o cd o' i old : ostep cmp _ (KProcess (serialize_pair k v) (pr_set [] true) true) o (SUCCESS, []) cd o' (i, old) ->
      ix_step (IAdd k v) o (RCode (both cd i)) o'
  (** Remove, tkrzw_index.h:965-967. *)
  | ix_remove k v o cd o' i old : ostep cmp _ (KProcess (serialize_pair k v) pr_remove true) o (SUCCESS, []) cd o' (i, old) ->
      ix_step (IRemove k v) o (RCode (both cd i)) o'
  (** Check, tkrzw_index.h:934-936. *)
  | ix_check k v o cd o' i old : ostep cmp _ (KProcess (serialize_pair k v) pr_get false) o (SUCCESS, []) cd o' (i, old) ->
      ix_step (ICheck k v) o (RBool (code_eqb (both cd i) SUCCESS)) o'
  (** GetValues, tkrzw_index.h:938-959. *)
  | ix_values k max o cd o1 x out o2 : ostep cmp bytes (KItJump 0 (serialize_pair k [])) o [] cd o1 x -> values_loop k max o1 [] out o2 ->
      ix_step (IValues k max) o (match out with Some l => RVals l | None => RUndef end) o2
  (** Count, tkrzw_index.h:969-975: the number of records of the database. *)
  | ix_count o : ix_step ICount o (RNum (length (o_recs o))) o
  (** Clear, tkrzw_index.h:977-979. *)
  | ix_clear o cd o' x : ostep cmp bytes KClear o [] cd o' x -> ix_step IClear o (RCode cd) o'
  (** The iterator, tkrzw_index.h:1010-1043. *)
  | ix_first j o cd o' x : ostep cmp bytes (KItFirst (S j)) o [] cd o' x -> ix_step (IFirst j) o RVoid o'
  | ix_last j o cd o' x : ostep cmp bytes (KItLast (S j)) o [] cd o' x -> ix_step (ILast j) o RVoid o'
  | ix_jump j k v o cd o' x : ostep cmp bytes (KItJump (S j) (serialize_pair k v)) o [] cd o' x -> ix_step (IJump j k v) o RVoid o'
  | ix_next j o cd o' x : ostep cmp bytes (KItNext (S j)) o [] cd o' x -> ix_step (INext j) o RVoid o'
  | ix_prev j o cd o' x : ostep cmp bytes (KItPrev (S j)) o [] cd o' x -> ix_step (IPrev j) o RVoid o'
  | ix_get_fail j o cd o' x : ostep cmp bytes (KItProcess (S j) get_key false) o [] cd o' x -> cd <> SUCCESS -> ix_step (IGet j) o (RRec None) o'
  | ix_get j o o' rec : ostep cmp bytes (KItProcess (S j) get_key false) o [] SUCCESS o' rec ->
      ix_step (IGet j) o (match deserialize_pair rec with Some p => RRec (Some p) | None => RUndef end) o'.
  Inductive ix_runs : list (icall bytes bytes) -> ost -> list (ires bytes bytes) -> ost -> Prop :=
  | ixr_nil o : ix_runs [] o [] o
  | ixr_cons c cs o r o1 rs o2 : ix_step c o r o1 -> ix_runs cs o1 rs o2 -> ix_runs (c :: cs) o (r :: rs) o2.
End DbIndex.

(** StdIndex, tkrzw_index.h:594-744 and 1275-1429, and StdIndexStr, 746-911 and 1431-1565.
    [T] is the type of the elements of the set, in the order of [lt]; [mk] makes one of a pair and [un] gives the pair of one
    (DeserializeStrPair in StdIndexStr).  [dflt] is VALUETYPE(), and "" in StdIndexStr; [keq] is == of keys. *)
Section StdIndex.
  Variables (K V T : Type) (lt : T -> T -> bool) (mk : K -> V -> T) (un : T -> option (K * V)) (dflt : V) (keq : K -> K -> bool).
  (** std::set as the list of its elements; an iterator is the element it points to, or None for end(). *)
  Definition same_elem (a b : T) : bool := negb (lt a b) && negb (lt b a).
  Definition set_find (x : T) (s : list T) : option T := find (same_elem x) s.
  Fixpoint set_emplace (x : T) (s : list T) : list T :=
    match s with [] => [x] | y :: r => if lt x y then x :: s else if lt y x then y :: set_emplace x r else s end.
  Definition set_erase (x : T) (s : list T) : list T := filter (fun y => negb (same_elem x y)) s.
  Definition lower_bound (x : T) (s : list T) : option T := find (fun y => negb (lt y x)) s.
  Definition succ_elem (x : T) (s : list T) : option T := find (fun y => lt x y) s.
  Definition pred_elem (x : T) (s : list T) : option T := find (fun y => lt y x) (rev s).
  Definition last_elem (s : list T) : option T := hd_error (rev s).
  Definition it_eq (a b : option T) : bool :=
    match a, b with Some x, Some y => same_elem x y | None, None => true | _, _ => false end.
  Record sidx := mkS { si_recs : list T; si_its : nat -> option T }.
  (** The loop of GetValues, tkrzw_index.h:1297-1306 and 1449-1460, over the elements from the iterator on. *)
  Fixpoint si_loop (key : K) (max : nat) (rest : list T) (m : list V) : option (list V) :=
    match rest with
    | [] => Some m
    | x :: rest' =>
        if (0 <? max) && (max <=? length m) then Some m
        else match un x with
             | None => None
             | Some (rk, rv) => if keq rk key then si_loop key max rest' (m ++ [rv]) else Some m
             end
    end.
  Definition from_bound (x : T) (s : list T) : list T := filter (fun y => negb (lt y x)) s.
  Definition si_move (s : sidx) (j : nat) (p : option T) : sidx := mkS (si_recs s) (fun i => if i =? j then p else si_its s i).
  Definition si_step (c : icall K V) (s : sidx) : ires K V * sidx :=
    match c with
    (** Check, tkrzw_index.h:1283-1288 and 1437-1441. *)
    | ICheck k v => (RBool (match set_find (mk k v) (si_recs s) with Some _ => true | None => false end), s)
    (** GetValues, tkrzw_index.h:1291-1308 and 1443-1462. *)
    | IValues k max => (match si_loop k max (from_bound (mk k dflt) (si_recs s)) [] with Some l => RVals l | None => RUndef end, s)
    (** Add, tkrzw_index.h:1311-1315 and 1464-1467. *)
    | IAdd k v => (RVoid, mkS (set_emplace (mk k v) (si_recs s)) (si_its s))
    (** Remove, tkrzw_index.h:1318-1331 and 1469-1481: iterators on the element move on before it is erased. *)
    | IRemove k v =>
        match set_find (mk k v) (si_recs s) with
        | None => (RVoid, s)
        | Some x => (RVoid, mkS (set_erase x (si_recs s))
                              (fun j => if it_eq (si_its s j) (Some x) then succ_elem x (si_recs s) else si_its s j))
        end
    (** Count, tkrzw_index.h:1334-1337 and 1483-1486. *)
    | ICount => (RNum (length (si_recs s)), s)
    (** Clear, tkrzw_index.h:1340-1346 and 1488-1494. *)
    | IClear => (RVoid, mkS [] (fun _ => None))
    (** The iterator, tkrzw_index.h:1372-1429 and 1514-1565. *)
    | IFirst j => (RVoid, si_move s j (hd_error (si_recs s)))
    | ILast j => (RVoid, si_move s j (last_elem (si_recs s)))
    | IJump j k v => (RVoid, si_move s j (lower_bound (mk k v) (si_recs s)))
    | INext j => (RVoid, match si_its s j with None => s | Some x => si_move s j (succ_elem x (si_recs s)) end)
    | IPrev j => (RVoid, if it_eq (si_its s j) (hd_error (si_recs s)) then si_move s j None
                         else si_move s j (match si_its s j with None => last_elem (si_recs s) | Some x => pred_elem x (si_recs s) end))
    | IGet j => (match si_its s j with
                 | None => RRec None
                 | Some x => match un x with Some p => RRec (Some p) | None => RUndef end
                 end, s)
    end.
  Fixpoint si_runs (cs : list (icall K V)) (s : sidx) : list (ires K V) * sidx :=
    match cs with [] => ([], s) | c :: r => let '(x, s1) := si_step c s in let '(xs, s2) := si_runs r s1 in (x :: xs, s2) end.
  Definition si_new : sidx := mkS [] (fun _ => None).
End StdIndex.
