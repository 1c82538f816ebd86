(** The operations of the DBM interface, defined through record processors.
    Source: /repo/tkrzw_dbm.h:39-1778.
    A processor is an object with state; here it is a pair of functions that
    thread the state of the whole call (the variables the processor objects
    point to).  Statuses are codes only.  A value given by the caller is a byte
    string: passing the very objects RecordProcessor::NOOP and REMOVE as values
    is not modelled. *)
From Verif Require Import Bytes BytesOrder CodecModel StrSerialModel StatusModel.
Local Open Scope N_scope.

(** The string_view a processor returns: NOOP, REMOVE or a new value,
    tkrzw_dbm.h:49-66. *)
Inductive action := ANoop | ARemove | ASet (v : bytes).
(** RecordProcessor, tkrzw_dbm.h:47-94. *)
Record proc (S : Type) := mkProc {
  on_full : bytes -> bytes -> S -> action * S;
  on_empty : bytes -> S -> action * S }.
Arguments mkProc {S}. Arguments on_full {S}. Arguments on_empty {S}.

(** * What Process is documented to do, tkrzw_dbm.h:1005-1014 *)
Definition act (m : amap) (k : bytes) (a : action) : amap :=
  match a with ANoop => m | ARemove => adel m k | ASet v => aset m k v end.
Definition call {S} (m : amap) (k : bytes) (p : proc S) (s : S) : action * S :=
  match m k with Some v => on_full p k v s | None => on_empty p k s end.
Definition ref_process {S} (m : amap) (k : bytes) (p : proc S) (writable : bool) (s : S) : amap * S :=
  let '(a, s') := call m k p s in (if writable then act m k a else m, s').
(** ProcessMulti, tkrzw_dbm.h:1360-1371: the pairs in order. *)
Fixpoint ref_multi {S} (m : amap) (l : list (bytes * proc S)) (writable : bool) (s : S) : amap * S :=
  match l with
  | [] => (m, s)
  | (k, p) :: l' => let '(m', s') := ref_process m k p writable s in ref_multi m' l' writable s'
  end.
Definition same_map (m m' : amap) : Prop := forall k, m k = m' k.

(** A database: its states, what it holds and its three virtual functions, with
    what they must satisfy.  On a failure (a code other than SUCCESS) nothing is
    required, but that ProcessFirst fails on an empty database and changes nothing. *)
Record dbm := mkDbm {
  d_st : Type;
  d_ok : d_st -> Prop;
  d_view : d_st -> amap;
  d_process : forall S : Type, d_st -> bytes -> proc S -> bool -> S -> code * d_st * S;
  d_multi : forall S : Type, d_st -> list (bytes * proc S) -> bool -> S -> code * d_st * S;
  d_first : forall S : Type, d_st -> proc S -> bool -> S -> code * d_st * S;
  d_process_ok : forall S d k (p : proc S) w s d' s', d_ok d -> d_process S d k p w s = (SUCCESS, d', s') ->
    d_ok d' /\ same_map (d_view d') (fst (ref_process (d_view d) k p w s)) /\ s' = snd (ref_process (d_view d) k p w s);
  d_multi_ok : forall S d (l : list (bytes * proc S)) w s d' s', d_ok d -> d_multi S d l w s = (SUCCESS, d', s') ->
    d_ok d' /\ same_map (d_view d') (fst (ref_multi (d_view d) l w s)) /\ s' = snd (ref_multi (d_view d) l w s);
  d_first_ok : forall S d (p : proc S) w s c d' s', d_ok d -> d_first S d p w s = (c, d', s') ->
    (c = SUCCESS -> d_ok d' /\ exists k v, d_view d k = Some v /\
       same_map (d_view d') (if w then act (d_view d) k (fst (on_full p k v s)) else d_view d) /\ s' = snd (on_full p k v s)) /\
    ((forall k, d_view d k = None) -> c <> SUCCESS /\ d' = d /\ s' = s) }.
Arguments d_process _ {S}. Arguments d_multi _ {S}. Arguments d_first _ {S}.

(** A string_view argument: data() is nullptr, it is DBM::ANY_DATA, or a string. *)
Inductive sview := VNull | VAny | VStr (b : bytes).
(** DBM::ANY_DATA, tkrzw_dbm.cc:23. *)
Definition any_bytes : bytes := [0; 186; 190; 2; 17].

(** * Processors *)
(** RecordProcessorGet, tkrzw_dbm.h:132-164; state: *status_ and *value_. *)
Definition pr_get : proc (code * bytes) :=
  mkProc (fun _ v '(c, _) => (ANoop, (c, v))) (fun _ '(_, o) => (ANoop, (NOT_FOUND_ERROR, o))).
(** RecordProcessorSet, tkrzw_dbm.h:169-212; state: *status_ and *old_value_. *)
Definition pr_set (value : bytes) (overwrite : bool) : proc (code * bytes) :=
  mkProc (fun _ v '(c, _) => if overwrite then (ASet value, (c, v)) else (ANoop, (DUPLICATION_ERROR, v)))
         (fun _ s => (ASet value, s)).
(** RecordProcessorRemove, tkrzw_dbm.h:217-250. *)
Definition pr_remove : proc (code * bytes) :=
  mkProc (fun _ v '(c, _) => (ARemove, (c, v))) (fun _ '(_, o) => (ANoop, (NOT_FOUND_ERROR, o))).
(** RecordProcessorAppend, tkrzw_dbm.h:255-296. *)
Definition pr_append (value delim : bytes) : proc unit :=
  mkProc (fun _ v s => (ASet (match delim with [] => v ++ value | _ => v ++ delim ++ value end), s))
         (fun _ s => (ASet value, s)).
(** RecordProcessorCompareExchange, tkrzw_dbm.h:301-366; state: *status_, *actual_, *found_. *)
Definition pr_cas (expected desired : sview) : proc (code * bytes * bool) :=
  mkProc (fun _ v '(c, _, _) =>
            if match expected with VNull => false | VAny => true | VStr e => beqb e v end then
              (match desired with VNull => ARemove | VAny => ANoop | VStr d => ASet d end, (c, v, true))
            else (ANoop, (INFEASIBLE_ERROR, v, true)))
         (fun _ '(c, _, _) =>
            match expected with
            | VNull => (match desired with VNull => ANoop | VAny => ANoop | VStr d => ASet d end, (c, [], false))
            | _ => (ANoop, (INFEASIBLE_ERROR, [], false))
            end).
(** RecordProcessorIncrement, tkrzw_dbm.h:371-427; state: *current_ and whether
    the signed addition initial_ + increment_ overflowed, which is undefined.
    The other addition is of a uint64_t and so modulo 2^64.  StrToIntBigEndian
    and IntToStrBigEndian are those of StrSerialModel.v. *)
Definition int64min : Z := (- 9223372036854775808)%Z.
Definition as_i64 (n : N) : Z := (if (9223372036854775808 <=? Z.of_N n) then Z.of_N n - 18446744073709551616 else Z.of_N n)%Z.
Definition as_u64 (z : Z) : N := Z.to_N (z mod 18446744073709551616)%Z.
Definition in_i64 (z : Z) : bool := ((-9223372036854775808 <=? z) && (z <=? 9223372036854775807))%Z.
Definition pr_inc (increment initial : Z) : proc (Z * bool) :=
  mkProc (fun _ v '(_, ub) =>
            if (increment =? int64min)%Z then (ANoop, (as_i64 (be_to_int v), ub))
            else let num := as_i64 (as_u64 (Z.of_N (be_to_int v) + increment)) in
                 (ASet (int_to_be (as_u64 num) 8), (num, ub)))
         (fun _ '(_, ub) =>
            if (increment =? int64min)%Z then (ANoop, (initial, ub))
            else let num := (initial + increment)%Z in
                 (ASet (int_to_be (as_u64 num) 8), (num, ub || negb (in_i64 num)))).
(** RecordCheckerCompareExchangeMulti, tkrzw_dbm.h:432-468; state: *noop_. *)
Definition pr_check (expected : sview) : proc bool :=
  mkProc (fun _ v noop =>
            (ANoop, noop || match expected with VNull => true | VAny => false | VStr e => negb (beqb e v) end))
         (fun _ noop => (ANoop, noop || match expected with VNull => false | _ => true end)).
(** RecordSetterCompareExchangeMulti, tkrzw_dbm.h:473-508: ANY_DATA is not
    looked at, it is a value like others. *)
Definition pr_exchange (desired : sview) : proc bool :=
  mkProc (fun _ _ (noop : bool) => (if noop then ANoop else match desired with VNull => ARemove | VAny => ASet any_bytes | VStr d => ASet d end, noop))
         (fun _ (noop : bool) => (if noop then ANoop else match desired with VNull => ANoop | VAny => ASet any_bytes | VStr d => ASet d end, noop)).
(** RecordCheckerRekey, RecordRemoverRekey, RecordSetterRekey,
    tkrzw_dbm.h:513-621; state: *status_ and rec_value. *)
Definition pr_rk_check : proc (code * bytes) :=
  mkProc (fun _ _ (s : code * bytes) => (ANoop, (DUPLICATION_ERROR, snd s))) (fun _ s => (ANoop, s)).
Definition pr_rk_remove (copying : bool) : proc (code * bytes) :=
  mkProc (fun _ v '(c, o) => if code_eqb c SUCCESS then (if copying then ANoop else ARemove, (c, v)) else (ANoop, (c, o)))
         (fun _ '(_, o) => (ANoop, (NOT_FOUND_ERROR, o))).
Definition pr_rk_set : proc (code * bytes) :=
  mkProc (fun _ _ '(c, o) => (if code_eqb c SUCCESS then ASet o else ANoop, (c, o)))
         (fun _ '(c, o) => (if code_eqb c SUCCESS then ASet o else ANoop, (c, o))).
(** RecordProcessorPopFirst, tkrzw_dbm.h:626-654; state: *key_ and *value_. *)
Definition pr_pop : proc (bytes * bytes) := mkProc (fun k v _ => (ARemove, (k, v))) (fun _ s => (ANoop, s)).

(** * Operations *)
(** "if (status != SUCCESS) return status; return impl_status;" *)
Definition both (c impl : code) : code := if code_eqb c SUCCESS then impl else c.

Section ops.
  Variable D : dbm.
  (** Get, tkrzw_dbm.h:1038-1046; the value is the one in *value, [old] before. *)
  Definition op_get (d : d_st D) (k old : bytes) : code * bytes * d_st D :=
    let '(c, d', (i, v)) := d_process D d k pr_get false (SUCCESS, old) in (both c i, v, d').
  (** Set, tkrzw_dbm.h:1123-1132. *)
  Definition op_set (d : d_st D) (k value : bytes) (overwrite : bool) (old : bytes) : code * bytes * d_st D :=
    let '(c, d', (i, v)) := d_process D d k (pr_set value overwrite) true (SUCCESS, old) in (both c i, v, d').
  (** Remove, tkrzw_dbm.h:1196-1204. *)
  Definition op_remove (d : d_st D) (k old : bytes) : code * bytes * d_st D :=
    let '(c, d', (i, v)) := d_process D d k pr_remove true (SUCCESS, old) in (both c i, v, d').
  (** Append, tkrzw_dbm.h:1249-1253. *)
  Definition op_append (d : d_st D) (k value delim : bytes) : code * d_st D :=
    let '(c, d', _) := d_process D d k (pr_append value delim) true tt in (c, d').
  (** CompareExchange, tkrzw_dbm.h:1317-1327. *)
  Definition op_cas (d : d_st D) (k : bytes) (expected desired : sview) (actual : bytes) (found : bool)
    : code * bytes * bool * d_st D :=
    let '(c, d', (i, a, f)) := d_process D d k (pr_cas expected desired)
                                 (match desired with VAny => false | _ => true end) (SUCCESS, actual, found) in
    (both c i, a, f, d').
  (** Increment, tkrzw_dbm.h:1341-1345; None: undefined. *)
  Definition op_inc (d : d_st D) (k : bytes) (increment current initial : Z) : option (code * Z * d_st D) :=
    let '(c, d', (n, ub)) := d_process D d k (pr_inc increment initial) (negb (increment =? int64min)%Z) (current, false) in
    if ub then None else Some (c, n, d').
  (** CompareExchangeMulti, tkrzw_dbm.h:1405-1429. *)
  Definition op_cas_multi (d : d_st D) (expected desired : list (bytes * sview)) : code * d_st D :=
    let l := map (fun '(k, e) => (k, pr_check e)) expected ++ map (fun '(k, v) => (k, pr_exchange v)) desired in
    let '(c, d', noop) := d_multi D d l true false in
    (if code_eqb c SUCCESS then (if noop then INFEASIBLE_ERROR else SUCCESS) else c, d').
  (** Rekey, tkrzw_dbm.h:1444-1469; the value is the one in *value, [old] before. *)
  Definition op_rekey (d : d_st D) (old_key new_key : bytes) (overwrite copying : bool) (old : bytes) : code * bytes * d_st D :=
    let l := (if overwrite then [] else [(new_key, pr_rk_check)]) ++
             [(old_key, pr_rk_remove copying); (new_key, pr_rk_set)] in
    let '(c, d', (i, v)) := d_multi D d l true (SUCCESS, []) in
    if code_eqb c SUCCESS then (i, if code_eqb i SUCCESS then v else old, d') else (c, old, d').
  (** PopFirst, tkrzw_dbm.h:1502-1505. *)
  Definition op_pop (d : d_st D) (key value : bytes) : code * (bytes * bytes) * d_st D :=
    let '(c, d', s) := d_first D d pr_pop true (key, value) in (c, s, d').
  (** PushLast, tkrzw_dbm.h:1519-1533.  [ts seq] is the timestamp made at
      iteration [seq], a 64-bit number computed with doubles from the clock or
      from wtime, about which nothing is assumed here.  None: still looping. *)
  Fixpoint op_push (fuel : nat) (ts : N -> N) (d : d_st D) (value : bytes) (seq : N) : option (code * bytes * d_st D) :=
    match fuel with
    | O => None
    | Datatypes.S f =>
        let k := int_to_be (ts seq) 8 in
        let '(c, _, d') := op_set d k value false [] in
        if code_eqb c DUPLICATION_ERROR then op_push f ts d' value (seq + 1) else Some (c, k, d')
    end.
  (** GetMulti, tkrzw_dbm.h:1068-1081: the statuses are merged by |=; the map
      of records is a list here, latest first, without the keys already there
      (emplace). *)
  Fixpoint op_get_multi (d : d_st D) (ks : list bytes) (recs : list (bytes * bytes)) (st : code)
    : code * list (bytes * bytes) * d_st D :=
    match ks with
    | [] => (st, recs, d)
    | k :: ks' =>
        let '(c, v, d') := op_get d k [] in
        if code_eqb c SUCCESS
        then op_get_multi d' ks' (if existsb (fun r => beqb (fst r) k) recs then recs else (k, v) :: recs) st
        else op_get_multi d' ks' recs (both st c)
    end.
  (** SetMulti, tkrzw_dbm.h:1143-1153. *)
  Fixpoint op_set_multi (d : d_st D) (rs : list (bytes * bytes)) (overwrite : bool) (st : code) : code * d_st D :=
    match rs with
    | [] => (st, d)
    | (k, v) :: rs' =>
        let '(c, _, d') := op_set d k v overwrite [] in
        let st' := both st c in
        if code_eqb st' SUCCESS || code_eqb st' DUPLICATION_ERROR then op_set_multi d' rs' overwrite st' else (st', d')
    end.
  (** RemoveMulti, tkrzw_dbm.h:1211-1220. *)
  Fixpoint op_remove_multi (d : d_st D) (ks : list bytes) (st : code) : code * d_st D :=
    match ks with
    | [] => (st, d)
    | k :: ks' =>
        let '(c, _, d') := op_remove d k [] in
        let st' := both st c in
        if code_eqb st' SUCCESS || code_eqb st' NOT_FOUND_ERROR then op_remove_multi d' ks' st' else (st', d')
    end.
  (** AppendMulti, tkrzw_dbm.h:1262-1272. *)
  Fixpoint op_append_multi (d : d_st D) (rs : list (bytes * bytes)) (delim : bytes) (st : code) : code * d_st D :=
    match rs with
    | [] => (st, d)
    | (k, v) :: rs' =>
        let '(c, d') := op_append d k v delim in
        let st' := both st c in
        if code_eqb st' SUCCESS then op_append_multi d' rs' delim st' else (st', d')
    end.
End ops.

(** * StdTreeDBM, tkrzw_dbm_std.cc:171-330 *)
(** The std::map<std::string, std::string> is a list of records; the theorems
    keep it sorted by key.  Update logging and the iterators are not here. *)
Fixpoint l_get (l : list (bytes * bytes)) (k : bytes) : option bytes :=
  match l with [] => None | (k', v) :: l' => if beqb k' k then Some v else l_get l' k end.
Fixpoint l_del (l : list (bytes * bytes)) (k : bytes) : list (bytes * bytes) :=
  match l with [] => [] | (k', v) :: l' => if beqb k' k then l' else (k', v) :: l_del l' k end.
Fixpoint l_put (l : list (bytes * bytes)) (k v : bytes) : list (bytes * bytes) :=
  match l with
  | [] => [(k, v)]
  | (k', v') :: l' => match bcmp k k' with Lt => (k, v) :: l | Eq => (k', v) :: l' | Gt => (k', v') :: l_put l' k v end
  end.
Definition l_act (l : list (bytes * bytes)) (k : bytes) (a : action) : list (bytes * bytes) :=
  match a with ANoop => l | ARemove => l_del l k | ASet v => l_put l k v end.
(** Process, tkrzw_dbm_std.cc:171-219. *)
Definition l_process {S} (l : list (bytes * bytes)) (k : bytes) (p : proc S) (w : bool) (s : S) : code * list (bytes * bytes) * S :=
  let '(a, s') := match l_get l k with Some v => on_full p k v s | None => on_empty p k s end in
  (SUCCESS, if w then l_act l k a else l, s').
(** ProcessMulti, tkrzw_dbm_std.cc:221-279. *)
Fixpoint l_multi {S} (l : list (bytes * bytes)) (ps : list (bytes * proc S)) (w : bool) (s : S) : code * list (bytes * bytes) * S :=
  match ps with
  | [] => (SUCCESS, l, s)
  | (k, p) :: ps' => let '(_, l', s') := l_process l k p w s in l_multi l' ps' w s'
  end.
(** ProcessFirst, tkrzw_dbm_std.cc:281-325. *)
Definition l_first {S} (l : list (bytes * bytes)) (p : proc S) (w : bool) (s : S) : code * list (bytes * bytes) * S :=
  match l with
  | [] => (NOT_FOUND_ERROR, l, s)
  | (k, v) :: _ => let '(a, s') := on_full p k v s in (SUCCESS, if w then l_act l k a else l, s')
  end.
