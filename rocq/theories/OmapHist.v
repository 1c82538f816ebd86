(** Specification: what each call of an ordered database may do, given the records it holds and the keys its
    iterators stand at.  Independent of any data structure. *)
From Coq Require Import List NArith ZArith Bool Arith.
Import ListNotations.
From Verif Require Import Bytes DbmModel StatusModel OmapSpec.

(** The calls.  The processors share one state [S], so whatever they have seen can be observed in it; iterators are numbered. *)
Inductive ocall (S : Type) :=
| KProcess (k : bytes) (p : proc S) (w : bool)
| KAppend (k v d : bytes)
| KMulti (l : list (bytes * proc S)) (w : bool)
| KFirst (p : proc S) (w : bool)
| KEach (p : proc S) (w : bool)
| KClear
| KItFirst (j : nat) | KItLast (j : nat) | KItJump (j : nat) (k : bytes)
| KItLower (j : nat) (k : bytes) (inclusive : bool) | KItUpper (j : nat) (k : bytes) (inclusive : bool)
| KItNext (j : nat) | KItPrev (j : nat)
| KItProcess (j : nat) (p : proc S) (w : bool).
Arguments KProcess {S}. Arguments KAppend {S}. Arguments KMulti {S}. Arguments KFirst {S}. Arguments KEach {S}. Arguments KClear {S}.
Arguments KItFirst {S}. Arguments KItLast {S}. Arguments KItJump {S}. Arguments KItLower {S}. Arguments KItUpper {S}. Arguments KItNext {S}. Arguments KItPrev {S}. Arguments KItProcess {S}.

Record ost := mkO { o_recs : omap; o_pos : nat -> option bytes }.
Definition at_key (r : option (bytes * bytes)) : option bytes := option_map fst r.
Definition append_proc (S : Type) (v d : bytes) : proc S := mkProc (fun _ old s => (ASet (old ++ d ++ v), s)) (fun _ s => (ASet v, s)).

Section Hist.
  Variable cmp : bytes -> bytes -> comparison.
  Variable S : Type.
  Definition stay (o o' : ost) : Prop := forall j, o_pos o' j = o_pos o j.
  Definition moved (o o' : ost) (j : nat) (r : option bytes) : Prop := forall i, o_pos o' i = if Nat.eqb i j then r else o_pos o i.
  (** The outcome of one call: the status, the records and positions afterwards, the state of the processors. *)
  Definition ostep (c : ocall S) (o : ost) (st : S) (cd : code) (o' : ost) (st' : S) : Prop :=
    let L := o_recs o in
    match c with
    | KProcess k p w => cd = SUCCESS /\ o_recs o' = fst (o_process cmp L k p w st) /\ st' = snd (o_process cmp L k p w st) /\ stay o o'
    | KAppend k v d => cd = SUCCESS /\ o_recs o' = fst (o_process cmp L k (append_proc unit v d) true tt) /\ st' = st /\ stay o o'
    | KMulti l w => cd = SUCCESS /\ o_recs o' = fst (o_multi cmp L l w st) /\ st' = snd (o_multi cmp L l w st) /\ stay o o'
    | KFirst p w =>
        stay o o' /\
        match L with
        | [] => cd = NOT_FOUND_ERROR /\ o_recs o' = [] /\ st' = st
        | (k, _) :: _ => cd = SUCCESS /\ o_recs o' = fst (o_process cmp L k p w st) /\ st' = snd (o_process cmp L k p w st)
        end
    | KEach p w => cd = SUCCESS /\ o_recs o' = fst (o_each L p w st) /\ st' = snd (o_each L p w st) /\ stay o o'
    | KClear => cd = SUCCESS /\ o_recs o' = [] /\ st' = st /\ (forall j, o_pos o' j = None)
    | KItFirst j => cd = SUCCESS /\ o_recs o' = L /\ st' = st /\ moved o o' j (at_key (hd_error L))
    | KItLast j => cd = SUCCESS /\ o_recs o' = L /\ st' = st /\ moved o o' j (at_key (o_last L))
    | KItJump j k => cd = SUCCESS /\ o_recs o' = L /\ st' = st /\ moved o o' j (Some k)
    | KItLower j k inclusive => cd = SUCCESS /\ o_recs o' = L /\ st' = st /\ moved o o' j (at_key (if inclusive then o_le cmp k L else o_lt cmp k L))
    | KItUpper j k inclusive => cd = SUCCESS /\ o_recs o' = L /\ st' = st /\ moved o o' j (at_key (if inclusive then o_ge cmp k L else o_gt cmp k L))
    | KItNext j =>
        o_recs o' = L /\ st' = st /\
        match o_pos o j with None => cd = NOT_FOUND_ERROR /\ stay o o' | Some k => cd = SUCCESS /\ moved o o' j (at_key (o_gt cmp k L)) end
    | KItPrev j =>
        (** If no record has the key of the position, only that the new position is at some record before it, or none. *)
        o_recs o' = L /\ st' = st /\
        match o_pos o j with
        | None => cd = NOT_FOUND_ERROR /\ stay o o'
        | Some k => cd = SUCCESS /\ exists r, moved o o' j (at_key r) /\ (o_find cmp k L <> None -> at_key r = at_key (o_lt cmp k L)) /\
                    (forall k1 v1, r = Some (k1, v1) -> In (k1, v1) L /\ cmp k1 k = Lt)
        end
    | KItProcess j p w =>
        match o_pos o j with
        | None => cd = NOT_FOUND_ERROR /\ o_recs o' = L /\ st' = st /\ stay o o'
        | Some k =>
            moved o o' j (at_key (o_ge cmp k L)) /\
            match o_ge cmp k L with
            | None => cd = NOT_FOUND_ERROR /\ o_recs o' = L /\ st' = st
            | Some (k1, _) => cd = SUCCESS /\ o_recs o' = fst (o_process cmp L k1 p w st) /\ st' = snd (o_process cmp L k1 p w st)
            end
        end
    end.
  (** A history of calls and the statuses it returns. *)
  Inductive oruns : list (ocall S) -> ost -> S -> list code -> ost -> S -> Prop :=
  | oruns_nil : forall o st, oruns [] o st [] o st
  | oruns_cons : forall c cs o st cd o1 st1 cds o2 st2, ostep c o st cd o1 st1 -> oruns cs o1 st1 cds o2 st2 -> oruns (c :: cs) o st (cd :: cds) o2 st2.
  Definition o_empty : ost := mkO [] (fun _ => None).
End Hist.
