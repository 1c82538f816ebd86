(** Specification: a database as the list of its records in the order of iteration,
    iterators that stand on records (or nowhere), and the log of updates.  Independent of
    the containers of StdModel. *)
From Coq Require Import List NArith Bool Sorting.Permutation.
Import ListNotations.
From Verif Require Import Bytes BytesOrder StatusModel DbmModel OmapSpec StdModel.

Definition recs := list (bytes * bytes).
Record pst := mkP { p_recs : recs; p_pos : nat -> option bytes; p_log : list logged }.
Definition lookup (k : bytes) (l : recs) : option bytes := option_map snd (find (fun r => beqb (fst r) k) l).
Definition without (k : bytes) (l : recs) : recs := filter (fun r => negb (beqb (fst r) k)) l.
Definition with_value (k v : bytes) (l : recs) : recs := map (fun r => if beqb (fst r) k then (fst r, v) else r) l.
Definition head_key (l : recs) : option bytes := option_map fst (hd_error l).
(** The key of the record after, and before, the record of [k]. *)
Fixpoint following (k : bytes) (l : recs) : option bytes :=
  match l with [] => None | r :: l' => if beqb (fst r) k then head_key l' else following k l' end.
Definition preceding (k : bytes) (l : recs) : option bytes := following k (rev l).

(** A new record goes somewhere between the others; in the ordered database, to the place of its key. *)
Definition placed (tree : bool) (l : recs) (k v : bytes) (l' : recs) : Prop :=
  exists a b, l = a ++ b /\ l' = a ++ (k, v) :: b /\
    (tree = true -> Forall (fun r => blt (fst r) k) a /\ Forall (fun r => blt k (fst r)) b).
(** What becomes of a record that is there.  Iterators on a removed record go to the next one. *)
Definition p_act (st : pst) (k : bytes) (a : action) (st' : pst) : Prop :=
  match a with
  | ANoop => p_recs st' = p_recs st /\ (forall j, p_pos st' j = p_pos st j) /\ p_log st' = p_log st
  | ASet v => p_recs st' = with_value k v (p_recs st) /\ (forall j, p_pos st' j = p_pos st j) /\ p_log st' = p_log st ++ [WSet k v]
  | ARemove => p_recs st' = without k (p_recs st) /\ p_log st' = p_log st ++ [WRemove k] /\
               forall j, p_pos st' j = match p_pos st j with
                                       | Some x => if beqb x k then following k (p_recs st) else Some x
                                       | None => None
                                       end
  end.
Definition p_same (st st' : pst) : Prop := p_act st [] ANoop st'.
Section Spec.
  Variable tree : bool.
  Variable noop : bytes.
  Context {S : Type}.
  Definition p_process (st : pst) (k : bytes) (p : proc S) (w : bool) (s : S) (st' : pst) (s' : S) : Prop :=
    match lookup k (p_recs st) with
    | Some v => s' = snd (on_full p k v s) /\ p_act st k (if w then fst (on_full p k v s) else ANoop) st'
    | None => s' = snd (on_empty p k s) /\
              match fst (on_empty p k s), w with
              | ASet v, true => placed tree (p_recs st) k v (p_recs st') /\ (forall j, p_pos st' j = p_pos st j) /\ p_log st' = p_log st ++ [WSet k v]
              | _, _ => p_same st st'
              end
    end.
  Fixpoint p_multi (st : pst) (l : list (bytes * proc S)) (w : bool) (s : S) (st' : pst) (s' : S) : Prop :=
    match l with
    | [] => p_same st st' /\ s' = s
    | (k, p) :: r => exists st1 s1, p_process st k p w s st1 s1 /\ p_multi st1 r w s1 st' s'
    end.
  (** The records [todo] one by one. *)
  Fixpoint p_each (st : pst) (todo : recs) (p : proc S) (w : bool) (s : S) (st' : pst) (s' : S) : Prop :=
    match todo with
    | [] => p_same st st' /\ s' = s
    | (k, v) :: r => exists st1, p_act st k (if w then fst (on_full p k v s) else ANoop) st1 /\
                                 p_each st1 r p w (snd (on_full p k v s)) st' s'
    end.
  (** Iterator [j] goes to [x]; nothing else changes. *)
  Definition p_move (st : pst) (j : nat) (x : option bytes) (st' : pst) : Prop :=
    p_recs st' = p_recs st /\ p_log st' = p_log st /\ forall i, p_pos st' i = if Nat.eqb i j then x else p_pos st i.
  Definition key_of (r : option (bytes * bytes)) : option bytes := option_map fst r.

  (** One call, its status, its count. *)
  Definition p_step (st : pst) (c : scall S) (s : S) (cd : code) (n : nat) (st' : pst) (s' : S) : Prop :=
    (n = match c with SCount => length (p_recs st) | _ => O end) /\
    match c with
    | SProcess k p w => cd = SUCCESS /\ p_process st k p w s st' s'
    | SMulti l w => cd = SUCCESS /\ p_multi st l w s st' s'
    | SFirst p w =>
        match p_recs st with
        | [] => cd = NOT_FOUND_ERROR /\ p_same st st' /\ s' = s
        | (k, v) :: _ => cd = SUCCESS /\ p_act st k (if w then fst (on_full p k v s) else ANoop) st' /\ s' = snd (on_full p k v s)
        end
    | SEach p w => cd = SUCCESS /\ exists s2, p_each st (p_recs st) p w (snd (on_empty p noop s)) st' s2 /\ s' = snd (on_empty p noop s2)
    | SCount => cd = SUCCESS /\ p_same st st' /\ s' = s
    | SClear => cd = SUCCESS /\ p_recs st' = [] /\ (forall j, p_pos st' j = None) /\ p_log st' = p_log st ++ [WClear] /\ s' = s
    | SRebuild => cd = SUCCESS /\ (if tree then p_recs st' = p_recs st else Permutation (p_recs st') (p_recs st)) /\
                  (forall j, p_pos st' j = None) /\ p_log st' = p_log st /\ s' = s
    | IFirst j => cd = SUCCESS /\ p_move st j (head_key (p_recs st)) st' /\ s' = s
    | ILast j => s' = s /\ if tree then cd = SUCCESS /\ p_move st j (key_of (o_last (p_recs st))) st' else cd = NOT_IMPLEMENTED_ERROR /\ p_same st st'
    | IJump j k => s' = s /\
        if tree then cd = SUCCESS /\ p_move st j (key_of (o_ge bcmp k (p_recs st))) st'
        else match lookup k (p_recs st) with
             | Some _ => cd = SUCCESS /\ p_move st j (Some k) st'
             | None => cd = NOT_FOUND_ERROR /\ p_move st j None st'
             end
    | IJumpLower j k inc => s' = s /\
        if tree then cd = SUCCESS /\ p_move st j (key_of (if inc then o_le bcmp k (p_recs st) else o_lt bcmp k (p_recs st))) st'
        else cd = NOT_IMPLEMENTED_ERROR /\ p_same st st'
    | IJumpUpper j k inc => s' = s /\
        if tree then cd = SUCCESS /\ p_move st j (key_of (if inc then o_ge bcmp k (p_recs st) else o_gt bcmp k (p_recs st))) st'
        else cd = NOT_IMPLEMENTED_ERROR /\ p_same st st'
    | INext j => s' = s /\
        match p_pos st j with
        | None => cd = NOT_FOUND_ERROR /\ p_same st st'
        | Some x => cd = SUCCESS /\ p_move st j (following x (p_recs st)) st'
        end
    | IPrev j => s' = s /\
        if tree then
          match p_pos st j with
          | None => cd = NOT_FOUND_ERROR /\ p_same st st'
          | Some x => cd = SUCCESS /\ p_move st j (preceding x (p_recs st)) st'
          end
        else cd = NOT_IMPLEMENTED_ERROR /\ p_same st st'
    | IProcess j p w =>
        match p_pos st j with
        | None => cd = NOT_FOUND_ERROR /\ p_same st st' /\ s' = s
        | Some k => cd = SUCCESS /\ exists v, lookup k (p_recs st) = Some v /\
                    p_act st k (if w then fst (on_full p k v s) else ANoop) st' /\ s' = snd (on_full p k v s)
        end
    end.
  Inductive p_runs : pst -> list (scall S) -> S -> list (code * nat) -> pst -> S -> Prop :=
  | p_nil st s : p_runs st [] s [] st s
  | p_cons st c s cd n st1 s1 cs out st2 s2 : p_step st c s cd n st1 s1 -> p_runs st1 cs s1 out st2 s2 -> p_runs st (c :: cs) s ((cd, n) :: out) st2 s2.
End Spec.
