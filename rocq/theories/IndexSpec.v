(** Specification: an index is a set of pairs of a key and a value, kept in order, and iterators standing at pairs.
    Independent of how the pairs are stored. *)
From Coq Require Import List Bool Arith Sorting.Sorted.
Import ListNotations.
From Verif Require Import StatusModel IndexModel.

Section IndexSpec.
  Variables (K V : Type) (plt : K * V -> K * V -> Prop).
  (** The least, or the greatest, pair of the index with a property, or none if no pair has it. *)
  Definition least (P : K * V -> Prop) (M : list (K * V)) (r : option (K * V)) : Prop :=
    match r with
    | None => forall q, In q M -> ~ P q
    | Some p => In p M /\ P p /\ forall q, In q M -> P q -> q = p \/ plt p q
    end.
  Definition greatest (P : K * V -> Prop) (M : list (K * V)) (r : option (K * V)) : Prop :=
    match r with
    | None => forall q, In q M -> ~ P q
    | Some p => In p M /\ P p /\ forall q, In q M -> P q -> q = p \/ plt q p
    end.
  (** The pairs, in ascending order, and where the iterators stand. *)
  Record ist := mkI { i_pairs : list (K * V); i_pos : nat -> option (K * V) }.
  Definition sorted (s : ist) : Prop := StronglySorted plt (i_pairs s).
  Definition members (s' : ist) (P : K * V -> Prop) : Prop := forall p, In p (i_pairs s') <-> P p.
  Definition unmoved (s s' : ist) : Prop := forall j, i_pos s' j = i_pos s j.
  Definition unchanged (s s' : ist) : Prop := i_pairs s' = i_pairs s /\ unmoved s s'.
  Definition goes (s s' : ist) (j : nat) (P : option (K * V) -> Prop) : Prop :=
    i_pairs s' = i_pairs s /\ P (i_pos s' j) /\ forall i, i <> j -> i_pos s' i = i_pos s i.
  (** The values listed for a key: those satisfying [keep], ascending, each once; at most [max] of them if [max] is not 0. *)
  Definition listed (M : list (K * V)) (k : K) (keep : V -> Prop) (max : nat) (l : list V) : Prop :=
    exists full, StronglySorted (fun a b => plt (k, a) (k, b)) full /\ (forall v, In v full <-> In (k, v) M /\ keep v) /\
      l = match max with 0 => full | _ => firstn max full end.

  (** What a call to an index over an ordered database may return and do.  An iterator there remembers a pair, be it present or not. *)
  Definition db_spec (c : icall K V) (s : ist) (r : ires K V) (s' : ist) : Prop :=
    sorted s' /\
    match c with
    | IAdd k v => r = RCode SUCCESS /\ members s' (fun p => p = (k, v) \/ In p (i_pairs s)) /\ unmoved s s'
    | IRemove k v => (In (k, v) (i_pairs s) /\ r = RCode SUCCESS \/ ~ In (k, v) (i_pairs s) /\ r = RCode NOT_FOUND_ERROR) /\
        members s' (fun p => In p (i_pairs s) /\ p <> (k, v)) /\ unmoved s s'
    | ICheck k v => (exists b, r = RBool b /\ (b = true <-> In (k, v) (i_pairs s))) /\ unchanged s s'
    | IValues k max => (exists l, r = RVals l /\ listed (i_pairs s) k (fun _ => True) max l) /\ unchanged s s'
    | ICount => r = RNum (length (i_pairs s)) /\ unchanged s s'
    | IClear => r = RCode SUCCESS /\ i_pairs s' = [] /\ forall j, i_pos s' j = None
    | IFirst j => r = RVoid /\ goes s s' j (least (fun _ => True) (i_pairs s))
    | ILast j => r = RVoid /\ goes s s' j (greatest (fun _ => True) (i_pairs s))
    | IJump j k v => r = RVoid /\ goes s s' j (eq (Some (k, v)))
    | INext j => r = RVoid /\
        match i_pos s j with None => unchanged s s' | Some p => goes s s' j (least (plt p) (i_pairs s)) end
    (** Previous from a pair which is not present: some pair before it, or none. *)
    | IPrev j => r = RVoid /\
        match i_pos s j with
        | None => unchanged s s'
        | Some p => goes s s' j (fun q => (In p (i_pairs s) -> greatest (fun x => plt x p) (i_pairs s) q) /\
                                          forall x, q = Some x -> In x (i_pairs s) /\ plt x p)
        end
    | IGet j =>
        match i_pos s j with
        | None => r = RRec None /\ unchanged s s'
        | Some p => exists q, r = RRec q /\ least (fun x => ~ plt x p) (i_pairs s) q /\ goes s s' j (eq q)
        end
    end.

  (** What a call to an index over a std::set returns and does.  An iterator there stands at a pair which is present, or at the end;
      it moves to the next pair when its pair is removed. *)
  Definition std_spec (dflt : V) (c : icall K V) (s : ist) (r : ires K V) (s' : ist) : Prop :=
    sorted s' /\ (forall j p, i_pos s' j = Some p -> In p (i_pairs s')) /\
    match c with
    | IAdd k v => r = RVoid /\ members s' (fun p => p = (k, v) \/ In p (i_pairs s)) /\ unmoved s s'
    | IRemove k v => r = RVoid /\ members s' (fun p => In p (i_pairs s) /\ p <> (k, v)) /\
        forall j, (i_pos s j = Some (k, v) -> least (plt (k, v)) (i_pairs s) (i_pos s' j)) /\ (i_pos s j <> Some (k, v) -> i_pos s' j = i_pos s j)
    | ICheck k v => (exists b, r = RBool b /\ (b = true <-> In (k, v) (i_pairs s))) /\ unchanged s s'
    (** Values before VALUETYPE() in the order are not listed. *)
    | IValues k max => (exists l, r = RVals l /\ listed (i_pairs s) k (fun v => ~ plt (k, v) (k, dflt)) max l) /\ unchanged s s'
    | ICount => r = RNum (length (i_pairs s)) /\ unchanged s s'
    | IClear => r = RVoid /\ i_pairs s' = [] /\ forall j, i_pos s' j = None
    | IFirst j => r = RVoid /\ goes s s' j (least (fun _ => True) (i_pairs s))
    | ILast j => r = RVoid /\ goes s s' j (greatest (fun _ => True) (i_pairs s))
    | IJump j k v => r = RVoid /\ goes s s' j (least (fun x => ~ plt x (k, v)) (i_pairs s))
    | INext j => r = RVoid /\
        match i_pos s j with None => unchanged s s' | Some p => goes s s' j (least (plt p) (i_pairs s)) end
    | IPrev j => r = RVoid /\
        match i_pos s j with
        | None => goes s s' j (greatest (fun _ => True) (i_pairs s))
        | Some p => goes s s' j (greatest (fun x => plt x p) (i_pairs s))
        end
    | IGet j => r = RRec (i_pos s j) /\ unchanged s s'
    end.
  Section Runs.
    Variable step : icall K V -> ist -> ires K V -> ist -> Prop.
    Inductive spec_runs : list (icall K V) -> ist -> list (ires K V) -> ist -> Prop :=
    | sr_nil s : spec_runs [] s [] s
    | sr_cons c cs s r s1 rs s2 : step c s r s1 -> spec_runs cs s1 rs s2 -> spec_runs (c :: cs) s (r :: rs) s2.
  End Runs.
  Definition i_new : ist := mkI [] (fun _ => None).

  (** A pair is present after a history when its last Add is after its last Remove and after the last Clear. *)
  Definition present (h : list (icall K V)) (p : K * V) : Prop :=
    exists a b, h = a ++ IAdd (fst p) (snd p) :: b /\ ~ In (IRemove (fst p) (snd p)) b /\ ~ In IClear b.
End IndexSpec.
Arguments mkI {K V}. Arguments i_pairs {K V}. Arguments i_pos {K V}. Arguments i_new {K V}.
Arguments least {K V}. Arguments greatest {K V}. Arguments db_spec {K V}. Arguments std_spec {K V}. Arguments spec_runs {K V}.
Arguments listed {K V}. Arguments present {K V}. Arguments goes {K V}. Arguments unchanged {K V}. Arguments unmoved {K V}. Arguments members {K V}. Arguments sorted {K V}.
