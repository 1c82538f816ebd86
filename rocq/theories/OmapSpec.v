(** Specification: an ordered map as the list of its records in ascending order of keys.
    Keys are compared by a three-way comparator; two keys that compare equal are the same key, and the one
    stored first is kept.  Independent of any data structure. *)
From Coq Require Import List NArith Bool Lia Sorting.Sorted.
Import ListNotations.
From Verif Require Import Bytes DbmModel.

Definition omap := list (bytes * bytes).
Section Omap.
  Variable cmp : bytes -> bytes -> comparison.
  Definition ascending (l : omap) : Prop := StronglySorted (fun a b : bytes * bytes => cmp (fst a) (fst b) = Lt) l.
  Fixpoint o_find (k : bytes) (l : omap) : option (bytes * bytes) :=
    match l with [] => None | (k1, v) :: r => match cmp k k1 with Eq => Some (k1, v) | _ => o_find k r end end.
  Fixpoint o_put (k v : bytes) (l : omap) : omap :=
    match l with
    | [] => [(k, v)]
    | (k1, v1) :: r => match cmp k k1 with Lt => (k, v) :: l | Eq => (k1, v) :: r | Gt => (k1, v1) :: o_put k v r end
    end.
  Fixpoint o_del (k : bytes) (l : omap) : omap :=
    match l with [] => [] | (k1, v) :: r => match cmp k k1 with Eq => r | _ => (k1, v) :: o_del k r end end.
  Definition o_act (l : omap) (k : bytes) (a : action) : omap :=
    match a with ANoop => l | ARemove => o_del k l | ASet v => o_put k v l end.
  (** Process: the processor sees the record, or that there is none, and says what to do. *)
  Definition o_call {S} (l : omap) (k : bytes) (p : proc S) (s : S) : action * S :=
    match o_find k l with Some (k1, v) => on_full p k1 v s | None => on_empty p k s end.
  Definition o_process {S} (l : omap) (k : bytes) (p : proc S) (w : bool) (s : S) : omap * S :=
    let '(a, s') := o_call l k p s in
    (if w then match a, o_find k l with ARemove, None => l | _, _ => o_act l k a end else l, s').
  Fixpoint o_multi {S} (l : omap) (kps : list (bytes * proc S)) (w : bool) (s : S) : omap * S :=
    match kps with [] => (l, s) | (k, p) :: r => let '(l', s') := o_process l k p w s in o_multi l' r w s' end.
  (** All the records, in order; the one call of the processor for each. *)
  Fixpoint o_each {S} (l : omap) (p : proc S) (w : bool) (s : S) : omap * S :=
    match l with
    | [] => ([], s)
    | (k, v) :: r =>
        let '(a, s1) := on_full p k v s in
        let '(r', s2) := o_each r p w s1 in
        (if w then match a with ANoop => (k, v) :: r' | ARemove => r' | ASet v1 => (k, v1) :: r' end else (k, v) :: r', s2)
    end.
  (** The nearest records. *)
  Definition less (a b : bytes) : bool := match cmp a b with Lt => true | _ => false end.
  Definition o_ge (k : bytes) (l : omap) : option (bytes * bytes) := find (fun r => negb (less (fst r) k)) l.
  Definition o_gt (k : bytes) (l : omap) : option (bytes * bytes) := find (fun r => less k (fst r)) l.
  Definition o_le (k : bytes) (l : omap) : option (bytes * bytes) := find (fun r => negb (less k (fst r))) (rev l).
  Definition o_lt (k : bytes) (l : omap) : option (bytes * bytes) := find (fun r => less (fst r) k) (rev l).
  Definition o_last (l : omap) : option (bytes * bytes) := hd_error (rev l).

  Hypothesis cmp_opp : forall a b, cmp b a = CompOpp (cmp a b).
  Lemma o_find_app : forall P k L, Forall (fun r => cmp (fst r) k = Lt) P -> o_find k (P ++ L) = o_find k L.
  Proof. intros P k L H. induction H as [|[k1 v] P H1 H IH]; cbn; auto. cbn in H1. rewrite cmp_opp, H1. cbn. exact IH. Qed.
  Lemma o_put_app : forall P k v L, Forall (fun r => cmp (fst r) k = Lt) P -> o_put k v (P ++ L) = P ++ o_put k v L.
  Proof. intros P k v L H. induction H as [|[k1 v1] P H1 H IH]; cbn; auto. cbn in H1. rewrite cmp_opp, H1. cbn. now rewrite IH. Qed.
  Lemma o_del_app : forall P k L, Forall (fun r => cmp (fst r) k = Lt) P -> o_del k (P ++ L) = P ++ o_del k L.
  Proof. intros P k L H. induction H as [|[k1 v1] P H1 H IH]; cbn; auto. cbn in H1. rewrite cmp_opp, H1. cbn. now rewrite IH. Qed.
  Lemma o_find_none : forall k L, Forall (fun r => cmp k (fst r) = Lt) L -> o_find k L = None.
  Proof. intros k L H. induction H as [|[k1 v1] L H1 H IH]; cbn; auto. cbn in H1. now rewrite H1. Qed.
  Lemma o_put_none : forall k v L, Forall (fun r => cmp k (fst r) = Lt) L -> o_put k v L = (k, v) :: L.
  Proof. intros k v L H. destruct H as [|[k1 v1] L H1 H]; cbn; auto. cbn in H1. now rewrite H1. Qed.
  Lemma o_del_none : forall k L, Forall (fun r => cmp k (fst r) = Lt) L -> o_del k L = L.
  Proof. intros k L H. induction H as [|[k1 v1] L H1 H IH]; cbn; auto. cbn in H1. rewrite H1. now rewrite IH. Qed.
End Omap.
