(** Specification: an ordered map that several threads call.  Calls on given keys take effect at one moment each; ProcessFirst and
    ProcessEach go through the keys range by range, upwards, and each range is handled at one moment.  Uses only the ordered map of
    OmapSpec.v and the names of the calls; there are no leaves and no locks. *)
From Coq Require Import List NArith ZArith Bool.
Import ListNotations.
From Verif Require Import Bytes DbmModel OmapSpec BabyConcModel.

Section Spec.
  Variable cmp : bytes -> bytes -> comparison.
  Context {S : Type}.
  Notation ccall := (ccall S). Notation loc := (loc S).

  (** A processor that never asks for a change. *)
  Definition reader (p : proc S) : Prop := forall k v s, fst (on_full p k v s) = ANoop.
  (** ProcessFirst without "writable" is called with such a processor. *)
  Definition honest (c : ccall) : Prop := match c with KFirst p w _ => w = false -> reader p | _ => True end.

  (** The keys from [lo] on and below [hi]; None is no bound. *)
  Definition from (lo : option bytes) (k : bytes) : Prop := match lo with Some a => cmp k a <> Lt | None => True end.
  Definition below (hi : option bytes) (k : bytes) : Prop := match hi with Some b => cmp k b = Lt | None => True end.
  (** [M] is what the map has in that range. *)
  Definition range (L : omap) (lo hi : option bytes) (L1 M L2 : omap) : Prop :=
    L = L1 ++ M ++ L2 /\ Forall (fun r => ~ from lo (fst r)) L1 /\ Forall (fun r => from lo (fst r) /\ below hi (fst r)) M /\ Forall (fun r => ~ below hi (fst r)) L2.

  Inductive thr := TIdle | TCalled (c : ccall) | TWalk (c : ccall) (lo : option bytes) (x : loc) | TDone (c : ccall) (x : loc).
  Record lsys := mkL { l_recs : omap; l_th : nat -> thr }.
  Definition tupd (f : nat -> thr) (t : nat) (x : thr) : nat -> thr := fun u => if Nat.eqb u t then x else f u.
  (** A call which may change several records and has begun to. *)
  Definition several (c : ccall) : bool := match c with KMulti _ w _ => w | KEach _ w _ _ => w | _ => false end.
  Definition busy (x : thr) : bool := match x with TWalk c _ _ | TDone c _ => several c | _ => false end.

  Inductive lstep (a : lsys) : ev S -> lsys -> Prop :=
  | ls_call t c : l_th a t = TIdle -> lstep a (ECall t c) (mkL (l_recs a) (tupd (l_th a) t (TCalled c)))
  | ls_process t k p w s L' s' : l_th a t = TCalled (KProcess k p w s) -> o_process cmp (l_recs a) k p w s = (L', s') ->
      lstep a ETau (mkL L' (tupd (l_th a) t (TDone (KProcess k p w s) (mkLoc s' 0 false))))
  | ls_append t k v d s : l_th a t = TCalled (KAppend k v d s) ->
      lstep a ETau (mkL (match o_find cmp k (l_recs a) with Some (_, old) => o_put cmp k (old ++ d ++ v) (l_recs a) | None => o_put cmp k v (l_recs a) end)
                        (tupd (l_th a) t (TDone (KAppend k v d s) (mkLoc s 0 false))))
  | ls_multi t l w s L' s' : l_th a t = TCalled (KMulti l w s) -> o_multi cmp (l_recs a) l w s = (L', s') ->
      lstep a ETau (mkL L' (tupd (l_th a) t (TDone (KMulti l w s) (mkLoc s' 0 false))))
  | ls_begin_first t p w s : l_th a t = TCalled (KFirst p w s) -> lstep a ETau (mkL (l_recs a) (tupd (l_th a) t (TWalk (KFirst p w s) None (mkLoc s 0 false))))
  | ls_begin_each t p w noop s : l_th a t = TCalled (KEach p w noop s) ->
      lstep a ETau (mkL (l_recs a) (tupd (l_th a) t (TWalk (KEach p w noop s) None (mkLoc (snd (on_empty p noop s)) 0 false))))
  (** ProcessFirst: a range without a record; the end; the first record of a range. *)
  | ls_first_on t p w s lo b x L1 L2 : l_th a t = TWalk (KFirst p w s) lo x -> from lo b -> range (l_recs a) lo (Some b) L1 [] L2 ->
      lstep a ETau (mkL (l_recs a) (tupd (l_th a) t (TWalk (KFirst p w s) (Some b) x)))
  | ls_first_none t p w s lo x L1 L2 : l_th a t = TWalk (KFirst p w s) lo x -> range (l_recs a) lo None L1 [] L2 ->
      lstep a ETau (mkL (l_recs a) (tupd (l_th a) t (TDone (KFirst p w s) x)))
  | ls_first t p w s lo hi x L1 k v M L2 L' s' : l_th a t = TWalk (KFirst p w s) lo x -> range (l_recs a) lo hi L1 ((k, v) :: M) L2 ->
      o_process cmp (l_recs a) k p w (x_s x) = (L', s') -> lstep a ETau (mkL L' (tupd (l_th a) t (TDone (KFirst p w s) (mkLoc s' 0 true))))
  (** ProcessEach: all records of a range; of the last range. *)
  | ls_each t p w noop s lo b x L1 M L2 M' s' : l_th a t = TWalk (KEach p w noop s) lo x -> from lo b -> range (l_recs a) lo (Some b) L1 M L2 ->
      o_each M p w (x_s x) = (M', s') -> lstep a ETau (mkL (L1 ++ M' ++ L2) (tupd (l_th a) t (TWalk (KEach p w noop s) (Some b) (mkLoc s' 0 false))))
  | ls_each_end t p w noop s lo x L1 M M' s' : l_th a t = TWalk (KEach p w noop s) lo x -> range (l_recs a) lo None L1 M [] ->
      o_each M p w (x_s x) = (M', s') -> lstep a ETau (mkL (L1 ++ M') (tupd (l_th a) t (TDone (KEach p w noop s) (mkLoc (snd (on_empty p noop s')) 0 false))))
  (** Count: exact unless another call is changing several records. *)
  | ls_count t s m : l_th a t = TCalled (KCount s) -> ((forall u, busy (l_th a u) = false) -> m = Z.of_nat (length (l_recs a))) ->
      lstep a ETau (mkL (l_recs a) (tupd (l_th a) t (TDone (KCount s) (mkLoc s m false))))
  (** Clear: not in the middle of a ProcessFirst or ProcessEach. *)
  | ls_clear t s : l_th a t = TCalled (KClear s) -> (forall u c lo x, l_th a u <> TWalk c lo x) ->
      lstep a ETau (mkL [] (tupd (l_th a) t (TDone (KClear s) (mkLoc s 0 false))))
  | ls_ret t c x : l_th a t = TDone c x -> lstep a (ERet t x) (mkL (l_recs a) (tupd (l_th a) t TIdle)).
  Inductive lrun : lsys -> list (ev S) -> lsys -> Prop :=
  | lrun_nil a : lrun a [] a
  | lrun_tau a a1 tr a2 : lrun a tr a1 -> lstep a1 ETau a2 -> lrun a tr a2
  | lrun_ev a a1 tr e a2 : lrun a tr a1 -> e <> ETau -> lstep a1 e a2 -> lrun a (tr ++ [e]) a2.
  Definition l_init : lsys := mkL [] (fun _ => TIdle).
End Spec.
