(** Specification of the iterator of ShardDBM: a place in the one ordered list of all the records. *)
From Coq Require Import List NArith Bool Arith.
Import ListNotations.
From Verif Require Import Bytes DbmModel StatusModel OmapSpec ShardModel.

Section Spec.
  Variable cmp : bytes -> bytes -> comparison.
  Variable T : Type.
  (** All the records; the key of the record at the iterator; whether Get gives the value the record has (otherwise one it had before). *)
  Record git := mkG { g_recs : omap; g_cur : option bytes; g_fresh : bool }.
  Definition key_of (r : option (bytes * bytes)) : option bytes := option_map fst r.
  Definition going (g : git) (c : option bytes) : git := mkG (g_recs g) c true.
  (** What each call returns and does. *)
  Inductive git_step : scall T -> git -> sres T -> git -> Prop :=
  | gs_first g : git_step (SFirst T) g (UCode T SUCCESS) (going g (key_of (hd_error (g_recs g))))
  | gs_last g : git_step (SLast T) g (UCode T SUCCESS) (going g (key_of (o_last (g_recs g))))
  | gs_jump g k : git_step (SJump T k) g (UCode T SUCCESS) (going g (key_of (o_ge cmp k (g_recs g))))
  | gs_lower g k b : git_step (SLower T k b) g (UCode T SUCCESS) (going g (key_of (if b then o_le cmp k (g_recs g) else o_lt cmp k (g_recs g))))
  | gs_upper g k b : git_step (SUpper T k b) g (UCode T SUCCESS) (going g (key_of (if b then o_ge cmp k (g_recs g) else o_gt cmp k (g_recs g))))
  | gs_next g k : g_cur g = Some k -> git_step (SNext T) g (UCode T SUCCESS) (going g (key_of (o_gt cmp k (g_recs g))))
  | gs_prev g k : g_cur g = Some k -> git_step (SPrev T) g (UCode T SUCCESS) (going g (key_of (o_lt cmp k (g_recs g))))
  | gs_get g k v v1 : g_cur g = Some k -> o_find cmp k (g_recs g) = Some (k, v) -> (g_fresh g = true -> v1 = v) -> git_step (SGet T) g (UGet T SUCCESS (k, v1)) g
  | gs_set g k v : g_cur g = Some k -> git_step (SSet T v) g (UCode T SUCCESS) (mkG (o_put cmp k v (g_recs g)) (Some k) true)
  | gs_remove g k : g_cur g = Some k -> git_step (SRemove T) g (UCode T SUCCESS) (mkG (o_del cmp k (g_recs g)) (key_of (o_gt cmp k (g_recs g))) true)
  | gs_process g k v p w s a s' : g_cur g = Some k -> o_find cmp k (g_recs g) = Some (k, v) -> on_full p k v s = (a, s') ->
      git_step (SProcess T p w s) g (UProc T SUCCESS s')
        (match w, a with
         | false, _ | _, ANoop => g
         | true, ASet v' => mkG (o_put cmp k v' (g_recs g)) (Some k) false
         | true, ARemove => mkG (o_del cmp k (g_recs g)) (key_of (o_gt cmp k (g_recs g))) true
         end)
  | gs_none g c : g_cur g = None -> match c with SNext _ | SPrev _ | SSet _ _ | SRemove _ => True | _ => False end -> git_step c g (UCode T NOT_FOUND_ERROR) g
  | gs_none_get g : g_cur g = None -> git_step (SGet T) g (UGet T NOT_FOUND_ERROR ([], [])) g
  | gs_none_process g p w s : g_cur g = None -> git_step (SProcess T p w s) g (UProc T NOT_FOUND_ERROR s) g.
  Inductive git_runs : list (scall T) -> git -> list (sres T) -> git -> Prop :=
  | gr_nil g : git_runs [] g [] g
  | gr_cons c cs g r g1 rs g2 : git_step c g r g1 -> git_runs cs g1 rs g2 -> git_runs (c :: cs) g (r :: rs) g2.
  (** Records are removed through the iterator only after an ascending move.  The flag: whether the last move was one. *)
  Definition heading (up : bool) (c : scall T) : bool :=
    match c with
    | SFirst _ | SJump _ _ | SUpper _ _ _ | SNext _ => true
    | SLast _ | SLower _ _ _ | SPrev _ => false
    | _ => up
    end.
  Definition allowed1 (up : bool) (c : scall T) : Prop :=
    match c with
    | SRemove _ => up = true
    | SProcess _ p w _ => up = true \/ w = false \/ forall k v s, fst (on_full p k v s) <> ARemove
    | _ => True
    end.
  Fixpoint allowed (up : bool) (cs : list (scall T)) : Prop :=
    match cs with [] => True | c :: r => allowed1 up c /\ allowed (heading up c) r end.
End Spec.
