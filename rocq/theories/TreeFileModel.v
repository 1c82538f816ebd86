(** The nodes of a TreeDBM in its HashDBM: the cache of TreePageModel.v over the file of HashDbModel.v instead of a map of pages.
    Source: /repo/tkrzw_dbm_tree.cc:1285-1390, 1440-1532; the keys of the pages are their ids in six bytes (e.g. 1297-1299). *)
From Coq Require Import List NArith Bool.
Import ListNotations.
From Verif Require Import Bytes CodecModel MapSpec HashDbModel TreePageModel.
Open Scope N_scope.

(** WriteFixNum of PAGE_ID_WIDTH bytes, tkrzw_dbm_tree.cc:1297-1299, 1360-1362, 1381-1383, 1452-1454, 1504-1506, 1523-1525. *)
Definition page_key (x : N) : bytes := write_fix 6 x.
Arguments page_key : simpl never.
(** The calls on hash_dbm_: Process of a loader, not writable (tkrzw_dbm_tree.cc:1325, 1472); Set without old_value (1363, 1507), which does not
    ask for the value (HashDBM::Set, tkrzw_dbm_hash.cc:2437-2446); Remove (1384, 1526; tkrzw_dbm_hash.cc:2448-2456). *)
Definition load_hop (x : N) : hop := mkhop (page_key x) (fun _ => ANoop) true false.
Definition set_hop (x : N) (l : bytes) : hop := mkhop (page_key x) (fun _ => ASet l) false true.
Definition del_hop (x : N) : hop := mkhop (page_key x) (fun v => match v with Some _ => ARemove | None => ANoop end) false true.

(** The nodes in the caches, and the hash database. *)
Record fstate := mkF { f_cache : N -> option centry; f_db : hst }.
(** One call on the hash database: what its processor saw, and the database after; PBroken if it failed. *)
Definition f_call (d : hdb) (s : hst) (o : hop) : pres (option bytes * hst) :=
  let r := h_process d s (o_key o) (o_proc o) (o_readable o) (o_writable o) in
  match h_status r, h_seen r with HOk, Some v => POk (v, h_st r) | _, _ => PBroken end.

(** LoadLeafNode, LoadInnerNode, tkrzw_dbm_tree.cc:1285-1337, 1440-1484. *)
Definition f_load (d : hdb) (x : N) (s : fstate) : pres (pnode * fstate) :=
  match f_cache s x with
  | Some e => POk (e_node e, s)
  | None => pbind (f_call d (f_db s) (load_hop x)) (fun '(v, s1) =>
      match v with
      | None => PBroken
      | Some l => pbind (load_node x l) (fun n => POk (n, mkF (upd (f_cache s) x (Some (mkE n false true))) s1))
      end)
  end.
(** SaveLeafNode, SaveInnerNode, tkrzw_dbm_tree.cc:1339-1375, 1486-1517. *)
Definition f_save (d : hdb) (x : N) (s : fstate) : pres fstate :=
  match f_cache s x with
  | None => POk s
  | Some e => if e_dirty e then
                pbind (save_node (e_node e)) (fun l => pbind (f_call d (f_db s) (set_hop x l)) (fun '(_, s1) =>
                  POk (mkF (upd (f_cache s) x (Some (mkE (e_node e) false true))) s1)))
              else POk s
  end.
(** A node leaves the cache and is saved: tkrzw_dbm_tree.cc:2077-2124, 1400-1429, 1542-1571. *)
Definition f_evict (d : hdb) (x : N) (s : fstate) : pres fstate :=
  pbind (f_save d x s) (fun s' => POk (mkF (upd (f_cache s') x None) (f_db s'))).
(** A node is changed by one who holds it, and marked. *)
Definition f_write (x : N) (n : pnode) (s : fstate) : pres fstate :=
  match f_cache s x with None => PUb | Some e => POk (mkF (upd (f_cache s) x (Some (mkE n true (e_disk e)))) (f_db s)) end.
(** A new node, tkrzw_dbm_tree.cc:241-245, 264-268. *)
Definition f_new (x : N) (n : pnode) (s : fstate) : pres fstate := POk (mkF (upd (f_cache s) x (Some (mkE n true false))) (f_db s)).
(** RemoveLeafNode, RemoveInnerNode, tkrzw_dbm_tree.cc:1377-1390, 1519-1532: the page is removed if it has been saved.
    Simplified: that the page is missing (NOT_FOUND_ERROR) is PBroken. *)
Definition f_remove (d : hdb) (x : N) (s : fstate) : pres fstate :=
  match f_cache s x with
  | None => PUb
  | Some e =>
      if e_disk e then pbind (f_call d (f_db s) (del_hop x)) (fun '(v, s1) =>
        match v with None => PBroken | Some _ => POk (mkF (upd (f_cache s) x None) s1) end)
      else POk (mkF (upd (f_cache s) x None) (f_db s))
  end.
(** The operations of TreePageModel.v on such a state. *)
Definition f_step (d : hdb) (o : cop) (s : fstate) : pres (option pnode * fstate) :=
  match o with
  | CLoad x => pbind (f_load d x s) (fun '(n, s') => POk (Some n, s'))
  | CSave x => pbind (f_save d x s) (fun s' => POk (None, s'))
  | CEvict x => pbind (f_evict d x s) (fun s' => POk (None, s'))
  | CWrite x n => pbind (f_load d x s) (fun '(_, s1) => pbind (f_write x n s1) (fun s' => POk (None, s')))
  | CNew x n => pbind (f_new x n s) (fun s' => POk (None, s'))
  | CRemove x => pbind (f_load d x s) (fun '(_, s1) => pbind (f_remove d x s1) (fun s' => POk (None, s')))
  end.
Fixpoint f_run (d : hdb) (os : list cop) (s : fstate) : pres (list (option pnode) * fstate) :=
  match os with
  | [] => POk ([], s)
  | o :: r => pbind (f_step d o s) (fun '(a, s1) => pbind (f_run d r s1) (fun '(l, s2) => POk (a :: l, s2)))
  end.
(** A new database: no nodes, an empty file. *)
Definition f_init (d : hdb) (cap : N) : fstate := mkF (fun _ => None) (h_init d cap).

(** The calls on the hash database that an operation makes, and those of a run, given what is in the cache. *)
Definition load_calls (x : N) (s : cstate) : list hop := match c_cache s x with Some _ => [] | None => [load_hop x] end.
Definition step_calls (o : cop) (s : cstate) : list hop :=
  match o with
  | CLoad x | CWrite x _ => load_calls x s
  | CSave x | CEvict x =>
      match c_cache s x with
      | Some e => if e_dirty e then match save_node (e_node e) with POk l => [set_hop x l] | _ => [] end else []
      | None => []
      end
  | CNew _ _ => []
  | CRemove x => load_calls x s ++ match c_cache s x with Some e => if e_disk e then [del_hop x] else [] | None => [del_hop x] end
  end.
Fixpoint run_calls (os : list cop) (s : cstate) : list hop :=
  match os with
  | [] => []
  | o :: r => step_calls o s ++ match c_step o s with POk (_, s1) => run_calls r s1 | _ => [] end
  end.
