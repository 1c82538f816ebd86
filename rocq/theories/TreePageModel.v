(** The pages and the metadata of TreeDBM, and the cache of pages.

    Source: /repo/tkrzw_dbm_tree.cc.  The underlying HashDBM is taken as a finite map (C03, C04 and C46 are about that). *)
From Coq Require Import List NArith ZArith Bool Lia Arith.
Import ListNotations.
From Verif Require Import Bytes CodecModel StatusModel.
Open Scope N_scope.

(** What reading bytes gives: a value, BROKEN_DATA_ERROR, or a read outside of the buffer. *)
Inductive pres (A : Type) := POk (a : A) | PBroken | PUb.
Arguments POk {A}. Arguments PBroken {A}. Arguments PUb {A}.
Definition pbind {A B} (x : pres A) (f : A -> pres B) : pres B := match x with POk a => f a | PBroken => PBroken | PUb => PUb end.

(** TreeLeafNode and TreeInnerNode without their flags, tkrzw_dbm_tree.cc:59-86; 0 is no leaf. *)
Inductive pnode := PLeaf (prev next : N) (rs : list (bytes * bytes)) | PInner (heir : N) (links : list (bytes * N)).

(** TreeRecord::GetSerializedSize and TreeLink::GetSerializedSize, tkrzw_dbm_tree_impl.cc:32-34, 97-99. *)
Definition tr_size (r : bytes * bytes) : N := size_var (blen (fst r)) + blen (fst r) + size_var (blen (snd r)) + blen (snd r).
Definition tl_size (l : bytes * N) : N := size_var (blen (fst l)) + blen (fst l) + 6.

(** The bytes written for one record and one link, tkrzw_dbm_tree.cc:1355-1364, 1499-1506. *)
Definition ser_rec (r : bytes * bytes) : bytes := write_var (blen (fst r)) ++ fst r ++ write_var (blen (snd r)) ++ snd r.
Definition ser_link (l : bytes * N) : bytes := write_var (blen (fst l)) ++ fst l ++ write_fix 6 (snd l).
(** The buffer that SaveLeafNodeImpl fills, tkrzw_dbm_tree.cc:1347-1364, and the part of it that is stored, 1368: as many bytes as [size],
    the running page_size of the node.  Writing beyond the buffer (16384 bytes, or page_size if more) and storing bytes
    that were not written are undefined. *)
Definition ser_leaf (prev next : N) (rs : list (bytes * bytes)) : bytes := write_fix 6 prev ++ write_fix 6 next ++ concat (map ser_rec rs).
Definition save_leaf (size : Z) (prev next : N) (rs : list (bytes * bytes)) : pres bytes :=
  let b := ser_leaf prev next rs in
  let room := if (size >? 16384)%Z then size else 16384%Z in
  if ((room <? Z.of_N (blen b)) || (Z.of_N (blen b) <? size) || (size <? 0))%Z then PUb else POk (firstn (Z.to_nat size) b).
(** SaveInnerNode, tkrzw_dbm_tree.cc:1486-1517, where the size is computed at once. *)
Definition ser_inner (heir : N) (links : list (bytes * N)) : bytes := write_fix 6 heir ++ concat (map ser_link links).
Definition inner_size (links : list (bytes * N)) : N := fold_left (fun n l => n + tl_size l) links 6.
Definition save_inner (heir : N) (links : list (bytes * N)) : pres bytes :=
  let b := ser_inner heir links in
  let size := inner_size links in
  let room := if 16384 <? size then size else 16384 in
  if (room <? blen b) || (blen b <? size) then PUb else POk (firstn (N.to_nat size) b).

(** static_cast<int32_t> of a uint64_t. *)
Definition i32 (n : N) : Z := let m := n mod 2^32 in if m <? 2^31 then Z.of_N m else (Z.of_N m - 2^32)%Z.
(** "record_size < static_cast<int32_t>(size)" is an error, else [size] bytes are taken, if they are there: tkrzw_dbm_tree.cc:309-314, 322-327, 351-356.
    Simplified: record_size is the number of the bytes left, so pages of 2^31 bytes and more are not modelled. *)
Definition take (size : N) (l : bytes) : pres (bytes * bytes) :=
  if (Z.of_N (blen l) <? i32 size)%Z then PBroken else if blen l <? size then PUb else POk (firstn (N.to_nat size) l, skipn (N.to_nat size) l).
(** ReadVarNum with a step below one, tkrzw_dbm_tree.cc:302-306. *)
Definition take_var (l : bytes) : pres (N * bytes) := match get_var l with Some x => POk x | None => PBroken end.
(** The loop of DeserializeLeafNode, tkrzw_dbm_tree.cc:301-329; each turn consumes a byte. *)
Fixpoint des_recs (fuel : nat) (l : bytes) : pres (list (bytes * bytes)) :=
  match fuel, l with
  | _, [] => POk []
  | O, _ => PBroken
  | S f, _ =>
      pbind (take_var l) (fun '(ks, l1) => pbind (take ks l1) (fun '(k, l2) =>
      pbind (take_var l2) (fun '(vs, l3) => pbind (take vs l3) (fun '(v, l4) =>
      pbind (des_recs f l4) (fun rs => POk ((k, v) :: rs))))))
  end.
(** DeserializeLeafNode, tkrzw_dbm_tree.cc:287-331. *)
Definition des_leaf (l : bytes) : pres (N * N * list (bytes * bytes)) :=
  if blen l <? 12 then PBroken
  else pbind (des_recs (length l) (skipn 12 l)) (fun rs => POk (read_fix 6 l, read_fix 6 (skipn 6 l), rs)).
(** The loop of DeserializeInnerNode, tkrzw_dbm_tree.cc:343-368. *)
Fixpoint des_links (fuel : nat) (l : bytes) : pres (list (bytes * N)) :=
  match fuel, l with
  | _, [] => POk []
  | O, _ => PBroken
  | S f, _ =>
      pbind (take_var l) (fun '(ks, l1) => pbind (take ks l1) (fun '(k, l2) =>
      if blen l2 <? 6 then PBroken else
      pbind (des_links f (skipn 6 l2)) (fun ls => POk ((k, read_fix 6 l2) :: ls))))
  end.
(** DeserializeInnerNode, tkrzw_dbm_tree.cc:333-370. *)
Definition des_inner (l : bytes) : pres (N * list (bytes * N)) :=
  if blen l <? 6 then PBroken else pbind (des_links (length l) (skipn 6 l)) (fun ls => POk (read_fix 6 l, ls)).

(** INNER_NODE_ID_BASE, tkrzw_dbm_tree.cc:52. *)
Definition inner_base : N := 2^46 * 3.
Definition is_inner (x : N) : bool := inner_base <=? x.

(** * The running page_size of a leaf *)
(** Each change of a leaf with the change of page_size beside it: a record added (tkrzw_dbm_tree.cc:2064-2066), a value changed
    (2035-2039), a record erased (2027-2028). *)
Definition leaf_st := (Z * list (bytes * bytes))%type.
Definition ps_insert (i : nat) (r : bytes * bytes) (s : leaf_st) : leaf_st :=
  ((fst s + Z.of_N (tr_size r))%Z, firstn i (snd s) ++ r :: skipn i (snd s)).
Definition ps_modify (i : nat) (v : bytes) (s : leaf_st) : leaf_st :=
  match nth_error (snd s) i with
  | Some (k, old) => ((fst s + (Z.of_N (tr_size (k, v)) - Z.of_N (tr_size (k, old))))%Z, firstn i (snd s) ++ (k, v) :: skipn (S i) (snd s))
  | None => s
  end.
Definition ps_erase (i : nat) (s : leaf_st) : leaf_st :=
  match nth_error (snd s) i with
  | Some r => ((fst s - Z.of_N (tr_size r))%Z, firstn i (snd s) ++ skipn (S i) (snd s))
  | None => s
  end.
(** The loop of DivideNodes over the second half, tkrzw_dbm_tree.cc:1687-1698, 1710: both leaves. *)
Definition ps_divide (s : leaf_st) : leaf_st * leaf_st :=
  let m := Nat.div2 (length (snd s)) in
  let '(a, b) := fold_left (fun ab r => ((fst ab - Z.of_N (tr_size r))%Z, (snd ab + Z.of_N (tr_size r))%Z)) (skipn m (snd s)) (fst s, 12%Z) in
  ((a, firstn m (snd s)), (b, skipn m (snd s))).
(** MergeNodes into the leaf before or after, tkrzw_dbm_tree.cc:1812-1816, 1846-1851: "page_size += leaf_node->page_size - 12". *)
Definition ps_merge (a b : leaf_st) : leaf_st := ((fst a + (fst b - 12))%Z, snd a ++ snd b).
(** A leaf as it is made (tkrzw_dbm_tree.cc:241-245), loaded (1312), and changed. *)
Inductive leaf_made : leaf_st -> Prop :=
| lm_new : leaf_made (12%Z, [])
| lm_load : forall s p n l p' n' rs, leaf_made s -> save_leaf (fst s) p n (snd s) = POk l -> blen l < 2^31 -> des_leaf l = POk (p', n', rs) -> leaf_made (Z.of_N (blen l), rs)
| lm_insert : forall i r s, leaf_made s -> (i <= length (snd s))%nat -> leaf_made (ps_insert i r s)
| lm_modify : forall i v s, leaf_made s -> leaf_made (ps_modify i v s)
| lm_erase : forall i s, leaf_made s -> leaf_made (ps_erase i s)
| lm_div1 : forall s, leaf_made s -> leaf_made (fst (ps_divide s))
| lm_div2 : forall s, leaf_made s -> leaf_made (snd (ps_divide s))
| lm_merge : forall a b, leaf_made a -> leaf_made b -> leaf_made (ps_merge a b).

(** * Metadata *)
Record tmeta := mkTM { t_num : N; t_eff : N; t_root : N; t_first : N; t_last : N; t_leaves : N; t_inners : N;
                       t_page : N; t_branches : N; t_level : N; t_comp : N; t_mini : bytes }.
(** SaveMetadata, tkrzw_dbm_tree.cc:1143-1194, at the offsets of 35-46: the 64 opaque bytes.  The magic data has its terminating zero. *)
Definition save_meta (m : tmeta) : bytes :=
  [84; 68; 66; 0] ++ write_fix 6 (t_num m) ++ write_fix 6 (t_eff m) ++ write_fix 6 (t_root m) ++ write_fix 6 (t_first m) ++ write_fix 6 (t_last m)
  ++ write_fix 6 (t_leaves m) ++ write_fix 6 (t_inners m) ++ write_fix 3 (t_page m) ++ write_fix 3 (t_branches m) ++ write_fix 1 (t_level m) ++ write_fix 1 (t_comp m)
  ++ firstn 10 (t_mini m) ++ repeat 0 (10 - length (t_mini m)).
(** ParseMetadata, tkrzw_dbm_tree.cc:2748-2780.  The last id is read at META_OFFSET_FIRST_ID, as in 2770. *)
Definition parse_meta (l : bytes) : pres tmeta :=
  if negb (blen l =? 64) then PBroken
  else if negb (beqb (firstn 4 l) [84; 68; 66; 0]) then PBroken
  else POk (mkTM (read_fix 6 (skipn 4 l)) (read_fix 6 (skipn 10 l)) (read_fix 6 (skipn 16 l)) (read_fix 6 (skipn 22 l)) (read_fix 6 (skipn 22 l))
                 (read_fix 6 (skipn 34 l)) (read_fix 6 (skipn 40 l)) (read_fix 3 (skipn 46 l)) (read_fix 3 (skipn 49 l)) (read_fix 1 (skipn 52 l)) (read_fix 1 (skipn 53 l))
                 (firstn 10 (skipn 54 l))).
(** The codes of the comparators, tkrzw_dbm_tree.cc:1157-1187, 1247-1267; 255 is any other, which the caller has to give again. *)
Definition comp_known (c : N) : bool := ((1 <=? c) && (c <=? 7)) || ((101 <=? c) && (c <=? 107)).
(** LoadMetadata, tkrzw_dbm_tree.cc:1196-1274; [given]: a comparator was given.  Simplified: the numbers cannot be negative as they have six bytes at most. *)
Definition load_meta (given : bool) (l : bytes) : pres tmeta :=
  pbind (parse_meta l) (fun m =>
    if (t_leaves m <? 1) || (t_page m <? 1) || (t_branches m <? 2) || (t_level m <? 1) then PBroken
    else if comp_known (t_comp m) || ((t_comp m =? 255) && given) then POk m else PBroken).

(** * The cache of pages *)
(** A node in the cache with its flags "dirty" and "on_disk"; the pages stored, by id. *)
Record centry := mkE { e_node : pnode; e_dirty : bool; e_disk : bool }.
Record cstate := mkC { c_cache : N -> option centry; c_store : N -> option bytes }.
Definition upd {A} (f : N -> option A) (x : N) (a : option A) : N -> option A := fun y => if y =? x then a else f y.
(** The size of a leaf is taken from its records here: what page_size always is (TreePageProps.v). *)
Definition leaf_size (rs : list (bytes * bytes)) : N := fold_right (fun r n => tr_size r + n) 12 rs.
Definition save_node (n : pnode) : pres bytes :=
  match n with PLeaf p q rs => save_leaf (Z.of_N (leaf_size rs)) p q rs | PInner h ls => save_inner h ls end.
Definition load_node (x : N) (l : bytes) : pres pnode :=
  if is_inner x then pbind (des_inner l) (fun '(h, ls) => POk (PInner h ls)) else pbind (des_leaf l) (fun '(p, q, rs) => POk (PLeaf p q rs)).

(** LoadLeafNode, LoadInnerNode, tkrzw_dbm_tree.cc:1285-1337, 1440-1484.  Simplified: the slots, the order of the cache (C34) and promotion are left out. *)
Definition c_load (x : N) (s : cstate) : pres (pnode * cstate) :=
  match c_cache s x with
  | Some e => POk (e_node e, s)
  | None => match c_store s x with
            | None => PBroken
            | Some l => pbind (load_node x l) (fun n => POk (n, mkC (upd (c_cache s) x (Some (mkE n false true))) (c_store s)))
            end
  end.
(** SaveLeafNode, SaveInnerNode, tkrzw_dbm_tree.cc:1339-1375, 1486-1517. *)
Definition c_save (x : N) (s : cstate) : pres cstate :=
  match c_cache s x with
  | None => POk s
  | Some e => if e_dirty e then pbind (save_node (e_node e)) (fun l => POk (mkC (upd (c_cache s) x (Some (mkE (e_node e) false true))) (upd (c_store s) x (Some l))))
              else POk s
  end.
(** A node leaves the cache and is saved: AdjustCaches (tkrzw_dbm_tree.cc:2077-2124), FlushLeafCacheOne, FlushInnerCacheOne (1400-1429, 1542-1571).
    Which nodes leave, and when, is arbitrary here. *)
Definition c_evict (x : N) (s : cstate) : pres cstate := pbind (c_save x s) (fun s' => POk (mkC (upd (c_cache s') x None) (c_store s'))).
(** A node is changed by one who holds it, and marked; it is not evicted while it is held (use_count, 2089). *)
Definition c_write (x : N) (n : pnode) (s : cstate) : pres cstate :=
  match c_cache s x with None => PUb | Some e => POk (mkC (upd (c_cache s) x (Some (mkE n true (e_disk e)))) (c_store s)) end.
(** A new node is added to the cache, tkrzw_dbm_tree.cc:241-245, 264-268. *)
Definition c_new (x : N) (n : pnode) (s : cstate) : pres cstate := POk (mkC (upd (c_cache s) x (Some (mkE n true false))) (c_store s)).
(** RemoveLeafNode, RemoveInnerNode, tkrzw_dbm_tree.cc:1377-1390, 1519-1532. *)
Definition c_remove (x : N) (s : cstate) : pres cstate :=
  match c_cache s x with
  | None => PUb
  | Some e => POk (mkC (upd (c_cache s) x None) (if e_disk e then upd (c_store s) x None else c_store s))
  end.

(** What a TreeDBM does to nodes, and what the cache does on its own. *)
Inductive cop := CLoad (x : N) | CSave (x : N) | CEvict (x : N) | CWrite (x : N) (n : pnode) | CNew (x : N) (n : pnode) | CRemove (x : N).
(** What is observed of an operation: the node it loads. *)
Definition c_step (o : cop) (s : cstate) : pres (option pnode * cstate) :=
  match o with
  | CLoad x => pbind (c_load x s) (fun '(n, s') => POk (Some n, s'))
  | CSave x => pbind (c_save x s) (fun s' => POk (None, s'))
  | CEvict x => pbind (c_evict x s) (fun s' => POk (None, s'))
  | CWrite x n => pbind (c_load x s) (fun '(_, s1) => pbind (c_write x n s1) (fun s' => POk (None, s')))
  | CNew x n => pbind (c_new x n s) (fun s' => POk (None, s'))
  | CRemove x => pbind (c_load x s) (fun '(_, s1) => pbind (c_remove x s1) (fun s' => POk (None, s')))
  end.
Fixpoint c_run (os : list cop) (s : cstate) : pres (list (option pnode) * cstate) :=
  match os with
  | [] => POk ([], s)
  | o :: r => pbind (c_step o s) (fun '(a, s1) => pbind (c_run r s1) (fun '(l, s2) => POk (a :: l, s2)))
  end.
Definition c_init : cstate := mkC (fun _ => None) (fun _ => None).
