(** The pool of free blocks of the hash database.
    Source: struct FreeBlock and class FreeBlockPool,
    /repo/tkrzw_dbm_hash_impl.h:318-416 and /repo/tkrzw_dbm_hash_impl.cc:539-614.
    The std::set is a list in ascending order.  Simplification: sizes and
    offsets are unbounded numbers; the mutex is not part of this model. *)
From Verif Require Import Bytes CodecModel FileModel.
Open Scope N_scope.

(** struct FreeBlock, tkrzw_dbm_hash_impl.h:318-346. *)
Record fblock := mkfb { fb_size : N; fb_off : N }.

(** FreeBlock::operator<, tkrzw_dbm_hash_impl.h:340-345. *)
Definition fb_lt (a b : fblock) : bool :=
  if negb (fb_size a =? fb_size b) then fb_size a <? fb_size b else fb_off a <? fb_off b.

Record fbpool := mkfbp { fp_cap : N; fp_data : list fblock }.

(** std::set::emplace: nothing happens if an equivalent element exists. *)
Fixpoint set_insert (b : fblock) (l : list fblock) : list fblock :=
  match l with
  | [] => [b]
  | a :: l' => if fb_lt b a then b :: a :: l' else if fb_lt a b then a :: set_insert b l' else a :: l'
  end.

(** FreeBlockPool::SetCapacity, tkrzw_dbm_hash_impl.cc:541-547: erases from
    the front until the size fits. *)
Definition fbp_set_capacity (p : fbpool) (cap : N) : fbpool :=
  mkfbp cap (skipn (length (fp_data p) - N.to_nat cap) (fp_data p)).

(** FreeBlockPool::Clear, tkrzw_dbm_hash_impl.cc:549-552. *)
Definition fbp_clear (p : fbpool) : fbpool := mkfbp (fp_cap p) [].

(** FreeBlockPool::InsertFreeBlock, tkrzw_dbm_hash_impl.cc:554-562.  None is the
    undefined behaviour of dereferencing begin() of an empty set, which happens
    when the capacity is zero. *)
Definition fbp_insert (p : fbpool) (b : fblock) : option fbpool :=
  if fp_cap p <=? N.of_nat (length (fp_data p)) then
    match fp_data p with
    | [] => None
    | a :: l => if fb_size b <=? fb_size a then Some p
                else Some (mkfbp (fp_cap p) (set_insert b l))
    end
  else Some (mkfbp (fp_cap p) (set_insert b (fp_data p))).

(** The iterator of lower_bound and the erasure, tkrzw_dbm_hash_impl.cc:564-573:
    the first element not less than [key]. *)
Fixpoint lower_take (key : fblock) (l : list fblock) : option (fblock * list fblock) :=
  match l with
  | [] => None
  | a :: l' => if fb_lt a key then
                 match lower_take key l' with
                 | None => None
                 | Some (b, rest) => Some (b, a :: rest)
                 end
               else Some (a, l')
  end.

(** FreeBlockPool::FetchFreeBlock, tkrzw_dbm_hash_impl.cc:564-573. *)
Definition fbp_fetch (p : fbpool) (min_size : N) : option (fblock * fbpool) :=
  match lower_take (mkfb min_size 0) (fp_data p) with
  | None => None
  | Some (b, rest) => Some (b, mkfbp (fp_cap p) rest)
  end.

(** One serialized block, tkrzw_dbm_hash_impl.cc:588-591. *)
Definition fb_bytes (width : nat) (apow : N) (b : fblock) : bytes :=
  write_fix width (N.shiftr (fb_off b) apow) ++ write_fix 4 (fb_size b).

(** FreeBlockPool::Serialize, tkrzw_dbm_hash_impl.cc:580-596. *)
Definition fbp_serialize (p : fbpool) (width : nat) (apow : N) (size : N) : bytes :=
  let unit_size := N.of_nat width + 4 in
  let max_num := N.to_nat (size / unit_size) in
  let content := flat_map (fb_bytes width apow) (firstn max_num (rev (fp_data p))) in
  content ++ repeat 0 (N.to_nat (size - blen content)).

(** The loop of Deserialize, tkrzw_dbm_hash_impl.cc:604-613. *)
Fixpoint fbp_load (n width : nat) (apow : N) (str : bytes) (acc : list fblock) : list fblock :=
  match n with
  | O => acc
  | S n' =>
      let off := N.shiftl (read_fix_bytes (firstn width str)) apow in
      let str1 := skipn width str in
      let size := read_fix_bytes (firstn 4 str1) in
      if size <? 1 then acc
      else fbp_load n' width apow (skipn 4 str1) (set_insert (mkfb size off) acc)
  end.

(** FreeBlockPool::Deserialize, tkrzw_dbm_hash_impl.cc:598-614. *)
Definition fbp_deserialize (p : fbpool) (width : nat) (apow : N) (str : bytes) : fbpool :=
  let unit_size := N.of_nat width + 4 in
  let max_num := N.min (blen str / unit_size) (fp_cap p) in
  mkfbp (fp_cap p) (fbp_load (N.to_nat max_num) width apow str []).
