(** The top-k heap and the edit distance.
    Source: /repo/tkrzw_containers.h:877-904 (HeapByCostAdd, HeapByCostFinish) and
    /repo/tkrzw_str_util.h:769-797 (EditDistanceLev).
    Costs are integers and payloads are byte strings (the instance used by
    tkrzw_dbm_common_impl.cc); with floating-point costs a NaN breaks the order and is not covered. *)
From Coq Require Import List ZArith NArith Bool Lia Permutation.
Import ListNotations.
From Verif Require Import Bytes BytesOrder.
Local Open Scope nat_scope.

(** std::pair<int32_t, std::string> and its operator<: lexicographic (tkrzw_containers.h:880). *)
Notation entry := (Z * bytes)%type.
Definition ecmp (x y : entry) : comparison :=
  match (fst x ?= fst y)%Z with Eq => bcmp (snd x) (snd y) | c => c end.
(** std::is_heap: no element is less than the one after it in the implicit binary tree. *)
Definition is_heap (h : list entry) : Prop :=
  forall i x p, 0 < i -> nth_error h i = Some x -> nth_error h ((i - 1) / 2) = Some p -> ecmp p x <> Lt.
(** emplace_back and std::push_heap, tkrzw_containers.h:892-893.  The standard only says that the result is a
    heap of the same elements, so the model allows any. *)
Definition push (h : list entry) (x : entry) (h' : list entry) : Prop := Permutation (x :: h) h' /\ is_heap h'.
(** std::pop_heap: the first element goes to the end and the rest becomes a heap, any heap of these elements. *)
Definition pop (h : list entry) (m : entry) (h' : list entry) : Prop :=
  hd_error h = Some m /\ Permutation h (m :: h') /\ is_heap h'.
(** HeapByCostAdd, tkrzw_containers.h:878-894.  None is undefined behaviour: front() of an empty vector,
    which the code reads when the capacity is zero. *)
Definition not_cheaper (x f : entry) : bool :=
  (fst f <? fst x)%Z || ((fst x =? fst f)%Z && match bcmp (snd x) (snd f) with Lt => false | _ => true end).
Inductive add (k : nat) (h : list entry) (x : entry) : option (list entry) -> Prop :=
| add_room h' : length h < k -> push h x h' -> add k h x (Some h')
| add_skip f : k <= length h -> hd_error h = Some f -> not_cheaper x f = true -> add k h x (Some h)
| add_swap f h1 h' : k <= length h -> hd_error h = Some f -> not_cheaper x f = false ->
    pop h f h1 -> push h1 x h' -> add k h x (Some h')
| add_bad : k <= length h -> hd_error h = None -> add k h x None.
(** A loop of HeapByCostAdd over the candidates, e.g. tkrzw_dbm_common_impl.cc:704-710. *)
Inductive adds (k : nat) : list entry -> list entry -> option (list entry) -> Prop :=
| adds_nil h : adds k h [] (Some h)
| adds_bad h x l : add k h x None -> adds k h (x :: l) None
| adds_cons h x l h' r : add k h x (Some h') -> adds k h' l r -> adds k h (x :: l) r.
(** HeapByCostFinish, tkrzw_containers.h:897-904: pop_heap over the ranges [begin, it) for it from end down to
    begin + 1; [tail] is what lies beyond it. *)
Inductive finish : list entry -> list entry -> list entry -> Prop :=
| finish_end tail : finish [] tail tail
| finish_pop h m h' tail out : pop h m h' -> finish h' (m :: tail) out -> finish h tail out.

(** EditDistanceLev, tkrzw_str_util.h:769-797.  The table is an array of table_size cells, of which none is set at
    first (new int32_t[n] and an array on the stack).  Reading a cell that is not set or lies outside of the array
    is None.  A table of 2^31 cells or more overflows int32_t (line 774): None as well.  Elements are code points or
    bytes, compared by != only. *)
Definition cells := list (option N).
Definition cell (t : cells) (i : nat) : option N := match nth_error t i with Some (Some v) => Some v | _ => None end.
Fixpoint put_cell (t : cells) (i : nat) (v : N) : option cells :=
  match t, i with
  | [], _ => None
  | _ :: r, O => Some (Some v :: r)
  | x :: r, S j => match put_cell r j v with Some r' => Some (x :: r') | None => None end
  end.
Definition bind {A B} (o : option A) (f : A -> option B) : option B := match o with Some a => f a | None => None end.
(** Lines 779-784: the first column and the first row; [n] passes from i = [i]. *)
Fixpoint init_cells (n i step : nat) (t : cells) : option cells :=
  match n with O => Some t | S n' => bind (put_cell t (i * step) (N.of_nat i)) (init_cells n' (S i) step) end.
(** Lines 786-791: the inner loop; [n] passes from j = [j]. *)
Fixpoint row_loop (n : nat) (a b : list N) (col i j : nat) (t : cells) : option cells :=
  match n with
  | O => Some t
  | S n' =>
      bind (cell t ((i - 1) * col + j)) (fun up =>
      bind (cell t (i * col + j - 1)) (fun left =>
      bind (cell t ((i - 1) * col + j - 1)) (fun diag =>
      bind (nth_error a (i - 1)) (fun x =>
      bind (nth_error b (j - 1)) (fun y =>
      bind (put_cell t (i * col + j)
             (N.min (N.min (up + 1) (left + 1)) (diag + (if (x =? y)%N then 0 else 1)))%N)
        (row_loop n' a b col i (S j)))))))
  end.
(** Lines 785-792: the outer loop. *)
Fixpoint table_loop (n : nat) (a b : list N) (col i : nat) (t : cells) : option cells :=
  match n with O => Some t | S n' => bind (row_loop (length b) a b col i 1 t) (table_loop n' a b col (S i)) end.
Definition edit_distance (a b : list N) : option N :=
  let col := length b + 1 in
  if (N.of_nat (length a + 1) * N.of_nat col <? 2147483648)%N then
    bind (put_cell (repeat None ((length a + 1) * col)) 0 0%N) (fun t0 =>
    bind (init_cells (length a) 1 col t0) (fun t1 =>
    bind (init_cells (length b) 1 1 t1) (fun t2 =>
    bind (table_loop (length a) a b col 1 t2) (fun t3 =>
    cell t3 (length a * col + length b)))))
  else None.
