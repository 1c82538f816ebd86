(** LRU caches on LinkedHashMap.  Source: /repo/tkrzw_containers.h.
    Ids are int64_t (Z); a value is what the shared pointer points to; None is a null
    result inside, undefined behaviour outside. *)
From Coq Require Import List ZArith NArith Bool.
Import ListNotations.
From Verif Require Import LinkedModel.
Local Open Scope N_scope.

Section Lru.
  Variable V : Type.
  (** std::hash<int64_t>: unspecified. *)
  Variable hash : Z -> N.
  Notation K := Z (only parsing).

  (** LRUCache, tkrzw_containers.h:576-686 and 1426-1428: the heap, cache_ and capacity_. *)
  Record lru := mkLru { lr_heap : heap Z V; lr_map : lmap; lr_cap : N }.
  Definition lru_new (capacity : N) : lru := mkLru heap0 (lm_new 101) capacity.
  (** Add, tkrzw_containers.h:1430-1432: the value kept under the id. *)
  Definition lru_add (c : lru) (id : Z) (v : V) : option (V * lru) :=
    r <- lm_set Z.eqb hash (lr_heap c) (lr_map c) id v false MOVE_LAST ;;
    Some (snd (fst (fst r)), mkLru (snd (fst r)) (snd r) (lr_cap c)).
  (** GiveBack, tkrzw_containers.h:1435-1437. *)
  Definition lru_give_back (c : lru) (id : Z) (v : V) : option lru :=
    r <- lm_set Z.eqb hash (lr_heap c) (lr_map c) id v false MOVE_LAST ;; Some (mkLru (snd (fst r)) (snd r) (lr_cap c)).
  (** Get, tkrzw_containers.h:1440-1446. *)
  Definition lru_get (c : lru) (id : Z) : option (option V * lru) :=
    r <- lm_get Z.eqb hash (lr_heap c) (lr_map c) id MOVE_LAST ;; Some (option_map snd (fst (fst r)), mkLru (snd (fst r)) (snd r) (lr_cap c)).
  (** Remove, tkrzw_containers.h:1449-1451. *)
  Definition lru_remove (c : lru) (id : Z) : option lru :=
    r <- lm_remove Z.eqb hash (lr_heap c) (lr_map c) id ;; Some (mkLru (snd (fst r)) (snd r) (lr_cap c)).
  (** RemoveLRU, tkrzw_containers.h:1454-1465: the id and the value. *)
  Definition lru_remove_lru (c : lru) : option (option (Z * V) * lru) :=
    if negb (lm_empty (lr_map c)) then
      rec <- lm_front (lr_heap c) (lr_map c) ;;
      r <- lm_remove Z.eqb hash (lr_heap c) (lr_map c) (fst rec) ;; Some (Some rec, mkLru (snd (fst r)) (snd r) (lr_cap c))
    else Some (None, c).
  (** Size, IsEmpty, IsSaturated, tkrzw_containers.h:1468-1480. *)
  Definition lru_size (c : lru) : N := lm_size (lr_map c).
  Definition lru_is_empty (c : lru) : bool := lm_empty (lr_map c).
  Definition lru_is_saturated (c : lru) : bool := lr_cap c <? lm_size (lr_map c).
  (** Clear, tkrzw_containers.h:1483-1485. *)
  Definition lru_clear (c : lru) : option lru := r <- lm_clear (lr_heap c) (lr_map c) ;; Some (mkLru (fst r) (snd r) (lr_cap c)).
  (** All records by MakeIterator, Get and Next, tkrzw_containers.h:1488-1510. *)
  Definition lru_items (c : lru) : option (list (Z * V)) := lm_items (lr_heap c) (lr_map c).

  (** DoubleLRUCache, tkrzw_containers.h:691-806 and 1513-1515. *)
  Record dlru := mkD { d_heap : heap Z V; d_hot : lmap; d_warm : lmap; d_hcap : N; d_wcap : N }.
  Definition dlru_new (hot_capacity warm_capacity : N) : dlru :=
    mkD heap0 (lm_new (hot_capacity * 2 + 1)) (lm_new (warm_capacity * 2 + 1)) hot_capacity warm_capacity.
  (** Add, tkrzw_containers.h:1518-1525. *)
  Definition dlru_add (c : dlru) (id : Z) (v : V) : option (V * dlru) :=
    r <- lm_get Z.eqb hash (d_heap c) (d_hot c) id MOVE_CURRENT ;;
    match fst (fst r) with
    | Some rec => Some (snd rec, mkD (snd (fst r)) (snd r) (d_warm c) (d_hcap c) (d_wcap c))
    | None =>
        q <- lm_set Z.eqb hash (snd (fst r)) (d_warm c) id v false MOVE_LAST ;;
        Some (snd (fst (fst q)), mkD (snd (fst q)) (snd r) (snd q) (d_hcap c) (d_wcap c))
    end.
  (** GiveBack, tkrzw_containers.h:1528-1530. *)
  Definition dlru_give_back (c : dlru) (id : Z) (v : V) : option dlru :=
    q <- lm_set Z.eqb hash (d_heap c) (d_warm c) id v false MOVE_LAST ;; Some (mkD (snd (fst q)) (d_hot c) (snd q) (d_hcap c) (d_wcap c)).
  (** Get, tkrzw_containers.h:1533-1553. *)
  Definition dlru_get (c : dlru) (id : Z) (promotion : bool) : option (option V * dlru) :=
    r <- lm_get Z.eqb hash (d_heap c) (d_hot c) id MOVE_LAST ;;
    match fst (fst r) with
    | Some rec => Some (Some (snd rec), mkD (snd (fst r)) (snd r) (d_warm c) (d_hcap c) (d_wcap c))
    | None =>
        let h := snd (fst r) in let hot := snd r in
        if promotion then
          hw <- (if d_hcap c <=? lm_size hot
                 then f <- lm_front h hot ;; q <- lm_migrate Z.eqb hash h hot (d_warm c) (fst f) MOVE_LAST ;; let '(_, h', hot', warm') := q in Some (h', hot', warm')
                 else Some (h, hot, d_warm c)) ;;
          let '(h1, hot1, warm1) := hw in
          q <- lm_migrate Z.eqb hash h1 warm1 hot1 id MOVE_LAST ;;
          let '(rec, h2, warm2, hot2) := q in Some (option_map snd rec, mkD h2 hot2 warm2 (d_hcap c) (d_wcap c))
        else
          q <- lm_get Z.eqb hash h (d_warm c) id MOVE_LAST ;; Some (option_map snd (fst (fst q)), mkD (snd (fst q)) hot (snd q) (d_hcap c) (d_wcap c))
    end.
  (** Remove, tkrzw_containers.h:1556-1560. *)
  Definition dlru_remove (c : dlru) (id : Z) : option dlru :=
    r <- lm_remove Z.eqb hash (d_heap c) (d_hot c) id ;;
    if fst (fst r) then Some (mkD (snd (fst r)) (snd r) (d_warm c) (d_hcap c) (d_wcap c))
    else q <- lm_remove Z.eqb hash (snd (fst r)) (d_warm c) id ;; Some (mkD (snd (fst q)) (snd r) (snd q) (d_hcap c) (d_wcap c)).
  (** RemoveLRU, tkrzw_containers.h:1563-1583. *)
  Definition dlru_remove_lru (c : dlru) : option (option (Z * V) * dlru) :=
    if negb (lm_empty (d_warm c)) then
      rec <- lm_front (d_heap c) (d_warm c) ;;
      r <- lm_remove Z.eqb hash (d_heap c) (d_warm c) (fst rec) ;; Some (Some rec, mkD (snd (fst r)) (d_hot c) (snd r) (d_hcap c) (d_wcap c))
    else if negb (lm_empty (d_hot c)) then
      rec <- lm_front (d_heap c) (d_hot c) ;;
      r <- lm_remove Z.eqb hash (d_heap c) (d_hot c) (fst rec) ;; Some (Some rec, mkD (snd (fst r)) (snd r) (d_warm c) (d_hcap c) (d_wcap c))
    else Some (None, c).
  (** Size, IsEmpty, IsSaturated, tkrzw_containers.h:1586-1598. *)
  Definition dlru_size (c : dlru) : N := lm_size (d_hot c) + lm_size (d_warm c).
  Definition dlru_is_empty (c : dlru) : bool := lm_empty (d_hot c) && lm_empty (d_warm c).
  Definition dlru_is_saturated (c : dlru) : bool := d_wcap c <? lm_size (d_warm c).
  (** Clear, tkrzw_containers.h:1601-1604. *)
  Definition dlru_clear (c : dlru) : option dlru :=
    r <- lm_clear (d_heap c) (d_hot c) ;; q <- lm_clear (fst r) (d_warm c) ;; Some (mkD (fst q) (snd r) (snd q) (d_hcap c) (d_wcap c)).
  (** All records by the iterator, hot ones first, tkrzw_containers.h:1607-1651. *)
  Definition dlru_items (c : dlru) : option (list (Z * V)) :=
    a <- lm_items (d_heap c) (d_hot c) ;; b <- lm_items (d_heap c) (d_warm c) ;; Some (a ++ b).
End Lru.
Arguments lru_add {V}. Arguments lru_give_back {V}. Arguments lru_get {V}. Arguments lru_remove {V}. Arguments lru_remove_lru {V}. Arguments lru_size {V}.
Arguments lru_is_empty {V}. Arguments lru_is_saturated {V}. Arguments lru_clear {V}. Arguments lru_items {V}. Arguments lru_new {V}.
Arguments dlru_add {V}. Arguments dlru_give_back {V}. Arguments dlru_get {V}. Arguments dlru_remove {V}. Arguments dlru_remove_lru {V}. Arguments dlru_size {V}.
Arguments dlru_is_empty {V}. Arguments dlru_is_saturated {V}. Arguments dlru_clear {V}. Arguments dlru_items {V}. Arguments dlru_new {V}.
Arguments lr_heap {V}. Arguments lr_map {V}. Arguments lr_cap {V}. Arguments d_heap {V}. Arguments d_hot {V}. Arguments d_warm {V}. Arguments d_hcap {V}. Arguments d_wcap {V}.
