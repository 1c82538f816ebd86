(** LinkedHashMap with its pointers.  Source: /repo/tkrzw_containers.h.
    A record is a node of a heap; following or writing through a null or freed pointer,
    division by a zero bucket count, and an endless chain are [None].  Allocation gives an
    address never used before (a simplification).  Keys, values, hash_ and equalto_ are
    parameters. *)
From Coq Require Import List NArith Bool Lia PeanoNat.
Import ListNotations.
Local Open Scope N_scope.

(** Option steps. *)
Definition obind {A B} (x : option A) (f : A -> option B) : option B := match x with Some a => f a | None => None end.
Notation "x <- e ;; f" := (obind e (fun x => f)) (at level 61, e at next level, right associativity).

Definition ptr := nat.
Definition peq (a b : option ptr) : bool :=
  match a, b with Some x, Some y => Nat.eqb x y | None, None => true | _, _ => false end.
Definition upd {A} (f : nat -> A) (p : nat) (x : A) : nat -> A := fun q => if Nat.eqb q p then x else f q.
Definition updN {A} (f : N -> A) (p : N) (x : A) : N -> A := fun q => if q =? p then x else f q.

Section Linked.
  Variables K V : Type.
  Variable keq : K -> K -> bool.
  Variable hash : K -> N.

  (** Record, tkrzw_containers.h:49-70: key and value (None: not allocated), child, prev, next. *)
  Record heap := mkH { hk : ptr -> option (K * V); hc : ptr -> option ptr; hp : ptr -> option ptr; hn : ptr -> option ptr; hfresh : ptr }.
  (** The members, tkrzw_containers.h:556-569. *)
  Record lmap := mkM { mb : N -> option ptr; mnb : N; mfirst : option ptr; mlast : option ptr; mnum : N }.

  Definition alive (h : heap) (p : ptr) : bool := match hk h p with Some _ => true | None => false end.
  (** rec->key and rec->value; rec->child, rec->prev, rec->next. *)
  Definition get_kv (h : heap) (p : ptr) : option (K * V) := hk h p.
  Definition get_child (h : heap) (p : ptr) : option (option ptr) := if alive h p then Some (hc h p) else None.
  Definition get_prev (h : heap) (p : ptr) : option (option ptr) := if alive h p then Some (hp h p) else None.
  Definition get_next (h : heap) (p : ptr) : option (option ptr) := if alive h p then Some (hn h p) else None.
  (** Assignments to members of a record. *)
  Definition set_val (h : heap) (p : ptr) (v : V) : option heap :=
    match hk h p with Some (k, _) => Some (mkH (upd (hk h) p (Some (k, v))) (hc h) (hp h) (hn h) (hfresh h)) | None => None end.
  Definition set_child (h : heap) (p : ptr) (x : option ptr) : option heap :=
    if alive h p then Some (mkH (hk h) (upd (hc h) p x) (hp h) (hn h) (hfresh h)) else None.
  Definition set_prev (h : heap) (p : ptr) (x : option ptr) : option heap :=
    if alive h p then Some (mkH (hk h) (hc h) (upd (hp h) p x) (hn h) (hfresh h)) else None.
  Definition set_next (h : heap) (p : ptr) (x : option ptr) : option heap :=
    if alive h p then Some (mkH (hk h) (hc h) (hp h) (upd (hn h) p x) (hfresh h)) else None.
  (** Assignments guarded by "if (p != nullptr)", and unguarded ones. *)
  Definition set_prev_if (h : heap) (p : option ptr) (x : option ptr) : option heap := match p with Some q => set_prev h q x | None => Some h end.
  Definition set_next_if (h : heap) (p : option ptr) (x : option ptr) : option heap := match p with Some q => set_next h q x | None => Some h end.
  Definition set_prev_of (h : heap) (p : option ptr) (x : option ptr) : option heap := match p with Some q => set_prev h q x | None => None end.
  Definition set_next_of (h : heap) (p : option ptr) (x : option ptr) : option heap := match p with Some q => set_next h q x | None => None end.
  (** new Record(key, value), tkrzw_containers.h:67-69: null pointers. *)
  Definition new_rec (h : heap) (k : K) (v : V) : ptr * heap :=
    (hfresh h, mkH (upd (hk h) (hfresh h) (Some (k, v))) (upd (hc h) (hfresh h) None) (upd (hp h) (hfresh h) None) (upd (hn h) (hfresh h) None) (S (hfresh h))).
  (** delete rec. *)
  Definition free (h : heap) (p : ptr) : option heap :=
    if alive h p then Some (mkH (upd (hk h) p None) (hc h) (hp h) (hn h) (hfresh h)) else None.

  Definition with_first (m : lmap) x := mkM (mb m) (mnb m) x (mlast m) (mnum m).
  Definition with_last (m : lmap) x := mkM (mb m) (mnb m) (mfirst m) x (mnum m).
  Definition with_num (m : lmap) x := mkM (mb m) (mnb m) (mfirst m) (mlast m) x.
  Definition with_bucket (m : lmap) i x := mkM (updN (mb m) i x) (mnb m) (mfirst m) (mlast m) (mnum m).

  (** Constructors, tkrzw_containers.h:907-922. *)
  Definition lm_new (nb : N) : lmap := mkM (fun _ => None) (if nb <? 1 then 101 else nb) None None 0.
  (** hash_(key) % num_buckets_. *)
  Definition bucket_of (m : lmap) (k : K) : option N := if mnb m =? 0 then None else Some (hash k mod mnb m).

  (** The chain loop shared by all operations, e.g. tkrzw_containers.h:1087-1110: the record
      found (or null) and entry_ptr: the bucket, or the child member of a record. *)
  Fixpoint walk (fuel : nat) (h : heap) (key : K) (cur entry : option ptr) : option (option ptr * option ptr) :=
    match fuel with
    | O => None
    | S fu =>
        match cur with
        | None => Some (None, entry)
        | Some p => kv <- get_kv h p ;; if keq (fst kv) key then Some (Some p, entry) else c <- get_child h p ;; walk fu h key c (Some p)
        end
    end.
  Definition lm_walk (h : heap) (m : lmap) (i : N) (key : K) : option (option ptr * option ptr) := walk (S (hfresh h)) h key (mb m i) None.
  (** *entry_ptr = x. *)
  Definition set_entry (h : heap) (m : lmap) (i : N) (entry : option ptr) (x : option ptr) : option (heap * lmap) :=
    match entry with
    | None => Some (h, with_bucket m i x)
    | Some q => h' <- set_child h q x ;; Some (h', m)
    end.

  (** The two branches of the moving modes, tkrzw_containers.h:942-976 (and 1010-1044, 1164-1204). *)
  Definition move_first (h : heap) (m : lmap) (rec : ptr) : option (heap * lmap) :=
    if peq (mfirst m) (Some rec) then Some (h, m) else
    pv <- get_prev h rec ;; nx <- get_next h rec ;;
    let m1 := if peq (mlast m) (Some rec) then with_last m pv else m in
    h1 <- set_next_if h pv nx ;;
    h2 <- set_prev_if h1 nx pv ;;
    h3 <- set_prev h2 rec None ;;
    h4 <- set_next h3 rec (mfirst m1) ;;
    h5 <- set_prev_of h4 (mfirst m1) (Some rec) ;;
    Some (h5, with_first m1 (Some rec)).
  Definition move_last (h : heap) (m : lmap) (rec : ptr) : option (heap * lmap) :=
    if peq (mlast m) (Some rec) then Some (h, m) else
    pv <- get_prev h rec ;; nx <- get_next h rec ;;
    let m1 := if peq (mfirst m) (Some rec) then with_first m nx else m in
    h1 <- set_next_if h pv nx ;;
    h2 <- set_prev_if h1 nx pv ;;
    h3 <- set_prev h2 rec (mlast m1) ;;
    h4 <- set_next h3 rec None ;;
    h5 <- set_next_of h4 (mlast m1) (Some rec) ;;
    Some (h5, with_last m1 (Some rec)).
  (** MoveMode, tkrzw_containers.h:350-357. *)
  Inductive mode := MOVE_CURRENT | MOVE_FIRST | MOVE_LAST.
  Definition move (md : mode) (h : heap) (m : lmap) (rec : ptr) : option (heap * lmap) :=
    match md with MOVE_CURRENT => Some (h, m) | MOVE_FIRST => move_first h m rec | MOVE_LAST => move_last h m rec end.

  (** Get, tkrzw_containers.h:930-984: the record's key and value. *)
  Definition lm_get (h : heap) (m : lmap) (key : K) (md : mode) : option (option (K * V) * heap * lmap) :=
    i <- bucket_of m key ;;
    w <- lm_walk h m i key ;;
    match fst w with
    | None => Some (None, h, m)
    | Some rec => hm <- move md h m rec ;; kv <- get_kv (fst hm) rec ;; Some (Some kv, fst hm, snd hm)
    end.
  (** GetSimple, tkrzw_containers.h:987-991. *)
  Definition lm_get_simple (h : heap) (m : lmap) (key : K) (dflt : V) (md : mode) : option (V * heap * lmap) :=
    r <- lm_get h m key md ;; Some (match fst (fst r) with None => dflt | Some kv => snd kv end, snd (fst r), snd r).
  (** find, tkrzw_containers.h:1299-1328. *)
  Definition lm_find (h : heap) (m : lmap) (key : K) : option (option (K * V)) :=
    i <- bucket_of m key ;; w <- lm_walk h m i key ;;
    match fst w with None => Some None | Some rec => kv <- get_kv h rec ;; Some (Some kv) end.

  (** Linking a record that is in no list, tkrzw_containers.h:1053-1075 and 1212-1233. *)
  Definition link (md : mode) (h : heap) (m : lmap) (rec : ptr) : option (heap * lmap) :=
    match md with
    | MOVE_FIRST =>
        h1 <- set_next h rec (mfirst m) ;;
        let m1 := match mlast m with None => with_last m (Some rec) | Some _ => m end in
        h2 <- set_prev_if h1 (mfirst m1) (Some rec) ;;
        Some (h2, with_first m1 (Some rec))
    | _ =>
        h1 <- set_prev h rec (mlast m) ;;
        let m1 := match mfirst m with None => with_first m (Some rec) | Some _ => m end in
        h2 <- set_next_if h1 (mlast m1) (Some rec) ;;
        Some (h2, with_last m1 (Some rec))
    end.
  (** Set, tkrzw_containers.h:994-1080: the stored or existing record. *)
  Definition lm_set (h : heap) (m : lmap) (key : K) (value : V) (overwrite : bool) (md : mode) : option (K * V * heap * lmap) :=
    i <- bucket_of m key ;;
    w <- lm_walk h m i key ;;
    match fst w with
    | Some rec =>
        if negb overwrite then kv <- get_kv h rec ;; Some (kv, h, m)
        else h1 <- set_val h rec value ;; hm <- move md h1 m rec ;; kv <- get_kv (fst hm) rec ;; Some (kv, fst hm, snd hm)
    | None =>
        let '(rec, h1) := new_rec h key value in
        hm <- link md h1 m rec ;;
        h2 <- set_child (fst hm) rec (mb (snd hm) i) ;;
        kv <- get_kv h2 rec ;;
        Some (kv, h2, with_num (with_bucket (snd hm) i (Some rec)) (mnum (snd hm) + 1))
    end.
  (** insert, tkrzw_containers.h:1337-1361: whether it was stored. *)
  Definition lm_insert (h : heap) (m : lmap) (key : K) (value : V) : option (K * V * bool * heap * lmap) :=
    i <- bucket_of m key ;;
    w <- lm_walk h m i key ;;
    match fst w with
    | Some rec => kv <- get_kv h rec ;; Some (kv, false, h, m)
    | None =>
        let '(rec, h1) := new_rec h key value in
        hm <- link MOVE_CURRENT h1 m rec ;;
        h2 <- set_child (fst hm) rec (mb (snd hm) i) ;;
        kv <- get_kv h2 rec ;;
        Some (kv, true, h2, with_num (with_bucket (snd hm) i (Some rec)) (mnum (snd hm) + 1))
    end.
  (** operator[], tkrzw_containers.h:1331-1334: VALUETYPE() is [dflt]. *)
  Definition lm_subscript (dflt : V) (h : heap) (m : lmap) (key : K) : option (V * heap * lmap) :=
    r <- lm_set h m key dflt true MOVE_CURRENT ;; Some (snd (fst (fst r)), snd (fst r), snd r).

  (** Taking a record out of the list and the chain, tkrzw_containers.h:1090-1103 and 1122-1136. *)
  Definition unlink (h : heap) (m : lmap) (i : N) (entry : option ptr) (rec : ptr) : option (heap * lmap) :=
    pv <- get_prev h rec ;; nx <- get_next h rec ;;
    h1 <- set_next_if h pv nx ;;
    h2 <- set_prev_if h1 nx pv ;;
    let m1 := if peq (Some rec) (mfirst m) then with_first m nx else m in
    let m2 := if peq (Some rec) (mlast m1) then with_last m1 pv else m1 in
    c <- get_child h2 rec ;;
    hm <- set_entry h2 m2 i entry c ;;
    Some (fst hm, with_num (snd hm) (mnum (snd hm) - 1)).
  (** Remove, tkrzw_containers.h:1083-1112. *)
  Definition lm_remove (h : heap) (m : lmap) (key : K) : option (bool * heap * lmap) :=
    i <- bucket_of m key ;;
    w <- lm_walk h m i key ;;
    match fst w with
    | None => Some (false, h, m)
    | Some rec => hm <- unlink h m i (snd w) rec ;; h1 <- free (fst hm) rec ;; Some (true, h1, snd hm)
    end.

  (** Migrate to another map, tkrzw_containers.h:1115-1245 (dest is not the map itself). *)
  Definition replace_rec (h : heap) (d : lmap) (i : N) (entry : option ptr) (old rec : ptr) : option (heap * lmap) :=
    c <- get_child h old ;; pv <- get_prev h old ;; nx <- get_next h old ;;
    h1 <- match c with Some _ => set_child h rec c | None => Some h end ;;
    h2 <- match pv with Some q => h' <- set_prev h1 rec pv ;; set_next h' q (Some rec) | None => Some h1 end ;;
    h3 <- match nx with Some q => h' <- set_next h2 rec nx ;; set_prev h' q (Some rec) | None => Some h2 end ;;
    let d1 := if peq (mfirst d) (Some old) then with_first d (Some rec) else d in
    let d2 := if peq (mlast d1) (Some old) then with_last d1 (Some rec) else d1 in
    hd <- set_entry h3 d2 i entry (Some rec) ;;
    h4 <- free (fst hd) old ;;
    Some (h4, snd hd).
  Definition lm_migrate (h : heap) (m d : lmap) (key : K) (md : mode) : option (option (K * V) * heap * lmap * lmap) :=
    i <- bucket_of m key ;;
    w <- lm_walk h m i key ;;
    match fst w with
    | None => Some (None, h, m, d)
    | Some rec =>
        hm <- unlink h m i (snd w) rec ;;
        h1 <- set_child (fst hm) rec None ;; h2 <- set_prev h1 rec None ;; h3 <- set_next h2 rec None ;;
        j <- bucket_of d key ;;
        w2 <- lm_walk h3 d j key ;;
        match fst w2 with
        | Some old =>
            hd <- replace_rec h3 d j (snd w2) old rec ;;
            hd2 <- move md (fst hd) (snd hd) rec ;;
            kv <- get_kv (fst hd2) rec ;;
            Some (Some kv, fst hd2, snd hm, snd hd2)
        | None =>
            hd <- link md h3 d rec ;;
            hd2 <- set_entry (fst hd) (snd hd) j (snd w2) (Some rec) ;;
            kv <- get_kv (fst hd2) rec ;;
            Some (Some kv, fst hd2, snd hm, with_num (snd hd2) (mnum (snd hd2) + 1))
        end
    end.

  (** clear, tkrzw_containers.h:1248-1262. *)
  Fixpoint free_all (fuel : nat) (h : heap) (rec : option ptr) : option heap :=
    match fuel with
    | O => None
    | S fu => match rec with None => Some h | Some p => pv <- get_prev h p ;; h' <- free h p ;; free_all fu h' pv end
    end.
  Definition lm_clear (h : heap) (m : lmap) : option (heap * lmap) :=
    if mnum m <? 1 then Some (h, m) else h' <- free_all (S (hfresh h)) h (mlast m) ;; Some (h', mkM (fun _ => None) (mnb m) None None 0).
  (** rehash, tkrzw_containers.h:1394-1403. *)
  Fixpoint relink (fuel : nat) (h : heap) (m : lmap) (rec : option ptr) : option (heap * lmap) :=
    match fuel with
    | O => None
    | S fu =>
        match rec with
        | None => Some (h, m)
        | Some p =>
            kv <- get_kv h p ;; i <- bucket_of m (fst kv) ;;
            h' <- set_child h p (mb m i) ;; nx <- get_next h' p ;; relink fu h' (with_bucket m i (Some p)) nx
        end
    end.
  Definition lm_rehash (h : heap) (m : lmap) (nb : N) : option (heap * lmap) :=
    relink (S (hfresh h)) h (mkM (fun _ => None) nb (mfirst m) (mlast m) (mnum m)) (mfirst m).
  (** size, empty, front, back, tkrzw_containers.h:1265-1272, 1370-1391. *)
  Definition lm_size (m : lmap) : N := mnum m.
  Definition lm_empty (m : lmap) : bool := mnum m =? 0.
  Definition lm_front (h : heap) (m : lmap) : option (K * V) := p <- mfirst m ;; get_kv h p.
  Definition lm_back (h : heap) (m : lmap) : option (K * V) := p <- mlast m ;; get_kv h p.
  (** for (it = begin(); it != end(); ++it), and from end() with --it, tkrzw_containers.h:287-329. *)
  Fixpoint iterate (fuel : nat) (h : heap) (rec : option ptr) : option (list (K * V)) :=
    match fuel with
    | O => None
    | S fu => match rec with None => Some [] | Some p => kv <- get_kv h p ;; nx <- get_next h p ;; l <- iterate fu h nx ;; Some (kv :: l) end
    end.
  Fixpoint iterate_back (fuel : nat) (h : heap) (rec : option ptr) : option (list (K * V)) :=
    match fuel with
    | O => None
    | S fu => match rec with None => Some [] | Some p => kv <- get_kv h p ;; pv <- get_prev h p ;; l <- iterate_back fu h pv ;; Some (kv :: l) end
    end.
  Definition lm_items (h : heap) (m : lmap) : option (list (K * V)) := iterate (S (hfresh h)) h (mfirst m).
  Definition lm_items_back (h : heap) (m : lmap) : option (list (K * V)) := iterate_back (S (hfresh h)) h (mlast m).
  Definition heap0 : heap := mkH (fun _ => None) (fun _ => None) (fun _ => None) (fun _ => None) 0%nat.
End Linked.
Arguments mkH {K V}. Arguments hk {K V}. Arguments hc {K V}. Arguments hp {K V}. Arguments hn {K V}. Arguments hfresh {K V}.
Arguments alive {K V}. Arguments get_kv {K V}. Arguments get_child {K V}. Arguments get_prev {K V}. Arguments get_next {K V}.
Arguments set_val {K V}. Arguments set_child {K V}. Arguments set_prev {K V}. Arguments set_next {K V}.
Arguments set_prev_if {K V}. Arguments set_next_if {K V}. Arguments set_prev_of {K V}. Arguments set_next_of {K V}.
Arguments new_rec {K V}. Arguments free {K V}. Arguments bucket_of {K}. Arguments walk {K V}. Arguments lm_walk {K V}. Arguments set_entry {K V}.
Arguments move_first {K V}. Arguments move_last {K V}. Arguments move {K V}. Arguments lm_get {K V}. Arguments lm_get_simple {K V}. Arguments lm_find {K V}.
Arguments link {K V}. Arguments lm_set {K V}. Arguments lm_insert {K V}. Arguments lm_subscript {K V}. Arguments unlink {K V}. Arguments lm_remove {K V}.
Arguments replace_rec {K V}. Arguments lm_migrate {K V}. Arguments free_all {K V}. Arguments lm_clear {K V}. Arguments relink {K V}. Arguments lm_rehash {K V}.
Arguments lm_front {K V}. Arguments lm_back {K V}. Arguments iterate {K V}. Arguments iterate_back {K V}. Arguments lm_items {K V}. Arguments lm_items_back {K V}. Arguments heap0 {K V}.
