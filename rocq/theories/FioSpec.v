(** What a File object is: an array of bytes.
    Calls of the interface /repo/tkrzw_file.h:30-330 on one object and one path, and what they have to do. *)
From Coq Require Import List NArith Bool Arith.
Import ListNotations.
From Verif Require Import Bytes StatusModel.
Local Open Scope nat_scope.

(** Open(writable, with or without OPEN_NO_CREATE, with or without OPEN_TRUNCATE), Close, and so on.  SetHeadBuffer is that of
    PositionalFile, tkrzw_file_pos.h:53-59. *)
Inductive fcall :=
| FOpen (writable create trunc : bool)
| FClose
| FRead (off size : nat)
| FWrite (off : nat) (data : bytes)
| FAppend (data : bytes)
| FExpand (size : nat)
| FTruncate (size : nat)
| FTruncateFakely (size : nat)
| FSynchronize (hard : bool) (off size : nat)
| FGetSize
| FSetHeadBuffer (size : nat).
(** What a call gives back: a bare status; or SUCCESS with bytes (Read) or with a number (Append, Expand, GetSize). *)
Inductive fout := OCode (c : code) | OBytes (b : bytes) | ONum (n : nat).

(** Running calls on an object.  A step that is undefined (None) ends the run. *)
Fixpoint frun {T} (step : T -> fcall -> option (fout * T)) (s : T) (cs : list fcall) : list fout * option T :=
  match cs with
  | [] => ([], Some s)
  | c :: r => match step s c with
              | None => ([], None)
              | Some (o, s1) => let (os, e) := frun step s1 r in (o :: os, e)
              end
  end.

(** The state of the specification.  Closed: the file at the path, if there is one.  Open: whether it is writable, the file when it
    was opened, the contents, and whether the contents have never been made shorter since then. *)
Inductive sfile := SClosed (d : option bytes) | SOpen (w : bool) (d0 c : bytes) (pristine : bool).

(** Contents that have grown to at least a size.  What comes in between is zero if the contents have never been made shorter,
    otherwise anything. *)
Definition grown (pristine : bool) (c : bytes) (n : nat) (c' : bytes) : Prop :=
  length c' = Nat.max (length c) n /\ firstn (length c) c' = c /\ (pristine = true -> c' = c ++ repeat 0%N (n - length c)).
(** Contents with bytes replaced from an offset on. *)
Definition over (c : bytes) (off : nat) (data : bytes) : bytes := firstn off c ++ data ++ skipn (off + length data) c.
(** Contents padded with some bytes to a multiple of a block. *)
Definition padded (block : nat) (c d : bytes) : Prop :=
  firstn (length c) d = c /\ length c <= length d < length c + block /\ length d mod block = 0.

(** What differs between the classes. *)
Record kind := mkKind {
  k_pad : nat;          (* Close leaves a multiple of this size (ACCESS_PADDING); 1 for none *)
  k_sync_ro : code;     (* what Synchronize returns when the file is not writable *)
  k_bus : bool;         (* a read may fault, see [may_fault] *)
  k_expand0 : bool      (* Expand by zero does not store the old size *)
}.

Inductive fstep (k : kind) : sfile -> fcall -> fout -> sfile -> Prop :=
(* Open *)
| st_open_twice w d0 c p w' cr tr : fstep k (SOpen w d0 c p) (FOpen w' cr tr) (OCode PRECONDITION_ERROR) (SOpen w d0 c p)
| st_open_missing w cr tr : w && cr = false -> fstep k (SClosed None) (FOpen w cr tr) (OCode NOT_FOUND_ERROR) (SClosed None)
| st_open_create tr : fstep k (SClosed None) (FOpen true true tr) (OCode SUCCESS) (SOpen true [] [] true)
| st_open_trunc d cr : fstep k (SClosed (Some d)) (FOpen true cr true) (OCode SUCCESS) (SOpen true [] [] true)
| st_open d w cr tr : w && tr = false -> fstep k (SClosed (Some d)) (FOpen w cr tr) (OCode SUCCESS) (SOpen w d d true)
(* every other call on an object that is not open *)
| st_closed d call : (forall w cr tr, call <> FOpen w cr tr) ->
    fstep k (SClosed d) call (OCode PRECONDITION_ERROR) (SClosed d)
(* calls that change the contents, on a file that is not writable *)
| st_readonly d0 c p call :
    match call with FWrite _ _ | FAppend _ | FExpand _ | FTruncate _ => True | _ => False end ->
    fstep k (SOpen false d0 c p) call (OCode PRECONDITION_ERROR) (SOpen false d0 c p)
(* Close *)
| st_close d0 c p d : padded (k_pad k) c d -> grown p c (length d) d -> fstep k (SOpen true d0 c p) FClose (OCode SUCCESS) (SClosed (Some d))
| st_close_readonly d0 c p : fstep k (SOpen false d0 c p) FClose (OCode SUCCESS) (SClosed (Some d0))
(* Read *)
| st_read w d0 c p off n : off + n <= length c ->
    fstep k (SOpen w d0 c p) (FRead off n) (OBytes (firstn n (skipn off c))) (SOpen w d0 c p)
| st_read_beyond w d0 c p off n : length c < off + n ->
    fstep k (SOpen w d0 c p) (FRead off n) (OCode INFEASIBLE_ERROR) (SOpen w d0 c p)
(* Write, Append, Expand *)
| st_write d0 c p off data c1 : grown p c (off + length data) c1 ->
    fstep k (SOpen true d0 c p) (FWrite off data) (OCode SUCCESS) (SOpen true d0 (over c1 off data) p)
| st_append d0 c p data : fstep k (SOpen true d0 c p) (FAppend data) (ONum (length c)) (SOpen true d0 (c ++ data) p)
| st_expand d0 c p n c1 : grown p c (length c + n) c1 -> fstep k (SOpen true d0 c p) (FExpand n) (ONum (length c)) (SOpen true d0 c1 p)
| st_expand0 d0 c p : k_expand0 k = true -> fstep k (SOpen true d0 c p) (FExpand 0) (OCode SUCCESS) (SOpen true d0 c p)
(* Truncate *)
| st_shrink d0 c p n : n <= length c ->
    fstep k (SOpen true d0 c p) (FTruncate n) (OCode SUCCESS) (SOpen true d0 (firstn n c) (p && (n =? length c)))
| st_stretch d0 c p n c1 : length c < n -> grown p c n c1 -> fstep k (SOpen true d0 c p) (FTruncate n) (OCode SUCCESS) (SOpen true d0 c1 p)
(* TruncateFakely, also on a file that is not writable *)
| st_fake_shrink w d0 c p n : n <= length c ->
    fstep k (SOpen w d0 c p) (FTruncateFakely n) (OCode SUCCESS) (SOpen w d0 (firstn n c) (p && (n =? length c)))
| st_fake_fail w d0 c p n : length c < n -> fstep k (SOpen w d0 c p) (FTruncateFakely n) (OCode INFEASIBLE_ERROR) (SOpen w d0 c p)
| st_fake_stretch w d0 c p n c1 : length c < n -> grown p c n c1 ->
    fstep k (SOpen w d0 c p) (FTruncateFakely n) (OCode SUCCESS) (SOpen w d0 c1 p)
(* Synchronize, GetSize *)
| st_sync d0 c p h off n : fstep k (SOpen true d0 c p) (FSynchronize h off n) (OCode SUCCESS) (SOpen true d0 c p)
| st_sync_readonly d0 c p h off n : fstep k (SOpen false d0 c p) (FSynchronize h off n) (OCode (k_sync_ro k)) (SOpen false d0 c p)
| st_size w d0 c p : fstep k (SOpen w d0 c p) FGetSize (ONum (length c)) (SOpen w d0 c p)
(* SetHeadBuffer does not change the contents.  It may fail when the file is not writable; contents that have been made shorter and
   longer again may then have changed *)
| st_head w d0 c p n : fstep k (SOpen w d0 c p) (FSetHeadBuffer n) (OCode SUCCESS) (SOpen w d0 c p)
| st_head_readonly d0 c p n c1 : length c1 = length c -> (p = true -> c1 = c) ->
    fstep k (SOpen false d0 c p) (FSetHeadBuffer n) (OCode SYSTEM_ERROR) (SOpen false d0 c1 p).
(** The only call that may be undefined: reading from a file that was empty when opened for reading and whose size has then been
    raised by TruncateFakely. *)
Definition may_fault (k : kind) (s : sfile) (call : fcall) : Prop :=
  match s, call with
  | SOpen false [] c _, FRead off n => k_bus k = true /\ 0 < n /\ off + n <= length c
  | _, _ => False
  end.
(** A whole history: the results of the calls and the state at the end, if it is reached. *)
Inductive history (k : kind) : sfile -> list fcall -> list fout -> option sfile -> Prop :=
| hi_nil s : history k s [] [] (Some s)
| hi_step s call o s1 cs os e : fstep k s call o s1 -> history k s1 cs os e -> history k s (call :: cs) (o :: os) e
| hi_fault s call cs : may_fault k s call -> history k s (call :: cs) [] None.
