(** C39: the page cache is transparent.
    Specification: a view, that is a byte for each address; at first it is the file (zero beyond its end).  A write changes the
    view at the addresses of its bytes, a read returns the bytes of the view, and nothing else touches it. *)
From Coq Require Import List NArith Bool Arith Lia.
Import ListNotations.
From Verif Require Import Bytes StatusModel PcacheModel PcacheProofs.
Local Open Scope nat_scope.

(** Calls of PageCache: Read, Write, Flush and SetRegionSize. *)
Inductive pcall := PRead (off size : nat) | PWrite (off : nat) (data : bytes) | PFlush (off size : nat) | PRegion (r : nat).
(** A call on the model; None is undefined behaviour (a copy out of bounds or unset memory that reaches the file). *)
Definition pc_step (ps cap : nat) (s : pcache) (c : pcall) : option (code * buffer * pcache) :=
  match c with
  | PRead off size => pc_read ps cap s off size
  | PWrite off data => match pc_write ps cap s off data with Some (cd, s') => Some (cd, [], s') | None => None end
  | PFlush off size => match pc_flush ps s off size with Some (cd, s') => Some (cd, [], s') | None => None end
  | PRegion r => Some (SUCCESS, [], pc_set_region s r)
  end.
Fixpoint pc_run (ps cap : nat) (s : pcache) (cs : list pcall) : option (list (code * buffer) * pcache) :=
  match cs with
  | [] => Some ([], s)
  | c :: r => match pc_step ps cap s c with
              | None => None
              | Some (cd, b, s1) => match pc_run ps cap s1 r with Some (o, s2) => Some ((cd, b) :: o, s2) | None => None end
              end
  end.

(** What the results of a history of calls have to be, from a first view to a last one. *)
Inductive agrees : (nat -> N) -> list pcall -> list (code * buffer) -> (nat -> N) -> Prop :=
| ag_nil V : agrees V [] [] V
| ag_read V V' off size r o : agrees V r o V' ->
    agrees V (PRead off size :: r) ((SUCCESS, map Some (map V (seq off size))) :: o) V'
| ag_read_fail V V' off size b r o : agrees V r o V' -> agrees V (PRead off size :: r) ((INFEASIBLE_ERROR, b) :: o) V'
| ag_write V V1 V' off data r o : (forall x, V1 x = if (off <=? x) && (x <? off + length data) then nth (x - off) data 0%N else V x) ->
    agrees V1 r o V' -> agrees V (PWrite off data :: r) ((SUCCESS, []) :: o) V'
| ag_write_fail V V1 V' off data d2 d3 r o : data = d2 ++ d3 ->
    (forall x, V1 x = if (off <=? x) && (x <? off + length d2) then nth (x - off) d2 0%N else V x) ->
    agrees V1 r o V' -> agrees V (PWrite off data :: r) ((INFEASIBLE_ERROR, []) :: o) V'
| ag_flush V V' off size r o : agrees V r o V' -> agrees V (PFlush off size :: r) ((SUCCESS, []) :: o) V'
| ag_region V V' n r o : agrees V r o V' -> agrees V (PRegion n :: r) ((SUCCESS, []) :: o) V'.

(** The same without failures, as a function. *)
Fixpoint flat_run (V : nat -> N) (cs : list pcall) : list (code * buffer) * (nat -> N) :=
  match cs with
  | [] => ([], V)
  | PRead off size :: r => let (o, V') := flat_run V r in ((SUCCESS, map Some (map V (seq off size))) :: o, V')
  | PWrite off data :: r =>
      let (o, V') := flat_run (fun x => if (off <=? x) && (x <? off + length data) then nth (x - off) data 0%N else V x) r in
      ((SUCCESS, []) :: o, V')
  | _ :: r => let (o, V') := flat_run V r in ((SUCCESS, []) :: o, V')
  end.
(** The pages of a call lie inside of the file. *)
Definition inside (ps len : nat) (c : pcall) : Prop :=
  match c with
  | PRead off size => align ps (off + size) <= len
  | PWrite off data => align ps (off + length data) <= len
  | _ => True
  end.

Lemma step_spec ps cap V hi s c : 0 < ps -> 0 < cap -> inv ps V hi s -> small cap s ->
  exists cd b s1 V1 hi1, pc_step ps cap s c = Some (cd, b, s1) /\ inv ps V1 hi1 s1 /\ small cap s1 /\
    length (pc_file s) <= length (pc_file s1) /\
    (forall r o V', agrees V1 r o V' -> agrees V (c :: r) ((cd, b) :: o) V') /\
    (inside ps (length (pc_file s)) c -> cd = SUCCESS) /\
    ((forall n, c <> PRegion n) -> hi <= pc_region s -> hi1 <= pc_region s1).
Proof.
  intros Hp Hc I Sm. destruct c as [off size|off data|off size|n]; cbn [pc_step].
  - destruct (read_spec ps cap Hp Hc V hi s off size I) as (cd & b & s1 & E & I1 & S1 & _ & O & K & R & L).
    exists cd, b, s1, V, hi. rewrite E. do 4 (split; auto). split; [|split; auto; congruence].
    intros r o V' A. destruct O as [[-> ->]| ->]; [now apply ag_read|now apply ag_read_fail].
  - destruct (write_spec ps cap Hp Hc V hi s off data I) as (cd & s1 & n & E & Hn & I1 & S1 & _ & O & K & R & L).
    eexists cd, [], s1, (written V off (firstn n data)), _. rewrite E. split; auto. split; [exact I1|]. do 2 (split; auto). split; [|split; auto; lia].
    intros r o V' A. destruct O as [[-> ->]| ->].
    + rewrite firstn_all in A. eapply ag_write; [|exact A]. reflexivity.
    + eapply ag_write_fail with (d2 := firstn n data) (d3 := skipn n data); [|reflexivity|exact A]. now rewrite firstn_skipn.
  - destruct (flush_spec ps cap Hp Hc V hi s off size I) as (s1 & E & I1 & Z & _ & _ & _ & R & L).
    exists SUCCESS, [], s1, V, hi. rewrite E. do 2 (split; auto). split; [intros i; rewrite Z; apply Sm|]. split; auto. split; [|split; auto; congruence].
    intros r o V' A. now apply ag_flush.
  - exists SUCCESS, [], (pc_set_region s n), V, hi. split; auto. split; [split; apply I|]. split; [exact Sm|]. split; auto. split; [|split; auto].
    + intros r o V' A. now apply ag_region.
    + intros X. exfalso. now apply (X n).
Qed.
Lemma run_spec ps cap cs : 0 < ps -> 0 < cap -> forall V hi s, inv ps V hi s -> small cap s ->
  exists o s' V' hi', pc_run ps cap s cs = Some (o, s') /\ agrees V cs o V' /\ inv ps V' hi' s' /\ small cap s' /\
    length (pc_file s) <= length (pc_file s') /\
    (Forall (inside ps (length (pc_file s))) cs -> Forall (fun r => fst r = SUCCESS) o) /\
    ((forall n, ~ In (PRegion n) cs) -> hi <= pc_region s -> hi' <= pc_region s').
Proof.
  intros Hp Hc. induction cs as [|c cs IH]; intros V hi s I Sm; cbn [pc_run].
  - exists [], s, V, hi. split; auto. split; [constructor|]. auto 10.
  - destruct (step_spec ps cap V hi s c Hp Hc I Sm) as (cd & b & s1 & V1 & hi1 & -> & I1 & S1 & L1 & A1 & K1 & H1).
    destruct (IH V1 hi1 s1 I1 S1) as (o & s' & V' & hi' & -> & A' & I' & S' & L' & K' & H').
    exists ((cd, b) :: o), s', V', hi'. split; auto. split; auto. split; auto. split; auto. split; [lia|]. split.
    + intros F. inversion F as [|? ? F1 F2]; subst. constructor; [now apply K1|]. apply K'.
      eapply Forall_impl; [|exact F2]. intros [| | |]; cbn; auto; lia.
    + intros X Hh. apply H'; [intros n Hin; apply (X n); now right|]. apply H1; auto. intros n ->. apply (X n). now left.
Qed.

(** From any file, by any calls: no call is undefined, the results are those of the view, each of the 16 lists of pages stays
    within its capacity, every region of the file can then be read with the bytes of the view, and the destructor leaves a file
    with exactly the bytes of the view. *)
Theorem C39_history : forall ps cap f cs, 0 < ps -> 0 < cap ->
  exists o s V, pc_run ps cap (pc_new f) cs = Some (o, s) /\ agrees (fun x => nth x f 0%N) cs o V /\
    (forall i, length (get_slot s i) <= cap) /\
    (forall off size, align ps (off + size) <= length (pc_file s) ->
       exists s', pc_read ps cap s off size = Some (SUCCESS, map Some (map V (seq off size)), s')) /\
    (exists f', pc_destroy ps s = Some f' /\ forall x, nth x f' 0%N = V x).
Proof.
  intros ps cap f cs Hp Hc. destruct (new_spec ps cap Hp Hc f) as [I S].
  destruct (run_spec ps cap cs Hp Hc _ _ _ I S) as (o & s & V & hi & E & A & I' & S' & _).
  exists o, s, V. split; auto. split; auto. split; auto. split.
  - intros off size H. destruct (read_spec ps cap Hp Hc V hi s off size I') as (cd & b & s1 & Er & _ & _ & _ & O & K & _).
    specialize (K H). exists s1. rewrite Er. destruct O as [[-> ->]|X]; [reflexivity|congruence].
  - destruct (destroy_spec ps cap Hp Hc V hi s I') as (f' & D & B & _). exists f'. auto.
Qed.
(** When the pages of all calls lie inside of the file, every call succeeds and the results are those of a plain array of bytes. *)
Theorem C39_flat : forall ps cap f cs, 0 < ps -> 0 < cap -> Forall (inside ps (length f)) cs ->
  exists s f', pc_run ps cap (pc_new f) cs = Some (fst (flat_run (fun x => nth x f 0%N) cs), s) /\
    pc_destroy ps s = Some f' /\ forall x, nth x f' 0%N = snd (flat_run (fun x => nth x f 0%N) cs) x.
Proof.
  intros ps cap f cs Hp Hc F. destruct (new_spec ps cap Hp Hc f) as [I S].
  destruct (run_spec ps cap cs Hp Hc _ _ _ I S) as (o & s & V & hi & E & A & I' & S' & _ & K & _).
  specialize (K F). destruct (destroy_spec ps cap Hp Hc V hi s I') as (f' & D & B & _).
  assert (G : forall V0 cs o V, agrees V0 cs o V -> Forall (fun r => fst r = SUCCESS) o -> forall W, (forall x, W x = V0 x) ->
    o = fst (flat_run W cs) /\ forall x, V x = snd (flat_run W cs) x).
  { clear. induction 1 as [V|V V' off size r o A IH|V V' off size b r o A IH|V V1 V' off data r o H A IH|V V1 V' off data d2 d3 r o Ed H A IH|V V' off size r o A IH|V V' n r o A IH];
      intros K W HW; try (inversion K as [|? ? K1 K2]; subst; cbn in K1; try discriminate K1); cbn [flat_run].
    - split; auto. 
    - destruct (IH K2 W HW) as [E1 E2]. destruct (flat_run W r) as [o' V'']. cbn in *. subst o'. split; auto. do 3 f_equal. apply map_ext. auto.
    - match goal with |- context[flat_run ?W' r] => destruct (IH K2 W') as [E1 E2]; [|destruct (flat_run W' r) as [o' V'']] end.
      + intros x. rewrite H, HW. reflexivity.
      + cbn in *. subst o'. auto.
    - destruct (IH K2 W HW) as [E1 E2]. destruct (flat_run W r) as [o' V'']. cbn in *. subst o'. auto.
    - destruct (IH K2 W HW) as [E1 E2]. destruct (flat_run W r) as [o' V'']. cbn in *. subst o'. auto. }
  destruct (G _ _ _ _ A K (fun x => nth x f 0%N)) as [G1 G2]; [reflexivity|].
  exists s, f'. rewrite E, G1. split; auto. split; auto. intros x. rewrite <- G2. apply B.
Qed.
(** Flushing a region makes the file agree with the view on all pages of it.  Without arguments, and unless SetRegionSize has been
    called, it makes the file agree everywhere. *)
Theorem C39_flush : forall ps cap f cs, 0 < ps -> 0 < cap ->
  exists o s V, pc_run ps cap (pc_new f) cs = Some (o, s) /\ agrees (fun x => nth x f 0%N) cs o V /\
    (forall off size, 0 < size -> exists s', pc_flush ps s off size = Some (SUCCESS, s') /\
       forall x, off - off mod ps <= x < off + size -> nth x (pc_file s') 0%N = V x) /\
    ((forall n, ~ In (PRegion n) cs) -> exists s', pc_flush ps s 0 0 = Some (SUCCESS, s') /\ forall x, nth x (pc_file s') 0%N = V x).
Proof.
  intros ps cap f cs Hp Hc. destruct (new_spec ps cap Hp Hc f) as [I S].
  destruct (run_spec ps cap cs Hp Hc _ _ _ I S) as (o & s & V & hi & E & A & I' & S' & _ & _ & H).
  exists o, s, V. split; auto. split; auto. split.
  - intros off size Hs. destruct (flush_spec ps cap Hp Hc V hi s off size I') as (s1 & Ef & _ & _ & _ & B & _). exists s1. split; auto.
    intros x Hx. apply B. destruct (Nat.eqb_spec size 0); [lia|]. destruct (align_spec ps cap Hp Hc (off + size)) as [_ L]. unfold base. lia.
  - intros X. destruct (flush_spec ps cap Hp Hc V hi s 0 0 I') as (s1 & Ef & _ & _ & _ & _ & B & _). exists s1. split; auto.
    intros x. apply B; [|unfold base; lia]. rewrite Nat.eqb_refl. specialize (H X). cbn in H. specialize (H (Nat.le_0_l _)). lia.
Qed.
(** Clear drops all pages: what is read afterwards is the file. *)
Theorem C39_clear : forall ps cap f cs, 0 < ps -> 0 < cap ->
  exists o s, pc_run ps cap (pc_new f) cs = Some (o, s) /\
    forall off size, align ps (off + size) <= length (pc_file s) ->
      exists s', pc_read ps cap (pc_clear s) off size = Some (SUCCESS, map Some (map (fun x => nth x (pc_file s) 0%N) (seq off size)), s').
Proof.
  intros ps cap f cs Hp Hc. destruct (new_spec ps cap Hp Hc f) as [I S].
  destruct (run_spec ps cap cs Hp Hc _ _ _ I S) as (o & s & V & hi & E & A & I' & S' & _).
  exists o, s. split; auto. intros off size H. destruct (clear_spec ps cap Hp Hc V hi s I') as [Ic _].
  destruct (read_spec ps cap Hp Hc _ _ _ off size Ic) as (cd & b & s1 & Er & _ & _ & _ & O & K & _).
  specialize (K H). exists s1. rewrite Er. destruct O as [[-> ->]|X]; [reflexivity|congruence].
Qed.
(** The array of requests that a call makes is never longer than the room taken for it. *)
Theorem C39_request_room : forall ps region off size, 0 < ps -> length (make_requests ps region off size) <= size / ps + 2.
Proof. intros ps region off size Hp. apply (make_count ps 1); auto. Qed.

(** Two pages of four bytes, one page per list: the second page evicts the first, which is written back; the later read gets it again. *)
Example C39_history_case :
  let cs := [PWrite 1 [7; 8; 9; 10; 11]%N; PRead 0 8; PWrite 2 [1; 2; 3; 4; 5; 6]%N; PFlush 0 0; PRead 1 7] in
  Forall (inside 4 8) cs /\
  option_map fst (pc_run 4 1 (pc_new (repeat 0%N 8)) cs) =
    Some [(SUCCESS, []); (SUCCESS, map Some [0; 7; 8; 9; 10; 11; 0; 0]%N); (SUCCESS, []); (SUCCESS, []); (SUCCESS, map Some [7; 1; 2; 3; 4; 5; 6]%N)].
Proof. split; [repeat constructor|vm_compute; reflexivity]. Qed.
Example C39_flat_case : Forall (inside 4 8) [PWrite 1 [7; 8; 9; 10; 11]%N; PRead 0 8] /\
  fst (flat_run (fun x => nth x (repeat 0%N 8) 0%N) [PWrite 1 [7; 8; 9; 10; 11]%N; PRead 0 8]) =
    [(SUCCESS, []); (SUCCESS, map Some [0; 7; 8; 9; 10; 11; 0; 0]%N)].
Proof. split; [repeat constructor|vm_compute; reflexivity]. Qed.
(** Before the flush the byte is only in the cache, afterwards it is in the file. *)
Example C39_flush_case :
  let cs := [PWrite 1 [7]%N] in
  option_map (fun r => pc_file (snd r)) (pc_run 4 1 (pc_new (repeat 0%N 8)) cs) = Some (repeat 0%N 8) /\
  option_map (fun r => pc_file (snd r)) (pc_run 4 1 (pc_new (repeat 0%N 8)) (cs ++ [PFlush 0 0])) = Some [0; 7; 0; 0; 0; 0; 0; 0]%N.
Proof. split; vm_compute; reflexivity. Qed.
Example C39_clear_case :
  option_map (fun r => pc_file (pc_clear (snd r))) (pc_run 4 1 (pc_new (repeat 0%N 8)) [PWrite 1 [7]%N]) = Some (repeat 0%N 8).
Proof. vm_compute. reflexivity. Qed.
Example C39_request_room_case : length (make_requests 4 8 3 6) = 3 /\ 6 / 4 + 2 = 3.
Proof. split; reflexivity. Qed.

(** Not every region of the file can be read: in a file opened for reading whose size is not a multiple of the page size, a read
    that begins inside of the last page fails, though the bytes are there, because the whole page is asked for. *)
Theorem C39_readonly_tail_refuted :
  let f := [1; 2; 3; 4; 5; 6]%N in
  let s := pc_set_region (pc_new f) (length f) in
  (exists s', pc_read 4 16 s 5 1 = Some (INFEASIBLE_ERROR, [], s')) /\
  (exists s', pc_read 4 16 s 4 2 = Some (SUCCESS, [Some 5%N; Some 6%N], s')).
Proof. split; eexists; vm_compute; reflexivity. Qed.
(** A write at an address beyond the end of the file fails unless it covers whole pages; this happens to a file whose increment
    factor is zero, as then no space is allocated ahead of the write. *)
Theorem C39_append_refuted :
  (exists s', pc_write 4 16 (pc_new []) 1 [7]%N = Some (INFEASIBLE_ERROR, s')) /\
  (exists s', pc_write 4 16 (pc_new []) 0 [7; 8; 9; 10]%N = Some (SUCCESS, s')).
Proof. split; eexists; vm_compute; reflexivity. Qed.

Print Assumptions C39_history.
Print Assumptions C39_flat.
Print Assumptions C39_flush.
Print Assumptions C39_clear.
Print Assumptions C39_request_room.
Print Assumptions C39_readonly_tail_refuted.
Print Assumptions C39_append_refuted.
