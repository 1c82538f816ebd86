(** C48: a file object is an array of bytes, whatever class it is of. *)
From Coq Require Import List NArith Bool Arith Lia.
Import ListNotations.
From Verif Require Import Bytes StatusModel PcacheModel PcacheProofs FioSpec FioModel FioProofs FioPosProofs.
Local Open Scope nat_scope.

Definition no_head_buffer (cs : list fcall) : Prop := forall n, ~ In (FSetHeadBuffer n) cs.
Definition mm_end (s : mstate) (t : sfile) : Prop := match s, t with MClosed d, SClosed d' => d = d' | MOpen _, SOpen _ _ _ _ => True | _, _ => False end.
Definition pp_end (s : pstate) (t : sfile) : Prop := match s, t with PClosed d, SClosed d' => d = d' | POpen _, SOpen _ _ _ _ => True | _, _ => False end.
Definition sd_end (s : dstate) (t : sfile) : Prop := match s, t with DClosed d, SClosed d' => d = d' | DOpen _, SOpen _ _ _ _ => True | _, _ => False end.

(* ---- histories out of steps ---- *)
Section Runs.
  Context {T : Type} (step : T -> fcall -> option (fout * T)) (k : kind) (rel : T -> sfile -> Prop) (ok : fcall -> Prop).
  Hypothesis sim : forall s t call, rel s t -> ok call ->
    match step s call with Some (o, s1) => exists t1, fstep k t call o t1 /\ rel s1 t1 | None => may_fault k t call end.
  Lemma run_history cs : forall s t, rel s t -> Forall ok cs -> let (os, e) := frun step s cs in
    exists e', history k t cs os e' /\ match e, e' with Some s1, Some t1 => rel s1 t1 | None, None => True | _, _ => False end.
  Proof.
    induction cs as [|call cs IH]; intros s t R H; cbn [frun]; [exists (Some t); split; [constructor|exact R]|].
    pose proof (Forall_inv H) as H1. pose proof (Forall_inv_tail H) as H2. pose proof (sim s t call R H1) as S. destruct (step s call) as [[o s1]|].
    - destruct S as (t1 & S & R1). specialize (IH s1 t1 R1 H2). destruct (frun step s1 cs) as [os e]. destruct IH as (e' & Hi & E).
      exists e'. split; auto. eapply hi_step; eauto.
    - exists None. split; auto. now apply hi_fault.
  Qed.
End Runs.
Lemma frun_app {T} (step : T -> fcall -> option (fout * T)) cs ds s :
  frun step s (cs ++ ds) = match frun step s cs with
                           | (os, Some s1) => let (os', e) := frun step s1 ds in (os ++ os', e)
                           | (os, None) => (os, None)
                           end.
Proof.
  revert s; induction cs as [|c cs IH]; intros s; cbn [frun app]; [now destruct (frun step s ds)|].
  destruct (step s c) as [[o s1]|]; auto. rewrite IH. destruct (frun step s1 cs) as [os [s2|]]; auto. now destruct (frun step s2 ds).
Qed.
Lemma history_app k s cs os t ds os' e : history k s cs os (Some t) -> history k t ds os' e -> history k s (cs ++ ds) (os ++ os') e.
Proof.
  remember (Some t) as e0 eqn:E. intros H H'. induction H; cbn [app]; try discriminate.
  - now injection E as ->.
  - eapply hi_step; eauto.
Qed.

(* ---- memory mapping ---- *)
Section MmapRuns.
  Variables (page init : nat) (inc : nat -> nat).
  Hypothesis Hpage : 0 < page.
  Let run := frun (mm_step page init inc).
  Lemma head_free cs : no_head_buffer cs -> Forall (fun call => forall n, call <> FSetHeadBuffer n) cs.
  Proof. intros H. apply Forall_forall. intros c Hc n E. subst. now apply (H n). Qed.
  Lemma mm_runs d cs : no_head_buffer cs -> let (os, e) := run (MClosed d) cs in
    exists e', history mm_kind (SClosed d) cs os e' /\ match e, e' with Some s1, Some t1 => mm_rel page s1 t1 | None, None => True | _, _ => False end.
  Proof.
    intros H. apply (run_history (mm_step page init inc) mm_kind (mm_rel page) (fun call => forall n, call <> FSetHeadBuffer n)); [|reflexivity|now apply head_free].
    intros s t call. now apply mm_step_ok.
  Qed.
End MmapRuns.

(** Memory mapping files, for every page size, initial size and growth policy, every file at the path and every list of calls: the
    results are those of an array of bytes, and so is the file left at the path. *)
Theorem C48_mmap page init inc d cs : 0 < page -> no_head_buffer cs ->
  let (outs, e) := frun (mm_step page init inc) (MClosed d) cs in
  exists e', history mm_kind (SClosed d) cs outs e' /\
    match e, e' with Some s, Some t => mm_end s t | None, None => True | _, _ => False end.
Proof.
  intros Hp H. pose proof (mm_runs page init inc Hp d cs H) as R. destruct (frun (mm_step page init inc) (MClosed d) cs) as [os e].
  destruct R as (e' & R & E). exists e'. split; auto. destruct e as [[x|m]|], e' as [[y|w d0 c p]|]; cbn in *; auto.
Qed.
Print Assumptions C48_mmap.

(** Once Synchronize has returned, the file on disk is the contents. *)
Theorem C48_mmap_synchronized page init inc d cs h off n : 0 < page -> no_head_buffer cs ->
  forall outs m, frun (mm_step page init inc) (MClosed d) (cs ++ [FSynchronize h off n]) = (outs, Some (MOpen m)) -> m_w m = true ->
  exists d0 c p, history mm_kind (SClosed d) (cs ++ [FSynchronize h off n]) outs (Some (SOpen true d0 c p)) /\ m_disk m = c.
Proof.
  intros Hp H outs m. rewrite frun_app. pose proof (mm_runs page init inc Hp d cs H) as R. destruct (frun (mm_step page init inc) (MClosed d) cs) as [os e].
  destruct R as (e' & R & E). destruct e as [s|]; [|discriminate]. destruct e' as [t|]; [|contradiction]. cbn [frun].
  pose proof (mm_step_ok page init inc Hp s t (FSynchronize h off n) E ltac:(discriminate)) as S.
  destruct (mm_step page init inc s (FSynchronize h off n)) as [[o s1]|] eqn:Es; [|discriminate]. destruct S as (t1 & S & R1).
  intros X W. injection X as <- Xs. subst s1. destruct t1 as [|w d0 c p]; [contradiction|]. pose proof R1 as (Hw & Ok & Sh & _). rewrite W in Hw. subst w.
  exists d0, c, p. split; [eapply history_app; [exact R|]; eapply hi_step; [exact S|constructor]|].
  destruct s as [x|m0]; [cbn in Es; discriminate|]. cbn in Es.
  assert (L : length (m_disk m) = m_size m).
  { destruct (m_w m0) eqn:E0; cbn in Es; injection Es as <- <-; [unfold mm_sync; cbn; apply ftrunc_length|congruence]. }
  destruct Sh as [-> _]. rewrite <- L, range_file by auto. symmetry. apply firstn_all.
Qed.
Print Assumptions C48_mmap_synchronized.

(* ---- positional ---- *)
Section PosRuns.
  Variables (page block init : nat) (inc : nat -> nat) (padding cached : bool).
  Hypothesis Hpage : 0 < page.
  Hypothesis Hblock : 0 < block.
  Hypothesis Hdiv : Nat.max page block mod block = 0.
  Hypothesis Hcached : cached = true -> 8 <= block.
  Let k := pp_kind (if padding then block else 1).
  Lemma pp_sim s t call : pp_rel block cached s t -> pp_allowed cached call ->
    match pp_step page block init inc true padding cached s call with
    | Some (o, s1) => exists t1, fstep k t call o t1 /\ pp_rel block cached s1 t1 | None => may_fault k t call end.
  Proof.
    intros R A. destruct (pp_step_ok page block init inc padding cached Hpage Hblock Hdiv Hcached s t call R A) as (o & s1 & t1 & -> & S & R1).
    exists t1. auto.
  Qed.
  Lemma pp_total cs : forall s t, pp_rel block cached s t -> Forall (pp_allowed cached) cs ->
    exists s1, snd (frun (pp_step page block init inc true padding cached) s cs) = Some s1.
  Proof.
    induction cs as [|call cs IH]; intros s t R H; cbn [frun]; [now exists s|]. pose proof (Forall_inv H) as H1. pose proof (Forall_inv_tail H) as H2.
    destruct (pp_step_ok page block init inc padding cached Hpage Hblock Hdiv Hcached s t call R H1) as (o & s1 & t1 & -> & S & R1).
    destruct (IH s1 t1 R1 H2) as (s2 & E). destruct (frun _ s1 cs). cbn in *. eauto.
  Qed.
  Lemma pp_runs d cs : Forall (pp_allowed cached) cs ->
    exists outs s t, frun (pp_step page block init inc true padding cached) (PClosed d) cs = (outs, Some s) /\
      history k (SClosed d) cs outs (Some t) /\ pp_rel block cached s t.
  Proof.
    intros H. pose proof (run_history _ k (pp_rel block cached) (pp_allowed cached) pp_sim cs (PClosed d) (SClosed d) eq_refl H) as R.
    destruct (pp_total cs (PClosed d) (SClosed d) eq_refl H) as (s1 & E). destruct (frun _ (PClosed d) cs) as [os e]. cbn in E. subst e.
    destruct R as (e' & R & X). destruct e' as [t|]; [|contradiction]. eauto 8.
  Qed.
  Lemma pp_synced d cs h off n : Forall (pp_allowed cached) cs -> (cached = true -> off = 0 /\ n = 0) ->
    forall outs p, frun (pp_step page block init inc true padding cached) (PClosed d) (cs ++ [FSynchronize h off n]) = (outs, Some (POpen p)) ->
    p_w p = true -> exists d0 c pr, history k (SClosed d) (cs ++ [FSynchronize h off n]) outs (Some (SOpen true d0 c pr)) /\
      padded block c (p_disk p) /\ grown pr c (length (p_disk p)) (p_disk p).
  Proof.
    intros H Hc outs p. rewrite frun_app. destruct (pp_runs d cs H) as (os & s & t & -> & Hi & R). cbn [frun].
    destruct s as [x|p0]; [cbn; intros X; injection X; discriminate|]. destruct t as [|w d0 c pr]; [contradiction|].
    cbn [pp_step]. pose proof R as (Hw & Ok & (V & S & Sh) & _). destruct (p_w p0) eqn:W; cbn [negb].
    - subst w. destruct (pp_sync block cached p0 off n) as [p1|] eqn:Es; cbn [option_map]; [|discriminate].
      intros X _. injection X as <- <-. exists d0, c, pr. split.
      + eapply history_app; [exact Hi|]. eapply hi_step; [apply st_sync|constructor].
      + eapply (sync_disk page); eauto.
    - intros X W'. injection X as _ <-. congruence.
  Qed.
End PosRuns.

(** Positional files without the page cache: any block size that divides the larger of the page size and itself (Open and
    SetAccessStrategy do not check it; 1, 512 and 4096 do), any initial size and growth policy with a positive factor, with and
    without padding.  No call is undefined. *)
Theorem C48_positional page block init inc padding d cs : 0 < page -> 0 < block -> Nat.max page block mod block = 0 ->
  exists outs s t, frun (pp_step page block init inc true padding false) (PClosed d) cs = (outs, Some s) /\
    history (pp_kind (if padding then block else 1)) (SClosed d) cs outs (Some t) /\ pp_end s t.
Proof.
  intros Hp Hb Hd. destruct (pp_runs page block init inc padding false Hp Hb Hd ltac:(discriminate) d cs) as (os & s & t & E & H & R).
  - apply Forall_forall. intros c _. discriminate.
  - exists os, s, t. split; auto. split; auto. destruct s, t; cbn in *; auto.
Qed.
Print Assumptions C48_positional.

(** And with the page cache, for files opened for writing and histories without TruncateFakely. *)
Theorem C48_positional_cached page block init inc padding d cs : 0 < page -> 8 <= block -> Nat.max page block mod block = 0 ->
  (forall w cr tr, In (FOpen w cr tr) cs -> w = true) -> (forall n, ~ In (FTruncateFakely n) cs) ->
  exists outs s t, frun (pp_step page block init inc true padding true) (PClosed d) cs = (outs, Some s) /\
    history (pp_kind (if padding then block else 1)) (SClosed d) cs outs (Some t) /\ pp_end s t.
Proof.
  intros Hp Hb Hd Ho Hf. destruct (pp_runs page block init inc padding true Hp ltac:(lia) Hd (fun _ => Hb) d cs) as (os & s & t & E & H & R).
  - apply Forall_forall. intros c Hc _. destruct c; auto; [now apply (Ho writable create trunc)|now apply (Hf size)].
  - exists os, s, t. split; auto. split; auto. destruct s, t; cbn in *; auto.
Qed.
Print Assumptions C48_positional_cached.

(** Once Synchronize has returned, the file on disk is the contents padded to a block. *)
Theorem C48_positional_synchronized page block init inc padding d cs h off n :
  0 < page -> 0 < block -> Nat.max page block mod block = 0 ->
  forall outs p, frun (pp_step page block init inc true padding false) (PClosed d) (cs ++ [FSynchronize h off n]) = (outs, Some (POpen p)) ->
  p_w p = true ->
  exists d0 c pr, history (pp_kind (if padding then block else 1)) (SClosed d) (cs ++ [FSynchronize h off n]) outs (Some (SOpen true d0 c pr)) /\
    padded block c (p_disk p).
Proof.
  intros Hp Hb Hd outs p E W. destruct (pp_synced page block init inc padding false Hp Hb Hd ltac:(discriminate) d cs h off n) with (outs := outs) (p := p) as (d0 & c & pr & H & P & _); auto.
  - apply Forall_forall. intros c _. discriminate.
  - discriminate.
  - eauto.
Qed.
Print Assumptions C48_positional_synchronized.
Theorem C48_positional_cached_synchronized page block init inc padding d cs h :
  0 < page -> 8 <= block -> Nat.max page block mod block = 0 ->
  (forall w cr tr, In (FOpen w cr tr) cs -> w = true) -> (forall n, ~ In (FTruncateFakely n) cs) ->
  forall outs p, frun (pp_step page block init inc true padding true) (PClosed d) (cs ++ [FSynchronize h 0 0]) = (outs, Some (POpen p)) ->
  p_w p = true ->
  exists d0 c pr, history (pp_kind (if padding then block else 1)) (SClosed d) (cs ++ [FSynchronize h 0 0]) outs (Some (SOpen true d0 c pr)) /\
    padded block c (p_disk p).
Proof.
  intros Hp Hb Hd Ho Hf outs p E W.
  destruct (pp_synced page block init inc padding true Hp ltac:(lia) Hd (fun _ => Hb) d cs h 0 0) with (outs := outs) (p := p) as (d0 & c & pr & H & P & _); auto.
  - apply Forall_forall. intros c Hc _. destruct c; auto; [now apply (Ho writable create trunc)|now apply (Hf size)].
  - eauto.
Qed.
Print Assumptions C48_positional_cached_synchronized.

(* ---- StdFile ---- *)
Theorem C48_std d cs : no_head_buffer cs ->
  exists outs s t, frun sd_step (DClosed d) cs = (outs, Some s) /\ history sd_kind (SClosed d) cs outs (Some t) /\ sd_end s t.
Proof.
  intros H. assert (G : forall cs s t, sd_rel s t -> no_head_buffer cs ->
    exists outs s1 t1, frun sd_step s cs = (outs, Some s1) /\ history sd_kind t cs outs (Some t1) /\ sd_rel s1 t1).
  { clear. induction cs as [|c cs IH]; intros s t R H; [exists [], s, t; repeat split; auto; constructor|].
    destruct (sd_step_ok s t c R) as (o & s1 & t1 & E & S & R1); [intros n ->; apply (H n); now left|].
    destruct (IH s1 t1 R1) as (os & s2 & t2 & E2 & H2 & R2); [intros n Hn; apply (H n); now right|].
    exists (o :: os), s2, t2. cbn [frun]. rewrite E, E2. repeat split; auto. eapply hi_step; eauto. }
  destruct (G cs (DClosed d) (SClosed d) eq_refl H) as (os & s & t & E & Hi & R). exists os, s, t. split; auto. split; auto.
  destruct s, t; cbn in *; auto.
Qed.
Print Assumptions C48_std.

(* ---- concrete cases ---- *)
Definition ex_calls : list fcall :=
  [FOpen true true false; FAppend [1; 2; 3; 4; 5]%N; FWrite 8 [9; 9]%N; FRead 3 6; FTruncate 4; FExpand 0; FGetSize; FClose;
   FOpen false false false; FRead 0 4; FRead 0 5; FWrite 0 [7]%N; FClose].
Definition ex_outs (e0 : fout) : list fout :=
  [OCode SUCCESS; ONum 0; OCode SUCCESS; OBytes [4; 5; 0; 0; 0; 9]%N; OCode SUCCESS; e0; ONum 4; OCode SUCCESS;
   OCode SUCCESS; OBytes [1; 2; 3; 4]%N; OCode INFEASIBLE_ERROR; OCode PRECONDITION_ERROR; OCode SUCCESS].
Example C48_mmap_case : frun (mm_step 16 0 (fun n => n * 2)) (MClosed None) ex_calls = (ex_outs (ONum 4), Some (MClosed (Some [1; 2; 3; 4]%N))).
Proof. reflexivity. Qed.
Example C48_positional_case :
  frun (pp_step 16 4 0 (fun n => n * 2) true false false) (PClosed None) ex_calls = (ex_outs (ONum 4), Some (PClosed (Some [1; 2; 3; 4]%N))).
Proof. reflexivity. Qed.
Example C48_positional_cached_case :
  fst (frun (pp_step 16 8 0 (fun n => n * 2) true true true) (PClosed None)
         [FOpen true true false; FSetHeadBuffer 8; FAppend [1; 2; 3; 4; 5]%N; FWrite 10 [9; 9]%N; FRead 3 8; FClose;
          FOpen true true false; FRead 0 16; FGetSize]) =
    [OCode SUCCESS; OCode SUCCESS; ONum 0; OCode SUCCESS; OBytes [4; 5; 0; 0; 0; 0; 0; 9]%N; OCode SUCCESS;
     OCode SUCCESS; OBytes [1; 2; 3; 4; 5; 0; 0; 0; 0; 0; 9; 9; 0; 0; 0; 0]%N; ONum 16].
Proof. reflexivity. Qed.
Example C48_std_case : frun sd_step (DClosed None) ex_calls = (ex_outs (OCode SUCCESS), Some (DClosed (Some [1; 2; 3; 4]%N))).
Proof. reflexivity. Qed.
Example C48_synchronized_case :
  exists outs m, frun (mm_step 16 0 (fun n => n * 2)) (MClosed None) ([FOpen true true false; FAppend [1; 2; 3]%N] ++ [FSynchronize true 0 0]) = (outs, Some (MOpen m)) /\
    m_w m = true /\ m_disk m = [1; 2; 3]%N.
Proof. eexists _, _. split; [reflexivity|]. split; reflexivity. Qed.
Example C48_positional_synchronized_case :
  exists outs p, frun (pp_step 16 4 0 (fun n => n * 2) true false false) (PClosed None) ([FOpen true true false; FAppend [1; 2; 3; 4; 5]%N] ++ [FSynchronize true 0 0]) = (outs, Some (POpen p)) /\
    p_w p = true /\ p_disk p = [1; 2; 3; 4; 5; 0; 0; 0]%N.
Proof. eexists _, _. split; [reflexivity|]. split; reflexivity. Qed.

(* ---- where the array of bytes of the interface comments is not kept ---- *)
(** "If the file is shrunk, data after the new file end is discarded.  If the file is expanded, null codes are filled after the old
    file end" (tkrzw_file.h:158-166): within a session the old bytes come back, except in StdFile. *)
Theorem C48_null_codes_refuted :
  let cs := [FOpen true true false; FAppend [1; 2; 3; 4]%N; FTruncate 1; FTruncate 4; FRead 0 4] in
  fst (frun (mm_step 4096 0 (fun n => n * 2)) (MClosed None) cs) = [OCode SUCCESS; ONum 0; OCode SUCCESS; OCode SUCCESS; OBytes [1; 2; 3; 4]%N] /\
  fst (frun (pp_step 4096 1 0 (fun n => n * 2) true false false) (PClosed None) cs) =
    [OCode SUCCESS; ONum 0; OCode SUCCESS; OCode SUCCESS; OBytes [1; 2; 3; 4]%N] /\
  fst (frun sd_step (DClosed None) cs) = [OCode SUCCESS; ONum 0; OCode SUCCESS; OCode SUCCESS; OBytes [1; 0; 0; 0]%N].
Proof. vm_compute. auto. Qed.
Print Assumptions C48_null_codes_refuted.
(** "If the specified size is more than the actual file size, the operation fails" (tkrzw_file.h:169-178): the space allocated in
    advance is the limit. *)
Theorem C48_fake_size_refuted :
  let cs := [FOpen true true false; FAppend [1; 2]%N; FTruncateFakely 5; FGetSize] in
  fst (frun (mm_step 4096 0 (fun n => n * 2)) (MClosed None) cs) = [OCode SUCCESS; ONum 0; OCode SUCCESS; ONum 5] /\
  fst (frun (pp_step 4096 1 0 (fun n => n * 2) true false false) (PClosed None) cs) = [OCode SUCCESS; ONum 0; OCode SUCCESS; ONum 5] /\
  fst (frun sd_step (DClosed None) cs) = [OCode SUCCESS; ONum 0; OCode INFEASIBLE_ERROR; ONum 2].
Proof. vm_compute. auto. Qed.
Print Assumptions C48_fake_size_refuted.
(** An empty file opened for reading: TruncateFakely succeeds up to a page, and reading what it grants is outside of the file: the
    process gets SIGBUS. *)
Theorem C48_mmap_fault_refuted : frun (mm_step 4096 0 (fun n => n * 2)) (MClosed (Some [])) [FOpen false true false; FTruncateFakely 1; FRead 0 1] =
  ([OCode SUCCESS; OCode SUCCESS], None).
Proof. vm_compute. auto. Qed.
Print Assumptions C48_mmap_fault_refuted.
(** A positional file whose growth factor is not positive does not allocate on expansion (tkrzw_file_pos.cc:540-547): bytes within the
    size cannot be read, and with blocks an unaligned write stores memory that was never set. *)
Theorem C48_no_growth_refuted :
  fst (frun (pp_step 4096 1 0 (fun _ => 0) false false false) (PClosed None) [FOpen true true false; FExpand 4097; FGetSize; FRead 4096 1]) =
    [OCode SUCCESS; ONum 0; ONum 4097; OCode INFEASIBLE_ERROR] /\
  frun (pp_step 4096 512 0 (fun _ => 0) false false false) (PClosed None) [FOpen true true false; FWrite 10 [1; 2; 3]%N] = ([OCode SUCCESS], None).
Proof. vm_compute. auto. Qed.
Print Assumptions C48_no_growth_refuted.
(** StdFile: Expand by zero leaves the old size unset; Synchronize succeeds without the right to write, unlike the other classes. *)
Theorem C48_std_differs_refuted :
  let cs := [FOpen true true false; FAppend [1]%N; FExpand 0; FClose; FOpen false true false; FSynchronize false 0 0] in
  fst (frun sd_step (DClosed None) cs) = [OCode SUCCESS; ONum 0; OCode SUCCESS; OCode SUCCESS; OCode SUCCESS; OCode SUCCESS] /\
  fst (frun (mm_step 4096 0 (fun n => n * 2)) (MClosed None) cs) = [OCode SUCCESS; ONum 0; ONum 1; OCode SUCCESS; OCode SUCCESS; OCode PRECONDITION_ERROR].
Proof. vm_compute. auto. Qed.
Print Assumptions C48_std_differs_refuted.
(** SetHeadBuffer on a file opened for reading: the second call fails to write the old buffer back, and bytes within the size that the
    buffer held as zeros are replaced by those of the file. *)
Theorem C48_head_readonly_refuted :
  fst (frun (pp_step 4096 1 0 (fun n => n * 2) true false false) (PClosed (Some [1; 2; 3]%N))
    [FOpen false true false; FTruncateFakely 1; FSetHeadBuffer 8; FTruncateFakely 3; FRead 0 3; FSetHeadBuffer 8; FRead 0 3]) =
  [OCode SUCCESS; OCode SUCCESS; OCode SUCCESS; OCode SUCCESS; OBytes [1; 0; 0]%N; OCode SYSTEM_ERROR; OBytes [1; 2; 3]%N].
Proof. vm_compute. auto. Qed.
Print Assumptions C48_head_readonly_refuted.
(** The page cache and TruncateFakely: a page that has been flushed keeps bytes that Synchronize cuts from the file, so that what
    is read depends on what is in the cache. *)
Theorem C48_cache_fake_refuted : exists cs,
  In (FTruncateFakely 1) cs /\
  last (fst (frun (pp_step 8 8 0 (fun n => n * 2) true false true) (PClosed None) cs)) (ONum 0) <>
  last (fst (frun (pp_step 8 8 0 (fun n => n * 2) true false false) (PClosed None) cs)) (ONum 0).
Proof.
  exists [FOpen true true false; FAppend [1; 2; 3; 4; 5; 6; 7; 8; 9; 10]%N; FTruncateFakely 1; FSynchronize false 0 0; FExpand 9; FRead 0 10].
  split; [cbn; tauto|]. vm_compute. discriminate.
Qed.
Print Assumptions C48_cache_fake_refuted.
