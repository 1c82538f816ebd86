(** Properties C05, C06 and C42: restoring, importing and rebuilding hash
    databases. *)
From Verif Require Import Bytes MapSpec CodecModel CodecProofs FileModel HashUtilModel HashUtilProofs HashRecModel
  HashRecProofs FbpModel FbpProofs HashDbModel HashDbLayout HashDbAppend HashDbInPlace HashDbProofs HashDbProps HashRestoreModel
  HashRestoreProofs HashRebuildModel HashRebuildProofs.
Open Scope N_scope.

(** A database holds the map [m]: every lookup returns its value and the
    counters are exact. *)
Definition holds (d : hdb) (s : hst) (m : amap) : Prop :=
  (forall key, key_ok key -> h_get d s key = mkhres s HOk (Some (m key))) /\ msize m (s_num s) (s_eff s).

Lemma same_lookups_holds d s m : hdb_ok d -> same_lookups d s m -> fsize (s_file s) <= capacity d -> holds d s m.
Proof.
  intros Hd H Hc. split; [|apply (same_lookups_size d); exact H].
  intros key Hk. apply same_lookups_get; assumption.
Qed.

(** * C06: both import directions give the map of the record sequence. *)

(** The map described by a sequence of records. *)
Fixpoint rs_map (m : amap) (rs : list hrec) : amap :=
  match rs with
  | [] => m
  | r :: rs' => rs_map (match r_type r with
                        | OpSet | OpAdd => aset m (r_key r) (r_val r)
                        | OpRemove => adel m (r_key r)
                        | OpVoid => m
                        end) rs'
  end.
(** The limits of sizes that the API accepts. *)
Definition rec_limits (r : hrec) : Prop :=
  r_type r <> OpVoid -> key_ok (r_key r) /\ (r_type r <> OpRemove -> value_ok (r_val r)).

Fixpoint lay_out (base : N) (rs : list hrec) : layout :=
  match rs with [] => [] | r :: rs' => (base, r) :: lay_out (base + r_whole r) rs' end.

Lemma lay_out_segment c f rs : forall base,
  Forall (rec_ok c) rs ->
  dread (fdata f) base (length (concat (map (rec_bytes c) rs))) = concat (map (rec_bytes c) rs) ->
  base + blen (concat (map (rec_bytes c) rs)) <= fsize f ->
  segment c f base (lay_out base rs) (base + blen (concat (map (rec_bytes c) rs))).
Proof.
  induction rs as [|r rs IH]; intros base Hok Hd Hs; cbn [lay_out map concat] in *.
  - split; [cbn; rewrite blen_nil; lia|]. split; [intros o r []|exact Hs].
  - inversion Hok as [|? ? Hr Hrs]; subst. rewrite app_length, dread_app in Hd. rewrite blen_app in *.
    assert (Lb := rec_bytes_blen c r ltac:(apply Hr)).
    assert (Hd1 : dread (fdata f) base (length (rec_bytes c r)) = rec_bytes c r).
    { assert (X := f_equal (firstn (length (rec_bytes c r))) Hd). rewrite firstn_len_app, firstn_app_l in X by (rewrite dread_length; lia).
      rewrite firstn_all2 in X by (rewrite dread_length; lia). exact X. }
    rewrite Hd1 in Hd. apply app_inv_head in Hd.
    change (N.of_nat (length (rec_bytes c r))) with (blen (rec_bytes c r)) in Hd. rewrite Lb in *.
    destruct (IH (base + r_whole r) Hrs Hd ltac:(lia)) as (C1 & C2 & C3).
    assert (Hpos : 0 < r_whole r).
    { destruct Hr as (_ & _ & _ & Hb & _). unfold base_size in Hb. lia. }
    split; [cbn [contig]; split; [reflexivity|]; split; [exact Hpos|]; replace (base + (r_whole r + blen (concat (map (rec_bytes c) rs)))) with (base + r_whole r + blen (concat (map (rec_bytes c) rs))) by lia; exact C1|].
    split; [|lia]. intros o r0 [E|Hi]; [|exact (C2 _ _ Hi)]. injection E as <- <-. split; [|exact Hr].
    split; [|lia]. rewrite <- Lb, to_nat_blen. exact Hd1.
Qed.
Lemma lay_out_map rs : forall base L0 m, meq m (layout_map L0) -> meq (rs_map m rs) (layout_map (L0 ++ lay_out base rs)).
Proof.
  induction rs as [|r rs IH]; intros base L0 m H; cbn [rs_map lay_out]; [rewrite app_nil_r; exact H|].
  change ((base, r) :: lay_out (base + r_whole r) rs) with ([(base, r)] ++ lay_out (base + r_whole r) rs). rewrite app_assoc. apply IH.
  assert (X := log_layout m L0 [(base, r)] H). intros k. rewrite <- X.
  unfold rec_ops, nonvoid, rec_op. cbn [filter snd map]. destruct (r_type r) eqn:E; cbn [map snd log_run]; rewrite ?E; reflexivity.
Qed.
Lemma lay_out_ok rs : forall base, Forall rec_limits rs -> layout_ok (lay_out base rs).
Proof.
  induction rs as [|r rs IH]; intros base H o r0 Hi Hn; cbn [lay_out] in Hi; [destruct Hi|]. inversion H as [|? ? Hr Hrs]; subst.
  destruct Hi as [E|Hi]; [|exact (IH _ Hrs _ _ Hi Hn)]. injection E as <- <-. unfold nonvoid in Hn.
  destruct (Hr ltac:(intros E; rewrite E in Hn; discriminate)) as [H1 H2]. split; [exact H1|]. intros Hs. apply H2. intros E; rewrite E in Hs; discriminate.
Qed.

Theorem C06_import_directions_agree : forall d cap c f base rs skip,
  hdb_ok d -> 1 <= cap -> hcfg_ok c -> Forall (rec_ok c) rs -> Forall rec_limits rs ->
  let data := concat (map (rec_bytes c) rs) in
  let stop := base + blen data in
  dread (fdata f) base (length data) = data -> stop <= fsize f ->
  let fw := import_forward d (h_init d cap) c f skip base (Some stop) in
  let bw := import_backward d (h_init d cap) c f skip base (Some stop) in
  (fsize (s_file (fst fw)) <= capacity d -> snd fw = ScanOk /\ holds d (fst fw) (rs_map aempty rs)) /\
  (fsize (s_file (fst bw)) <= capacity d -> snd bw = ScanOk /\ holds d (fst bw) (rs_map aempty rs)).
Proof.
  intros d cap c f base rs skip Hd Hcp Hc Hok Hlim data stop Hdata Hstop fw bw.
  assert (Hseg := lay_out_segment c f rs base Hok Hdata Hstop). fold data stop in Hseg.
  assert (Hl := lay_out_ok rs base Hlim). assert (Hm := lay_out_map rs base [] aempty (fun k => eq_refl)). cbn [app] in Hm.
  assert (Elim : scan_limit f (Some stop) = stop) by (cbn; lia).
  assert (SL : forall s, same_lookups d s (layout_map (lay_out base rs)) -> same_lookups d s (rs_map aempty rs)).
  { intros s (m' & A & B). exists m'. split; [exact A|]. intros k. rewrite B, Hm. reflexivity. }
  split; intros Hcap.
  - destruct (import_forward_segment d (h_init d cap) aempty c f skip base (Some stop) [] _ stop Hd (h_init_inv d cap Hd Hcp)
      (fun k => eq_refl) Hc Hseg Hl Elim Hcap) as [A B].
    split; [exact A|]. apply same_lookups_holds; auto.
  - destruct (import_backward_segment d cap c f skip base (Some stop) _ stop Hd Hcp Hc Hseg Hl Elim Hcap) as [A B].
    split; [exact A|]. apply same_lookups_holds; auto.
Qed.
Print Assumptions C06_import_directions_agree.

(** The same for the file of any history in any mode, into a database of any
    other parameters. *)
Theorem C06_import_history : forall d d2 cap cap2 ops skip,
  hdb_ok d -> 1 <= cap -> ops_ok aempty ops -> hdb_ok d2 -> 1 <= cap2 ->
  let f := s_file (fst (h_run d (h_init d cap) ops)) in
  fsize f <= capacity d ->
  let fw := import_forward d2 (h_init d2 cap2) (d_c d) f skip (record_base d) None in
  let bw := import_backward d2 (h_init d2 cap2) (d_c d) f skip (record_base d) None in
  (fsize (s_file (fst fw)) <= capacity d2 -> snd fw = ScanOk /\ holds d2 (fst fw) (fst (map_run aempty ops))) /\
  (fsize (s_file (fst bw)) <= capacity d2 -> snd bw = ScanOk /\ holds d2 (fst bw) (fst (map_run aempty ops))).
Proof.
  intros d d2 cap cap2 ops skip Hd Hcp Hops Hd2 Hcp2 f Hcap fw bw.
  destruct (h_layout d cap ops Hd Hcp Hops Hcap) as (L & B & Inv & Hok).
  assert (Hseg := recs_segment d _ _ (ap_recs _ _ _ _ _ Inv)). fold f in Hseg.
  assert (SL : forall s, same_lookups d2 s (layout_map L) -> same_lookups d2 s (fst (map_run aempty ops))).
  { intros s (m' & A & X). exists m'. split; [exact A|]. intros k. rewrite X. symmetry. apply (ap_map _ _ _ _ _ Inv). }
  split; intros Hcap2.
  - destruct (import_forward_segment d2 (h_init d2 cap2) aempty (d_c d) f skip (record_base d) None [] _ (fsize f) Hd2 (h_init_inv d2 cap2 Hd2 Hcp2)
      (fun k => eq_refl) ltac:(apply Hd) Hseg Hok eq_refl Hcap2) as [X Y].
    split; [exact X|]. apply same_lookups_holds; auto.
  - destruct (import_backward_segment d2 cap2 (d_c d) f skip (record_base d) None _ (fsize f) Hd2 Hcp2 ltac:(apply Hd) Hseg Hok eq_refl Hcap2) as [X Y].
    split; [exact X|]. apply same_lookups_holds; auto.
Qed.
Print Assumptions C06_import_history.

(** A file with a replaced, a removed and a live key, imported both ways. *)
Example C06_ex :
  let f := s_file (fst (h_run (ex_db false) (h_init (ex_db false) 4) ex_ops)) in
  let d2 := mkhdb (mkhcfg 5 0 4) 3 true 48 in
  let look t := map (fun k => h_seen (h_get d2 t k)) [[97]; [98]; [99]; [100]] in
  let want := [Some (Some (1 :: repeat 7 30)); Some None; Some (Some [3; 3; 3]); Some (Some [4])] in
  look (fst (import_forward d2 (h_init d2 4) (d_c (ex_db false)) f false (record_base (ex_db false)) None)) = want /\
  look (fst (import_backward d2 (h_init d2 4) (d_c (ex_db false)) f false (record_base (ex_db false)) None)) = want.
Proof. vm_compute. auto. Qed.

(** * C05: crashes in the appending mode. *)

(** The full claim (without the condition on look-alikes) is false, see
    [C05_phantom_refuted].  What holds: [size i] is the size of the file after the first [i] operations.  If the
    first [n] bytes of the log reached the file, and no position behind the last
    complete record looks like a record, then restoring gives the map after the
    first [j] operations, and [j] covers all operations wholly written. *)
Theorem C05_crash_keeps_prefix_partial : forall d cap ops n g,
  hdb_ok d -> d_inplace d = false -> 1 <= cap -> ops_ok aempty ops ->
  let s i := fst (h_run d (h_init d cap) (firstn i ops)) in
  let size i := fsize (s_file (s i)) in
  size (length ops) <= capacity d ->
  crash_image d (s_file (s (length ops))) n g ->
  (forall p, (forall i, (i <= length ops)%nat -> size i <= n -> size i < p) -> p < n -> p mod halign (d_c d) = 0 ->
     read_checked (d_c d) g p META_MIN_READ_SIZE = None) ->
  let res := restore d cap g None in
  fsize (s_file (fst res)) <= capacity d ->
  snd res = ScanOk /\
  exists j, (j <= length ops)%nat /\ (forall i, (i <= length ops)%nat -> size i <= n -> (i <= j)%nat) /\
    holds d (fst res) (fst (map_run aempty (firstn j ops))).
Proof.
  intros d cap ops n g Hd Hip Hcp Hops s size Hcap Himg Hno res Hcap2.
  destruct (crash_restore d cap ops n g Hd Hip Hcp Hops Hcap Himg Hno Hcap2) as (A & j & B & C & D).
  split; [exact A|]. exists j. split; [exact B|]. split; [exact C|]. apply same_lookups_holds; assumption.
Qed.
Print Assumptions C05_crash_keeps_prefix_partial.

(** The condition about look-alikes holds by itself when less than one unit of
    alignment of the torn record was written, for example when the records are
    not longer than the alignment. *)
Theorem C05_crash_within_alignment : forall d cap ops n g,
  hdb_ok d -> d_inplace d = false -> 1 <= cap -> ops_ok aempty ops ->
  let s i := fst (h_run d (h_init d cap) (firstn i ops)) in
  let size i := fsize (s_file (s i)) in
  size (length ops) <= capacity d ->
  crash_image d (s_file (s (length ops))) n g ->
  (exists i, (i <= length ops)%nat /\ size i mod halign (d_c d) = 0 /\ size i <= n < size i + halign (d_c d)) ->
  let res := restore d cap g None in
  fsize (s_file (fst res)) <= capacity d ->
  snd res = ScanOk /\
  exists j, (j <= length ops)%nat /\ (forall i, (i <= length ops)%nat -> size i <= n -> (i <= j)%nat) /\
    holds d (fst res) (fst (map_run aempty (firstn j ops))).
Proof.
  intros d cap ops n g Hd Hip Hcp Hops s size Hcap Himg (i & Hi & Hmod & Hn) res Hcap2.
  apply (C05_crash_keeps_prefix_partial d cap ops n g); auto. fold s. fold size. intros p Hp Hlt Hm. exfalso.
  specialize (Hp i Hi (proj1 Hn)). change (size i < p) in Hp. assert (Hz := halign_nz (d_c d)). revert Hmod Hm Hp Hlt Hn Hz.
  generalize (halign (d_c d)) (size i). clear. intros a b Hb Hp Hlt Hn Hr Hz.
  apply N.mod_divide in Hb; [|exact Hz]. apply N.mod_divide in Hp; [|exact Hz]. destruct Hb as [x ->], Hp as [y ->].
  assert (Hxy : x < y) by (apply (N.mul_lt_mono_pos_r a); lia).
  assert (X : (x + 1) * a <= y * a) by (apply N.mul_le_mono_r; lia). lia.
Qed.
Print Assumptions C05_crash_within_alignment.

(** A concrete history, cut in the middle of the value of its last record. *)
Definition ex5_ops : list hop :=
  [ex_set [97] [1]; ex_set [98] [2; 2]; ex_rm [97]; ex_set [99] (repeat 7 30)].
Definition ex5_file : file := s_file (fst (h_run (ex_db false) (h_init (ex_db false) 4) ex5_ops)).
Definition ex5_cut (n : N) : file := mkfile (fdata ex5_file) n.
Example C05_ex :
  crash_image (ex_db false) ex5_file 4160 (ex5_cut 4160) /\ fsize ex5_file = 4192 /\
  (let '(s, e) := restore (ex_db false) 4 (ex5_cut 4160) None in
   e = ScanOk /\ s_num s = 1%Z /\
   map (fun k => h_seen (h_get (ex_db false) s k)) [[97]; [98]; [99]] = [Some None; Some (Some [2; 2]); Some None]).
Proof.
  split; [|vm_compute; auto].
  split; [reflexivity|]. split; [vm_compute; congruence|]. split; [vm_compute; congruence|]. reflexivity.
Qed.
(** The condition holds in this case: the positions after the last complete
    record (4144) do not look like records. *)
Example C05_ex_clean : forall p, 4144 < p -> p < 4160 -> p mod halign (d_c (ex_db false)) = 0 ->
  read_checked (d_c (ex_db false)) (ex5_cut 4160) p META_MIN_READ_SIZE = None.
Proof.
  intros p H1 H2 Hm. change (halign (d_c (ex_db false))) with 8 in Hm.
  assert (p = 4152). { apply N.mod_divide in Hm; [|discriminate]. destruct Hm as [q ->]. lia. }
  subst p. vm_compute. reflexivity.
Qed.
Example C05_ex_sizes : map (fun i => fsize (s_file (fst (h_run (ex_db false) (h_init (ex_db false) 4) (firstn i ex5_ops))))) [0; 1; 2; 3; 4]%nat
  = [4096; 4112; 4128; 4144; 4192].
Proof. vm_compute. reflexivity. Qed.

(** Without the condition the claim fails: a key which contains images of
    records, cut behind the second image, makes the restored database hold keys
    that were never stored. *)
Definition ex5p_db : hdb := mkhdb (mkhcfg 4 0 2) 3 false 48.
Definition ex5p_img (k v : bytes) : bytes := rec_bytes (d_c ex5p_db) (set_data (d_c ex5p_db) OpAdd 0 k v 0).
Definition ex5p_ops : list hop := [ex_set [97] [1]; ex_set (repeat 65 40 ++ ex5p_img [120] [6; 6; 6] ++ ex5p_img [121] [] ++ repeat 66 20) [9]].
Definition ex5p_full : file := s_file (fst (h_run ex5p_db (h_init ex5p_db 4) ex5p_ops)).
Definition ex5p_cut : file := mkfile (fdata ex5p_full) (fsize ex5p_full - 21).
Theorem C05_phantom_refuted :
  exists d cap ops n g key v,
    hdb_ok d /\ d_inplace d = false /\ 1 <= cap /\ ops_ok aempty ops /\
    (let s := fst (h_run d (h_init d cap) ops) in
     fsize (s_file s) <= capacity d /\ crash_image d (s_file s) n g /\
     (let '(s', e) := restore d cap g None in
      e = ScanOk /\ h_seen (h_get d s' key) = Some (Some v) /\
      forall j, fst (map_run aempty (firstn j ops)) key = None)).
Proof.
  exists ex5p_db, 4, ex5p_ops, (fsize ex5p_full - 21), ex5p_cut, [120], [6; 6; 6].
  assert (B : forall l : list N, forallb (fun x => x <? 256) l = true -> bytes_ok l).
  { intros l H. apply Forall_forall. intros x Hx. rewrite forallb_forall in H. apply N.ltb_lt, H, Hx. }
  assert (K : forall l, forallb (fun x => x <? 256) l && (blen l <=? MAX_KEY_SIZE) = true -> key_ok l).
  { intros l H. apply andb_true_iff in H. destruct H as [H1 H2]. split; [apply B, H1|apply N.leb_le, H2]. }
  assert (V : forall l, forallb (fun x => x <? 256) l && (blen l <=? VALUE_LIMIT) = true -> value_ok l).
  { intros l H. apply andb_true_iff in H. destruct H as [H1 H2]. split; [apply B, H1|apply N.leb_le, H2]. }
  split; [split; [split; [cbn; lia|split; [cbn; lia|cbn; auto]]|split; [reflexivity|vm_compute; congruence]]|].
  split; [reflexivity|]. split; [vm_compute; congruence|].
  split; [repeat split; try (apply K; vm_compute; reflexivity); try (apply V; vm_compute; reflexivity)|].
  cbv zeta. split; [vm_compute; congruence|]. split.
  { split; [reflexivity|]. split; [vm_compute; congruence|]. split; [fold ex5p_full; lia|]. reflexivity. }
  assert (E : (let '(s', e) := restore ex5p_db 4 ex5p_cut None in e = ScanOk /\ h_seen (h_get ex5p_db s' [120]) = Some (Some [6; 6; 6])))
    by (vm_compute; auto).
  destruct (restore ex5p_db 4 ex5p_cut None) as [s' e]. destruct E as [E1 E2]. split; [exact E1|]. split; [exact E2|].
  intros [|[|[|j]]]; vm_compute; reflexivity.
Qed.
Print Assumptions C05_phantom_refuted.

(** * C42: rebuilding, with updates running at the same time. *)
Theorem C42_rebuild_keeps_contents_partial : forall d cap ops d2 cap2 skip view0 rounds last (appending : bool),
  hdb_ok d -> 1 <= cap -> hdb_ok d2 -> d_inplace d2 = true -> 1 <= cap2 ->
  let all := ops ++ rounds_ops rounds ++ last in
  ops_ok aempty all ->
  let s := fst (h_run d (h_init d cap) ops) in
  sees d (s_file s) view0 -> rounds_see d s rounds ->
  let s3 := fst (h_run (as_appending d) s (rounds_ops rounds ++ last)) in
  let d3 := if appending then as_appending d2 else d2 in
  fsize (s_file s3) <= capacity d ->
  fsize (s_file (fst (rebuild_first d d2 cap2 s skip view0))) <= capacity d2 ->
  exists t3, rebuild d d2 cap2 s skip view0 rounds last appending = Some (s3, d3, t3) /\
    (fsize (s_file t3) <= capacity d2 -> holds d3 t3 (fst (map_run aempty all))).
Proof.
  intros d cap ops d2 cap2 skip view0 rounds last appending Hd Hcp Hd2 Hip2 Hcp2 all Hops s Hsee0 Hsee s3 d3 Hcap Hfit.
  unfold all in *. apply ops_ok_app in Hops. destruct Hops as [Hops1 Hops2].
  assert (G := h_run_grows (as_appending d) (rounds_ops rounds ++ last) s).
  destruct (h_layout d cap ops Hd Hcp Hops1 ltac:(fold s; fold s3 in G; lia)) as (L & B & Inv & Hok). fold s in Inv.
  destruct (rebuild_spec d d2 cap2 s skip view0 rounds last appending _ L B Hd Hd2 Hip2 Hcp2 Inv Hok Hsee0 Hsee Hops2 Hcap Hfit) as (t3 & R1 & R2).
  exists t3. split; [exact R1|]. intros Hc. rewrite map_run_app. cbn [fst].
  apply same_lookups_holds; [unfold d3; destruct appending; exact Hd2|exact (R2 Hc)|unfold d3; destruct appending; exact Hc].
Qed.
Print Assumptions C42_rebuild_keeps_contents_partial.

(** A concrete rebuild: from 1 to 3 buckets, other alignment and checksum, with
    an update, a removal and an insertion while it runs. *)
Definition ex42_db2 : hdb := mkhdb (mkhcfg 5 0 4) 3 true 48.
Definition ex42_s : hst := fst (h_run (ex_db true) (h_init (ex_db true) 4) ex_ops).
Definition ex42_round : list hop := [ex_set [97] [5]; ex_rm [99]].
Definition ex42_view : file := s_file (fst (h_run (as_appending (ex_db true)) ex42_s (ex42_round ++ [ex_set [110] [8]]))).
Example C42_ex :
  match rebuild (ex_db true) ex42_db2 4 ex42_s false ex42_view [(ex42_round, ex42_view)] [ex_set [110] [8]] false with
  | Some (_, d3, t) => d3 = ex42_db2 /\ s_num t = 3%Z /\ fsize (s_file t) <= capacity ex42_db2 /\
      map (fun k => h_seen (h_get d3 t k)) [[97]; [98]; [99]; [100]; [110]]
      = [Some (Some [5]); Some None; Some None; Some (Some [4]); Some (Some [8])]
  | None => False
  end.
Proof. vm_compute. repeat split; congruence. Qed.
Example C42_ex_sees : sees (ex_db true) (s_file ex42_s) ex42_view /\ rounds_see (ex_db true) ex42_s [(ex42_round, ex42_view)].
Proof.
  assert (R : forall f g, fsize f <=? fsize g = true -> record_base (ex_db true) <=? fsize f = true ->
     forallb (fun i => fdata g (record_base (ex_db true) + N.of_nat i) =? fdata f (record_base (ex_db true) + N.of_nat i))
       (seq 0 (N.to_nat (fsize f - record_base (ex_db true)))) = true -> sees (ex_db true) f g).
  { intros f g H1 Hb H2. apply N.leb_le in H1, Hb. split; [exact H1|]. intros p Hp Hl. rewrite forallb_forall in H2.
    specialize (H2 (N.to_nat (p - record_base (ex_db true)))). rewrite N2Nat.id in H2.
    replace (record_base (ex_db true) + (p - record_base (ex_db true))) with p in H2 by lia.
    apply N.eqb_eq, H2, in_seq. lia. }
  split; [|split; [|exact I]]; apply R; vm_compute; reflexivity.
Qed.
