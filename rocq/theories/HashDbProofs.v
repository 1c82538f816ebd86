(** Histories of the hash database in both update modes. *)
From Verif Require Import Bytes MapSpec CodecModel CodecProofs FileModel HashUtilModel HashUtilProofs HashRecModel
  HashRecProofs FbpModel FbpProofs HashDbModel HashDbLayout HashDbAppend HashDbInPlace.
Open Scope N_scope.

(** A history respects the size limits: every key, and every value that a
    processor stores when run on the map [m]. *)
Fixpoint ops_ok (m : amap) (ops : list hop) : Prop :=
  match ops with
  | [] => True
  | o :: ops' =>
      let a := o_proc o (map_seen m (o_key o) (o_readable o)) in
      key_ok (o_key o) /\ action_ok a /\ ops_ok (map_apply m (o_key o) a (o_writable o)) ops'
  end.

(** The effect of a log on a map. *)
Fixpoint log_run (m : amap) (l : list ulop) : amap :=
  match l with
  | [] => m
  | LSet k v :: l' => log_run (aset m k v) l'
  | LRemove k :: l' => log_run (adel m k) l'
  end.
Lemma log_run_app m l1 l2 : log_run m (l1 ++ l2) = log_run (log_run m l1) l2.
Proof. revert m; induction l1 as [|[k v|k] l1 IH]; intros m; cbn [app log_run]; auto. Qed.
Lemma log_run_ext m m' l : meq m m' -> meq (log_run m l) (log_run m' l).
Proof.
  revert m m'; induction l as [|[k v|k] l IH]; intros m m' H; cbn [log_run]; auto; apply IH; intros x;
    unfold aset, adel; destruct (beqb k x); auto.
Qed.

Definition h_inv (d : hdb) (s : hst) (m : amap) : Prop :=
  if d_inplace d then exists L B, ip_inv d s L B m else exists L B, ap_inv d s L B m.

Lemma h_step d s m key proc readable writable :
  hdb_ok d -> h_inv d s m -> key_ok key -> action_ok (proc (map_seen m key readable)) ->
  let res := h_process d s key proc readable writable in
  let seen := map_seen m key readable in
  fsize (s_file (h_st res)) <= capacity d ->
  h_status res = HOk /\ h_seen res = Some seen /\
  (exists l, s_log (h_st res) = s_log s ++ l /\ meq (log_run m l) (map_apply m key (proc seen) writable)) /\
  h_inv d (h_st res) (map_apply m key (proc seen) writable).
Proof.
  intros Hd Hi Hk Hp res seen Hc. unfold h_inv in *. destruct (d_inplace d) eqn:Ei.
  - destruct Hi as (L & B & Inv). destruct (ip_step d s L B m key proc readable writable Hd Ei Inv Hk Hp Hc) as (H1 & H2 & H3 & H4).
    split; [exact H1|]. split; [exact H2|]. split; [|exact H4]. fold res in H3. fold seen in H3.
    eexists. split; [exact H3|]. destruct (proc seen) as [| |v]; destruct writable; cbn [log_run map_apply]; try (intros k; reflexivity).
    destruct (m key) eqn:Em; cbn [log_run]; [intros k; reflexivity|]. intros k. symmetry. apply adel_none; exact Em.
  - destruct Hi as (L & B & Inv). destruct (ap_step d s L B m key proc readable writable Hd Ei Inv Hk Hp Hc) as (H1 & H2 & H3 & _ & L' & B' & ext & _ & H4).
    split; [exact H1|]. split; [exact H2|]. split; [|exists L', B'; exact H4]. fold res in H3. fold seen in H3.
    eexists. split; [exact H3|]. destruct (proc seen) as [| |v]; destruct writable; cbn [log_run map_apply]; try (intros k; reflexivity).
    destruct (last_in key L) eqn:Em; cbn [log_run]; [intros k; reflexivity|]. intros k. symmetry. apply adel_none.
    rewrite (ap_map _ _ _ _ _ Inv). unfold layout_map. rewrite Em. reflexivity.
Qed.

Lemma place_grows d f p t t' key v child : fsize f <= fsize (fst (fst (place d f p t t' key v child))).
Proof.
  unfold place. destruct (if d_inplace d then _ else _) as [[r0 o] p1]. destruct (o =? 0).
  - unfold file_append. cbn [fst]. apply file_write_grows.
  - apply file_write_grows.
Qed.
Lemma relink_grows d f b p v : fsize f <= fsize (relink d f b p v).
Proof. unfold relink. destruct (0 <? p); [unfold write_child|unfold set_bucket]; apply file_write_grows. Qed.

Lemma h_process_grows d s key proc readable writable :
  fsize (s_file s) <= fsize (s_file (h_st (h_process d s key proc readable writable))).
Proof.
  unfold h_process. destruct (get_bucket d (s_file s) (primary_hash key (d_nb d))) as [top|]; [|cbn; lia].
  destruct (walk _ _ _ _ _ _ _) as [|off parent mt| |]; try (cbn; lia).
  - destruct (proc None) as [| |v]; destruct writable; try (cbn; lia).
    assert (G := place_grows d (s_file s) (s_fbp s) OpAdd OpAdd key v top).
    destruct (place d (s_file s) (s_fbp s) OpAdd OpAdd key v top) as [[f1 p1] noff]. cbn [fst count_update h_st s_file] in *.
    assert (G2 := file_write_grows f1 (METADATA_SIZE + primary_hash key (d_nb d) * N.of_nat (ow (d_c d))) (write_fix (ow (d_c d)) (N.shiftr noff (apow (d_c d))))).
    unfold set_bucket. lia.
  - match goal with |- context [match ?x with Some seen => _ | None => _ end] => destruct x as [seen|] end; [|cbn; lia].
    assert (G : forall a f' p', update_found d s (primary_hash key (d_nb d)) top off parent mt key a = Some (f', p') ->
      fsize (s_file s) <= fsize f').
    { intros a f' p'. unfold update_found.
      destruct (d_inplace d && _).
      - destruct a; try (intros E; injection E as <- _; apply file_write_grows).
        destruct (fbp_insert _ _); [|discriminate]. intros E; injection E as <- _.
        eapply N.le_trans; [apply relink_grows|apply file_write_grows].
      - assert (Hx : exists x, (match a with ASet v => place d (s_file s) (s_fbp s) (if is_set_type (m_type mt) then OpSet else OpAdd) OpSet key v (if d_inplace d || (parent =? 0) then m_child mt else top)
            | _ => place d (s_file s) (s_fbp s) OpRemove OpRemove key [] (if d_inplace d || (parent =? 0) then m_child mt else top) end) = x /\ fsize (s_file s) <= fsize (fst (fst x))).
        { eexists; split; [reflexivity|]. destruct a; apply place_grows. }
        destruct Hx as ([[f1 p1] noff] & -> & Gp). cbn [fst] in Gp. destruct (d_inplace d).
        + destruct (fbp_insert _ _); [|discriminate]. intros E; injection E as <- _.
          eapply N.le_trans; [exact Gp|]. eapply N.le_trans; [apply relink_grows|apply file_write_grows].
        + intros E; injection E as <- _. eapply N.le_trans; [exact Gp|]. unfold set_bucket. apply file_write_grows. }
    destruct (proc seen) as [| |v]; destruct writable; try (cbn; lia).
    + destruct (update_found _ _ _ _ _ _ _ _ _) as [[f' p']|] eqn:E; [|cbn; lia]. destruct (count_update _ _ _ _ _ _). cbn [h_st s_file]. eauto.
    + destruct (update_found _ _ _ _ _ _ _ _ _) as [[f' p']|] eqn:E; [|cbn; lia]. destruct (count_update _ _ _ _ _ _). cbn [h_st s_file]. eauto.
Qed.

Lemma h_run_grows d ops s : fsize (s_file s) <= fsize (s_file (fst (h_run d s ops))).
Proof.
  revert s; induction ops as [|o ops IH]; intros s; cbn [h_run]; [cbn; lia|].
  assert (G := h_process_grows d s (o_key o) (o_proc o) (o_readable o) (o_writable o)).
  specialize (IH (h_st (h_process d s (o_key o) (o_proc o) (o_readable o) (o_writable o)))).
  destruct (h_run d _ ops) as [s' out]. cbn [fst] in *. lia.
Qed.

Lemma h_history d ops s m :
  hdb_ok d -> h_inv d s m -> ops_ok m ops -> fsize (s_file (fst (h_run d s ops))) <= capacity d ->
  snd (h_run d s ops) = map (fun x => (HOk, Some x)) (snd (map_run m ops)) /\
  h_inv d (fst (h_run d s ops)) (fst (map_run m ops)) /\
  exists l, s_log (fst (h_run d s ops)) = s_log s ++ l /\ meq (log_run m l) (fst (map_run m ops)).
Proof.
  intros Hd. revert s m; induction ops as [|o ops IH]; intros s m Hi Hok Hc; cbn [h_run map_run] in *.
  - cbn [fst snd map]. split; [reflexivity|]. split; [exact Hi|]. exists []. rewrite app_nil_r. split; [reflexivity|intros k; reflexivity].
  - cbn [ops_ok] in Hok. destruct Hok as (Ho1 & Ho2 & Hops).
    set (res := h_process d s (o_key o) (o_proc o) (o_readable o) (o_writable o)) in *.
    assert (G := h_run_grows d ops (h_st res)).
    assert (Hc1 : fsize (s_file (h_st res)) <= capacity d).
    { destruct (h_run d (h_st res) ops) as [s' out]. cbn [fst] in *. lia. }
    destruct (h_step d s m _ _ _ _ Hd Hi Ho1 Ho2 Hc1) as (H1 & H2 & (l1 & Hl1 & Hm1) & H4). fold res in H1, H2, Hl1, H4.
    set (m1 := map_apply m (o_key o) (o_proc o (map_seen m (o_key o) (o_readable o))) (o_writable o)) in *.
    destruct (IH (h_st res) m1 H4 Hops) as (K1 & K2 & (l2 & Hl2 & Hm2)).
    { destruct (h_run d (h_st res) ops) as [s' out]. exact Hc. }
    destruct (h_run d (h_st res) ops) as [s' out], (map_run m1 ops) as [m' outs]. cbn [fst snd map] in *.
    split; [rewrite H1, H2, K1; reflexivity|]. split; [exact K2|]. exists (l1 ++ l2).
    split; [rewrite Hl2, Hl1, app_assoc; reflexivity|]. rewrite log_run_app. intros k. rewrite <- Hm2. apply log_run_ext. exact Hm1.
Qed.

Lemma h_get_unchanged d s key : h_st (h_get d s key) = s.
Proof.
  unfold h_get, h_process. destruct (get_bucket _ _ _) as [top|]; [|reflexivity].
  destruct (walk _ _ _ _ _ _ _) as [|off parent mt| |]; try reflexivity.
  destruct (if is_set_type (m_type mt) then _ else _); reflexivity.
Qed.

Lemma h_get_spec d s m key : hdb_ok d -> h_inv d s m -> key_ok key -> fsize (s_file s) <= capacity d ->
  h_get d s key = mkhres s HOk (Some (m key)).
Proof.
  intros Hd Hi Hk Hc. assert (E := h_get_unchanged d s key).
  destruct (h_step d s m key proc_get true false Hd Hi Hk I) as (H1 & H2 & _).
  - fold (h_get d s key). rewrite E. exact Hc.
  - fold (h_get d s key) in H1, H2. destruct (h_get d s key) as [a b c]. cbn [h_st h_status h_seen] in *. subst.
    f_equal. unfold map_seen. destruct (m key); reflexivity.
Qed.

Lemma h_inv_size d s m : h_inv d s m -> msize m (s_num s) (s_eff s).
Proof.
  unfold h_inv. destruct (d_inplace d); intros (L & B & Inv); [apply (ip_size _ _ _ _ _ Inv)|apply (ap_size _ _ _ _ _ Inv)].
Qed.

Lemma record_base_mod d : hdb_ok d -> record_base d mod halign (d_c d) = 0.
Proof.
  intros ((_ & Hap & _) & _).
  assert (Hmax : exists k, N.max RECORD_BASE_ALIGN (halign (d_c d)) = k * halign (d_c d)).
  { unfold halign, RECORD_BASE_ALIGN in *. destruct (N.le_ge_cases (apow (d_c d)) 12) as [H|H].
    - exists (2 ^ (12 - apow (d_c d))). rewrite <- N.pow_add_r, N.sub_add by exact H.
      rewrite N.max_l; [reflexivity|]. change 4096 with (2 ^ 12). apply N.pow_le_mono_r; lia.
    - exists 1. rewrite N.mul_1_l, N.max_r; [reflexivity|]. change 4096 with (2 ^ 12). apply N.pow_le_mono_r; lia. }
  destruct Hmax as (k & Hk).
  assert (Hnz : N.max RECORD_BASE_ALIGN (halign (d_c d)) <> 0) by (unfold RECORD_BASE_ALIGN; lia).
  unfold record_base.
  match goal with |- align_num ?x ?a mod _ = _ => assert (G := align_num_mod x a Hnz); set (y := align_num x a) in * end.
  apply N.mod_divide in G; [|exact Hnz]. destruct G as (q & ->). rewrite Hk, N.mul_assoc. apply N.mod_mul, halign_nz.
Qed.

Lemma read_fix_zeros n off : read_fix_bytes (dread (fun _ => 0) off n) = 0.
Proof.
  unfold read_fix_bytes. revert off; induction n as [|n IH]; intros off; cbn [dread fold_left]; [reflexivity|].
  change (0 * 256 + 0) with 0. apply IH.
Qed.
Lemma get_bucket_init d cap b : b < d_nb d -> get_bucket d (s_file (h_init d cap)) b = Some 0.
Proof.
  intros Hb. unfold get_bucket, h_init, file_read. cbn [s_file fsize fdata].
  assert (Hf := bucket_fits d b Hb).
  match goal with |- context [?a <=? ?b] => destruct (N.leb_spec a b) as [H|H]; [|lia] end.
  rewrite read_fix_zeros, N.shiftl_0_l. reflexivity.
Qed.

Lemma h_init_ip d cap : hdb_ok d -> 1 <= cap -> ip_inv d (h_init d cap) [] (fun _ => []) aempty.
Proof.
  intros Hd Hcap. constructor.
  - split; [reflexivity|]. split; [apply record_base_mod; exact Hd|]. intros o r E. discriminate.
  - intros b Hb. apply get_bucket_init; exact Hb.
  - intros b _. split; [exact I|]. split; [constructor|]. intros o r [].
  - intros o r [E _]. discriminate.
  - intros o1 r1 o2 r2 [E _]. discriminate.
  - intros o r [E _]. discriminate.
  - intros k v. split; [discriminate|]. intros (o & r & [E _] & _). discriminate.
  - split; [|exact Hcap]. split; cbn; [constructor|lia].
  - intros fb [].
  - apply msize_empty.
Qed.

(** An in-place state is also a state of the appending mode. *)
Lemma last_in_live k L base stop o r : contig base L stop -> last_in k L = Some (o, r) -> live (lget L) o r /\ r_key r = k.
Proof.
  intros Hc E. destruct (last_in_lget _ _ _ _ _ _ Hc E) as (H1 & H2 & H3). split; [split; assumption|exact H2].
Qed.
Lemma last_in_none k L : last_in k L = None -> forall o r, In (o, r) L -> r_type r <> OpVoid -> r_key r <> k.
Proof.
  induction L as [|[a ra] L IH]; cbn [last_in]; intros E o r Hi Hv Hk; [destruct Hi|].
  destruct (last_in k L) as [x|]; [discriminate|]. destruct Hi as [Hi|Hi]; [|exact (IH eq_refl o r Hi Hv Hk)].
  injection Hi as -> ->. unfold nonvoid in E. rewrite Hk, beqb_refl in E. destruct (r_type r); cbn [andb] in E; congruence.
Qed.
Lemma lget_In L o r : lget L o = Some r -> In (o, r) L.
Proof.
  induction L as [|[a ra] L IH]; cbn [lget]; [discriminate|]. destruct (N.eqb_spec a o) as [->|].
  - intros E. injection E as ->. left; reflexivity.
  - intros E. right; auto.
Qed.

Lemma ip_ap d s L B m : hdb_ok d -> ip_inv d s L B m -> ap_inv d s L B m.
Proof.
  intros Hd [HR HB HC HA HU HT HM HP HV HS]. destruct Hd as (Hcfg & Hnb & Hmrs).
  assert (HRc := HR). destruct HRc as (Hcon & _).
  assert (Hlast : forall k, match last_in k L with
     | Some (o, r) => m k = Some (r_val r) /\ live (lget L) o r /\ r_key r = k
     | None => m k = None /\ forall o r, live (lget L) o r -> r_key r <> k end).
  { intros k. destruct (last_in k L) as [[o r]|] eqn:E.
    - destruct (last_in_live _ _ _ _ _ _ Hcon E) as [H1 H2]. split; [apply HM; exists o, r; auto|]. auto.
    - assert (Hn : forall o r, live (lget L) o r -> r_key r <> k).
      { intros o r [Ho Hv]. apply (last_in_none k L E o r); [apply lget_In; exact Ho|exact Hv]. }
      split; [|exact Hn]. destruct (m k) as [v|] eqn:Em; [|reflexivity]. apply HM in Em. destruct Em as (o & r & Hl & Hk & _).
      destruct (Hn o r Hl Hk). }
  constructor; auto.
  - intros k. specialize (Hlast k). set (b := primary_hash k (d_nb d)).
    assert (Hb : b < d_nb d) by (apply primary_hash_lt; exact Hnb).
    destruct (HC b Hb) as (HL & _).
    assert (Hlv : forall o, In o (B b) -> exists r, live (lget L) o r).
    { intros o Ho. destruct (linked_in _ _ _ HL Ho) as (r & E & Hv). exists r. split; assumption. }
    destruct (last_in k L) as [[o r]|].
    + destruct Hlast as (_ & Hl & Hk). assert (Hin := HA o r Hl). rewrite Hk in Hin. fold b in Hin. cbn [option_map fst].
      clear HL. induction (B b) as [|x l IH]; [destruct Hin|]. cbn [find_in].
      destruct (Hlv x (or_introl eq_refl)) as (rx & Hlx). rewrite (proj1 Hlx).
      destruct (beqb_spec k (r_key rx)) as [Ek|Nk].
      * f_equal. apply (HU x rx o r Hlx Hl). congruence.
      * apply IH; [intros y Hy; apply Hlv; right; exact Hy|]. destruct Hin as [->|Hin]; [|exact Hin].
        exfalso. destruct Hlx as [Ex _], Hl as [El _]. congruence.
    + destruct Hlast as (_ & Hn). cbn [option_map]. apply find_in_none. intros o r Ho E Hk.
      destruct (Hlv o Ho) as (r' & Hl). assert (r' = r) by (destruct Hl; congruence). subst r'. exact (Hn o r Hl Hk).
  - intros k. unfold layout_map. specialize (Hlast k). destruct (last_in k L) as [[o r]|]; [|apply Hlast].
    destruct Hlast as (-> & Hl & _). unfold rec_value. rewrite (HT o r Hl). reflexivity.
Qed.

Lemma h_init_inv d cap : hdb_ok d -> 1 <= cap -> h_inv d (h_init d cap) aempty.
Proof.
  intros Hd Hc. unfold h_inv. destruct (d_inplace d); exists [], (fun _ => []).
  - apply h_init_ip; assumption.
  - apply ip_ap; [exact Hd|]. apply h_init_ip; assumption.
Qed.

(** Switching the update mode, tkrzw_dbm_hash.cc:973-990. *)
Definition to_appending (d : hdb) : hdb := mkhdb (d_c d) (d_nb d) false (d_mrs d).
Lemma h_inv_switch d s m : hdb_ok d -> h_inv d s m -> h_inv (to_appending d) s m.
Proof.
  intros Hd. unfold h_inv. cbn [to_appending d_inplace]. destruct (d_inplace d).
  - intros (L & B & Inv). destruct (ip_ap d s L B m Hd Inv). exists L, B. constructor; assumption.
  - intros (L & B & Inv). destruct Inv. exists L, B. constructor; assumption.
Qed.

(** Offsets beyond the capacity. *)
Lemma get_set_bucket_mod d f off b : b < d_nb d -> record_base d <= fsize f -> off mod halign (d_c d) = 0 ->
  get_bucket d (set_bucket d f b off) b = Some (off mod capacity d).
Proof.
  intros Hb Hf Ho. assert (F := bucket_fits d b Hb). unfold get_bucket, set_bucket.
  set (bs := write_fix (ow (d_c d)) (N.shiftr off (apow (d_c d)))).
  assert (Lw : blen bs = N.of_nat (ow (d_c d))) by (unfold bs, blen; rewrite write_fix_length; reflexivity).
  assert (Ln : length bs = ow (d_c d)) by (unfold bs; apply write_fix_length).
  rewrite file_read_ok by (unfold file_write; cbn [fsize]; lia).
  unfold file_write. cbn [fdata]. rewrite Nat2N.id. set (o := METADATA_SIZE + _). rewrite <- Ln. rewrite dread_dwrite_same. unfold bs. rewrite read_write_fix_bytes.
  f_equal. rewrite N.shiftr_div_pow2, N.shiftl_mul_pow2. unfold capacity. fold (halign (d_c d)).
  assert (Hh := halign_nz (d_c d)). set (a := halign (d_c d)) in *. set (w := 256 ^ N.of_nat (ow (d_c d))).
  assert (Hw : w <> 0) by (apply N.pow_nonzero; lia).
  rewrite (N.mul_comm w a), N.mod_mul_r by assumption. rewrite Ho, N.add_0_l. apply N.mul_comm.
Qed.

Lemma capacity_nz d : capacity d <> 0.
Proof. unfold capacity. apply N.neq_mul_0. split; [apply N.pow_nonzero; lia|apply halign_nz]. Qed.

Lemma capacity_mod d : capacity d mod halign (d_c d) = 0.
Proof. unfold capacity. apply N.mod_mul, halign_nz. Qed.

Lemma get_bucket_zero_miss d s key : get_bucket d (s_file s) (primary_hash key (d_nb d)) = Some 0 ->
  h_get d s key = mkhres s HOk (Some None).
Proof. intros E. unfold h_get, h_process. rewrite E. reflexivity. Qed.

Lemma capacity_loss d s key v :
  hdb_ok d -> d_inplace d = false -> fsize (s_file s) = capacity d -> record_base d <= fsize (s_file s) ->
  h_status (h_set d s key v) = HOk ->
  get_bucket d (s_file (h_st (h_set d s key v))) (primary_hash key (d_nb d)) = Some 0.
Proof.
  intros Hd Hip Hs Hrb. assert (Hb : primary_hash key (d_nb d) < d_nb d) by (apply primary_hash_lt; apply Hd).
  assert (Hz : forall f bs, f = file_write (s_file s) (fsize (s_file s)) bs ->
     get_bucket d (set_bucket d f (primary_hash key (d_nb d)) (fsize (s_file s))) (primary_hash key (d_nb d)) = Some 0).
  { intros f bs ->. rewrite get_set_bucket_mod; [|exact Hb| |rewrite Hs; apply capacity_mod].
    - rewrite Hs, N.mod_same by apply capacity_nz. reflexivity.
    - eapply N.le_trans; [exact Hrb|apply file_write_grows]. }
  unfold h_set, h_process. change (proc_set v true None) with (ASet v).
  destruct (get_bucket d (s_file s) (primary_hash key (d_nb d))) as [top|]; [|discriminate].
  destruct (walk _ _ _ _ _ _ _) as [|off parent mt| |]; try discriminate.
  - intros _. unfold place. rewrite Hip. cbn [N.eqb file_append count_update h_st s_file]. eapply Hz. reflexivity.
  - intros _. unfold update_found. rewrite Hip. cbn [andb orb]. unfold place. rewrite Hip. cbn [N.eqb file_append].
    change (0 =? 0) with true. cbn iota.
    destruct (is_set_type (m_type mt)); cbn [proc_set count_update h_st s_file]; eapply Hz; reflexivity.
Qed.

Lemma ops_ok_app m l1 l2 : ops_ok m (l1 ++ l2) <-> ops_ok m l1 /\ ops_ok (fst (map_run m l1)) l2.
Proof.
  revert m; induction l1 as [|o l1 IH]; intros m; cbn [app ops_ok map_run fst]; [tauto|].
  rewrite IH. destruct (map_run (map_apply m _ _ _) l1) as [m1 out]. cbn [fst]. tauto.
Qed.
