(** The appending update mode refines the abstract map. *)
From Verif Require Import Bytes MapSpec CodecModel CodecProofs FileModel HashUtilModel HashUtilProofs HashRecModel
  HashRecProofs FbpModel FbpProofs HashDbModel HashDbLayout.
Open Scope N_scope.

(** Size limit of values under which a record always fits 31 bits. *)
Definition VALUE_LIMIT : N := 2139029440.

Definition key_ok (k : bytes) : Prop := bytes_ok k /\ blen k <= MAX_KEY_SIZE.
Definition value_ok (v : bytes) : Prop := bytes_ok v /\ blen v <= VALUE_LIMIT.
Definition action_ok (a : action) : Prop := match a with ASet v => value_ok v | _ => True end.

Lemma whole_limit c k v : hcfg_ok c -> blen k <= MAX_KEY_SIZE -> blen v <= VALUE_LIMIT ->
  align_num (base_size c k v) (halign c) <= MAX_VALUE_SIZE.
Proof.
  intros (How & Hap & Hcrc) Hk Hv. assert (A := align_num_lt (base_size c k v) (halign c) (halign_nz c)).
  assert (Hh : halign c <= 2 ^ 16) by (apply N.pow_le_mono_r; lia). change (2 ^ 16) with 65536 in Hh.
  assert (S1 := size_var_pos (blen k)). assert (S2 := size_var_pos (blen v)).
  assert (N.of_nat (crcw c) <= 4) by (cbn [In] in Hcrc; lia).
  unfold base_size, MAX_KEY_SIZE, VALUE_LIMIT, MAX_VALUE_SIZE in *. lia.
Qed.

Lemma set_data_rec_ok c t k v child : hcfg_ok c -> key_ok k -> value_ok v -> child_ok c child ->
  rec_ok c (set_data c t 0 k v child).
Proof.
  intros Hc (Hk1 & Hk2) (Hv1 & Hv2) Hch. apply set_data_ok; auto. cbn [set_data r_whole].
  rewrite N.max_0_r. apply whole_limit; auto.
Qed.

Lemma value_ok_nil : value_ok [].
Proof. split; [apply Forall_nil|apply N.le_0_l]. Qed.

(** The newest record of a key in the file. *)
Definition nonvoid (r : hrec) : bool := match r_type r with OpVoid => false | _ => true end.
Fixpoint last_in (k : bytes) (L : layout) : option (N * hrec) :=
  match L with
  | [] => None
  | (o, r) :: L' => match last_in k L' with
                    | Some x => Some x
                    | None => if nonvoid r && beqb k (r_key r) then Some (o, r) else None
                    end
  end.

Lemma last_in_snoc k L o r :
  last_in k (L ++ [(o, r)]) = if nonvoid r && beqb k (r_key r) then Some (o, r) else last_in k L.
Proof.
  induction L as [|[a ra] L IH]; cbn [app last_in]; [destruct (nonvoid r && beqb k (r_key r)); reflexivity|].
  rewrite IH. destruct (nonvoid r && beqb k (r_key r)); reflexivity.
Qed.

Definition rec_value (r : hrec) : option bytes := if is_set_type (r_type r) then Some (r_val r) else None.
(** The map stored by a sequence of records: the newest record of a key counts. *)
Definition layout_map (L : layout) : amap :=
  fun k => match last_in k L with Some (_, r) => rec_value r | None => None end.

Definition bhd (B : N -> list N) : N -> N := fun b => hd 0 (B b).

Record ap_inv (d : hdb) (s : hst) (L : layout) (B : N -> list N) (m : amap) : Prop := mk_ap_inv {
  ap_recs : recs d (s_file s) L;
  ap_buckets : buckets d (s_file s) (bhd B);
  ap_chains : chains d (lget L) B;
  ap_find : forall k, find_in (lget L) k (B (primary_hash k (d_nb d))) = option_map fst (last_in k L);
  ap_map : forall k, m k = layout_map L k;
  ap_size : msize m (s_num s) (s_eff s) }.

Lemma last_in_lget k L base stop o r : contig base L stop -> last_in k L = Some (o, r) ->
  lget L o = Some r /\ r_key r = k /\ r_type r <> OpVoid.
Proof.
  revert base; induction L as [|[a ra] L IH]; intros base H E; cbn [last_in lget contig] in *; [discriminate|].
  destruct H as (-> & Hp & H). destruct (last_in k L) as [[o' r']|].
  - injection E as -> ->. destruct (IH _ H eq_refl) as (H1 & H2 & H3).
    destruct (contig_range _ _ _ _ _ H H1). destruct (N.eqb_spec base o); [lia|]. auto.
  - destruct (nonvoid ra) eqn:Ev; [|discriminate]. destruct (beqb_spec k (r_key ra)); [|discriminate].
    injection E as -> ->. rewrite N.eqb_refl. repeat split; auto. unfold nonvoid in Ev. destruct (r_type r); congruence.
Qed.

Lemma no_key_ext g g' k l : (forall o, In o l -> g' o = g o) -> no_key g k l -> no_key g' k l.
Proof. intros He H o r Ho E. apply (H o r Ho). rewrite <- (He o Ho). exact E. Qed.

Lemma buckets_ext d f V V' : (forall b, b < d_nb d -> V b = V' b) -> buckets d f V -> buckets d f V'.
Proof. intros He H b Hb. rewrite <- (He b Hb). auto. Qed.

(** Appending a record that becomes the head of the chain of its bucket. *)
Lemma ap_push d s L B m key t v tl s' m' :
  hdb_ok d -> ap_inv d s L B m -> key_ok key -> value_ok v -> t <> OpVoid ->
  let b := primary_hash key (d_nb d) in
  let r := set_data (d_c d) t 0 key v (hd 0 tl) in
  let off := fsize (s_file s) in
  (exists pre, B b = pre ++ tl /\ forall o x, In o pre -> lget L o = Some x -> r_key x = key) ->
  s_file s' = set_bucket d (fst (file_append (s_file s) (rec_bytes (d_c d) r))) b off ->
  fsize (s_file s') <= capacity d ->
  (forall k, m' k = if beqb k key then rec_value r else m k) ->
  msize m' (s_num s') (s_eff s') ->
  ap_inv d s' (L ++ [(off, r)]) (bupd B b (off :: tl)) m'.
Proof.
  intros Hd [HR HB HC HF HM HS] Hk Hv Ht b r off (pre & EB & Hpre) Hf Hcap Hm' Hsz.
  destruct Hd as (Hcfg & Hnb & Hmrs).
  assert (Hb : b < d_nb d) by (apply primary_hash_lt; exact Hnb).
  destruct (HC b Hb) as (HL & HN & HH).
  assert (HRc := HR). destruct HRc as (Hcon & Hmod & Hr).
  (* size facts *)
  assert (Hbase : base_size (d_c d) (r_key r) (r_val r) <= r_whole r).
  { cbn [r set_data r_key r_val r_whole].
    assert (G := align_num_ge (N.max (base_size (d_c d) key v) 0) (halign (d_c d)) (halign_nz _)). unfold r. cbn [set_data r_key r_val r_whole]. lia. }
  assert (Hpos : 0 < r_whole r) by (unfold base_size in Hbase; lia).
  assert (Happ : fsize (fst (file_append (s_file s) (rec_bytes (d_c d) r))) = off + r_whole r).
  { unfold file_append, file_write. cbn [fst fsize]. rewrite rec_bytes_blen by exact Hbase. unfold off. lia. }
  assert (Hge : off + r_whole r <= fsize (s_file s')).
  { rewrite Hf. unfold set_bucket, file_write at 1. cbn [fsize]. rewrite Happ. lia. }
  assert (Hoffok : child_ok (d_c d) off).
  { split; [exact Hmod|]. unfold capacity in Hcap. lia. }
  assert (Hchild : child_ok (d_c d) (hd 0 tl)).
  { destruct tl as [|o tl]; [apply child_ok_0|]. cbn [hd].
    destruct (linked_in _ _ o HL) as (ro & Eo & _); [rewrite EB; apply in_or_app; right; left; reflexivity|].
    destruct (Hr o ro Eo) as (_ & _ & Ha). split; [exact Ha|].
    destruct (contig_range _ _ _ _ _ Hcon Eo). unfold capacity, off in *. lia. }
  assert (Hok : rec_ok (d_c d) r) by (apply set_data_rec_ok; auto).
  destruct (append_ok d (s_file s) L (bhd B) r HR HB Hok) as (HR1 & HB1 & _).
  destruct (set_bucket_ok d _ _ _ b off HR1 HB1 Hb Hoffok) as (HR2 & HB2 & _).
  rewrite <- Hf in HR2, HB2.
  assert (Hg : forall o, lget (L ++ [(off, r)]) o = if off =? o then Some r else lget L o)
    by (intros o; apply (lget_snoc _ _ _ _ _ Hcon)).
  assert (Hold : forall o rx, lget L o = Some rx -> lget (L ++ [(off, r)]) o = lget L o).
  { intros o rx E. rewrite Hg. destruct (N.eqb_spec off o) as [<-|]; [|reflexivity].
    rewrite (lget_above _ _ _ off Hcon) in E by (unfold off; lia). discriminate. }
  assert (Hin : forall b' o, b' < d_nb d -> In o (B b') -> lget (L ++ [(off, r)]) o = lget L o).
  { intros b' o Hb' Ho. destruct (HC b' Hb') as (HL' & _). destruct (linked_in _ _ _ HL' Ho) as (ro & Eo & _).
    eapply Hold; eauto. }
  assert (Hnew : lget (L ++ [(off, r)]) off = Some r) by (rewrite Hg, N.eqb_refl; reflexivity).
  assert (Hntl : forall o, In o tl -> In o (B b)) by (intros o Ho; rewrite EB; apply in_or_app; auto).
  constructor.
  - exact HR2.
  - eapply buckets_ext; [|exact HB2]. intros b' _. unfold bhd, bupd. destruct (b' =? b); reflexivity.
  - intros b' Hb'. unfold bupd. destruct (N.eqb_spec b' b) as [->|Hne].
    + split; [|split].
      * cbn [linked]. split; [exists r; repeat split; auto|].
        apply (linked_ext (lget L)); [intros o Ho; apply (Hin b); auto|].
        rewrite EB in HL. apply linked_app_r in HL. exact HL.
      * constructor; [|rewrite EB in HN; clear -HN; induction pre as [|a pre IH]; cbn [app] in HN; [exact HN|inversion HN; auto]].
        intros Hi. destruct (linked_in _ _ off HL (Hntl _ Hi)) as (ro & Eo & _).
        rewrite (lget_above _ _ _ off Hcon) in Eo by (unfold off; lia). discriminate.
      * intros o ro [<-|Ho] E.
        -- rewrite Hnew in E. injection E as <-. reflexivity.
        -- rewrite (Hin b o Hb (Hntl _ Ho)) in E. eapply HH; eauto.
    + destruct (HC b' Hb') as (HL' & HN' & HH'). split; [|split; [exact HN'|]].
      * apply (linked_ext (lget L)); [intros o Ho; apply (Hin b'); auto|exact HL'].
      * intros o ro Ho E. rewrite (Hin b' o Hb' Ho) in E. eauto.
  - intros k. rewrite last_in_snoc. unfold bupd.
    assert (Hnv : nonvoid r = true) by (unfold nonvoid, r; cbn [set_data r_type]; destruct t; congruence).
    rewrite Hnv. change (r_key r) with key. cbn [andb].
    destruct (beqb_spec k key) as [->|Hne].
    + fold b. rewrite N.eqb_refl. cbn [find_in option_map fst]. rewrite Hnew.
      change (r_key r) with key. rewrite beqb_refl. reflexivity.
    + destruct (N.eqb_spec (primary_hash k (d_nb d)) b) as [Eb|Neb].
      * cbn [find_in]. rewrite Hnew. change (r_key r) with key. apply beqb_neq in Hne. rewrite Hne.
        rewrite <- HF, Eb, EB. apply beqb_neq in Hne.
        rewrite find_in_app by (intros o x Ho Ex; rewrite (Hpre o x Ho Ex); congruence).
        apply find_in_ext. intros o Ho. rewrite (Hin b o Hb (Hntl _ Ho)). reflexivity.
      * rewrite <- HF. apply find_in_ext. intros o Ho.
        rewrite (Hin _ o (primary_hash_lt k (d_nb d) Hnb) Ho). reflexivity.
  - intros k. rewrite Hm'. unfold layout_map. rewrite last_in_snoc.
    assert (Hnv : nonvoid r = true) by (unfold nonvoid, r; cbn [set_data r_type]; destruct t; congruence).
    rewrite Hnv. change (r_key r) with key. cbn [andb]. destruct (beqb k key); [reflexivity|]. apply HM.
  - exact Hsz.
Qed.

Lemma last_nil {A} (pre : list A) d : last pre d = d -> (forall x, In x pre -> x <> d) -> pre = [].
Proof.
  induction pre as [|a pre IH]; intros E H; [reflexivity|]. exfalso.
  cbn [last] in E. destruct pre as [|a' pre]; [exact (H a (or_introl eq_refl) E)|].
  assert (a' :: pre = []) by (apply IH; [exact E|intros x Hx; apply H; right; exact Hx]). discriminate.
Qed.

(** The update that a record stands for. *)
Definition rec_op (r : hrec) : ulop :=
  match r_type r with OpRemove => LRemove (r_key r) | _ => LSet (r_key r) (r_val r) end.

(** The effect of one operation in appending mode. *)
Lemma ap_step d s L B m key proc readable writable :
  hdb_ok d -> d_inplace d = false -> ap_inv d s L B m -> key_ok key -> action_ok (proc (map_seen m key readable)) ->
  let res := h_process d s key proc readable writable in
  let seen := map_seen m key readable in
  fsize (s_file (h_st res)) <= capacity d ->
  h_status res = HOk /\ h_seen res = Some seen /\
  s_log (h_st res) = s_log s ++ match proc seen with
     | ANoop => [] | ARemove => if writable then match last_in key L with Some _ => [LRemove key] | None => [] end else []
     | ASet v => if writable then [LSet key v] else [] end /\
  s_fbp (h_st res) = s_fbp s /\
  exists L' B' ext, (L' = L ++ ext /\ s_log (h_st res) = s_log s ++ map (fun x => rec_op (snd x)) ext) /\
    ap_inv d (h_st res) L' B' (map_apply m key (proc seen) writable).
Proof.
  intros Hd Hip Inv Hk Hproc res seen Hcap.
  assert (Inv' := Inv). destruct Inv' as [HR HB HC HF HM HS].
  assert (Hd' := Hd). destruct Hd' as (Hcfg & Hnb & Hmrs).
  set (b := primary_hash key (d_nb d)) in *.
  assert (Hb : b < d_nb d) by (apply primary_hash_lt; exact Hnb).
  destruct (HC b Hb) as (HL & HN & HH).
  assert (HRc := HR). destruct HRc as (Hcon & Hmod & Hr).
  assert (Hlen := chain_length d (s_file s) L B b HR HC Hb).
  subst res. unfold h_process in *. fold b in Hcap |- *. rewrite (HB b Hb) in *. change (bhd B b) with (hd 0 (B b)) in *.
  assert (Hm' : META_MIN_READ_SIZE <= (if readable then META_MIN_READ_SIZE else d_mrs d)) by (destruct readable; [lia|exact Hmrs]).
  destruct (walk_spec d (s_file s) L key _ (B b) _ 0 Hcfg HR HL Hm' Hlen)
    as [[Hno Hw]|(pre & o & post & r & mt & EB & Hno & Eo & Hkey & Hw & Hrm & M1 & M2 & M3 & M4 & M5 & M6)].
  - (* no record *)
    rewrite Hw in *.
    assert (Hlast : last_in key L = None).
    { assert (F := HF key). fold b in F. rewrite (find_in_none _ _ _ Hno) in F. destruct (last_in key L) as [[? ?]|]; [discriminate|reflexivity]. }
    assert (Hmk : m key = None) by (rewrite HM; unfold layout_map; rewrite Hlast; reflexivity).
    assert (Hseen : seen = None) by (unfold seen, map_seen; rewrite Hmk; reflexivity).
    rewrite Hseen. rewrite Hlast.
    assert (Hpa := Hproc). fold seen in Hpa. rewrite Hseen in Hpa.
    destruct (proc None) as [| |v] eqn:Ea.
    + cbn [h_status h_seen h_st] in *. rewrite app_nil_r. repeat split; auto.
      exists L, B, []. split; [cbn [map]; rewrite !app_nil_r; auto|]. destruct writable; exact Inv.
    + cbn [h_status h_seen h_st] in *. replace (if writable then [] else []) with (@nil ulop) by (destruct writable; reflexivity).
      rewrite app_nil_r. repeat split; auto. exists L, B, []. split; [cbn [map]; rewrite !app_nil_r; auto|]. destruct writable; [|exact Inv].
      constructor; auto; cbn [map_apply].
      * intros k. rewrite (adel_none m key Hmk k). apply HM.
      * eapply msize_ext; [|exact HS]. intros k. symmetry. apply (adel_none m key Hmk k).
    + destruct writable.
      2:{ cbn [h_status h_seen h_st] in *. rewrite app_nil_r. repeat split; auto. exists L, B, []. split; [cbn [map]; rewrite !app_nil_r; auto|exact Inv]. }
      unfold place, file_append in *. rewrite Hip in *. cbn [N.eqb] in *. change (0 =? 0) with true in *. cbn iota in *.
      cbn [count_update h_status h_seen h_st s_log s_fbp s_file] in *.
      repeat split; auto.
      eexists _, _, [(fsize (s_file s), set_data (d_c d) OpAdd 0 key v (hd 0 (B b)))].
      split; [split; [reflexivity|cbn [map snd]; unfold rec_op; cbn [set_data r_type r_key r_val]; try (destruct (is_set_type (r_type r))); reflexivity]|].
      eapply (ap_push d s L B m key OpAdd v (B b)); try reflexivity; auto.
      * congruence.
      * exists []. split; [reflexivity|intros ? ? []].
      * intros k. cbn [map_apply]. unfold aset. destruct (beqb_spec key k) as [->|Hne].
        -- rewrite beqb_refl. reflexivity.
        -- destruct (beqb_spec k key); [congruence|reflexivity].
      * cbn [s_num s_eff map_apply]. apply msize_add; assumption.
  - (* a record exists *)
    rewrite Hw in *. rewrite M1 in *.
    assert (Hlast : last_in key L = Some (o, r)).
    { assert (F := HF key). fold b in F. rewrite EB, (find_in_hit _ _ _ _ _ _ Hno Eo Hkey) in F.
      destruct (last_in key L) as [[o' r']|] eqn:El; [|discriminate]. cbn [option_map fst] in F. injection F as <-.
      destruct (last_in_lget _ _ _ _ _ _ Hcon El) as (E' & _). rewrite Eo in E'. injection E' as <-. reflexivity. }
    assert (Hmk : m key = rec_value r) by (rewrite HM; unfold layout_map; rewrite Hlast; reflexivity).
    assert (Hold : (if is_set_type (r_type r) then if readable then match meta_value (s_file s) o mt with Some v => Some (Some v) | None => None end
                    else Some (Some []) else Some None) = Some seen).
    { unfold seen, map_seen. rewrite Hmk. unfold rec_value. destruct (is_set_type (r_type r)); [|reflexivity].
      rewrite M6. destruct readable; reflexivity. }
    rewrite Hold in *. rewrite Hlast.
    assert (Hpa := Hproc). fold seen in Hpa.
    destruct (linked_hit _ _ _ _ _ ltac:(rewrite EB in HL; exact HL) Eo) as [Hchild Hty].
    assert (Hpar : (last pre 0 =? 0) = true -> pre = []).
    { intros E. apply N.eqb_eq in E. apply (last_nil _ 0 E). intros x Hx ->.
      rewrite EB in HL. destruct (linked_in _ _ 0 HL) as (r0 & E0 & _); [apply in_or_app; auto|].
      destruct (contig_range _ _ _ _ _ Hcon E0) as (H0 & _). assert (G := record_base_ge d). unfold METADATA_SIZE in G. lia. }
    (* the new head of the chain *)
    assert (Hhead : exists tl, (if d_inplace d || (last pre 0 =? 0) then m_child mt else hd 0 (B b)) = hd 0 tl /\
              exists pre', B b = pre' ++ tl /\ forall o' x, In o' pre' -> lget L o' = Some x -> r_key x = key).
    { rewrite Hip. cbn [orb]. destruct (last pre 0 =? 0) eqn:El.
      - rewrite (Hpar eq_refl) in *. exists post. split; [rewrite M2; exact Hchild|].
        exists [o]. split; [exact EB|]. intros o' x [<-|[]] Ex. rewrite Eo in Ex. injection Ex as <-. exact Hkey.
      - exists (B b). split; [reflexivity|]. exists []. split; [reflexivity|intros ? ? []]. }
    destruct Hhead as (tl & Htl & Hpre').
    destruct (proc seen) as [| |v] eqn:Ea.
    + cbn [h_status h_seen h_st] in *. rewrite app_nil_r. repeat split; auto. exists L, B, []. split; [cbn [map]; rewrite !app_nil_r; auto|]. destruct writable; exact Inv.
    + destruct writable.
      2:{ cbn [h_status h_seen h_st] in *. rewrite app_nil_r. repeat split; auto. exists L, B, []. split; [cbn [map]; rewrite !app_nil_r; auto|exact Inv]. }
      unfold update_found, place, file_append in *. rewrite Hip in *. cbn [andb orb] in *. change (0 =? 0) with true in *. cbn iota in *.
      rewrite Htl in *.
      destruct (count_update (s_num s) (s_eff s) key (is_set_type (r_type r)) (m_vsz mt) ARemove) as [n' e'] eqn:Ec.
      cbn [h_status h_seen h_st s_log s_fbp s_file] in *.
      repeat split; auto.
      eexists _, _, [(fsize (s_file s), set_data (d_c d) OpRemove 0 key [] (hd 0 tl))].
      split; [split; [reflexivity|cbn [map snd]; unfold rec_op; cbn [set_data r_type r_key r_val]; try (destruct (is_set_type (r_type r))); reflexivity]|].
      eapply (ap_push d s L B m key OpRemove [] tl); try reflexivity; auto.
      * apply value_ok_nil.
      * congruence.
      * intros k. cbn [map_apply]. unfold adel. destruct (beqb_spec key k) as [->|Hne].
        -- rewrite beqb_refl. reflexivity.
        -- destruct (beqb_spec k key); [congruence|reflexivity].
      * cbn [s_num s_eff map_apply]. unfold count_update in Ec. unfold rec_value in Hmk.
        destruct (is_set_type (r_type r)); injection Ec as <- <-.
        -- rewrite M5. apply msize_del; assumption.
        -- eapply msize_ext; [|exact HS]. intros k. symmetry. apply (adel_none m key Hmk k).
    + destruct writable.
      2:{ cbn [h_status h_seen h_st] in *. rewrite app_nil_r. repeat split; auto. exists L, B, []. split; [cbn [map]; rewrite !app_nil_r; auto|exact Inv]. }
      unfold update_found, place, file_append in *. rewrite Hip in *. cbn [andb orb] in *. change (0 =? 0) with true in *. cbn iota in *.
      rewrite Htl in *. rewrite M1 in *.
      destruct (count_update (s_num s) (s_eff s) key (is_set_type (r_type r)) (m_vsz mt) (ASet v)) as [n' e'] eqn:Ec.
      cbn [h_status h_seen h_st s_log s_fbp s_file] in *.
      repeat split; auto.
      eexists _, _, [(fsize (s_file s), set_data (d_c d) (if is_set_type (r_type r) then OpSet else OpAdd) 0 key v (hd 0 tl))].
      split; [split; [reflexivity|cbn [map snd]; unfold rec_op; cbn [set_data r_type r_key r_val]; try (destruct (is_set_type (r_type r))); reflexivity]|].
      eapply (ap_push d s L B m key (if is_set_type (r_type r) then OpSet else OpAdd) v tl); try reflexivity; auto.
      * destruct (is_set_type (r_type r)); congruence.
      * intros k. cbn [map_apply]. unfold aset. unfold rec_value. cbn [set_data r_type r_val].
        destruct (beqb_spec key k) as [->|Hne].
        -- rewrite beqb_refl. destruct (is_set_type (r_type r)); reflexivity.
        -- destruct (beqb_spec k key); [congruence|reflexivity].
      * cbn [s_num s_eff map_apply]. unfold count_update in Ec. unfold rec_value in Hmk.
        destruct (is_set_type (r_type r)); injection Ec as <- <-.
        -- rewrite M5. apply msize_replace; assumption.
        -- apply msize_add; assumption.
Qed.
