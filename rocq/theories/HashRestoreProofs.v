(** Scanning complete and truncated record files; importing. *)
From Verif Require Import Bytes MapSpec CodecModel CodecProofs FileModel HashUtilModel HashUtilProofs HashRecModel
  HashRecProofs FbpModel FbpProofs HashDbModel HashDbLayout HashDbAppend HashDbInPlace HashDbProofs HashRestoreModel.
Open Scope N_scope.

(** * Parsing a prefix of a record *)
Lemma get_var_ext b e n r : get_var b = Some (n, r) -> get_var (b ++ e) = Some (n, r ++ e).
Proof.
  unfold get_var, read_var. destruct (read_var_loop b 0 0) as [[n' c']|] eqn:E; [|discriminate].
  intros X; inversion X; subst. rewrite (read_var_loop_prefix _ e _ _ _ _ E).
  apply read_var_loop_bound in E. unfold blen in E.
  rewrite skipn_app. replace (N.to_nat c' - length b)%nat with 0%nat by lia. reflexivity.
Qed.
Lemma take_exact_ext n b e a r : take_exact n b = Some (a, r) -> take_exact n (b ++ e) = Some (a, r ++ e).
Proof.
  intros H. apply take_exact_Some in H. destruct H as [-> H]. rewrite <- app_assoc.
  apply take_exact_app_n. symmetry; exact H.
Qed.
Lemma parse_head_ext c maxr maxr' buf e cks t ch k v p crc st rest : maxr <= maxr' ->
  parse_head c maxr buf = Some (cks, t, ch, k, v, p, crc, st, rest) ->
  parse_head c maxr' (buf ++ e) = Some (cks, t, ch, k, v, p, crc, st, rest ++ e).
Proof.
  intros Hm. unfold parse_head. destruct buf as [|x b1]; [discriminate|]. cbn [app].
  destruct (N.land x 63 <? 3); [discriminate|].
  destruct (take_exact (ow c) b1) as [[cb b2]|] eqn:E1; [|discriminate]. rewrite (take_exact_ext _ _ e _ _ E1).
  destruct (get_var b2) as [[ks b3]|] eqn:E2; [|discriminate]. rewrite (get_var_ext _ e _ _ E2).
  destruct (N.ltb_spec MAX_KEY_SIZE ks) as [|K1]; [discriminate|]. destruct (N.ltb_spec maxr ks) as [|K2]; [discriminate|].
  destruct (N.ltb_spec maxr' ks) as [|_]; [lia|]. cbn [orb].
  destruct (get_var b3) as [[vs b4]|] eqn:E3; [|discriminate]. rewrite (get_var_ext _ e _ _ E3).
  destruct (N.ltb_spec MAX_VALUE_SIZE vs) as [|V1]; [discriminate|]. destruct (N.ltb_spec maxr vs) as [|V2]; [discriminate|].
  destruct (N.ltb_spec maxr' vs) as [|_]; [lia|]. cbn [orb].
  destruct (get_var b4) as [[ps b5]|] eqn:E4; [|discriminate]. rewrite (get_var_ext _ e _ _ E4).
  destruct (N.ltb_spec MAX_VALUE_SIZE ps) as [|P1]; [discriminate|]. destruct (N.ltb_spec maxr ps) as [|P2]; [discriminate|].
  destruct (N.ltb_spec maxr' ps) as [|_]; [lia|]. cbn [orb].
  destruct (take_exact (crcw c) b5) as [[crcb r]|] eqn:E5; [|discriminate]. rewrite (take_exact_ext _ _ e _ _ E5).
  intros X; inversion X; subst. rewrite !blen_app.
  replace (blen b4 + blen e - (blen b5 + blen e)) with (blen b4 - blen b5) by lia. reflexivity.
Qed.

Lemma firstn_app_l {A} (a b : list A) n : (n <= length a)%nat -> firstn n (a ++ b) = firstn n a.
Proof. intros H. rewrite firstn_app. replace (n - length a)%nat with 0%nat by lia. rewrite firstn_O. apply app_nil_r. Qed.

(** The metadata read from a file holding only a strict prefix of a record. *)
Lemma torn_read c g o r mrs m : rec_ok c r ->
  o <= fsize g < o + r_whole r -> dread (fdata g) o (N.to_nat (fsize g - o)) = firstn (N.to_nat (fsize g - o)) (rec_bytes c r) ->
  read_meta c g o mrs = Some m ->
  m_type m = r_type r /\ m_key m = r_key r /\ m_whole m = r_whole r /\
  (forall v, meta_value g o m = Some v -> v = r_val r).
Proof.
  intros Hr Hn Hd H. assert (Hr' := Hr). destruct Hr' as (Hk & Hv & Hks & Hb & Hw & Hm & Hch).
  assert (Lr := rec_bytes_blen c r Hb). assert (Lh := rec_head_blen c r).
  unfold read_meta in H. destruct (N.ltb_spec (fsize g) (o + min_record_size c)); [discriminate|].
  set (maxr := fsize g - o) in *. set (rs := N.min maxr mrs) in *.
  rewrite file_read_ok in H by (unfold rs, maxr; lia).
  assert (Hpre : forall k, k <= maxr -> dread (fdata g) o (N.to_nat k) = firstn (N.to_nat k) (rec_bytes c r)).
  { intros k Hle. assert (E : firstn (N.to_nat k) (dread (fdata g) o (N.to_nat maxr)) = dread (fdata g) o (N.to_nat k)).
    { replace (N.to_nat maxr) with (N.to_nat k + N.to_nat (maxr - k))%nat by lia. rewrite dread_app, firstn_app_l by (rewrite dread_length; lia).
      apply firstn_all2. rewrite dread_length; lia. }
    rewrite <- E, Hd, firstn_firstn. f_equal. lia. }
  rewrite Hpre in H by (unfold rs; lia).
  set (buf := firstn (N.to_nat rs) (rec_bytes c r)) in *.
  destruct (parse_head c maxr buf) as [[[[[[[[[cks t] ch] ks] vs] ps] crc] st] rest]|] eqn:E; [|discriminate].
  assert (E' := parse_head_ext c maxr (r_whole r) buf (skipn (N.to_nat rs) (rec_bytes c r)) _ _ _ _ _ _ _ _ _ ltac:(unfold maxr; lia) E).
  unfold buf in E' at 1. rewrite firstn_skipn in E'. unfold rec_bytes in E' at 1.
  rewrite parse_head_ok in E' by (auto; lia). injection E' as <- <- <- <- <- <- <- <- Erest.
  assert (Ebuf : blen buf = rs).
  { unfold buf, blen. rewrite firstn_length. unfold blen in Lr. unfold rs. lia. }
  assert (Ehdr : blen buf - blen rest = blen (rec_head c r)).
  { assert (X : blen (rec_bytes c r) = blen buf + blen (skipn (N.to_nat rs) (rec_bytes c r))).
    { rewrite <- blen_app. unfold buf. rewrite firstn_skipn. reflexivity. }
    assert (Y := f_equal blen Erest). rewrite !blen_app in Y. unfold rec_bytes in X at 1. rewrite !blen_app in X. lia. }
  rewrite Ehdr in H.
  assert (Ewhole : blen (rec_head c r) + blen (r_key r) + blen (r_val r) + rec_pad c r - (size_var (rec_pad c r) - 1) = r_whole r).
  { rewrite Lh. assert (P := size_var_pos (rec_pad c r)). unfold rec_pad, base_size in *. lia. }
  rewrite Ewhole in H.
  destruct (N.leb_spec (blen (r_key r)) (blen rest)) as [Lk|Lk].
  2:{ destruct (N.ltb_spec (fsize g) (o + r_whole r)); [discriminate|lia]. }
  rewrite !to_nat_blen in H.
  assert (Ekey : firstn (length (r_key r)) rest = r_key r).
  { assert (X := f_equal (firstn (length (r_key r))) Erest). rewrite firstn_len_app in X.
    rewrite firstn_app_l in X by (unfold blen in Lk; lia). symmetry; exact X. }
  rewrite Ekey in H.
  destruct (pad_check _ _); [|discriminate]. injection H as <-. cbn [m_type m_key m_whole].
  do 3 (split; [reflexivity|]). intros v. unfold meta_value. cbn [m_val m_hdr m_ksz m_vsz].
  destruct (N.leb_spec (blen (r_val r)) (blen (skipn (length (r_key r)) rest))) as [Lv|Lv].
  - intros X; injection X as <-.
    assert (X := f_equal (skipn (length (r_key r))) Erest). rewrite skipn_len_app in X.
    rewrite skipn_app in X. replace (length (r_key r) - length rest)%nat with 0%nat in X by (unfold blen in Lk; lia).
    cbn [skipn] in X. assert (Y := f_equal (firstn (length (r_val r))) X). rewrite firstn_len_app in Y.
    rewrite firstn_app_l in Y by (unfold blen in Lv; lia). symmetry; exact Y.
  - unfold read_body, file_read. destruct (N.leb_spec (o + blen (rec_head c r) + (blen (r_key r) + blen (r_val r))) (fsize g)) as [Hle|]; [|discriminate].
    intros X; injection X as <-.
    assert (Y := Hpre (blen (rec_head c r) + (blen (r_key r) + blen (r_val r))) ltac:(unfold maxr; lia)).
    replace (N.to_nat (blen (rec_head c r) + (blen (r_key r) + blen (r_val r))))
      with (length (rec_head c r) + N.to_nat (blen (r_key r) + blen (r_val r)))%nat in Y by (unfold blen; lia).
    rewrite dread_app in Y. unfold rec_bytes in Y.
    assert (Z := f_equal (skipn (length (rec_head c r))) Y).
    rewrite skipn_app, dread_length, Nat.sub_diag, skipn_all2, skipn_O in Z by (rewrite dread_length; lia).
    cbn [app] in Z. rewrite skipn_firstn_comm', skipn_len_app in Z.
    change (N.of_nat (length (rec_head c r))) with (blen (rec_head c r)) in Z. rewrite Z. replace (length (rec_head c r) + N.to_nat (blen (r_key r) + blen (r_val r)) - length (rec_head c r))%nat
      with (length (r_key r ++ r_val r)) by (rewrite app_length; unfold blen; lia).
    rewrite app_assoc, firstn_len_app, to_nat_blen. apply skipn_len_app.
Qed.

(** * Scanning complete records *)
Definition recs_in (c : hcfg) (f : file) (L : layout) : Prop :=
  forall o r, In (o, r) L -> rec_at c f o r /\ rec_ok c r.
Definition rec_ops (L : layout) : list ulop :=
  map (fun x => rec_op (snd x)) (filter (fun x => nonvoid (snd x)) L).
Definition rec_offs (L : layout) : list N := map fst (filter (fun x => nonvoid (snd x)) L).

Lemma read_checked_ok c f o r mrs : hcfg_ok c -> META_MIN_READ_SIZE <= mrs -> rec_at c f o r -> rec_ok c r ->
  exists m, read_checked c f o mrs = Some m /\ m_type m = r_type r /\ m_key m = r_key r /\ m_whole m = r_whole r /\
    meta_value f o m = Some (r_val r).
Proof.
  intros Hc Hm Ha Hr. destruct (read_meta_ok c f o r mrs Hc Hr Ha Hm) as (m & E & E1 & _ & E2 & E3 & _ & _ & E4 & E5).
  exists m. unfold read_checked. rewrite E, E5. auto.
Qed.

Lemma contig_le base L stop : contig base L stop -> base + N.of_nat (length L) <= stop.
Proof.
  revert base; induction L as [|[o r] L IH]; intros base H; cbn [contig length] in *; [lia|].
  destruct H as (_ & Hp & H). apply IH in H. lia.
Qed.

Lemma replay_prefix c f mrs skip lim L : hcfg_ok c -> META_MIN_READ_SIZE <= mrs ->
  forall base stop fuel, contig base L stop -> stop <= lim -> recs_in c f L ->
  replay (length L + fuel) c f mrs skip lim base
  = (rec_ops L ++ fst (replay fuel c f mrs skip lim stop), snd (replay fuel c f mrs skip lim stop)).
Proof.
  intros Hc Hm. induction L as [|[o r] L IH]; intros base stop fuel Hcon Hle Hin; cbn [contig length plus] in *.
  - subst. cbn. destruct (replay fuel c f mrs skip lim stop); reflexivity.
  - destruct Hcon as (-> & Hp & Hcon). assert (G := contig_le _ _ _ Hcon).
    destruct (Hin base r (or_introl eq_refl)) as [Ha Hr].
    destruct (read_checked_ok c f base r mrs Hc Hm Ha Hr) as (m & E & E1 & E2 & E3 & E4).
    cbn [replay]. destruct (N.ltb_spec base lim) as [_|]; [|lia]. rewrite E, E1, E2, E3.
    rewrite (IH _ _ fuel Hcon Hle (fun o r Hi => Hin o r (or_intror Hi))).
    unfold rec_ops. cbn [filter snd]. rewrite E4.
    assert (En : nonvoid r = match r_type r with OpVoid => false | _ => true end) by reflexivity.
    assert (Eo : rec_op r = match r_type r with OpRemove => LRemove (r_key r) | _ => LSet (r_key r) (r_val r) end) by reflexivity.
    destruct (r_type r) eqn:Et; rewrite En; cbn [map snd app]; rewrite ?Eo; reflexivity.
Qed.

Lemma extract_prefix c f skip lim L : hcfg_ok c ->
  forall base stop fuel, contig base L stop -> stop <= lim -> recs_in c f L ->
  extract (length L + fuel) c f skip lim base
  = (rec_offs L ++ fst (extract fuel c f skip lim stop), snd (extract fuel c f skip lim stop)).
Proof.
  intros Hc. induction L as [|[o r] L IH]; intros base stop fuel Hcon Hle Hin; cbn [contig length plus] in *.
  - subst. cbn. destruct (extract fuel c f skip lim stop); reflexivity.
  - destruct Hcon as (-> & Hp & Hcon). assert (G := contig_le _ _ _ Hcon).
    destruct (Hin base r (or_introl eq_refl)) as [Ha Hr].
    destruct (read_meta_ok c f base r META_MIN_READ_SIZE Hc Hr Ha (N.le_refl _)) as (m & E & E1 & _ & _ & E3 & _).
    cbn [extract]. destruct (N.ltb_spec base lim) as [_|]; [|lia]. rewrite E, E1, E3.
    rewrite (IH _ _ fuel Hcon Hle (fun o r Hi => Hin o r (or_intror Hi))).
    unfold rec_offs. cbn [filter snd].
    assert (En : nonvoid r = match r_type r with OpVoid => false | _ => true end) by reflexivity.
    destruct (r_type r) eqn:Et; rewrite En; cbn [map fst app]; reflexivity.
Qed.

(** * Importing *)
Definition ulop_ok (l : ulop) : Prop := match l with LSet k v => key_ok k /\ value_ok v | LRemove k => key_ok k end.
Definition imp_hop (l : ulop) : hop :=
  match l with
  | LSet k v => mkhop k (proc_set v true) false true
  | LRemove k => mkhop k proc_remove false true
  end.
Lemma apply_ops_run d s l : apply_ops d s l = fst (h_run d s (map imp_hop l)).
Proof.
  revert s; induction l as [|[k v|k] l IH]; intros s; cbn [apply_ops map h_run imp_hop]; [reflexivity| |].
  - rewrite IH. cbn [o_key o_proc o_readable o_writable]. fold (h_set d s k v). destruct (h_run d _ _); reflexivity.
  - rewrite IH. cbn [o_key o_proc o_readable o_writable]. fold (h_remove d s k). destruct (h_run d _ _); reflexivity.
Qed.

Lemma map_apply_imp m l :
  let o := imp_hop l in
  meq (map_apply m (o_key o) (o_proc o (map_seen m (o_key o) (o_readable o))) (o_writable o)) (log_run m [l]).
Proof.
  destruct l as [k v|k]; cbn [imp_hop o_key o_proc o_readable o_writable log_run map_apply]; unfold map_seen.
  - destruct (m k); intros x; reflexivity.
  - destruct (m k) eqn:E; [intros x; reflexivity|]. intros x. symmetry. apply adel_none; exact E.
Qed.
Lemma imp_ops_ok m l : Forall ulop_ok l -> ops_ok m (map imp_hop l).
Proof.
  revert m; induction l as [|o l IH]; intros m H; cbn [map ops_ok]; [exact I|]. inversion H; subst.
  destruct o as [k v|k]; cbn [ulop_ok imp_hop o_key o_proc o_readable o_writable] in *.
  - destruct H2 as [Hk Hv]. split; [exact Hk|]. split; [|apply IH; assumption]. unfold proc_set, map_seen. destruct (m k); exact Hv.
  - split; [exact H2|]. split; [|apply IH; assumption]. unfold proc_remove, map_seen. destruct (m k); exact I.
Qed.
Lemma imp_map_run m l : meq (fst (map_run m (map imp_hop l))) (log_run m l).
Proof.
  revert m; induction l as [|o l IH]; intros m; [intros x; reflexivity|].
  change (o :: l) with ([o] ++ l) at 2. rewrite log_run_app. cbn [map map_run].
  assert (H := map_apply_imp m o). cbv zeta in H.
  specialize (IH (map_apply m (o_key (imp_hop o)) (o_proc (imp_hop o) (map_seen m (o_key (imp_hop o)) (o_readable (imp_hop o)))) (o_writable (imp_hop o)))).
  destruct (map_run _ (map imp_hop l)) as [m' out]. cbn [fst] in *. intros x. rewrite IH. apply log_run_ext; exact H.
Qed.

Lemma apply_ops_spec d s m l : hdb_ok d -> h_inv d s m -> Forall ulop_ok l ->
  fsize (s_file (apply_ops d s l)) <= capacity d ->
  exists m', h_inv d (apply_ops d s l) m' /\ meq m' (log_run m l).
Proof.
  intros Hd Hi Hl Hc. rewrite apply_ops_run in *.
  destruct (h_history d (map imp_hop l) s m Hd Hi (imp_ops_ok m l Hl) Hc) as (_ & H & _).
  eexists. split; [exact H|]. apply imp_map_run.
Qed.

Lemma h_process_ro d s key readable : h_st (h_process d s key proc_get readable false) = s.
Proof.
  unfold h_process. destruct (get_bucket _ _ _) as [top|]; [|reflexivity].
  destruct (walk _ _ _ _ _ _ _) as [|off parent mt| |]; try reflexivity.
  destruct (if is_set_type (m_type mt) then _ else _); reflexivity.
Qed.

Definition layout_ok (L : layout) : Prop :=
  forall o r, In (o, r) L -> nonvoid r = true -> key_ok (r_key r) /\ (is_set_type (r_type r) = true -> value_ok (r_val r)).

Lemma apply_back_grows d c f skip offs : forall s dead, fsize (s_file s) <= fsize (s_file (fst (apply_back d s dead c f skip offs))).
Proof.
  induction offs as [|o offs IH]; intros s dead; cbn [apply_back]; [cbn; lia|].
  destruct (read_checked c f o (d_mrs d)) as [m|]; [|destruct skip; [apply IH|cbn; lia]].
  assert (A : forall v, fsize (s_file s) <= fsize (s_file (fst
     (if existsb (beqb (m_key m)) dead then apply_back d s dead c f skip offs
      else match h_status (h_process d s (m_key m) (proc_set v false) false true) with
           | HOk => apply_back d (h_st (h_process d s (m_key m) (proc_set v false) false true)) dead c f skip offs
           | _ => (h_st (h_process d s (m_key m) (proc_set v false) false true), ScanBroken) end)))).
  { intros v. destruct (existsb _ dead); [apply IH|].
    assert (G := h_process_grows d s (m_key m) (proc_set v false) false true).
    destruct (h_status _); try exact G. specialize (IH (h_st (h_process d s (m_key m) (proc_set v false) false true)) dead). lia. }
  destruct (m_type m).
  - cbn; lia.
  - destruct (meta_value f o m) as [v|]; [apply A|destruct skip; [apply IH|cbn; lia]].
  - cbv zeta. destruct (h_status _); [|cbn; lia|cbn; lia|cbn; lia].
    destruct (h_seen _) as [[x|]|]; apply IH.
  - destruct (meta_value f o m) as [v|]; [apply A|destruct skip; [apply IH|cbn; lia]].
Qed.

Lemma existsb_beqb k dead : existsb (beqb k) dead = true <-> In k dead.
Proof.
  rewrite existsb_exists. split.
  - intros (x & Hx & E). apply beqb_eq in E. subst; exact Hx.
  - intros H. exists k. split; [exact H|apply beqb_refl].
Qed.

(** The map made by keeping [m], then the newest records of [L] not dead. *)
Definition back_map (m : amap) (dead : list bytes) (L : layout) : amap :=
  fun k => match m k with
           | Some v => Some v
           | None => if existsb (beqb k) dead then None else layout_map L k
           end.

(** The records [L] can be read from their offsets. *)
Definition reads_in (c : hcfg) (f : file) (mrs : N) (L : layout) : Prop :=
  forall o r, In (o, r) L -> nonvoid r = true ->
  exists m, read_checked c f o mrs = Some m /\ m_type m = r_type r /\ m_key m = r_key r /\ meta_value f o m = Some (r_val r).
Lemma recs_reads c f mrs L : hcfg_ok c -> META_MIN_READ_SIZE <= mrs -> recs_in c f L -> reads_in c f mrs L.
Proof.
  intros Hc Hm H o r Hi _. destruct (H o r Hi) as [Ha Hr].
  destruct (read_checked_ok c f o r mrs Hc Hm Ha Hr) as (mt & E & E1 & E2 & _ & E4). exists mt. auto.
Qed.

Lemma apply_back_spec d c f skip L : hdb_ok d -> reads_in c f (d_mrs d) L -> layout_ok L ->
  forall s dead m, h_inv d s m ->
  let res := apply_back d s dead c f skip (rev (rec_offs L)) in
  fsize (s_file (fst res)) <= capacity d ->
  snd res = ScanOk /\ exists m', h_inv d (fst res) m' /\ meq m' (back_map m dead L).
Proof.
  intros Hd. induction L as [|[o r] L IH] using rev_ind; intros Hin Hok s dead m Hi.
  - cbn. intros _. split; [reflexivity|]. exists m. split; [exact Hi|]. intros k. unfold back_map.
    destruct (m k); [reflexivity|]. destruct (existsb _ dead); reflexivity.
  - assert (Hin' : reads_in c f (d_mrs d) L) by (intros o' r' H; apply Hin, in_or_app; left; exact H).
    assert (Hok' : layout_ok L) by (intros o' r' H; apply (Hok o'), in_or_app; left; exact H).
    assert (Hlast : In (o, r) (L ++ [(o, r)])) by (apply in_or_app; right; left; reflexivity).
    assert (LM : forall k, layout_map (L ++ [(o, r)]) k
       = if nonvoid r && beqb k (r_key r) then rec_value r else layout_map L k).
    { intros k. unfold layout_map. rewrite last_in_snoc. destruct (nonvoid r && beqb k (r_key r)); reflexivity. }
    specialize (IH Hin' Hok').
    unfold rec_offs. rewrite filter_app, map_app. cbn [filter snd].
    destruct (nonvoid r) eqn:Env.
    2:{ cbn [map]. rewrite app_nil_r. cbv zeta. intros Hcap. destruct (IH s dead m Hi Hcap) as (E & m' & H1 & H2).
        split; [exact E|]. exists m'. split; [exact H1|]. intros k. rewrite H2. unfold back_map. rewrite LM. reflexivity. }
    cbn [map fst]. rewrite rev_app_distr. cbn [rev app]. fold (rec_offs L).
    destruct (Hok o r Hlast Env) as [Hkey Hval].
    destruct (Hin o r Hlast Env) as (mt & E & E1 & E2 & E4).
    cbn [apply_back]. rewrite E, E1, E2.
    assert (SET : is_set_type (r_type r) = true ->
      let res := if existsb (beqb (r_key r)) dead then apply_back d s dead c f skip (rev (rec_offs L))
        else match h_status (h_process d s (r_key r) (proc_set (r_val r) false) false true) with
           | HOk => apply_back d (h_st (h_process d s (r_key r) (proc_set (r_val r) false) false true)) dead c f skip (rev (rec_offs L))
           | _ => (h_st (h_process d s (r_key r) (proc_set (r_val r) false) false true), ScanBroken) end in
      fsize (s_file (fst res)) <= capacity d ->
      snd res = ScanOk /\ exists m', h_inv d (fst res) m' /\ meq m' (back_map m dead (L ++ [(o, r)]))).
    { intros Hset res Hcap. subst res.
      assert (RV : rec_value r = Some (r_val r)) by (unfold rec_value; rewrite Hset; reflexivity).
      destruct (existsb (beqb (r_key r)) dead) eqn:Edead.
      - destruct (IH s dead m Hi Hcap) as (E0 & m' & H1 & H2). split; [exact E0|]. exists m'. split; [exact H1|].
        intros k. rewrite H2. unfold back_map. rewrite LM. cbn [andb]. destruct (m k); [reflexivity|].
        destruct (beqb_spec k (r_key r)) as [->|]; [rewrite Edead|]; reflexivity.
      - assert (Hact : action_ok (proc_set (r_val r) false (map_seen m (r_key r) false))).
        { unfold proc_set, map_seen. destruct (m (r_key r)); [exact I|]. exact (Hval Hset). }
        assert (Hcap1 : fsize (s_file (h_st (h_process d s (r_key r) (proc_set (r_val r) false) false true))) <= capacity d).
        { destruct (h_status _) in Hcap; try exact Hcap.
          assert (G := apply_back_grows d c f skip (rev (rec_offs L)) (h_st (h_process d s (r_key r) (proc_set (r_val r) false) false true)) dead). lia. }
        destruct (h_step d s m (r_key r) (proc_set (r_val r) false) false true Hd Hi Hkey Hact Hcap1) as (S1 & _ & _ & S2).
        rewrite S1 in Hcap |- *. destruct (IH _ dead _ S2 Hcap) as (E0 & m' & H1 & H2). split; [exact E0|]. exists m'. split; [exact H1|].
        intros k. rewrite H2. unfold back_map. rewrite LM. cbn [andb map_apply]. unfold map_seen, proc_set.
        destruct (m (r_key r)) as [v|] eqn:Em.
        + destruct (m k) eqn:Ek; [reflexivity|]. destruct (beqb_spec k (r_key r)) as [->|]; [congruence|reflexivity].
        + unfold aset. destruct (beqb_spec (r_key r) k) as [Hke|Hne].
          * subst k. rewrite beqb_refl, Em, Edead. symmetry; exact RV.
          * destruct (m k); [reflexivity|]. destruct (beqb_spec k (r_key r)); [congruence|reflexivity]. }
    cbv zeta in SET |- *. destruct (r_type r) eqn:Et; cbn [is_set_type] in SET.
    + unfold nonvoid in Env. rewrite Et in Env. discriminate.
    + rewrite E4. apply SET. reflexivity.
    + clear SET. intros Hcap.
      assert (RV : rec_value r = None) by (unfold rec_value; rewrite Et; reflexivity).
      assert (Hs := h_process_ro d s (r_key r) false).
      assert (Hcap1 : fsize (s_file (h_st (h_process d s (r_key r) proc_get false false))) <= capacity d).
      { rewrite Hs. assert (G1 := apply_back_grows d c f skip (rev (rec_offs L)) s dead).
        assert (G2 := apply_back_grows d c f skip (rev (rec_offs L)) s (r_key r :: dead)).
        destruct (h_status _) in Hcap; [|exact Hcap|exact Hcap|exact Hcap].
        destruct (h_seen _) as [[x|]|] in Hcap; lia. }
      destruct (h_step d s m (r_key r) proc_get false false Hd Hi Hkey I Hcap1) as (S1 & S2 & _).
      rewrite S1, S2 in Hcap |- *. unfold map_seen in Hcap |- *.
      destruct (m (r_key r)) as [v|] eqn:Em.
      * destruct (IH s dead m Hi Hcap) as (E0 & m' & H1 & H2). split; [exact E0|]. exists m'. split; [exact H1|].
        intros k. rewrite H2. unfold back_map. rewrite LM. cbn [andb]. destruct (m k) eqn:Ek; [reflexivity|].
        destruct (beqb_spec k (r_key r)) as [->|]; [congruence|reflexivity].
      * destruct (IH s (r_key r :: dead) m Hi Hcap) as (E0 & m' & H1 & H2). split; [exact E0|]. exists m'. split; [exact H1|].
        intros k. rewrite H2. unfold back_map. rewrite LM. cbn [andb existsb]. destruct (m k) eqn:Ek; [reflexivity|].
        destruct (beqb_spec k (r_key r)) as [->|]; cbn [orb].
        -- rewrite RV. destruct (existsb _ dead); reflexivity.
        -- reflexivity.
    + rewrite E4. apply SET. reflexivity.
Qed.

Lemma log_layout m L0 L : meq m (layout_map L0) -> meq (log_run m (rec_ops L)) (layout_map (L0 ++ L)).
Proof.
  intros H. induction L as [|[o r] L IH] using rev_ind.
  - rewrite app_nil_r. exact H.
  - unfold rec_ops in *. rewrite filter_app, map_app, log_run_app, app_assoc. cbn [filter snd].
    intros k. unfold layout_map at 1. rewrite last_in_snoc.
    destruct (nonvoid r) eqn:Env; cbn [andb map snd log_run].
    + unfold rec_op. unfold nonvoid in Env. destruct (r_type r) eqn:Et; try discriminate; cbn [log_run is_set_type].
      * unfold aset. destruct (beqb_spec (r_key r) k) as [->|].
        -- rewrite beqb_refl. unfold rec_value. rewrite Et. reflexivity.
        -- destruct (beqb_spec k (r_key r)); [congruence|]. apply IH.
      * unfold adel. destruct (beqb_spec (r_key r) k) as [->|].
        -- rewrite beqb_refl. unfold rec_value. rewrite Et. reflexivity.
        -- destruct (beqb_spec k (r_key r)); [congruence|]. apply IH.
      * unfold aset. destruct (beqb_spec (r_key r) k) as [->|].
        -- rewrite beqb_refl. unfold rec_value. rewrite Et. reflexivity.
        -- destruct (beqb_spec k (r_key r)); [congruence|]. apply IH.
    + apply IH.
Qed.

Lemma rec_ops_ok L : layout_ok L -> Forall ulop_ok (rec_ops L).
Proof.
  intros H. apply Forall_forall. intros x Hx. unfold rec_ops in Hx. apply in_map_iff in Hx. destruct Hx as ([o r] & <- & Hx).
  apply filter_In in Hx. destruct Hx as [Hi Hn]. cbn [snd] in *. destruct (H o r Hi Hn) as [Hk Hv].
  unfold rec_op. unfold nonvoid in Hn. destruct (r_type r); try discriminate; cbn [ulop_ok is_set_type] in *; auto.
Qed.

(** * Complete imports *)
Definition same_lookups (d : hdb) (s : hst) (m : amap) : Prop := exists m', h_inv d s m' /\ meq m' m.

(** A file holding the records [L] from [base] to [stop], whatever follows. *)
Definition segment (c : hcfg) (f : file) (base : N) (L : layout) (stop : N) : Prop :=
  contig base L stop /\ recs_in c f L /\ stop <= fsize f.

Lemma scan_done_replay fuel c f mrs skip lim : replay (S fuel) c f mrs skip lim lim = ([], ScanOk).
Proof. cbn [replay]. rewrite N.ltb_irrefl. reflexivity. Qed.
Lemma scan_done_extract fuel c f skip lim : extract (S fuel) c f skip lim lim = ([], ScanOk).
Proof. cbn [extract]. rewrite N.ltb_irrefl. reflexivity. Qed.

Lemma replay_segment c f mrs skip base L stop : hcfg_ok c -> META_MIN_READ_SIZE <= mrs -> segment c f base L stop ->
  replay (S (N.to_nat (fsize f))) c f mrs skip stop base = (rec_ops L, ScanOk).
Proof.
  intros Hc Hm (Hcon & Hin & Hs). assert (G := contig_le _ _ _ Hcon).
  replace (S (N.to_nat (fsize f))) with (length L + S (N.to_nat (fsize f) - length L))%nat by lia.
  rewrite (replay_prefix c f mrs skip stop L Hc Hm base stop _ Hcon (N.le_refl _) Hin), scan_done_replay.
  cbn [fst snd]. rewrite app_nil_r. reflexivity.
Qed.
Lemma extract_segment c f skip base L stop : hcfg_ok c -> segment c f base L stop ->
  extract (S (N.to_nat (fsize f))) c f skip stop base = (rec_offs L, ScanOk).
Proof.
  intros Hc (Hcon & Hin & Hs). assert (G := contig_le _ _ _ Hcon).
  replace (S (N.to_nat (fsize f))) with (length L + S (N.to_nat (fsize f) - length L))%nat by lia.
  rewrite (extract_prefix c f skip stop L Hc base stop _ Hcon (N.le_refl _) Hin), scan_done_extract.
  cbn [fst snd]. rewrite app_nil_r. reflexivity.
Qed.

Definition limit_at (f : file) (e : option N) (stop : N) : Prop := scan_limit f e = stop.

Lemma import_forward_segment d s m c f skip base e L0 L stop :
  hdb_ok d -> h_inv d s m -> meq m (layout_map L0) -> hcfg_ok c -> segment c f base L stop -> layout_ok L ->
  scan_limit f e = stop ->
  let res := import_forward d s c f skip base e in
  fsize (s_file (fst res)) <= capacity d ->
  snd res = ScanOk /\ same_lookups d (fst res) (layout_map (L0 ++ L)).
Proof.
  intros Hd Hi Hm Hc Hseg Hok He. cbv zeta. unfold import_forward. rewrite He.
  rewrite (replay_segment c f (d_mrs d) skip base L stop Hc ltac:(apply Hd) Hseg). cbn [fst snd]. intros Hcap.
  split; [reflexivity|]. destruct (apply_ops_spec d s m (rec_ops L) Hd Hi (rec_ops_ok L Hok) Hcap) as (m' & H1 & H2).
  exists m'. split; [exact H1|]. intros k. rewrite H2. apply log_layout; exact Hm.
Qed.

Lemma import_backward_segment d cap c f skip base e L stop :
  hdb_ok d -> 1 <= cap -> hcfg_ok c -> segment c f base L stop -> layout_ok L ->
  scan_limit f e = stop ->
  let res := import_backward d (h_init d cap) c f skip base e in
  fsize (s_file (fst res)) <= capacity d ->
  snd res = ScanOk /\ same_lookups d (fst res) (layout_map L).
Proof.
  intros Hd Hcp Hc Hseg Hok He. cbv zeta. unfold import_backward. rewrite He.
  rewrite (extract_segment c f skip base L stop Hc Hseg). intros Hcap.
  exact (apply_back_spec d c f skip L Hd (recs_reads c f (d_mrs d) L Hc ltac:(apply Hd) ltac:(apply Hseg)) Hok (h_init d cap) [] aempty (h_init_inv d cap Hd Hcp) Hcap).
Qed.

Lemma same_lookups_get d s m key : hdb_ok d -> same_lookups d s m -> key_ok key -> fsize (s_file s) <= capacity d ->
  h_get d s key = mkhres s HOk (Some (m key)).
Proof. intros Hd (m' & Hi & He) Hk Hc. rewrite (h_get_spec d s m' key Hd Hi Hk Hc), He. reflexivity. Qed.
Lemma same_lookups_size d s m : same_lookups d s m -> msize m (s_num s) (s_eff s).
Proof. intros (m' & Hi & He). apply (msize_ext m' m); [exact He|]. apply (h_inv_size d); exact Hi. Qed.

(** * Layouts of histories *)
Definition map_ok (m : amap) : Prop := forall k v, m k = Some v -> key_ok k /\ value_ok v.
Lemma map_ok_apply m key a w : map_ok m -> key_ok key -> action_ok a -> map_ok (map_apply m key a w).
Proof.
  intros H Hk Ha. unfold map_apply. destruct w; [|exact H]. destruct a as [| |v]; [exact H| |]; intros k x.
  - unfold adel. destruct (beqb_spec key k); [discriminate|apply H].
  - unfold aset. destruct (beqb_spec key k) as [<-|]; [|apply H]. intros E. injection E as <-. split; [exact Hk|exact Ha].
Qed.
Lemma map_ok_run ops : forall m, map_ok m -> ops_ok m ops -> map_ok (fst (map_run m ops)).
Proof.
  induction ops as [|o ops IH]; intros m Hm H; cbn [map_run ops_ok] in *; [exact Hm|].
  destruct H as (Hk & Ha & H). specialize (IH _ (map_ok_apply m _ _ (o_writable o) Hm Hk Ha) H).
  destruct (map_run _ ops); exact IH.
Qed.
Lemma map_ok_empty : map_ok aempty. Proof. intros k v; discriminate. Qed.

Lemma recs_segment d f L : recs d f L -> segment (d_c d) f (record_base d) L (fsize f).
Proof.
  intros (Hcon & _ & H). split; [exact Hcon|]. split; [|lia]. intros o r Hi.
  destruct (H o r (in_lget _ _ _ _ _ Hcon Hi)) as (A & B & _). auto.
Qed.

(** One operation appends at most one record. *)
Lemma ap_step1 d s L B m key proc readable writable :
  hdb_ok d -> d_inplace d = false -> ap_inv d s L B m -> layout_ok L -> key_ok key -> action_ok (proc (map_seen m key readable)) ->
  let res := h_process d s key proc readable writable in
  fsize (s_file (h_st res)) <= capacity d ->
  exists B' ext, ap_inv d (h_st res) (L ++ ext) B' (map_apply m key (proc (map_seen m key readable)) writable) /\
    layout_ok (L ++ ext) /\ (length ext <= 1)%nat /\ h_status res = HOk.
Proof.
  intros Hd Hip Inv Hok Hk Ha res Hcap.
  destruct (ap_step d s L B m key proc readable writable Hd Hip Inv Hk Ha Hcap) as (S0 & _ & S1 & _ & L' & B' & ext & (-> & S2) & S3).
  exists B', ext. split; [exact S3|]. subst res. rewrite S1 in S2. apply app_inv_head in S2.
  set (a := proc (map_seen m key readable)) in *.
  assert (K : (length ext <= 1)%nat /\ forall x, In x ext -> exists u, rec_op (snd x) = u /\ ulop_ok u).
  { destruct a as [| |v].
    - destruct ext; [|discriminate]. split; [cbn; lia|intros x []].
    - destruct writable; [destruct (last_in key L)|]; try (destruct ext; [|discriminate]; split; [cbn; lia|intros x []]).
      destruct ext as [|x [|y e]]; try discriminate. split; [cbn; lia|]. intros x' [<-|[]]. exists (LRemove key).
      cbn [map] in S2. split; [congruence|exact Hk].
    - destruct writable; try (destruct ext; [|discriminate]; split; [cbn; lia|intros x []]).
      destruct ext as [|x [|y e]]; try discriminate. split; [cbn; lia|]. intros x' [<-|[]]. exists (LSet key v).
      cbn [map] in S2. split; [congruence|]. split; [exact Hk|exact Ha]. }
  destruct K as [K1 K2]. split; [|split; [exact K1|exact S0]]. intros o r Hi Hn. apply in_app_or in Hi. destruct Hi as [Hi|Hi]; [exact (Hok o r Hi Hn)|].
  destruct (K2 _ Hi) as (u & Eu & Hu). cbn [snd] in Eu. unfold rec_op in Eu. unfold nonvoid in Hn.
  destruct (r_type r); try discriminate; subst u; cbn [ulop_ok is_set_type] in *; intuition discriminate.
Qed.

(** The layouts along a history in the appending mode. *)
Lemma ap_trace d s0 L0 B0 m0 : hdb_ok d -> d_inplace d = false -> ap_inv d s0 L0 B0 m0 -> layout_ok L0 ->
  forall ops, ops_ok m0 ops -> fsize (s_file (fst (h_run d s0 ops))) <= capacity d ->
  exists Ls : nat -> layout, Ls O = L0 /\
    (forall i, (i <= length ops)%nat -> layout_ok (Ls i) /\ exists B, ap_inv d (fst (h_run d s0 (firstn i ops))) (Ls i) B (fst (map_run m0 (firstn i ops)))) /\
    (forall i, (i < length ops)%nat -> exists ext, Ls (S i) = Ls i ++ ext /\ (length ext <= 1)%nat).
Proof.
  intros Hd Hip. revert s0 L0 B0 m0. intros s0 L0 B0 m0 Inv Hok ops. revert s0 L0 B0 m0 Inv Hok.
  induction ops as [|o ops IH]; intros s0 L0 B0 m0 Inv Hok Hops Hcap.
  - exists (fun _ => L0). split; [reflexivity|]. split; [|intros i Hi; cbn in Hi; lia].
    intros i Hi. rewrite firstn_nil. split; [exact Hok|]. exists B0. exact Inv.
  - cbn [ops_ok] in Hops. destruct Hops as (Hk & Ha & Hops). cbn [h_run] in Hcap.
    set (s1 := h_st (h_process d s0 (o_key o) (o_proc o) (o_readable o) (o_writable o))) in *.
    assert (G := h_run_grows d ops s1).
    assert (Hcap' : fsize (s_file (fst (h_run d s1 ops))) <= capacity d) by (destruct (h_run d s1 ops); exact Hcap).
    destruct (ap_step1 d s0 L0 B0 m0 (o_key o) (o_proc o) (o_readable o) (o_writable o) Hd Hip Inv Hok Hk Ha ltac:(fold s1; lia))
      as (B1 & ext & Inv1 & Hok1 & Hlen & _). fold s1 in Inv1.
    destruct (IH s1 _ B1 _ Inv1 Hok1 Hops Hcap') as (Ls & E0 & H1 & H2).
    exists (fun i => match i with O => L0 | S i' => Ls i' end). split; [reflexivity|]. split.
    + intros [|i] Hi; [split; [exact Hok|]; exists B0; exact Inv|]. cbn [firstn h_run map_run length] in *. fold s1.
      destruct (H1 i ltac:(lia)) as (X & B & Y). split; [exact X|]. exists B.
      destruct (h_run d s1 (firstn i ops)). destruct (map_run _ (firstn i ops)). exact Y.
    + intros [|i] Hi; cbn [length] in Hi; [exists ext; rewrite E0; auto|]. apply H2. lia.
Qed.

(** The layout after any history. *)
Lemma h_layout d cap ops : hdb_ok d -> 1 <= cap -> ops_ok aempty ops ->
  let s := fst (h_run d (h_init d cap) ops) in
  fsize (s_file s) <= capacity d ->
  exists L B, ap_inv d s L B (fst (map_run aempty ops)) /\ layout_ok L.
Proof.
  intros Hd Hc Hops s Hcap. destruct (d_inplace d) eqn:Hip.
  - destruct (h_history d ops (h_init d cap) aempty Hd (h_init_inv d cap Hd Hc) Hops Hcap) as (_ & Hi & _).
    unfold h_inv in Hi. rewrite Hip in Hi. destruct Hi as (L & B & Inv). exists L, B. split; [apply ip_ap; assumption|].
    intros o r Hin Hn. destruct Inv as [HR _ _ _ _ _ HM _ _ _].
    assert (El := in_lget _ _ _ _ _ (proj1 HR) Hin).
    assert (Hm : fst (map_run aempty ops) (r_key r) = Some (r_val r)).
    { apply HM. exists o, r. split; [split; [exact El|]|auto]. unfold nonvoid in Hn. destruct (r_type r); congruence. }
    destruct (map_ok_run ops aempty map_ok_empty Hops _ _ Hm). auto.
  - assert (I0 : ap_inv d (h_init d cap) [] (fun _ => []) aempty) by (apply ip_ap; [exact Hd|apply h_init_ip; assumption]).
    destruct (ap_trace d _ _ _ _ Hd Hip I0 (fun _ _ (H : In _ []) => match H with end) ops Hops Hcap) as (Ls & _ & H & _).
    destruct (H (length ops) (le_n _)) as (X & B & Y). rewrite firstn_all in Y. exists (Ls (length ops)), B. auto.
Qed.

(** * Truncated files *)
Lemma fno_none c g o : (forall o', o <= o' -> o' < fsize g -> o' mod halign c = 0 -> read_checked c g o' META_MIN_READ_SIZE = None) ->
  o mod halign c = 0 -> forall tries, fno_loop tries c g META_MIN_READ_SIZE o = None.
Proof.
  intros H Ho tries. revert o H Ho. induction tries as [|t IH]; intros o H Ho; cbn [fno_loop]; [reflexivity|].
  destruct (N.ltb_spec o (fsize g)); [|reflexivity]. rewrite H by (auto; lia). apply IH.
  - intros o' Ho' Hs Hm. apply H; auto; lia.
  - rewrite N.add_mod, Ho, N.mod_same by apply halign_nz. apply N.mod_0_l, halign_nz.
Qed.
Lemma find_next_none c g o :
  (forall o', o < o' -> o' < fsize g -> o' mod halign c = 0 -> read_checked c g o' META_MIN_READ_SIZE = None) ->
  find_next c g o META_MIN_READ_SIZE = None.
Proof.
  intros H. unfold find_next. apply fno_none.
  - intros o' Ho'. apply H. assert (G := align_num_ge (o + min_record_size c) (halign c) (halign_nz c)).
    unfold min_record_size in *. lia.
  - apply align_num_mod, halign_nz.
Qed.

Lemma last_in_nonvoid_skip L o r : nonvoid r = false -> forall k, layout_map (L ++ [(o, r)]) k = layout_map L k.
Proof. intros H k. unfold layout_map. rewrite last_in_snoc, H. reflexivity. Qed.

Lemma torn_backward d cap g P o r :
  hdb_ok d -> 1 <= cap -> contig (record_base d) P o -> recs_in (d_c d) g P -> layout_ok (P ++ [(o, r)]) -> rec_ok (d_c d) r ->
  o <= fsize g < o + r_whole r ->
  dread (fdata g) o (N.to_nat (fsize g - o)) = firstn (N.to_nat (fsize g - o)) (rec_bytes (d_c d) r) ->
  (forall o', o < o' -> o' < fsize g -> o' mod halign (d_c d) = 0 -> read_checked (d_c d) g o' META_MIN_READ_SIZE = None) ->
  let res := import_backward d (h_init d cap) (d_c d) g true (record_base d) None in
  fsize (s_file (fst res)) <= capacity d ->
  snd res = ScanOk /\ (same_lookups d (fst res) (layout_map P) \/ same_lookups d (fst res) (layout_map (P ++ [(o, r)]))).
Proof.
  intros Hd Hcp Hcon Hin Hok Hr Hsz Hpre Hno. cbv zeta. unfold import_backward. cbn [scan_limit].
  set (c := d_c d) in *. assert (Hc : hcfg_ok c) by apply Hd. assert (G := contig_le _ _ _ Hcon).
  assert (HokP : layout_ok P) by (intros o' r' H; apply (Hok o'), in_or_app; left; exact H).
  assert (HrdP := recs_reads c g (d_mrs d) P Hc ltac:(apply Hd) Hin).
  assert (R := record_base_ge d).
  assert (Etail : let '(t, e) := extract (S (S (N.to_nat (fsize g) - 1 - length P))) c g true (fsize g) o in
    e = ScanOk /\ (t = [] \/ t = [o] /\ nonvoid r = true)).
  { cbn [extract]. destruct (N.ltb_spec o (fsize g)) as [Hlt|]; [|split; [reflexivity|left; reflexivity]].
    destruct (read_meta c g o META_MIN_READ_SIZE) as [mt|] eqn:E.
    - destruct (torn_read c g o r _ mt Hr Hsz Hpre E) as (E1 & _ & E3 & _). rewrite E1, E3.
      destruct (N.ltb_spec (o + r_whole r) (fsize g)); [lia|].
      unfold nonvoid. destruct (r_type r); (split; [reflexivity|auto]).
    - rewrite (find_next_none c g o Hno). split; [reflexivity|left; reflexivity]. }
  replace (S (N.to_nat (fsize g))) with (length P + S (S (N.to_nat (fsize g) - 1 - length P)))%nat by (unfold METADATA_SIZE in R; lia).
  rewrite (extract_prefix c g true (fsize g) P Hc (record_base d) o _ Hcon ltac:(lia) Hin).
  destruct (extract _ c g true (fsize g) o) as [t e]. destruct Etail as [-> [->|[-> Hnv]]]; cbn [fst snd].
  - rewrite app_nil_r. intros Hcap. destruct (apply_back_spec d c g true P Hd HrdP HokP (h_init d cap) [] aempty (h_init_inv d cap Hd Hcp) Hcap) as [E1 E2].
    split; [exact E1|left; exact E2].
  - rewrite rev_app_distr. cbn [rev app].
    destruct (read_checked c g o (d_mrs d)) as [mt|] eqn:E.
    + assert (HrdL : reads_in c g (d_mrs d) (P ++ [(o, r)])).
      { intros o' r' Hi Hn. apply in_app_or in Hi. destruct Hi as [Hi|[Hi|[]]]; [exact (HrdP _ _ Hi Hn)|].
        injection Hi as <- <-. exists mt. split; [exact E|]. unfold read_checked in E.
        destruct (read_meta c g o (d_mrs d)) as [m0|] eqn:E0; [|discriminate].
        destruct (check_crc c g o m0) eqn:Ecrc; [|discriminate]. injection E as ->.
        destruct (torn_read c g o r _ mt Hr Hsz Hpre E0) as (E1 & E2 & _ & E4). split; [exact E1|]. split; [exact E2|].
        unfold check_crc in Ecrc. destruct (meta_value g o mt) as [v|]; [|discriminate]. rewrite (E4 v eq_refl). reflexivity. }
      intros Hcap. assert (Eoffs : o :: rev (rec_offs P) = rev (rec_offs (P ++ [(o, r)]))).
      { unfold rec_offs. rewrite filter_app, map_app. cbn [filter snd]. rewrite Hnv. cbn [map fst]. rewrite rev_app_distr. reflexivity. }
      rewrite Eoffs in *.
      destruct (apply_back_spec d c g true _ Hd HrdL Hok (h_init d cap) [] aempty (h_init_inv d cap Hd Hcp) Hcap) as [E1 E2].
      split; [exact E1|right; exact E2].
    + cbn [apply_back]. rewrite E. intros Hcap.
      destruct (apply_back_spec d c g true P Hd HrdP HokP (h_init d cap) [] aempty (h_init_inv d cap Hd Hcp) Hcap) as [E1 E2].
      split; [exact E1|left; exact E2].
Qed.

(** The file left by a crash: the first [n] bytes of the records reached the
    file; the buckets and the header are arbitrary. *)
Definition crash_image (d : hdb) (f : file) (n : N) (g : file) : Prop :=
  fsize g = n /\ record_base d <= n /\ n <= fsize f /\ forall p, record_base d <= p -> p < n -> fdata g p = fdata f p.

Lemma crash_recs d f n g P stop : crash_image d f n g -> contig (record_base d) P stop -> stop <= n -> recs_in (d_c d) f P ->
  recs_in (d_c d) g P.
Proof.
  intros (E1 & E2 & E3 & E4) Hcon Hs H o r Hi. destruct (H o r Hi) as [[A1 A2] B]. split; [|exact B].
  destruct (contig_range _ _ _ _ _ Hcon (in_lget _ _ _ _ _ Hcon Hi)) as (C1 & C2 & _).
  split; [|lia]. rewrite <- A1. apply dread_ext. intros i Hi1 Hi2. apply E4; lia.
Qed.

(** The records wholly before [n]. *)
Lemma split_at L : forall base stop n, contig base L stop -> base <= n -> n <= stop ->
  (n = stop) \/ exists P o r Q, L = P ++ (o, r) :: Q /\ contig base P o /\ o <= n < o + r_whole r.
Proof.
  induction L as [|[o r] L IH]; intros base stop n Hcon Hb Hn; cbn [contig] in Hcon; [left; lia|].
  destruct Hcon as (-> & Hp & Hcon). destruct (N.lt_ge_cases n (base + r_whole r)) as [Hlt|Hge].
  - right. exists [], base, r, L. repeat split; auto.
  - destruct (IH _ _ n Hcon Hge Hn) as [|(P & o' & r' & Q & -> & H1 & H2)]; [left; assumption|].
    right. exists ((base, r) :: P), o', r', Q. repeat split; auto; try apply H2.
Qed.

Lemma contig_app L1 : forall base L2 stop, contig base (L1 ++ L2) stop -> exists mid, contig base L1 mid /\ contig mid L2 stop.
Proof.
  induction L1 as [|[o r] L1 IH]; intros base L2 stop H; cbn [app contig] in *; [exists base; auto|].
  destruct H as (-> & Hp & H). destruct (IH _ _ _ H) as (mid & H1 & H2). exists mid. auto.
Qed.
Lemma contig_fun L : forall base s1 s2, contig base L s1 -> contig base L s2 -> s1 = s2.
Proof.
  induction L as [|[o r] L IH]; intros base s1 s2 H1 H2; cbn [contig] in *; [congruence|].
  destruct H1 as (_ & _ & H1), H2 as (_ & _ & H2). exact (IH _ _ _ H1 H2).
Qed.

(** Every prefix of the final layout is the layout of a last state. *)
Lemma trace_prefix (Ls : nat -> layout) n P Q : Ls O = [] ->
  (forall i, (i < n)%nat -> exists ext, Ls (S i) = Ls i ++ ext /\ (length ext <= 1)%nat) ->
  Ls n = P ++ Q -> exists j, (j <= n)%nat /\ Ls j = P /\ forall i, (i <= n)%nat -> (j < i)%nat -> exists x T, Ls i = P ++ x :: T.
Proof.
  intros H0. revert Q. induction n as [|n IH]; intros Q Hs E.
  - rewrite H0 in E. destruct P; [|discriminate]. exists 0%nat. split; [lia|]. split; [exact H0|]. intros i Hi Hj. lia.
  - destruct Q as [|x Q].
    + exists (S n). rewrite app_nil_r in E. split; [lia|]. split; [exact E|]. intros; lia.
    + destruct (Hs n ltac:(lia)) as (ext & E1 & Hl).
      assert (Hpre : exists Q', Ls n = P ++ Q').
      { rewrite E in E1. destruct ext as [|y [|z ext]]; [| |cbn in Hl; lia].
        - rewrite app_nil_r in E1. exists (x :: Q). symmetry; exact E1.
        - destruct (exists_last (l := x :: Q) ltac:(discriminate)) as (Q' & y' & EQ). rewrite EQ, app_assoc in E1.
          apply app_inj_tail in E1. destruct E1 as [E1 _]. exists Q'. symmetry; exact E1. }
      destruct Hpre as (Q' & EQ').
      destruct (IH Q' (fun i Hi => Hs i ltac:(lia)) EQ') as (j & J1 & J2 & J3).
      exists j. split; [lia|]. split; [exact J2|]. intros i Hi Hj. destruct (Nat.eq_dec i (S n)) as [->|].
      * exists x, Q. exact E.
      * apply J3; lia.
Qed.
Lemma contig_mono base P x T s1 s2 : contig base P s1 -> contig base (P ++ x :: T) s2 -> s1 + r_whole (snd x) <= s2.
Proof.
  intros H1 H2. apply contig_app in H2. destruct H2 as (mid & H2 & H3). rewrite (contig_fun _ _ _ _ H1 H2).
  destruct x as [o r]. cbn [contig snd] in *. destruct H3 as (_ & _ & H3). apply contig_le in H3. lia.
Qed.

Lemma trace_mono (Ls : nat -> layout) n i : 
  (forall i, (i < n)%nat -> exists ext, Ls (S i) = Ls i ++ ext /\ (length ext <= 1)%nat) ->
  (i <= n)%nat -> exists T, Ls n = Ls i ++ T.
Proof.
  intros H Hi. induction Hi as [|n Hi IH]; [exists []; rewrite app_nil_r; reflexivity|].
  destruct (IH (fun k Hk => H k ltac:(lia))) as (T & E). destruct (H n ltac:(lia)) as (ext & E' & _).
  exists (T ++ ext). rewrite E', E, app_assoc. reflexivity.
Qed.

Lemma crash_restore d cap ops n g :
  hdb_ok d -> d_inplace d = false -> 1 <= cap -> ops_ok aempty ops ->
  let s i := fst (h_run d (h_init d cap) (firstn i ops)) in
  let size i := fsize (s_file (s i)) in
  size (length ops) <= capacity d ->
  crash_image d (s_file (s (length ops))) n g ->
  (forall p, (forall i, (i <= length ops)%nat -> size i <= n -> size i < p) -> p < n -> p mod halign (d_c d) = 0 ->
     read_checked (d_c d) g p META_MIN_READ_SIZE = None) ->
  let res := restore d cap g None in
  fsize (s_file (fst res)) <= capacity d ->
  snd res = ScanOk /\
  exists j, (j <= length ops)%nat /\ (forall i, (i <= length ops)%nat -> size i <= n -> (i <= j)%nat) /\
    same_lookups d (fst res) (fst (map_run aempty (firstn j ops))).
Proof.
  intros Hd Hip Hcp Hops s size Hcap Himg Hno res Hcap'. subst res. unfold restore in *. rewrite Hip in *.
  assert (I0 : ap_inv d (h_init d cap) [] (fun _ => []) aempty) by (apply ip_ap; [exact Hd|apply h_init_ip; assumption]).
  assert (Hcap0 : fsize (s_file (fst (h_run d (h_init d cap) ops))) <= capacity d).
  { unfold size, s in Hcap. rewrite firstn_all in Hcap. exact Hcap. }
  destruct (ap_trace d _ _ _ _ Hd Hip I0 (fun _ _ (H : In _ []) => match H with end) ops Hops Hcap0) as (Ls & E0 & H1 & H2).
  assert (HL : forall i, (i <= length ops)%nat -> contig (record_base d) (Ls i) (size i)).
  { intros i Hi. destruct (H1 i Hi) as (_ & B & Inv). exact (proj1 (ap_recs _ _ _ _ _ Inv)). }
  assert (HM : forall i, (i <= length ops)%nat -> meq (layout_map (Ls i)) (fst (map_run aempty (firstn i ops)))).
  { intros i Hi k. destruct (H1 i Hi) as (_ & B & Inv). symmetry. apply (ap_map _ _ _ _ _ Inv). }
  assert (SL : forall i st, (i <= length ops)%nat -> same_lookups d st (layout_map (Ls i)) -> same_lookups d st (fst (map_run aempty (firstn i ops)))).
  { intros i st Hi (m' & A & B). exists m'. split; [exact A|]. intros k. rewrite B. apply HM; exact Hi. }
  set (NN := length ops) in *.
  destruct (H1 NN (le_n _)) as (HokN & B & InvN). fold (s NN) in InvN.
  assert (HR := recs_segment d _ _ (ap_recs _ _ _ _ _ InvN)). destruct HR as (Hcon & Hin & _).
  assert (Himg' := Himg). destruct Himg' as (I1 & I2 & I3 & I4).
  destruct (split_at _ _ _ n Hcon I2 I3) as [En|(P & o & r & Q & EL & HP & Hn)].
  - assert (Hseg : segment (d_c d) g (record_base d) (Ls NN) (fsize g)).
    { rewrite I1, En. split; [exact Hcon|]. split; [|lia]. apply (crash_recs d _ n g _ _ Himg Hcon); [lia|exact Hin]. }
    destruct (import_backward_segment d cap (d_c d) g true (record_base d) None (Ls NN) (fsize g) Hd Hcp ltac:(apply Hd) Hseg HokN eq_refl Hcap') as [A1 A2].
    split; [exact A1|]. exists NN. split; [lia|]. split; [intros; lia|]. apply SL; [lia|exact A2].
  - destruct (trace_prefix Ls NN P _ E0 H2 EL) as (j & J1 & J2 & J3).
    assert (EL' : Ls NN = (P ++ [(o, r)]) ++ Q) by (rewrite <- app_assoc; exact EL).
    destruct (trace_prefix Ls NN _ _ E0 H2 EL') as (j' & K1 & K2 & K3).
    assert (Hafter : forall i, (i <= NN)%nat -> (j < i)%nat -> n < size i).
    { intros i Hi Hj. destruct (J3 i Hi Hj) as (x & T & EX). destruct (trace_mono Ls NN i H2 Hi) as (T' & ET).
      rewrite EX, EL, <- app_assoc in ET. apply app_inv_head in ET. cbn [app] in ET. injection ET as <- _.
      assert (Hi' := HL i Hi). rewrite EX in Hi'. assert (G := contig_mono _ _ _ _ _ _ HP Hi'). cbn [snd] in G. lia. }
    assert (Hafter' : forall i, (i <= NN)%nat -> (j' < i)%nat -> n < size i).
    { intros i Hi Hj. destruct (K3 i Hi Hj) as (x & T & EX).
      assert (Hi' := HL i Hi). rewrite EX, <- app_assoc in Hi'. cbn [app] in Hi'.
      assert (G := contig_mono _ _ _ _ _ _ HP Hi'). cbn [snd] in G. lia. }
    assert (Hnoimg : forall o', o < o' -> o' < fsize g -> o' mod halign (d_c d) = 0 -> read_checked (d_c d) g o' META_MIN_READ_SIZE = None).
    { intros o' Ho' Hs Hm. apply Hno; [|lia|exact Hm]. intros i Hi Hsz.
      assert (Hij : (i <= j)%nat) by (destruct (Nat.le_gt_cases i j); [assumption|specialize (Hafter i Hi); lia]).
      destruct (trace_mono Ls j i (fun k Hk => H2 k ltac:(lia)) Hij) as (T & ET). rewrite J2 in ET.
      assert (HP' := HP). rewrite ET in HP'. apply contig_app in HP'. destruct HP' as (mid & X1 & X2).
      rewrite (contig_fun _ _ _ _ (HL i Hi) X1). apply contig_le in X2. lia. }
    assert (Hirec : In (o, r) (Ls NN)) by (rewrite EL; apply in_or_app; right; left; reflexivity).
    destruct (Hin _ _ Hirec) as [[Hat1 Hat2] Hrok].
    assert (Hpre : dread (fdata g) o (N.to_nat (fsize g - o)) = firstn (N.to_nat (fsize g - o)) (rec_bytes (d_c d) r)).
    { rewrite <- Hat1. replace (N.to_nat (r_whole r)) with (N.to_nat (fsize g - o) + N.to_nat (r_whole r - (fsize g - o)))%nat by lia.
      rewrite dread_app, firstn_app_l by (rewrite dread_length; lia). rewrite firstn_all2 by (rewrite dread_length; lia).
      apply dread_ext. intros p Hp1 Hp2. apply I4; [|lia]. apply contig_le in HP. lia. }
    assert (HokP : layout_ok (P ++ [(o, r)])) by (intros o' r' H; apply (HokN o'); rewrite EL'; apply in_or_app; left; exact H).
    assert (HinP : recs_in (d_c d) g P).
    { apply (crash_recs d _ n g P o Himg HP); [lia|]. intros o' r' H. apply Hin. rewrite EL. apply in_or_app; left; exact H. }
    destruct (torn_backward d cap g P o r Hd Hcp HP HinP HokP Hrok ltac:(lia) Hpre Hnoimg Hcap') as [A1 A2].
    split; [exact A1|]. destruct A2 as [A2|A2].
    + exists j. split; [exact J1|]. split; [|apply SL; [exact J1|rewrite J2; exact A2]].
      intros i Hi Hsz. destruct (Nat.le_gt_cases i j); [assumption|specialize (Hafter i Hi); lia].
    + exists j'. split; [exact K1|]. split; [|apply SL; [exact K1|rewrite K2; exact A2]].
      intros i Hi Hsz. destruct (Nat.le_gt_cases i j'); [assumption|specialize (Hafter' i Hi); lia].
Qed.
