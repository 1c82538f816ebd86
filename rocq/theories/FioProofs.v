(** Lemmas about the file classes: an object is a view, that is a byte for each address, and a size. *)
From Coq Require Import List NArith Bool Arith Lia.
Import ListNotations.
From Verif Require Import Bytes StatusModel PcacheModel PcacheProofs FioSpec FioModel.
Local Open Scope nat_scope.

(* ---- lists ---- *)
Lemma range_part V n off m : off + m <= n -> firstn m (skipn off (range V 0 n)) = range V off m.
Proof.
  intros H. apply list_ext. intros j. rewrite nth_firstn. destruct (Nat.ltb_spec j m) as [Hj|Hj].
  - rewrite nth_skipn, !range_nth by lia. reflexivity.
  - symmetry. apply nth_error_None. rewrite range_length. lia.
Qed.
Lemma range_first V n m : m <= n -> firstn m (range V 0 n) = range V 0 m.
Proof. intros H. exact (range_part V n 0 m H). Qed.
Lemma range_file f n : n <= length f -> range (fbyte f) 0 n = firstn n f.
Proof.
  intros H. symmetry. apply is_range; [rewrite firstn_length; lia|]. intros j Hj. rewrite nth_firstn, (proj2 (Nat.ltb_lt _ _) Hj).
  cbn. rewrite fbyte_nth. destruct (nth_error f j) eqn:E; auto. apply nth_error_None in E. lia.
Qed.
Lemma file_part f off n : off + n <= length f -> firstn n (skipn off f) = range (fbyte f) off n.
Proof. intros H. rewrite <- (range_part (fbyte f) (length f) off n H). now rewrite range_file, firstn_all by auto. Qed.
Lemma range_zero V off n : (forall x, off <= x < off + n -> V x = 0%N) -> range V off n = repeat 0%N n.
Proof.
  revert off; induction n as [|n IH]; intros off H; [reflexivity|]. cbn. f_equal; [apply H; lia|]. apply IH. intros x Hx. apply H. lia.
Qed.
Lemma fbyte_out f x : length f <= x -> fbyte f x = 0%N.
Proof. intros H. unfold fbyte. now apply nth_overflow. Qed.
Lemma fbyte_app f g x : fbyte (f ++ g) x = if x <? length f then fbyte f x else fbyte g (x - length f).
Proof. unfold fbyte. destruct (Nat.ltb_spec x (length f)); [now rewrite app_nth1|now rewrite app_nth2]. Qed.
Lemma fbyte_first f n x : fbyte (firstn n f) x = if x <? n then fbyte f x else 0%N.
Proof. rewrite !fbyte_nth, nth_firstn. now destruct (x <? n). Qed.
Lemma fbyte_zeros n x : fbyte (repeat 0%N n) x = 0%N.
Proof. rewrite fbyte_nth, nth_error_repeat_lt. now destruct (x <? n). Qed.
Lemma ftrunc_length f n : length (ftrunc f n) = n.
Proof. unfold ftrunc. rewrite app_length, firstn_length, repeat_length. lia. Qed.
Lemma ftrunc_byte f n x : fbyte (ftrunc f n) x = if x <? n then fbyte f x else 0%N.
Proof.
  unfold ftrunc. rewrite fbyte_app, fbyte_first, fbyte_zeros, firstn_length.
  destruct (Nat.ltb_spec x (Nat.min n (length f))), (Nat.ltb_spec x n); auto; try lia. symmetry. apply fbyte_out. lia.
Qed.
Lemma align_le b x : 0 < b -> x <= align b x.
Proof. intros H. unfold align. pose proof (Nat.mod_upper_bound x b ltac:(lia)). destruct (x mod b =? 0); lia. Qed.
Lemma align_lt b x : 0 < b -> align b x < x + b /\ align b x mod b = 0.
Proof.
  intros H. unfold align. destruct (Nat.eqb_spec (x mod b) 0) as [E|E]; [split; auto; lia|].
  pose proof (Nat.mod_upper_bound x b ltac:(lia)). pose proof (Nat.mod_le x b ltac:(lia)). split; [lia|].
  rewrite (Nat.div_mod x b) at 1 by lia. replace (b * (x / b) + x mod b - x mod b + b) with ((x / b + 1) * b) by lia. apply Nat.mod_mul. lia.
Qed.
Lemma pwrite_len f off d : off + length d <= length f -> length (pwrite f off d) = length f.
Proof.
  intros H. destruct d as [|c d]; [reflexivity|]. unfold pwrite. replace (off - length f) with 0 by lia. cbn [repeat]. rewrite app_nil_r.
  rewrite !app_length, firstn_length, skipn_length. lia.
Qed.
Lemma pwrite_reach f off d : d <> [] -> off + length d <= length (pwrite f off d).
Proof. destruct d as [|c d]; [congruence|]. intros _. unfold pwrite. rewrite !app_length, firstn_length, app_length, repeat_length. lia. Qed.

(* ---- views against contents ---- *)
(** The contents and the flag of the specification, for a view and a size. *)
Definition shows (V : nat -> N) (size : nat) (c : bytes) (p : bool) : Prop :=
  c = range V 0 size /\ (p = true -> forall x, size <= x -> V x = 0%N).
Lemma shows_length V size c p : shows V size c p -> length c = size.
Proof. intros [-> _]. apply range_length. Qed.
Lemma shows_read V size c p off n : shows V size c p -> off + n <= size -> firstn n (skipn off c) = range V off n.
Proof. intros [-> _] H. now apply range_part. Qed.
Lemma shows_grown V size c p n : shows V size c p -> size <= n -> grown p c n (range V 0 n) /\ shows V n (range V 0 n) p.
Proof.
  intros [-> Z] H. split; [|split; auto; intros E x Hx; apply Z; auto; lia].
  unfold grown. rewrite !range_length. split; [lia|]. split; [now apply range_first|]. intros E.
  replace n with (size + (n - size)) at 1 by lia. rewrite range_app. f_equal. apply range_zero. intros x Hx. apply Z; auto. cbn in Hx. lia.
Qed.
(** A view that is the same below the size, and as clean. *)
Lemma shows_ext V V' size c p : shows V size c p -> (forall x, x < size -> V' x = V x) -> (p = true -> forall x, size <= x -> V' x = 0%N) ->
  shows V' size c p.
Proof. intros [-> Z] E H. split; auto. apply range_ext. intros x Hx. symmetry. apply E. lia. Qed.
Lemma shows_same V V' size c p : shows V size c p -> (forall x, V' x = V x) -> shows V' size c p.
Proof. intros S E. apply (shows_ext V); auto. intros P x Hx. rewrite E. now apply S. Qed.
Lemma shows_shrink V size c p n : shows V size c p -> n <= size -> shows V n (firstn n c) (p && (n =? length c)).
Proof.
  intros S H. rewrite (shows_length _ _ _ _ S). destruct S as [-> Z]. split; [now rewrite range_first|].
  intros E x Hx. apply andb_true_iff in E as [E1 E2]. apply Nat.eqb_eq in E2. subst n. auto.
Qed.
Lemma over_range V n off data : off + length data <= n -> over (range V 0 n) off data = range (written V off data) 0 n.
Proof.
  intros H. unfold over. apply list_ext. intros j.
  assert (L : length (firstn off (range V 0 n)) = off) by (rewrite firstn_length, range_length; lia).
  destruct (Nat.lt_ge_cases j n) as [Hj|Hj].
  - rewrite range_nth by auto. cbn. destruct (Nat.lt_ge_cases j off) as [H1|H1].
    + rewrite nth_error_app1, nth_firstn, (proj2 (Nat.ltb_lt _ _) H1), range_nth by lia. cbn. now rewrite written_out by lia.
    + rewrite nth_error_app2, L by lia. destruct (Nat.lt_ge_cases j (off + length data)) as [H2|H2].
      * rewrite nth_error_app1 by lia. apply written_in. lia.
      * rewrite nth_error_app2, nth_skipn by lia. rewrite range_nth by lia. rewrite written_out by lia. f_equal. f_equal. lia.
  - rewrite (proj2 (nth_error_None (range _ _ _) j)); [|rewrite range_length; lia]. apply nth_error_None.
    rewrite !app_length, L, skipn_length, range_length. lia.
Qed.
Lemma shows_write V size c p off data : shows V size c p ->
  exists c1, grown p c (off + length data) c1 /\ shows (written V off data) (Nat.max size (off + length data)) (over c1 off data) p.
Proof.
  intros S. set (n := Nat.max size (off + length data)). destruct (shows_grown V size c p n S ltac:(lia)) as [G S'].
  exists (range V 0 n). split.
  - pose proof (shows_length _ _ _ _ S) as L. unfold grown in *. rewrite L in *. destruct G as (G1 & G2 & G3). split; [lia|]. split; auto.
    intros E. rewrite (G3 E). do 2 f_equal. lia.
  - rewrite over_range by lia. split; auto. intros E x Hx. rewrite written_out by lia. now apply S'.
Qed.
Lemma shows_append V size c p data : shows V size c p -> shows (written V size data) (size + length data) (c ++ data) p.
Proof.
  intros S. destruct (shows_write V size c p size data S) as (c1 & (G1 & G2 & _) & W).
  rewrite Nat.max_r in W by lia. rewrite (shows_length _ _ _ _ S) in *. unfold over in W. rewrite Nat.max_r in G1 by lia.
  rewrite G2, skipn_all2 in W by lia. now rewrite app_nil_r in W.
Qed.
Lemma padded_self c : padded 1 c c.
Proof. unfold padded. rewrite firstn_all, Nat.mod_1_r. split; auto. lia. Qed.
Lemma grown_self p c : grown p c (length c) c.
Proof. unfold grown. rewrite firstn_all, Nat.sub_diag. cbn. rewrite app_nil_r. repeat split; auto. lia. Qed.
Lemma shows_file f : shows (fbyte f) (length f) f true.
Proof. split; [now rewrite range_file, firstn_all by lia|]. intros _ x Hx. now apply fbyte_out. Qed.

(* ---- memory mapping files ---- *)
Definition mm_kind : kind := mkKind 1 PRECONDITION_ERROR true false.
Section Mmap.
  Variables (page init : nat) (inc : nat -> nat).
  Hypothesis Hpage : 0 < page.
  Definition mm_ok (m : mfile) : Prop :=
    if m_w m then length (m_disk m) = m_map m /\ m_size m <= m_map m
    else m_map m = Nat.max (length (m_disk m)) page /\ m_size m <= m_map m.
  Definition mm_rel (s : mstate) (t : sfile) : Prop :=
    match s, t with
    | MClosed d, SClosed d' => d = d'
    | MOpen m, SOpen w d0 c p => m_w m = w /\ mm_ok m /\ shows (fbyte (m_disk m)) (m_size m) c p /\ (w = false -> m_disk m = d0)
    | _, _ => False
    end.

  Lemma mm_alloc_spec m min : m_w m = true -> mm_ok m -> let m1 := mm_alloc page inc m min in
    m_w m1 = true /\ m_size m1 = m_size m /\ length (m_disk m1) = m_map m1 /\ min <= m_map m1 /\ m_size m <= m_map m1 /\
    forall x, fbyte (m_disk m1) x = fbyte (m_disk m) x.
  Proof.
    intros Hw Ok m1. unfold mm_ok in Ok. rewrite Hw in Ok. destruct Ok as [L S]. unfold m1, mm_alloc.
    destruct (Nat.leb_spec min (m_map m)) as [H|H]; [repeat split; auto|]. cbn [m_w m_size m_map m_disk].
    pose proof (align_le page (Nat.max (Nat.max min (inc (m_map m))) page) Hpage) as A. rewrite ftrunc_length. repeat split; auto; try lia.
    intros x. rewrite ftrunc_byte. destruct (Nat.ltb_spec x (align page (Nat.max (Nat.max min (inc (m_map m))) page))); auto.
    symmetry. apply fbyte_out. lia.
  Qed.
  Lemma mm_zone_spec m off n : m_w m = true -> mm_ok m -> let m1 := mm_zone page inc m off n in
    m_w m1 = true /\ m_size m1 = Nat.max (m_size m) (off + n) /\ mm_ok m1 /\ off + n <= m_map m1 /\
    (forall x, fbyte (m_disk m1) x = fbyte (m_disk m) x).
  Proof.
    intros Hw Ok m1. destruct (mm_alloc_spec m (off + n) Hw Ok) as (A & B & C & D & E & F). unfold m1, mm_zone, mm_ok. cbn [m_w m_size m_map m_disk].
    rewrite A, B. repeat split; auto. lia.
  Qed.
  Lemma mem_write_spec m off data : m_w m = true -> mm_ok m -> off + length data <= m_map m ->
    exists m1, mem_write m off data = Some m1 /\ m_w m1 = true /\ m_size m1 = m_size m /\ mm_ok m1 /\
      (forall x, fbyte (m_disk m1) x = written (fbyte (m_disk m)) off data x).
  Proof.
    intros Hw Ok H. pose proof Ok as Ok'. unfold mm_ok in Ok. rewrite Hw in Ok. destruct Ok as [L S]. unfold mem_write. destruct data as [|c d].
    - exists m. repeat split; auto. intros x. now rewrite written_nil.
    - set (data := c :: d) in *. rewrite L, (proj2 (Nat.leb_le _ _) H). cbn [andb]. eexists. split; [reflexivity|]. cbn [m_w m_size m_map m_disk].
      repeat split; auto; [|intros x; apply pwrite_spec]. unfold mm_ok. cbn [m_w m_size m_map m_disk]. rewrite Hw. split; auto.
      rewrite pwrite_len; lia.
  Qed.
  Lemma mem_read_spec m off n : mm_ok m -> off + n <= m_size m -> (m_w m = false -> m_disk m <> [] \/ n = 0) ->
    mem_read page m off n = Some (range (fbyte (m_disk m)) off n).
  Proof.
    intros Ok H Hr. unfold mem_read. destruct (Nat.eqb_spec n 0) as [->|Hn]; [reflexivity|].
    assert (G : off + n <= m_map m /\ off + n <= align page (length (m_disk m)) /\ off + n <= length (m_disk m) + page).
    { unfold mm_ok in Ok. destruct (m_w m); destruct Ok as [L S].
      - pose proof (align_le page (length (m_disk m)) Hpage). lia.
      - destruct (Hr eq_refl) as [Hd|]; [|lia]. assert (0 < length (m_disk m)) by (destruct (m_disk m); [congruence|cbn; lia]).
        assert (off + n <= align page (length (m_disk m))); [|lia].
        pose proof (align_le page (length (m_disk m)) Hpage). destruct (align_lt page (length (m_disk m)) Hpage) as [_ M].
        apply Nat.mod_divides in M as [q Mq]; [|lia]. destruct q as [|q]; [lia|]. nia. }
    destruct G as (G1 & G2 & G3). rewrite (proj2 (Nat.leb_le _ _) G1), (proj2 (Nat.leb_le _ _) G2). cbn [andb]. f_equal.
    apply is_range; [rewrite firstn_length, skipn_length, app_length, repeat_length; lia|]. intros j Hj.
    rewrite nth_firstn, (proj2 (Nat.ltb_lt _ _) Hj), nth_skipn.
    rewrite (nth_error_nth' _ 0%N) by (rewrite app_length, repeat_length; lia). f_equal.
    change (nth (off + j) (m_disk m ++ repeat 0%N page) 0%N) with (fbyte (m_disk m ++ repeat 0%N page) (off + j)).
    rewrite fbyte_app, fbyte_zeros. destruct (Nat.ltb_spec (off + j) (length (m_disk m))); auto. symmetry. now apply fbyte_out.
  Qed.

  Lemma mm_step_ok s t call : mm_rel s t -> (forall n, call <> FSetHeadBuffer n) ->
    match mm_step page init inc s call with
    | Some (o, s1) => exists t1, fstep mm_kind t call o t1 /\ mm_rel s1 t1
    | None => may_fault mm_kind t call
    end.
  Proof.
    intros R Hh. destruct s as [d|m], t as [d'|w d0 c p]; try contradiction.
    - cbn in R. subst d'. destruct call as [w cr tr| | | | | | | | | |n]; try (now exfalso; apply (Hh n));
        try (eexists; split; [apply st_closed; congruence|reflexivity]).
      cbn [mm_step]. unfold mm_open, os_open. destruct d as [f|].
      + assert (G : forall f0 w0, mm_rel (snd (if w0 : bool then
            let map := align page (Nat.max 1 (Nat.max (length f0) init)) in (OCode SUCCESS, MOpen (mkM true (length f0) map (ftrunc f0 map)))
            else (OCode SUCCESS, MOpen (mkM false (length f0) (Nat.max (length f0) page) f0)))) (SOpen w0 f0 f0 true)).
        { intros f0 [|]; cbn [snd mm_rel m_w m_size m_map m_disk].
          - pose proof (align_le page (Nat.max 1 (Nat.max (length f0) init)) Hpage) as A. split; auto. split; [|split; [|discriminate]].
            + unfold mm_ok. cbn [m_w m_size m_map m_disk]. rewrite ftrunc_length. split; auto. lia.
            + apply (shows_same (fbyte f0)); [apply shows_file|]. intros x. rewrite ftrunc_byte.
              destruct (Nat.ltb_spec x (align page (Nat.max 1 (Nat.max (length f0) init)))); auto. symmetry. apply fbyte_out. lia.
          - split; auto. split; [|split; auto; apply shows_file]. unfold mm_ok. cbn [m_w m_size m_map m_disk]. lia. }
        destruct (w && tr) eqn:E.
        * apply andb_true_iff in E as [-> ->]. eexists. split; [apply st_open_trunc|]. apply (G [] true).
        * specialize (G f w). destruct w; eexists; (split; [now apply st_open|exact G]).
      + destruct (w && cr) eqn:E; [|eexists; split; [now apply st_open_missing|reflexivity]].
        apply andb_true_iff in E as [-> ->]. eexists. split; [apply st_open_create|]. cbn [mm_rel length]. 
        pose proof (align_le page (Nat.max 1 (Nat.max 0 init)) Hpage) as A. split; auto. split; [|split; [|discriminate]].
        * unfold mm_ok. cbn [m_w m_size m_map m_disk]. rewrite ftrunc_length. split; auto. lia.
        * apply (shows_same (fbyte [])); [apply (shows_file [])|]. intros x. cbn [m_disk]. rewrite ftrunc_byte. unfold fbyte. destruct x; now destruct (_ <? _).
    - cbn in R. destruct R as (Hw & Ok & S & Hd). pose proof (shows_length _ _ _ _ S) as L.
      assert (Ok' := Ok). unfold mm_ok in Ok'.
      destruct call as [w' cr tr| |off n|off data|data|n|n|n|h off n| |n]; cbn [mm_step]; try (now exfalso; apply (Hh n)).
      + eexists. split; [apply st_open_twice|]. cbn. auto.
      + destruct w.
        * eexists. split; [apply (st_close mm_kind d0 c p c); [apply padded_self|apply grown_self]|]. cbn. rewrite Hw in *. f_equal. destruct S as [-> _].
          rewrite range_file by lia. unfold ftrunc. replace (m_size m - length (m_disk m)) with 0 by lia. cbn. now rewrite app_nil_r.
        * eexists. split; [apply st_close_readonly|]. cbn. rewrite Hw. now rewrite (Hd eq_refl).
      + destruct (Nat.ltb_spec (m_size m) off) as [H|H]; [eexists; split; [apply st_read_beyond; lia|cbn; auto]|].
        destruct (Nat.eqb_spec (Nat.min n (m_size m - off)) n) as [H1|H1]; cbn [negb]; [|eexists; split; [apply st_read_beyond; lia|cbn; auto]].
        destruct (mem_read page m off n) as [b|] eqn:E.
        * exists (SOpen w d0 c p). split; [|cbn; auto].
          assert (b = range (fbyte (m_disk m)) off n) as ->.
          { destruct (m_w m) eqn:Ew.
            - rewrite mem_read_spec in E by (auto; try lia; congruence). congruence.
            - destruct (Nat.eq_dec n 0) as [->|Hn]; [cbn in E; injection E as <-; reflexivity|].
              rewrite mem_read_spec in E; [congruence|auto|lia|]. intros _. left. intros D. unfold mem_read in E.
              rewrite (proj2 (Nat.eqb_neq _ _) Hn), D in E. change (align page (length [])) with (align page 0) in E.
              unfold align in E. rewrite Nat.mod_0_l in E by lia. cbn [Nat.eqb] in E. destruct (Nat.leb_spec (off + n) 0); [lia|].
              rewrite andb_false_r in E. discriminate. }
          rewrite <- (shows_read _ _ _ _ off n S) by lia. apply st_read. lia.
        * destruct w; [rewrite mem_read_spec in E by (auto; try lia; congruence); discriminate|].
          destruct d0 as [|x d0]; [cbn; split; auto; split; [|lia]|].
          -- destruct n; [discriminate E|lia].
          -- rewrite mem_read_spec in E; [discriminate|auto|lia|]. left. rewrite (Hd eq_refl). discriminate.
      + rewrite Hw. destruct w; cbn [negb]; [|eexists; split; [now apply st_readonly|cbn; auto]].
        destruct (mm_zone_spec m off (length data) Hw Ok) as (Z1 & Z2 & Z3 & Z4 & Z5).
        destruct (mem_write_spec _ off data Z1 Z3 Z4) as (m1 & -> & M1 & M2 & M3 & M4).
        destruct (shows_write _ _ _ _ off data S) as (c1 & G & W).
        eexists. split; [apply (st_write mm_kind d0 c p off data c1 G)|]. cbn. split; auto. split; auto. split; [|discriminate].
        rewrite M2, Z2. eapply shows_same; [exact W|]. intros x. rewrite M4. unfold written. now rewrite Z5.
      + rewrite Hw. destruct w; cbn [negb]; [|eexists; split; [now apply st_readonly|cbn; auto]].
        destruct (mm_zone_spec m (m_size m) (length data) Hw Ok) as (Z1 & Z2 & Z3 & Z4 & Z5).
        destruct (mem_write_spec _ (m_size m) data Z1 Z3 Z4) as (m1 & -> & M1 & M2 & M3 & M4).
        eexists. split; [rewrite <- L; apply st_append|]. cbn. split; auto. split; auto. split; [|discriminate].
        rewrite M2, Z2, Nat.max_r by lia. eapply shows_same; [apply shows_append; exact S|]. intros x. rewrite M4. unfold written. now rewrite Z5.
      + rewrite Hw. destruct w; cbn [negb]; [|eexists; split; [now apply st_readonly|cbn; auto]].
        destruct (mm_zone_spec m (m_size m) n Hw Ok) as (Z1 & Z2 & Z3 & Z4 & Z5).
        destruct (shows_grown _ _ _ _ (m_size m + n) S ltac:(lia)) as [G W].
        eexists. split; [rewrite <- L at 1; apply st_expand; rewrite L; exact G|]. cbn [mm_rel]. split; auto. split; auto. split; [|discriminate].
        eapply shows_same; [|exact Z5]. rewrite Z2, Nat.max_r by lia. exact W.
      + rewrite Hw. destruct w; cbn [negb]; [|eexists; split; [now apply st_readonly|cbn; auto]].
        pose proof (align_le page (Nat.max (Nat.max n page) init) Hpage) as A. rewrite Hw in Ok'.
        assert (V : forall c' p', (p' = true -> p = true) -> shows (fbyte (m_disk m)) n c' p' ->
          mm_rel (MOpen (mm_truncate page init m n)) (SOpen true d0 c' p')).
        { intros c' p' Hp S'. unfold mm_truncate. cbn. split; auto. split; [|split; [|discriminate]].
          - unfold mm_ok. cbn. rewrite Hw, ftrunc_length. lia.
          - eapply shows_ext; [exact S'| |]; intros; rewrite ftrunc_byte.
            + rewrite (proj2 (Nat.ltb_lt _ _)) by lia. reflexivity.
            + destruct (_ <? _); auto. now apply S'. }
        destruct (Nat.le_gt_cases n (m_size m)) as [H|H].
        * eexists. split; [apply st_shrink; lia|]. apply V; [|now apply (shows_shrink _ (m_size m))]. now destruct p.
        * destruct (shows_grown _ _ _ _ n S ltac:(lia)) as [G W]. eexists. split; [apply st_stretch; [lia|exact G]|]. now apply V.
      + destruct (Nat.ltb_spec (m_map m) n) as [H|H]; [|].
        * eexists. split; [apply st_fake_fail|cbn; auto]. destruct (m_w m); lia.
        * assert (Ok1 : mm_ok (mkM (m_w m) n (m_map m) (m_disk m))) by (unfold mm_ok; cbn; destruct (m_w m); lia).
          destruct (Nat.le_gt_cases n (m_size m)) as [H1|H1].
          -- eexists. split; [apply st_fake_shrink; lia|]. cbn. split; auto. split; auto. split; auto. now apply (shows_shrink _ (m_size m)).
          -- destruct (shows_grown _ _ _ _ n S ltac:(lia)) as [G W]. eexists. split; [apply st_fake_stretch; [lia|exact G]|]. cbn. auto.
      + rewrite Hw. destruct w; cbn [negb]; [|eexists; split; [apply st_sync_readonly|cbn; auto]].
        eexists. split; [apply st_sync|]. unfold mm_sync. cbn. split; auto. split; [|split; [|discriminate]].
        * unfold mm_ok. cbn. rewrite Hw, ftrunc_length. lia.
        * eapply shows_ext; [exact S| |]; intros; rewrite ftrunc_byte.
          -- rewrite (proj2 (Nat.ltb_lt _ _)) by lia. reflexivity.
          -- destruct (_ <? _); auto. now apply S.
      + eexists. split; [rewrite <- L; apply st_size|cbn; auto].
  Qed.
End Mmap.

(* ---- StdFile ---- *)
Definition sd_kind : kind := mkKind 1 SUCCESS false true.
Definition sd_rel (s : dstate) (t : sfile) : Prop :=
  match s, t with
  | DClosed d, SClosed d' => d = d'
  | DOpen f, SOpen w d0 c p => d_w f = w /\ d_size f <= length (d_disk f) /\ shows (fbyte (d_disk f)) (d_size f) c p /\ (w = false -> d_disk f = d0)
  | _, _ => False
  end.
Lemma shows_poke V size c p n : shows V size c p -> size < n -> shows (written V (n - 1) [0%N]) size c p.
Proof.
  intros S H. eapply shows_ext; [exact S| |].
  - intros x Hx. rewrite written_out; auto; lia.
  - intros E x Hx. destruct (Nat.eq_dec x (n - 1)) as [->|Hn]; [|rewrite written_out by (cbn; lia); now apply S].
    unfold written. destruct (_ && _); [now rewrite Nat.sub_diag|now apply S].
Qed.
Lemma sd_step_ok s t call : sd_rel s t -> (forall n, call <> FSetHeadBuffer n) ->
  exists o s1 t1, sd_step s call = Some (o, s1) /\ fstep sd_kind t call o t1 /\ sd_rel s1 t1.
Proof.
  intros R Hh. destruct s as [d|f], t as [d'|w d0 c p]; try contradiction.
  - cbn in R. subst d'. destruct call as [w cr tr| | | | | | | | | |n]; try (now exfalso; apply (Hh n));
      try (eexists _, _, _; split; [reflexivity|]; split; [apply st_closed; congruence|reflexivity]).
    assert (G : forall f w, sd_rel (DOpen (mkD w (length f) f)) (SOpen w f f true)).
    { intros f w'. cbn. split; auto. split; auto. split; auto. apply shows_file. }
    cbn [sd_step]. unfold sd_open, os_open. destruct d as [f|].
    + destruct (w && tr) eqn:E.
      * apply andb_true_iff in E as [-> ->]. eexists _, _, _. split; [reflexivity|]. split; [apply st_open_trunc|apply (G [])].
      * eexists _, _, _. split; [reflexivity|]. split; [now apply st_open|apply G].
    + destruct (w && cr) eqn:E; [|eexists _, _, _; split; [reflexivity|]; split; [now apply st_open_missing|reflexivity]].
      apply andb_true_iff in E as [-> ->]. eexists _, _, _. split; [reflexivity|]. split; [apply st_open_create|apply (G [])].
  - pose proof R as R0. cbn in R. destruct R as (Hw & Ok & S & Hd). pose proof (shows_length _ _ _ _ S) as L.
    (* one write to the stream *)
    assert (Put : forall off data n c' p', w = true -> data <> [] -> n <= Nat.max (d_size f) (off + length data) ->
        shows (written (fbyte (d_disk f)) off data) n c' p' -> sd_rel (DOpen (sd_put f off data n)) (SOpen w d0 c' p')).
    { intros off data n c' p' Ew Hn Hl S'. unfold sd_put. cbn [sd_rel d_w d_size d_disk]. split; auto. split; [|split; [|congruence]].
      - pose proof (pwrite_reach (d_disk f) off data Hn). pose proof (pwrite_length (d_disk f) off data). lia.
      - eapply shows_same; [exact S'|]. intros x. apply pwrite_spec. }
    destruct call as [w' cr tr| |off n|off data|data|n|n|n|h off n| |n]; cbn [sd_step]; try (now exfalso; apply (Hh n)).
    + eexists _, _, _. split; [reflexivity|]. split; [apply st_open_twice|auto].
    + unfold sd_close. rewrite Hw. destruct w; eexists _, _, _; (split; [reflexivity|]).
      * split; [apply (st_close sd_kind d0 c p c); [apply padded_self|apply grown_self]|]. cbn. f_equal. destruct S as [-> _].
        rewrite range_file by lia. unfold ftrunc. replace (d_size f - length (d_disk f)) with 0 by lia. cbn. now rewrite app_nil_r.
      * split; [apply st_close_readonly|]. cbn. now rewrite (Hd eq_refl).
    + destruct (Nat.ltb_spec (d_size f) (off + n)) as [H|H].
      * eexists _, _, _. split; [reflexivity|]. split; [apply st_read_beyond; lia|auto].
      * rewrite (proj2 (Nat.leb_le _ _)) by lia. eexists _, _, (SOpen w d0 c p). split; [reflexivity|]. split; [|auto].
        replace (firstn n (skipn off (d_disk f))) with (firstn n (skipn off c)); [apply st_read; lia|].
        rewrite (shows_read _ _ _ _ off n S) by lia. symmetry. apply file_part. lia.
    + rewrite Hw. destruct w; cbn [negb]; [|eexists _, _, _; split; [reflexivity|]; split; [now apply st_readonly|auto]].
      unfold sd_write. destruct data as [|x data].
      * destruct (Nat.ltb_spec (d_size f) off) as [H|H].
        -- pose proof (shows_poke _ _ _ _ off S H) as S1. destruct (shows_write _ _ _ _ off [] S1) as (c1 & G & W).
           eexists _, _, _; split; [reflexivity|]. split; [apply (st_write sd_kind d0 c p off [] c1 G)|]. apply Put; auto; try discriminate; cbn [length] in *; [lia|].
           rewrite Nat.add_0_r in W. eapply shows_same; [exact W|]. intros x. now rewrite written_nil.
        -- destruct (shows_write _ _ _ _ off [] S) as (c1 & G & W). eexists _, _, _; split; [reflexivity|]. split; [apply (st_write sd_kind d0 c p off [] c1 G)|].
           cbn [sd_rel]. split; auto. split; auto. split; auto. cbn [length] in W. rewrite Nat.max_l in W by lia.
           eapply shows_same; [exact W|]. intros y. now rewrite written_nil.
      * destruct (shows_write _ _ _ _ off (x :: data) S) as (c1 & G & W). eexists _, _, _. split; [reflexivity|]. split; [apply (st_write sd_kind d0 c p off _ c1 G)|].
        apply Put; auto; discriminate.
    + rewrite Hw. destruct w; cbn [negb]; [|eexists _, _, _; split; [reflexivity|]; split; [now apply st_readonly|auto]].
      eexists _, _, _. split; [reflexivity|]. split; [rewrite <- L; apply st_append|]. destruct data as [|x data].
      * rewrite app_nil_r. auto.
      * apply Put; auto; try discriminate; [lia|]. now apply shows_append.
    + rewrite Hw. destruct w; cbn [negb]; [|eexists _, _, _; split; [reflexivity|]; split; [now apply st_readonly|auto]].
      destruct (Nat.eqb_spec n 0) as [->|Hn].
      * eexists _, _, _. split; [reflexivity|]. split; [now apply st_expand0|auto].
      * pose proof (shows_poke _ _ _ _ (d_size f + n) S ltac:(lia)) as S1.
        destruct (shows_grown _ _ _ _ (d_size f + n) S1 ltac:(lia)) as [G W]. eexists _, _, _. split; [reflexivity|]. split.
        -- rewrite <- L at 1. apply st_expand. rewrite L. exact G.
        -- apply Put; auto; try discriminate. cbn [length]. lia.
    + rewrite Hw. destruct w; cbn [negb]; [|eexists _, _, _; split; [reflexivity|]; split; [now apply st_readonly|auto]].
      destruct (Nat.eqb_spec n (d_size f)) as [->|Hn].
      * eexists _, _, _. split; [reflexivity|]. split; [apply st_shrink; lia|]. rewrite <- L, Nat.eqb_refl, firstn_all, andb_true_r. auto.
      * destruct (Nat.ltb_spec (d_size f) n) as [H|H].
        -- pose proof (shows_poke _ _ _ _ n S H) as S1. destruct (shows_grown _ _ _ _ n S1 ltac:(lia)) as [G W].
           eexists _, _, _. split; [reflexivity|]. split; [apply st_stretch; [lia|exact G]|]. apply Put; auto; try discriminate. cbn [length]. lia.
        -- eexists _, _, _. split; [reflexivity|]. split; [apply st_shrink; lia|]. cbn [sd_rel d_w d_size d_disk]. rewrite ftrunc_length.
           split; auto. split; auto. split; [|discriminate]. eapply shows_ext; [apply (shows_shrink _ (d_size f)); [exact S|lia]| |].
           ++ intros x Hx. unfold sd_close. rewrite Hw, !ftrunc_byte, !(proj2 (Nat.ltb_lt _ _)) by lia. reflexivity.
           ++ intros _ x Hx. rewrite ftrunc_byte, (proj2 (Nat.ltb_ge _ _)) by lia. reflexivity.
    + destruct (Nat.ltb_spec (d_size f) n) as [H|H].
      * eexists _, _, _. split; [reflexivity|]. split; [apply st_fake_fail; lia|auto].
      * eexists _, _, _. split; [reflexivity|]. split; [apply st_fake_shrink; lia|]. cbn [sd_rel d_w d_size d_disk]. split; auto. split; [lia|]. split; auto.
        now apply (shows_shrink _ (d_size f)).
    + eexists _, _, (SOpen w d0 c p). split; [reflexivity|]. split; [|auto]. destruct w; [apply st_sync|apply (st_sync_readonly sd_kind)].
    + eexists _, _, _. split; [reflexivity|]. split; [rewrite <- L; apply st_size|auto].
Qed.
