(** Auxiliary notions for the proofs about the hash database: the layout of
    the record area, buckets and chains.  Nothing here models code. *)
From Verif Require Import Bytes CodecModel CodecProofs FileModel HashUtilModel HashUtilProofs HashRecModel
  HashRecProofs FbpModel FbpProofs HashDbModel.
Open Scope N_scope.

(** * Layout: the records of the file by offset *)
Definition layout := list (N * hrec).

Fixpoint lget (L : layout) (o : N) : option hrec :=
  match L with
  | [] => None
  | (o', r) :: L' => if o' =? o then Some r else lget L' o
  end.

Definition lupd (L : layout) (o : N) (r : hrec) : layout :=
  map (fun p => if fst p =? o then (o, r) else p) L.

Fixpoint contig (base : N) (L : layout) (stop : N) : Prop :=
  match L with
  | [] => base = stop
  | (o, r) :: L' => o = base /\ 0 < r_whole r /\ contig (base + r_whole r) L' stop
  end.

Lemma contig_range L : forall base stop o r, contig base L stop -> lget L o = Some r ->
  base <= o /\ o + r_whole r <= stop /\ 0 < r_whole r.
Proof.
  assert (G : forall L base stop, contig base L stop -> base <= stop).
  { clear. induction L as [|[o r] L IH]; intros base stop H; cbn [contig] in H; [lia|].
    destruct H as (-> & Hw & H). apply IH in H. lia. }
  induction L as [|[o' r'] L IH]; intros base stop o r H E; cbn [contig lget] in *; [discriminate|].
  destruct H as (-> & Hw & H). destruct (N.eqb_spec base o) as [->|Hne].
  - injection E as ->. apply G in H. lia.
  - apply (IH _ _ _ _ H) in E. lia.
Qed.

Lemma contig_disjoint L : forall base stop o1 r1 o2 r2, contig base L stop ->
  lget L o1 = Some r1 -> lget L o2 = Some r2 -> o1 <> o2 -> o1 + r_whole r1 <= o2 \/ o2 + r_whole r2 <= o1.
Proof.
  induction L as [|[o' r'] L IH]; intros base stop o1 r1 o2 r2 H E1 E2 Hne; cbn [contig lget] in *; [discriminate|].
  destruct H as (-> & Hw & H).
  destruct (N.eqb_spec base o1) as [->|N1]; destruct (N.eqb_spec o1 o2) as [->|N2]; try congruence.
  - destruct (N.eqb_spec o1 o2); [congruence|]. injection E1 as ->.
    destruct (contig_range _ _ _ _ _ H E2). lia.
  - destruct (N.eqb_spec base o2) as [->|N3].
    + injection E2 as ->. destruct (contig_range _ _ _ _ _ H E1). lia.
    + apply (IH _ _ _ _ _ _ H E1 E2 Hne).
Qed.

Lemma lget_lupd L o r o' :
  lget (lupd L o r) o' = if o =? o' then (match lget L o with Some _ => Some r | None => None end) else lget L o'.
Proof.
  induction L as [|[a ra] L IH]; cbn [lupd map lget fst]; [destruct (o =? o'); reflexivity|].
  fold (lupd L o r). destruct (N.eqb_spec a o) as [->|Hne].
  - cbn [lget]. destruct (N.eqb_spec o o') as [->|]; [reflexivity|]. exact IH.
  - cbn [lget]. destruct (N.eqb_spec o o') as [->|Hno].
    + destruct (N.eqb_spec a o'); [congruence|]. exact IH.
    + destruct (N.eqb_spec a o'); [reflexivity|]. exact IH.
Qed.

Lemma lupd_id L o r : lget L o = None -> lupd L o r = L.
Proof.
  induction L as [|[a ra] L IH]; cbn [lupd map lget fst]; [reflexivity|].
  destruct (N.eqb_spec a o); [discriminate|]. intros H. f_equal. apply IH. exact H.
Qed.

Lemma contig_lupd L : forall base stop o r r', contig base L stop -> lget L o = Some r -> r_whole r' = r_whole r ->
  contig base (lupd L o r') stop.
Proof.
  induction L as [|[a ra] L IH]; intros base stop o r r' H E Hw; cbn [lupd map lget contig fst] in *; [discriminate|].
  destruct H as (-> & Hp & H). fold (lupd L o r').
  destruct (N.eqb_spec base o) as [->|Hne].
  - injection E as ->. cbn [contig]. repeat split; try lia.
    rewrite lupd_id; [rewrite Hw; exact H|].
    destruct (lget L o) as [rx|] eqn:Ex; [|reflexivity].
    destruct (contig_range _ _ _ _ _ H Ex). lia.
  - cbn [contig]. repeat split; try assumption. eapply IH; eauto.
Qed.

Lemma lget_above L base stop o : contig base L stop -> stop <= o -> lget L o = None.
Proof.
  intros H Ho. destruct (lget L o) as [r|] eqn:E; [|reflexivity].
  destruct (contig_range _ _ _ _ _ H E). lia.
Qed.

Lemma lget_app L L' o : lget (L ++ L') o = match lget L o with Some r => Some r | None => lget L' o end.
Proof. induction L as [|[a ra] L IH]; cbn [app lget]; [reflexivity|]. destruct (a =? o); [reflexivity|exact IH]. Qed.

Lemma lget_snoc L base stop r o : contig base L stop ->
  lget (L ++ [(stop, r)]) o = if stop =? o then Some r else lget L o.
Proof.
  intros H. rewrite lget_app. cbn [lget]. destruct (N.eqb_spec stop o) as [->|Hne].
  - rewrite (lget_above L base o o H) by lia. reflexivity.
  - destruct (lget L o); reflexivity.
Qed.

Lemma contig_snoc L : forall base stop r, contig base L stop -> 0 < r_whole r ->
  contig base (L ++ [(stop, r)]) (stop + r_whole r).
Proof.
  induction L as [|[a ra] L IH]; intros base stop r H Hw; cbn [app contig] in *.
  - subst. repeat split; auto.
  - destruct H as (-> & Hp & H). repeat split; auto.
Qed.

Lemma contig_length L : forall base stop, contig base L stop -> N.of_nat (length L) <= stop - base.
Proof.
  assert (G : forall L base stop, contig base L stop -> base + N.of_nat (length L) <= stop).
  { induction L0 as [|[o r] L0 IH]; intros base stop H; cbn [contig length] in *; [lia|].
    destruct H as (-> & Hw & H). apply IH in H. lia. }
  intros base stop H. apply G in H. lia.
Qed.

Lemma lget_in L o r : lget L o = Some r -> In (o, r) L.
Proof.
  induction L as [|[a ra] L IH]; cbn [lget In]; [discriminate|].
  destruct (N.eqb_spec a o) as [->|]; intros E; [injection E as ->; auto|auto].
Qed.
Lemma lget_fst L o r : lget L o = Some r -> In o (map fst L).
Proof. intros E. apply lget_in in E. apply (in_map fst) in E. exact E. Qed.
Lemma in_lget L base stop o r : contig base L stop -> In (o, r) L -> lget L o = Some r.
Proof.
  revert base; induction L as [|[a ra] L IH]; intros base H Hi; cbn [lget contig In] in *; [destruct Hi|].
  destruct H as (-> & Hp & H). destruct Hi as [E|Hi].
  - injection E as -> ->. rewrite N.eqb_refl. reflexivity.
  - assert (E := IH _ H Hi). destruct (contig_range _ _ _ _ _ H E).
    destruct (N.eqb_spec base o); [lia|exact E].
Qed.

(** * The file holds the layout *)
Definition recs (d : hdb) (f : file) (L : layout) : Prop :=
  contig (record_base d) L (fsize f) /\ fsize f mod halign (d_c d) = 0 /\
  forall o r, lget L o = Some r ->
    rec_at (d_c d) f o r /\ rec_ok (d_c d) r /\ o mod halign (d_c d) = 0.

Definition buckets (d : hdb) (f : file) (V : N -> N) : Prop :=
  forall b, b < d_nb d -> get_bucket d f b = Some (V b).

Definition bupd {A} (V : N -> A) (b : N) (v : A) : N -> A := fun x => if x =? b then v else V x.

Definition hdb_ok (d : hdb) : Prop := hcfg_ok (d_c d) /\ 0 < d_nb d /\ META_MIN_READ_SIZE <= d_mrs d.

Definition capacity (d : hdb) : N := 256 ^ N.of_nat (ow (d_c d)) * halign (d_c d).

Lemma record_base_ge d : METADATA_SIZE + d_nb d * N.of_nat (ow (d_c d)) + 1024 <= record_base d.
Proof.
  unfold record_base, FBP_SECTION_SIZE, RECORD_BASE_HEADER_SIZE.
  match goal with |- context [align_num ?x ?a] => assert (G := align_num_ge x a) end.
  unfold RECORD_BASE_ALIGN in *. lia.
Qed.

Lemma bucket_fits d b : b < d_nb d ->
  METADATA_SIZE + b * N.of_nat (ow (d_c d)) + N.of_nat (ow (d_c d)) + 1024 <= record_base d.
Proof.
  intros H. assert (G := record_base_ge d).
  assert (M : (b + 1) * N.of_nat (ow (d_c d)) <= d_nb d * N.of_nat (ow (d_c d))) by (apply N.mul_le_mono_r; lia).
  lia.
Qed.

Lemma recs_size d f L : recs d f L -> record_base d <= fsize f.
Proof.
  intros (H & _). revert H. generalize (record_base d). induction L as [|[o r] L IH]; intros base H; cbn [contig] in H; [lia|].
  destruct H as (-> & Hw & H). apply IH in H. lia.
Qed.

Lemma recs_child_ok d f L o r : recs d f L -> fsize f <= capacity d -> lget L o = Some r -> child_ok (d_c d) o.
Proof.
  intros (Hc & _ & H) Hs E. destruct (H o r E) as (_ & _ & Ha). split; [exact Ha|].
  destruct (contig_range _ _ _ _ _ Hc E). unfold capacity in Hs. lia.
Qed.

Lemma child_ok_0 c : child_ok c 0.
Proof.
  split; [apply N.mod_0_l, halign_nz|].
  assert (256 ^ N.of_nat (ow c) <> 0) by (apply N.pow_nonzero; discriminate).
  assert (Hz := halign_nz c). nia.
Qed.

Lemma get_bucket_same d f b v : child_ok (d_c d) v -> get_bucket d (set_bucket d f b v) b = Some v.
Proof.
  intros Hv. unfold get_bucket, set_bucket.
  set (o := METADATA_SIZE + b * N.of_nat (ow (d_c d))).
  assert (L := write_fix_length (ow (d_c d)) (N.shiftr v (apow (d_c d)))).
  rewrite file_read_ok.
  - unfold file_write. cbn [fdata]. rewrite Nat2N.id. rewrite <- L at 2. rewrite dread_dwrite_same.
    rewrite read_write_fix_bytes. destruct (child_roundtrip _ _ Hv) as [H1 H2].
    rewrite N.mod_small by exact H1. rewrite H2. reflexivity.
  - unfold file_write. cbn [fsize]. unfold blen. rewrite L. lia.
Qed.

Lemma get_bucket_write_disjoint d f b off bs :
  METADATA_SIZE + b * N.of_nat (ow (d_c d)) + N.of_nat (ow (d_c d)) <= off ->
  METADATA_SIZE + b * N.of_nat (ow (d_c d)) + N.of_nat (ow (d_c d)) <= fsize f ->
  get_bucket d (file_write f off bs) b = get_bucket d f b.
Proof.
  intros H H2. unfold get_bucket. rewrite !file_read_ok by (unfold file_write; cbn [fsize]; lia).
  unfold file_write. cbn [fdata]. rewrite dread_dwrite_disjoint by lia. reflexivity.
Qed.

Lemma set_bucket_ok d f L V b v :
  recs d f L -> buckets d f V -> b < d_nb d -> child_ok (d_c d) v ->
  recs d (set_bucket d f b v) L /\ buckets d (set_bucket d f b v) (bupd V b v) /\
  fsize (set_bucket d f b v) = fsize f.
Proof.
  intros HR HB Hb Hv. assert (Hsz := recs_size d f L HR). destruct HR as (Hc & Hm & Hr).
  assert (F := bucket_fits d b Hb).
  assert (Lw : blen (write_fix (ow (d_c d)) (N.shiftr v (apow (d_c d)))) = N.of_nat (ow (d_c d)))
    by (unfold blen; rewrite write_fix_length; reflexivity).
  assert (Es : fsize (set_bucket d f b v) = fsize f) by (unfold set_bucket, file_write; cbn [fsize]; lia).
  split; [|split; [|exact Es]].
  - unfold recs. rewrite Es. split; [exact Hc|]. split; [exact Hm|]. intros o r E. destruct (Hr o r E) as (H1 & H2 & H3).
    split; [|split; assumption]. apply rec_at_write_disjoint; [exact H1|].
    destruct (contig_range _ _ _ _ _ Hc E). lia.
  - intros b' Hb'. unfold bupd. destruct (N.eqb_spec b' b) as [->|Hne].
    + apply get_bucket_same. exact Hv.
    + rewrite <- (HB b' Hb'). assert (F' := bucket_fits d b' Hb'). unfold set_bucket.
      unfold get_bucket. rewrite !file_read_ok by (unfold file_write; cbn [fsize]; lia).
      unfold file_write. cbn [fdata]. rewrite dread_dwrite_disjoint; [reflexivity|]. rewrite Lw, N2Nat.id.
      destruct (N.lt_ge_cases b b') as [H|H].
      * assert (M : (b + 1) * N.of_nat (ow (d_c d)) <= b' * N.of_nat (ow (d_c d))) by (apply N.mul_le_mono_r; lia). lia.
      * assert (M : (b' + 1) * N.of_nat (ow (d_c d)) <= b * N.of_nat (ow (d_c d))) by (apply N.mul_le_mono_r; lia). lia.
Qed.

(** Writing inside the region of a record. *)
Lemma write_inside_ok d f L V o r r' off bs :
  recs d f L -> buckets d f V -> lget L o = Some r -> r_whole r' = r_whole r ->
  rec_ok (d_c d) r' -> o <= off -> off + blen bs <= o + r_whole r ->
  rec_at (d_c d) (file_write f off bs) o r' ->
  recs d (file_write f off bs) (lupd L o r') /\ buckets d (file_write f off bs) V /\
  fsize (file_write f off bs) = fsize f.
Proof.
  intros HR HB E Hw Hok Ho1 Ho2 Hat. assert (Hsz := recs_size d f L HR). destruct HR as (Hc & Hm & Hr).
  destruct (contig_range _ _ _ _ _ Hc E) as (Hg1 & Hg2 & _).
  assert (Es : fsize (file_write f off bs) = fsize f) by (unfold file_write; cbn [fsize]; lia).
  split; [|split; [|exact Es]].
  - unfold recs. rewrite Es. split; [eapply contig_lupd; eauto|]. split; [exact Hm|].
    intros o' r0 E'. rewrite lget_lupd in E'. destruct (N.eqb_spec o o') as [->|Hne].
    + rewrite E in E'. injection E' as <-. split; [exact Hat|]. split; [exact Hok|]. apply (Hr o' r E).
    + destruct (Hr o' r0 E') as (H1 & H2 & H3). split; [|split; assumption].
      apply rec_at_write_disjoint; [exact H1|].
      destruct (contig_disjoint _ _ _ _ _ _ _ Hc E E' Hne); lia.
  - intros b Hb. rewrite <- (HB b Hb). assert (F := bucket_fits d b Hb).
    apply get_bucket_write_disjoint; lia.
Qed.

Lemma replace_ok d f L V o r r' :
  recs d f L -> buckets d f V -> lget L o = Some r -> r_whole r' = r_whole r -> rec_ok (d_c d) r' ->
  let f' := file_write f o (rec_bytes (d_c d) r') in
  recs d f' (lupd L o r') /\ buckets d f' V /\ fsize f' = fsize f.
Proof.
  intros HR HB E Hw Hok f'. assert (Hb : base_size (d_c d) (r_key r') (r_val r') <= r_whole r') by apply Hok.
  apply (write_inside_ok d f L V o r r' o (rec_bytes (d_c d) r')); auto; try lia.
  - rewrite rec_bytes_blen by exact Hb. lia.
  - apply rec_at_write. exact Hb.
Qed.

Lemma write_child_ok d f L V o r child :
  hcfg_ok (d_c d) -> recs d f L -> buckets d f V -> lget L o = Some r -> child_ok (d_c d) child ->
  let f' := write_child (d_c d) f o child in
  recs d f' (lupd L o (with_child r child)) /\ buckets d f' V /\ fsize f' = fsize f.
Proof.
  intros Hcfg HR HB E Hch f'. assert (Hr := HR). destruct Hr as (Hc & Hm & Hr). destruct (Hr o r E) as (H1 & H2 & H3).
  assert (Hb : base_size (d_c d) (r_key r) (r_val r) <= r_whole r) by apply H2.
  apply (write_inside_ok d f L V o r (with_child r child) (o + 1)
     (write_fix (ow (d_c d)) (N.shiftr child (apow (d_c d))))); auto; try lia.
  - destruct H2 as (K1 & K2 & K3 & K4 & K5 & K6 & K7). unfold rec_ok. cbn [with_child r_key r_val r_whole r_child].
    repeat split; auto; apply Hch.
  - unfold blen. rewrite write_fix_length. unfold base_size in Hb. lia.
  - apply write_child_at; assumption.
Qed.

Lemma append_ok d f L V r :
  recs d f L -> buckets d f V -> rec_ok (d_c d) r ->
  let f' := fst (file_append f (rec_bytes (d_c d) r)) in
  recs d f' (L ++ [(fsize f, r)]) /\ buckets d f' V /\ fsize f' = fsize f + r_whole r.
Proof.
  intros HR HB Hok f'. assert (Hsz := recs_size d f L HR). destruct HR as (Hc & Hm & Hr).
  assert (Hb : base_size (d_c d) (r_key r) (r_val r) <= r_whole r) by apply Hok.
  assert (Lb := rec_bytes_blen _ _ Hb).
  assert (Hpos : 0 < r_whole r) by (unfold base_size in Hb; lia).
  assert (Es : fsize f' = fsize f + r_whole r) by (unfold f', file_append, file_write; cbn [fst fsize]; lia).
  split; [|split; [|exact Es]].
  - unfold recs. rewrite Es. split; [apply contig_snoc; assumption|]. split.
    + destruct Hok as (_ & _ & _ & _ & _ & Hwm & _). rewrite N.add_mod by apply halign_nz.
      rewrite Hm, Hwm. apply N.mod_0_l, halign_nz.
    + intros o r0 E. rewrite (lget_snoc _ _ _ _ _ Hc) in E. destruct (N.eqb_spec (fsize f) o) as [<-|Hne].
      * injection E as <-. split; [|split; assumption]. apply rec_at_write. exact Hb.
      * destruct (Hr o r0 E) as (H1 & H2 & H3). split; [|split; assumption].
        apply rec_at_write_disjoint; [exact H1|]. destruct (contig_range _ _ _ _ _ Hc E). lia.
  - intros b Hb'. rewrite <- (HB b Hb'). assert (F := bucket_fits d b Hb').
    apply get_bucket_write_disjoint; lia.
Qed.

(** * Chains *)
Definition store := N -> option hrec.

Fixpoint linked (g : store) (l : list N) : Prop :=
  match l with
  | [] => True
  | o :: rest => (exists r, g o = Some r /\ r_child r = hd 0 rest /\ r_type r <> OpVoid) /\ linked g rest
  end.

Fixpoint find_in (g : store) (k : bytes) (l : list N) : option N :=
  match l with
  | [] => None
  | o :: rest => match g o with
                 | Some r => if beqb k (r_key r) then Some o else find_in g k rest
                 | None => find_in g k rest
                 end
  end.

Definition no_key (g : store) (k : bytes) (l : list N) : Prop :=
  forall o r, In o l -> g o = Some r -> r_key r <> k.

Lemma linked_ext g g' l : (forall o, In o l -> g' o = g o) -> linked g l -> linked g' l.
Proof.
  induction l as [|o l IH]; cbn [linked]; [trivial|]. intros He [(r & H1 & H2) H].
  split; [exists r; rewrite He by (left; reflexivity); auto|]. apply IH; [|exact H].
  intros o' Ho'. apply He. right; exact Ho'.
Qed.

Lemma linked_in g l o : linked g l -> In o l -> exists r, g o = Some r /\ r_type r <> OpVoid.
Proof.
  induction l as [|a l IH]; cbn [linked In]; [tauto|]. intros [(r & H1 & H2 & H3) H] [<-|Hi]; eauto.
Qed.

Lemma linked_app_r g l1 l2 : linked g (l1 ++ l2) -> linked g l2.
Proof. induction l1 as [|a l1 IH]; cbn [app linked]; [trivial|]. intros [_ H]; auto. Qed.

Lemma linked_hit g pre o post r : linked g (pre ++ o :: post) -> g o = Some r ->
  r_child r = hd 0 post /\ r_type r <> OpVoid.
Proof.
  intros H E. apply linked_app_r in H. cbn [linked] in H. destruct H as [(r' & H1 & H2 & H3) _].
  rewrite E in H1. injection H1 as <-. auto.
Qed.

(** Replacing the tail of a chain after [p]. *)
Lemma linked_splice g g' pre p rp tl tl' :
  linked g (pre ++ p :: tl) -> (forall o, In o pre -> g' o = g o) ->
  g p = Some rp -> g' p = Some (with_child rp (hd 0 tl')) -> linked g' tl' ->
  linked g' (pre ++ p :: tl').
Proof.
  induction pre as [|a pre IH]; cbn [app linked].
  - intros [(r & H1 & H2 & H3) H] _ E E' Ht. split; [|exact Ht].
    rewrite E in H1. injection H1 as <-. exists (with_child rp (hd 0 tl')). auto.
  - intros [(r & H1 & H2 & H3) H] He E E' Ht. split.
    + exists r. rewrite He by (left; reflexivity). split; [exact H1|]. split; [|exact H3].
      rewrite H2. destruct pre; reflexivity.
    + apply IH; auto. intros o Ho. apply He. right; exact Ho.
Qed.

Lemma find_in_ext g g' k l :
  (forall o, In o l -> option_map r_key (g' o) = option_map r_key (g o)) -> find_in g' k l = find_in g k l.
Proof.
  induction l as [|o l IH]; intros He; cbn [find_in]; [reflexivity|].
  assert (E := He o (or_introl eq_refl)). rewrite IH by (intros o' Ho'; apply He; right; exact Ho').
  destruct (g o) as [r|], (g' o) as [r'|]; cbn [option_map] in E; try discriminate; [|reflexivity].
  injection E as ->. reflexivity.
Qed.

Lemma find_in_none g k l : no_key g k l -> find_in g k l = None.
Proof.
  induction l as [|o l IH]; intros H; cbn [find_in]; [reflexivity|].
  rewrite IH by (intros o' r' Ho'; apply H; right; exact Ho').
  destruct (g o) as [r|] eqn:E; [|reflexivity].
  destruct (beqb_spec k (r_key r)) as [->|]; [|reflexivity].
  destruct (H o r (or_introl eq_refl) E eq_refl).
Qed.

Lemma find_in_app g k l1 l2 : no_key g k l1 -> find_in g k (l1 ++ l2) = find_in g k l2.
Proof.
  induction l1 as [|o l1 IH]; intros H; cbn [app find_in]; [reflexivity|].
  rewrite IH by (intros o' r' Ho'; apply H; right; exact Ho').
  destruct (g o) as [r|] eqn:E; [|reflexivity].
  destruct (beqb_spec k (r_key r)) as [->|]; [|reflexivity].
  destruct (H o r (or_introl eq_refl) E eq_refl).
Qed.

Lemma find_in_hit g k pre o post r : no_key g k pre -> g o = Some r -> r_key r = k ->
  find_in g k (pre ++ o :: post) = Some o.
Proof.
  intros H E <-. rewrite find_in_app by exact H. cbn [find_in]. rewrite E, beqb_refl. reflexivity.
Qed.

(** The walk of ProcessImpl finds the first record with the key. *)
Lemma walk_spec d f L key mrs l : forall fuel parent,
  hcfg_ok (d_c d) -> recs d f L -> linked (lget L) l -> META_MIN_READ_SIZE <= mrs -> (length l < fuel)%nat ->
  (no_key (lget L) key l /\ walk fuel (d_c d) f key mrs (hd 0 l) parent = WMiss) \/
  (exists pre o post r m, l = pre ++ o :: post /\ no_key (lget L) key pre /\ lget L o = Some r /\ r_key r = key /\
     walk fuel (d_c d) f key mrs (hd 0 l) parent = WHit o (last pre parent) m /\
     read_meta (d_c d) f o mrs = Some m /\
     m_type m = r_type r /\ m_child m = r_child r /\ m_key m = r_key r /\ m_whole m = r_whole r /\
     m_vsz m = blen (r_val r) /\ meta_value f o m = Some (r_val r)).
Proof.
  induction l as [|o l IH]; intros fuel parent Hcfg HR HL Hm Hf.
  - left. split; [intros o r []|]. destruct fuel as [|fuel]; [cbn in Hf; lia|]. reflexivity.
  - destruct fuel as [|fuel]; [cbn in Hf; lia|]. cbn [hd walk].
    cbn [linked] in HL. destruct HL as [(r & E & Hch & Hty) HL].
    assert (HR' := HR). destruct HR' as (Hc & _ & Hr). destruct (Hr o r E) as (Hat & Hok & _).
    destruct (contig_range _ _ _ _ _ Hc E) as (Hlo & _). assert (G := record_base_ge d). unfold METADATA_SIZE in G.
    destruct (N.ltb_spec 0 o); [|lia].
    destruct (read_meta_ok _ _ _ _ mrs Hcfg Hok Hat Hm) as (m & Em & M1 & M2 & M3 & M4 & M5 & M6 & M7 & M8).
    rewrite Em, M3.
    destruct (beqb_spec key (r_key r)) as [Ek|Hne].
    + right. exists [], o, l, r, m. repeat split; auto. intros o' r' [].
    + rewrite M2, Hch. cbn [length] in Hf.
      destruct (IH fuel o Hcfg HR HL Hm ltac:(lia)) as [[Hn Hw]|(pre & o1 & post & r1 & m1 & El & Hn & E1 & Hk & Hw & Hrest)].
      * left. split; [|exact Hw]. intros o' r' [<-|Hi] E'; [rewrite E in E'; injection E' as <-; auto|exact (Hn o' r' Hi E')].
      * right. exists (o :: pre), o1, post, r1, m1. rewrite El. repeat split; try (apply Hrest); auto.
        -- intros o' r' [<-|Hi] E'; [rewrite E in E'; injection E' as <-; auto|exact (Hn o' r' Hi E')].
        -- rewrite <- El, Hw. f_equal. destruct pre as [|p pre]; [reflexivity|]. cbn [last].
           clear. revert p. induction pre as [|q pre IH]; intros p; [reflexivity|]. cbn [last] in *. apply IH.
Qed.

Definition chains (d : hdb) (g : store) (B : N -> list N) : Prop :=
  forall b, b < d_nb d -> linked g (B b) /\ NoDup (B b) /\
    forall o r, In o (B b) -> g o = Some r -> primary_hash (r_key r) (d_nb d) = b.

Lemma primary_hash_lt key nb : 0 < nb -> primary_hash key nb < nb.
Proof. intros H. unfold primary_hash. apply N.mod_lt. lia. Qed.

Lemma chains_ext d g g' B : (forall o, g' o = g o) -> chains d g B -> chains d g' B.
Proof.
  intros He H b Hb. destruct (H b Hb) as (H1 & H2 & H3). split; [eapply linked_ext; eauto|].
  split; [exact H2|]. intros o r Ho E. rewrite He in E. eauto.
Qed.

Lemma chain_length d f L B b : recs d f L -> chains d (lget L) B -> b < d_nb d ->
  (length (B b) < S (S (N.to_nat (fsize f))))%nat.
Proof.
  intros (Hc & _) HC Hb. destruct (HC b Hb) as (H1 & H2 & _).
  assert (Hi : incl (B b) (map fst L)).
  { intros o Ho. destruct (linked_in _ _ _ H1 Ho) as (r & E & _). eapply lget_fst; eauto. }
  assert (Hl := NoDup_incl_length H2 Hi). rewrite map_length in Hl.
  assert (Hl2 := contig_length _ _ _ Hc). lia.
Qed.
