(** Each call on the skip database with its metadata does what the specification says. *)
From Coq Require Import List NArith ZArith Bool Lia Arith.
Import ListNotations.
From Verif Require Import Bytes BytesOrder CodecModel CodecProofs StatusModel FlatModel MqProofs FlatProofs DbmModel SkipModel SkipLayout SkipWrite SkipSearch SkipIter SkipMerge SkipSync SkipDb SkipProps SkipMetaModel SkipMetaSpec SkipMetaProofs SkipMetaScan.
Open Scope N_scope.

(** A database whose records are all in its file. *)
Record down (m : mdb) (s : sess) (R : list krec) : Prop := mkDown {
  dn_g : m_g m = s_g s; dn_w : m_writable m = s_w s; dn_h : m_healthy m = s_h s; dn_a : m_auto m = s_a s; dn_flag : negb (N.land (sh_closure (m_h m)) 1 =? 0) = s_flag s;
  dn_type : sh_type (m_h m) = s_type s; dn_tlt : s_type s < 2^32; dn_opq : sh_opaque (m_h m) = s_opaque s; dn_ver : ver_ok (sh_major (m_h m)) (sh_minor (m_h m)); dn_rng : sp_rng (g_sp (s_g s));
  dn_stored : stored (g_sp (s_g s)) (d_file (m_d m)) R; dn_fits : fits (g_sp (s_g s)) R; dn_ord : ordered R; dn_plain : Forall plain (kept R);
  dn_num : d_num (m_d m) = length R; dn_eff : d_eff (m_d m) = data_size R; dn_sorted : g_inorder (s_g s) = false -> d_sorted (m_d m) = None; dn_upd : d_updated (m_d m) = false }.
Definition with_disk (s : sess) (R : list krec) (k : disk) : sess := mkS (s_g s) (mkH R [] []) (s_w s) (s_h s) (s_a s) (s_flag s) (s_type s) (s_opaque s) k.

Lemma down_save fin m s R : down m s R -> sh_fsize (m_h m) = Z.of_N (blen (d_file (m_d m))) ->
  file_ok (d_file (m_d (save fin m))) (mkK (g_sp (s_g s)) R (s_flag s && fin) (s_type s) (pad64 (s_opaque s))) /\ down (save fin m) s R /\ sh_fsize (m_h (save fin m)) = Z.of_N (blen (d_file (m_d (save fin m)))).
Proof.
  intros [G W H A FL TY TL OQ VE RN ST FT OR PL NM EF SO UP] SZ. assert (PO := rng_ok _ RN).
  assert (FO : file_ok (d_file (m_d (save fin m))) (mkK (g_sp (s_g s)) R (s_flag s && fin) (s_type s) (pad64 (s_opaque s)))).
  { rewrite <- FL, <- TY, <- OQ. rewrite <- G. apply save_ok; rewrite ?G; auto. rewrite TY. exact TL. }
  assert (LS := fo_stored _ _ FO). cbn [k_p k_recs] in LS. split; [exact FO|]. split; [constructor; auto|].
  change (sh_fsize (m_h (save fin m))) with (sh_fsize (m_h m)). rewrite SZ, (stored_len _ _ _ ST), (stored_len _ _ _ LS). reflexivity.
Qed.
Lemma down_fresh m s R k : down m s R -> s_w s = true -> s_h s = true -> disk_ok (d_file (m_d m)) k -> rel (fresh m) (with_disk s R k).
Proof.
  intros [G W H A FL TY TL OQ VE RN ST FT OR PL NM EF SO UP] W1 H1 DO. assert (PO := rng_ok _ RN).
  destruct (fresh_ok m R) as (HO & HF & HU); rewrite ?G; auto.
  constructor; cbn [with_disk s_g s_w s_h s_a s_flag s_type s_opaque s_disk s_x x_old x_pend x_srcs]; auto.
  - unfold on_disk. replace (m_writable (fresh m)) with true by (rewrite <- W1, <- W; reflexivity). rewrite HF. exact DO.
  - rewrite W1, H1. cbn [andb]. rewrite <- G. split; [exact HO|auto].
Qed.
Lemma disk_of f k : file_ok f k -> disk_ok f k.
Proof. intros H. exists f, 0%nat. cbn [repeat]. rewrite app_nil_r. auto. Qed.
Lemma alive_holds m s : rel m s -> s_w s = true -> s_h s = true -> holds (s_g s) (m_d m) (x_old (s_x s)) (x_pend (s_x s)) (x_srcs (s_x s)) /\ (d_updated (m_d m) = false -> x_pend (s_x s) = [] /\ x_srcs (s_x s) = []).
Proof. intros R W H. assert (X := r_state _ _ R). rewrite W, H in X. exact X. Qed.
Lemma finish_down t red m s : rel m s -> s_w s = true -> s_h s = true -> op_ok (s_g s) (OSync red) (s_x s) ->
  exists m0, m_finish t red m = SOk (save true m0) /\ down m0 s (merged red (all_events (s_x s))) /\ sh_fsize (m_h m0) = Z.of_N (blen (d_file (m_d m0))).
Proof.
  intros R W H OK. destruct (alive_holds m s R W H) as [HO _]. destruct R as [G RW RH RA FL TY TL OQ VE RN DI _]. assert (PO := rng_ok _ RN).
  destruct (finish_ok (s_g s) PO red (m_d m) (s_x s) HO OK) as (d1 & E & ST & FT & OR & PL & NM & EF & SO & UP).
  exists (stamp t (with_d m d1)). unfold m_finish. rewrite G, E. cbn [sbind]. split; [reflexivity|]. split; [constructor; auto|reflexivity].
Qed.
Lemma idle_down m s : rel m s -> s_w s = true -> s_h s = true -> d_updated (m_d m) = false -> down m s (settled s) /\ settled s = x_old (s_x s).
Proof.
  intros R W H UP. destruct (alive_holds m s R W H) as [HO HU]. destruct (HU UP) as [E1 E2]. destruct R as [G RW RH RA FL TY TL OQ VE RN DI _].
  assert (E : settled s = x_old (s_x s)).
  { unfold settled, all_events. rewrite E1, E2. cbn [map concat app]. rewrite app_nil_r. apply merged_same. apply (h_ord _ _ _ _ _ HO). }
  split; [|exact E]. rewrite E. rewrite E1 in HO. destruct HO as [HF HT HO HP HR HON HOE HN HE HC HK HS HSP HQ]. constructor; auto.
  - rewrite app_nil_r in HP. exact HP.
  - rewrite HN. destruct (g_inorder (s_g s)); cbn [length]; lia.
  - rewrite HE. destruct (g_inorder (s_g s)); cbn; lia.
  - intros X. unfold pending in HQ. rewrite X in HQ. apply HQ.
Qed.
Lemma down_stamp t m s R : down m s R -> down (stamp t m) s R.
Proof. intros [G W H A FL TY TL OQ VE RN ST FT OR PL NM EF SO UP]. constructor; auto. Qed.
Lemma close_ok t m s : rel m s -> s_w s = true -> s_h s = true -> op_ok (s_g s) (OSync None) (s_x s) ->
  exists f, m_close t m = SOk f /\ file_ok f (mkK (g_sp (s_g s)) (settled s) (s_flag s) (s_type s) (pad64 (s_opaque s))).
Proof.
  intros R W H OK. unfold m_close. rewrite (r_w _ _ R), (r_h _ _ R), W, H. cbn [andb]. destruct (d_updated (m_d m)) eqn:UP.
  - destruct (finish_down t None m s R W H OK) as (m0 & E & D & SZ). rewrite E. cbn [sbind]. eexists. split; [reflexivity|].
    destruct (down_save true m0 s _ D SZ) as (F & _). rewrite andb_true_r in F. exact F.
  - destruct (idle_down m s R W H UP) as [D ES]. eexists. split; [reflexivity|]. set (m0 := stamp t (with_d m (discard (m_d m)))).
    destruct (alive_holds m s R W H) as [HO _].
    assert (D0 : down m0 s (settled s)).
    { destruct D as [DG DW DH DA DF DT DL DQ DV DR DS DFT DOR DP DN DE DSO DU]. constructor; auto; cbn; rewrite ES; [apply (h_onum _ _ _ _ _ HO)|apply (h_oeff _ _ _ _ _ HO)]. }
    destruct (down_save true m0 s _ D0 eq_refl) as (F & _). rewrite andb_true_r in F. exact F.
Qed.

(** * A new file *)
Lemma tuned_rng tn : sp_rng (tuned_sp tn).
Proof. unfold tuned_sp, sp_rng, clamp. cbn [ow step maxl]. destruct (Z.ltb_spec (t_ow tn) 0), (Z.ltb_spec (t_step tn) 0), (Z.ltb_spec (t_maxl tn) 0); lia. Qed.
Lemma fits_nil p : sp_rng p -> fits p [].
Proof. intros R. split; [cbn [length]; rewrite off_0; apply rng_128; exact R|]. intros i r H. destruct i; discriminate. Qed.
Lemma new_file_ok ver t tn : ver_ok (fst ver) (snd ver) -> file_ok (new_file ver t tn) (mkK (tuned_sp tn) [] true 0 (repeat 0 64)).
Proof.
  intros V. assert (RN := tuned_rng tn). unfold new_file. set (h := mkSH _ _ _ _ _ _ _ _).
  destruct (load_save (tuned_sp tn) 0 0 h true [] RN V ltac:(reflexivity) ltac:(reflexivity) ltac:(cbn; lia) ltac:(reflexivity)) as [L E]. rewrite app_nil_r in E.
  constructor; cbn [k_p k_recs k_flag k_type k_opaque]; auto; try constructor; try lia.
  - apply stored_nil. unfold blen. rewrite L. reflexivity.
  - cbn [length]. rewrite off_0. apply rng_128. exact RN.
  - intros i r H. destruct i; discriminate.
  - exists (back h true). split; [exact E|]. split; [cbn [back sh_cyc]; lia|]. split; [unfold blen; rewrite L; reflexivity|]. split; [reflexivity|]. split; [reflexivity|]. split; [reflexivity|exact V].
Qed.
Lemma open_new rst ver t tn : ver_ok (fst ver) (snd ver) -> exists m, m_open_with rst ver t true tn [] = SOk m /\ rel m (spec_new tn).
Proof.
  intros V. assert (F := new_file_ok ver t tn V). destruct (open_ok rst ver t true tn (new_file ver t tn) 0 _ F) as (m & E & R). cbn [repeat] in E. rewrite app_nil_r in E.
  exists m. split; [|exact R]. rewrite <- E. unfold m_open_with. cbn [andb]. replace (blen [] <? 1) with true by reflexivity.
  replace (blen (new_file ver t tn) <? 1) with false; [reflexivity|]. symmetry. apply N.ltb_ge. rewrite (stored_len _ _ _ (fo_stored _ _ F)). assert (X := off_base (tuned_sp tn) [] 0). cbn [k_p k_recs length]. lia.
Qed.
Lemma kept_app a b : kept (a ++ b) = kept a ++ kept b. Proof. apply map_app. Qed.
Lemma insert_all_ok g (PO : sp_ok (g_sp g)) : forall l a d, fits (g_sp g) (a ++ l) -> Forall plain (kept l) -> holds g d [] (kept a) [] ->
  exists d', insert_all g l d = SOk d' /\ holds g d' [] (kept (a ++ l)) [] /\ d_file d' = d_file d /\ (d_updated d' = false -> l = [] /\ d' = d).
Proof.
  induction l as [|[k v] l IH]; intros a d FT PL H.
  - exists d. rewrite app_nil_r. auto.
  - cbn [insert_all]. inversion PL as [|? ? P1 P2]; subst.
    assert (RS : rsize (g_sp g) (length a) (k, v) < 2^31). { apply (proj2 FT). rewrite nth_error_app2 by lia. rewrite Nat.sub_diag. reflexivity. }
    destruct (update_ok g PO d [] (kept a) [] k (ASet v) H) as (d1 & E & H1).
    { constructor; [|constructor]. split; [exact P1|]. unfold kept. rewrite map_length. split; [|intros _; exact RS]. unfold tame, ev_rec, raw. cbn [fst snd]. unfold rsize in RS. cbn [fst snd] in RS. assert (2^31 < 2^47) by reflexivity. lia. }
    unfold insert. rewrite E. cbn [sbind]. destruct (update_keep _ _ _ _ _ E) as (F1 & [[_ X]|U1]); [discriminate|].
    destruct (IH (a ++ [(k, v)]) d1) as (d' & E' & H' & F' & U'); [rewrite <- app_assoc; exact FT|exact P2|rewrite kept_app; exact H1|].
    exists d'. rewrite <- app_assoc in H'. split; [exact E'|]. split; [exact H'|]. split; [congruence|]. intros X. destruct (U' X) as [_ ->]. congruence.
Qed.
(** The file that Rebuild and RestoreDatabase write. *)
Lemma write_new_ok ver t a b c ty opq l : ver_ok (fst ver) (snd ver) -> ty < 2^32 -> let p := tuned_sp (ordered_tuning a b c) in fits p l -> ordered l -> Forall plain (kept l) ->
  exists f, write_new ver t (ordered_tuning a b c) ty opq l = SOk f /\ file_ok f (mkK p l true ty (pad64 opq)).
Proof.
  intros V TL p FT OR PL. set (tn := ordered_tuning a b c) in *. destruct (open_new (fun _ _ => SHang) ver t tn V) as (m & E & R). unfold write_new. rewrite E. cbn [sbind]. clear E.
  destruct (alive_holds m _ R eq_refl eq_refl) as [HO HU]. cbn [spec_new spec_open s_x s_g x_old x_pend x_srcs k_recs k_p] in HO.
  assert (G : m_g m = tuned_cfg tn p) by apply (r_g _ _ R).
  set (h := m_h m). set (m1 := with_h m _). change (m_g m1) with (m_g m). change (m_d m1) with (m_d m). rewrite G.
  assert (PO : sp_ok p) by (apply rng_ok, tuned_rng).
  destruct (insert_all_ok (tuned_cfg tn p) PO l [] (m_d m) FT PL HO) as (d & E & H1 & F1 & U1). rewrite E. cbn [sbind]. cbn [app] in H1.
  set (s2 := mkS (tuned_cfg tn p) (mkH [] (kept l) []) true true false true ty opq (s_disk (spec_new tn))).
  assert (R2 : rel (with_d m1 d) s2).
  { destruct R as [RG RW RH RA RF RT RL RO RV RR RD RS]. constructor; cbn [s2 s_g s_w s_h s_a s_flag s_type s_opaque s_disk s_x x_old x_pend x_srcs]; auto.
    - unfold on_disk in *. change (m_writable (with_d m1 d)) with (m_writable m). rewrite RW in *. cbn [spec_new spec_open s_w] in *. cbn [with_d m_d]. rewrite F1. exact RD.
    - cbn [andb]. split; [exact H1|]. cbn [with_d m_d]. intros X. destruct (U1 X) as [-> _]. auto. }
  assert (SE : settled s2 = l) by (unfold settled, all_events; cbn [s2 s_x x_old x_pend x_srcs map concat app kept]; apply merged_same; exact OR).
  destruct (close_ok t (with_d m1 d) s2 R2 eq_refl eq_refl) as (f & EC & FO).
  { unfold op_ok. cbv zeta. fold (settled s2). rewrite SE. split; [exact FT|]. split; [exact PL|]. intros _. cbn [s2 s_x x_old x_pend x_srcs]. rewrite kept_rec. split; [exact OR|]. split; [exact FT|]. intros _ _ _. apply kept_some. }
  exists f. split; [exact EC|]. rewrite SE in FO. exact FO.
Qed.

(** * Restoration *)
Lemma read_meta_app f g : 128 <= blen f -> read_meta (f ++ g) = read_meta f.
Proof.
  intros X. unfold read_meta. destruct (N.ltb_spec (blen f) 128) as [Y|_]; [lia|]. destruct (N.ltb_spec (blen (f ++ g)) 128) as [Y|_]; [rewrite blen_app in Y; lia|].
  assert (P : forall i n, (i + n <= 128)%nat -> firstn n (skipn i (f ++ g)) = firstn n (skipn i f)).
  { intros i n H. unfold blen in X. rewrite skipn_app, firstn_app. replace (n - length (skipn i f))%nat with 0%nat by (rewrite skipn_length; lia). cbn [firstn]. apply app_nil_r. }
  assert (P0 := P 0%nat 9%nat ltac:(lia)). cbn [skipn] in P0. rewrite P0. unfold fld, HashMetaModel.fld. rewrite !P by lia. reflexivity.
Qed.
Lemma load_firstn f n : (128 <= n)%nat -> 128 <= blen f -> load (firstn n f) = load f /\ read_meta (firstn n f) = read_meta f.
Proof.
  intros N1 B. assert (E : read_meta (firstn n f) = read_meta f).
  { rewrite <- (firstn_skipn n f) at 2. symmetry. apply read_meta_app. unfold blen in *. rewrite firstn_length. lia. }
  split; [unfold load; rewrite E; reflexivity|exact E].
Qed.
Lemma load_meta f s : load f = SOk s -> read_meta f = Some s.
Proof. unfold load. destruct (read_meta f) as [m|]; [|discriminate]. match goal with |- context [if ?b then _ else _] => destruct b end; [discriminate|]. intros H. inversion H. reflexivity. Qed.
Lemma retuned p : sp_rng p -> tuned_sp (ordered_tuning (Z.of_nat (ow p)) (Z.of_nat (step p)) (Z.of_nat (maxl p))) = p.
Proof.
  intros (A & B & C). unfold tuned_sp, clamp. cbn [ordered_tuning t_ow t_step t_maxl].
  destruct (Z.ltb_spec (Z.of_nat (ow p)) 0), (Z.ltb_spec (Z.of_nat (step p)) 0), (Z.ltb_spec (Z.of_nat (maxl p)) 0); try lia. destruct p as [x y z]. cbn [ow step maxl] in *. f_equal; lia.
Qed.
Lemma ordered_firstn n l : ordered l -> ordered (firstn n l).
Proof.
  unfold ordered. revert n. induction l as [|x l IH]; intros n H; [rewrite firstn_nil; constructor|]. destruct n; [constructor|]. cbn [firstn]. inversion H as [|? ? S F]; subst. constructor; [apply IH; exact S|].
  apply Forall_forall. intros y Y. rewrite Forall_forall in F. apply F. rewrite <- (firstn_skipn n l). apply in_or_app. left. exact Y.
Qed.
Lemma plain_firstn n l : Forall plain (kept l) -> Forall plain (kept (firstn n l)).
Proof. intros H. rewrite <- (firstn_skipn n l), kept_app in H. apply Forall_app in H. apply H. Qed.
Lemma fits_firstn p n l : fits p l -> fits p (firstn n l).
Proof.
  intros [A B]. destruct (le_lt_dec (length l) n) as [L|L]; [rewrite firstn_all2 by lia; split; assumption|]. split.
  - rewrite firstn_length, Nat.min_l by lia. rewrite <- (firstn_skipn n l) in A. rewrite app_length, firstn_length, Nat.min_l in A by lia.
    assert (X := off_le p (firstn n l ++ skipn n l) n (n + length (skipn n l)) ltac:(lia) ltac:(rewrite app_length, firstn_length; lia)). rewrite off_app in X by (rewrite firstn_length; lia). lia.
  - intros i r E. apply B. rewrite <- (firstn_skipn n l). rewrite nth_error_app1; [exact E|]. apply nth_error_Some. rewrite E. discriminate.
Qed.
Lemma restore_ok ver t f k n : ver_ok (fst ver) (snd ver) -> file_ok f k -> (128 <= n)%nat -> exists f2, restore ver t (firstn n f) = SOk f2 /\ file_ok f2 (mkK (k_p k) (whole_part (k_p k) n (k_recs k)) true (k_type k) (k_opaque k)).
Proof.
  intros V [RNG ST FT OR PL TY OQ (h & LD & CY & FS & CL & HT & HO & VO)] N1. assert (PO := rng_ok _ RNG).
  assert (BL : 128 <= blen f) by (rewrite (stored_len _ _ _ ST); apply off_base). destruct (load_firstn f n N1 BL) as [E1 E2]. rewrite (load_meta _ _ LD) in E2.
  unfold restore. destruct (N.ltb_spec (blen (firstn n f)) 128) as [X|_]; [exfalso; unfold blen in *; rewrite firstn_length in X; lia|]. rewrite E2. cbn [sm_p sm_h].
  destruct (Z.ltb_spec (sh_cyc h) 0) as [X|_]; [lia|]. replace (Nat.eqb (step (k_p k)) 0) with false by (symmetry; apply Nat.eqb_neq; destruct RNG as (_ & X & _); lia). cbn [andb].
  destruct (scan_whole (k_p k) f (k_recs k) n PO ST FT N1) as (e & ES & _). rewrite ES. cbn [sbind].
  assert (RT := retuned _ RNG). destruct (write_new_ok ver t (Z.of_nat (ow (k_p k))) (Z.of_nat (step (k_p k))) (Z.of_nat (maxl (k_p k))) (sh_type h) (sh_opaque h) (whole_part (k_p k) n (k_recs k)) V) as (f2 & E & FO).
  - rewrite HT. exact TY.
  - rewrite RT. apply fits_firstn. exact FT.
  - apply ordered_firstn. exact OR.
  - apply plain_firstn. exact PL.
  - exists f2. split; [exact E|]. rewrite RT, HT, HO, (pad64_id _ OQ) in FO. exact FO.
Qed.
Lemma loaded_down tn f k orig : file_ok f k -> k_flag k = true -> exists s2, load f = SOk s2 /\
  let m := loaded tn s2 f true true true orig in
  down m (mkS (tuned_cfg tn (k_p k)) (mkH (k_recs k) [] []) true true true true (k_type k) (k_opaque k) k) (k_recs k) /\ sh_fsize (m_h m) = Z.of_N (blen (d_file (m_d m))).
Proof.
  intros [RNG ST FT OR PL TY OQ (h & LD & CY & FS & CL & HT & HO & VO)] FL. eexists. split; [exact LD|]. cbn zeta. split; [|exact FS].
  constructor; cbn; auto; try congruence; try lia; rewrite ?Nat2Z.id, ?N2Z.id; auto.
Qed.
Lemma torn_ok ver t tn f n k : ver_ok (fst ver) (snd ver) -> match t_mode tn with RDefault | RSync => True | _ => False end -> file_ok f k -> (128 <= n)%nat -> N.of_nat n < blen f ->
  exists m, m_open ver t true tn (firstn n f) = SOk m /\ rel m (spec_open true tn (mkK (k_p k) (whole_part (k_p k) n (k_recs k)) false (k_type k) (k_opaque k))).
Proof.
  intros V MO FO N1 NB. destruct (restore_ok ver t f k n V FO N1) as (f2 & ER & FO2). destruct FO as [RNG ST FT OR PL TY OQ (h & LD & CY & FS & CL & HT & HO & VO)].
  destruct (load_firstn f n N1 ltac:(lia)) as [E1 _]. unfold m_open, m_open_with. cbn [andb]. assert (FL : blen (firstn n f) = N.of_nat n) by (unfold blen in *; rewrite firstn_length; lia). rewrite FL.
  destruct (N.ltb_spec (N.of_nat n) 1) as [X|_]; [lia|]. rewrite E1, LD. cbn [sbind sm_h sm_p sm_num sm_eff]. destruct (Z.ltb_spec (sh_cyc h) 0) as [X|_]; [lia|]. cbv zeta. rewrite FS, FL.
  destruct (Z.eqb_spec (Z.of_N (blen f)) (Z.of_N (N.of_nat n))) as [X|_]; [lia|]. destruct (Z.ltb_spec (Z.of_N (N.of_nat n)) (Z.of_N (blen f))) as [_|X]; [|lia].
  cbn [negb andb]. rewrite ER. cbn [sbind].
  destruct (loaded_down tn f2 _ (firstn n f) FO2 eq_refl) as (s2 & L2 & D & SZ). rewrite L2. cbn [sbind].
  replace (match t_mode tn with RReadOnly => false | _ => true end) with true by (destruct (t_mode tn); auto; contradiction).
  replace (match t_mode tn with RNoop => false | _ => true end) with true by (destruct (t_mode tn); auto; contradiction). cbn [sbind].
  eexists. split; [reflexivity|]. cbn [loaded m_writable m_healthy andb]. set (m := loaded _ _ _ _ _ _ _) in *.
  destruct (down_save false m _ _ D SZ) as (F3 & D3 & _). cbn [s_g s_flag s_type s_opaque k_p k_recs k_type k_opaque andb] in F3. rewrite (pad64_id _ OQ) in F3.
  assert (RR := down_fresh _ _ _ _ D3 eq_refl eq_refl (disk_of _ _ F3)).
  unfold spec_open, restoring. cbn [k_flag k_p k_recs k_type k_opaque]. replace (match t_mode tn with RReadOnly => false | _ => true end) with true by (destruct (t_mode tn); auto; contradiction). exact RR.
Qed.

(** * The calls *)
Lemma first_ok t m s : rel m s -> s_w s = true -> s_h s = true -> op_ok (s_g s) (OSync None) (s_x s) ->
  exists m1, (if d_updated (m_d m) then m_finish t None m else SOk m) = SOk m1 /\ down m1 s (settled s).
Proof.
  intros R W H OK. destruct (d_updated (m_d m)) eqn:UP.
  - destruct (finish_down t None m s R W H OK) as (m0 & E & D & SZ). exists (save true m0). split; [exact E|]. apply (down_save true m0 s _ D SZ).
  - exists m. split; [reflexivity|]. apply (idle_down m s R W H UP).
Qed.
Lemma clear_ok t m s : rel m s -> s_w s = true -> s_h s = true -> op_ok (s_g s) (OSync None) (s_x s) ->
  exists m', m_clear t m = SOk m' /\ rel m' (mkS (s_g s) (mkH [] [] []) (s_w s) (s_h s) (s_a s) false (s_type s) (pad64 (s_opaque s)) (mkK (g_sp (s_g s)) [] false (s_type s) (pad64 (s_opaque s)))).
Proof.
  intros R W H OK. destruct (first_ok t m s R W H OK) as (m1 & E & D). unfold m_clear. rewrite E. cbn [sbind]. cbv zeta. set (m2 := stamp t _). assert (RN := dn_rng _ _ _ D).
  assert (D2 : down m2 s []).
  { destruct D as [DG DW DH DA DF DT DL DQ DV DR DS DFT DOR DP DN DE DSO DU]. constructor; auto; try constructor.
    - change (d_file (m_d m2)) with (firstn 128 (d_file (m_d m1))). apply stored_nil. destruct DS as (pre & P & EF). unfold blen in *. rewrite firstn_length, EF, app_length. lia.
    - apply (fits_nil _ RN).
    - apply (fits_nil _ RN). }
  destruct (down_save false m2 s [] D2 eq_refl) as (F3 & D3 & SZ3). set (m3 := save false m2) in *. rewrite andb_false_r in F3. assert (DK := disk_of _ _ F3).
  destruct F3 as [_ _ _ _ _ _ _ (h & LD & CY & FS & CL & HT & HO & VO)]. cbn [k_p k_recs k_flag k_type k_opaque] in *. rewrite LD. cbn [sbind sm_p sm_h]. eexists. split; [reflexivity|].
  destruct D3 as [DG DW DH DA DF DT DL DQ DV DR DS DFT DOR DP DN DE DSO DU].
  set (s' := mkS (s_g s) (mkH [] [] []) (s_w s) (s_h s) (s_a s) false (s_type s) (pad64 (s_opaque s)) (s_disk s)).
  apply (down_fresh _ s' [] (mkK (g_sp (s_g s)) [] false (s_type s) (pad64 (s_opaque s)))); auto. constructor; cbn [m_g m_d m_h m_writable m_healthy m_auto s' s_g s_w s_h s_a s_flag s_type s_opaque]; auto.
  rewrite DG. destruct (s_g s). reflexivity.
Qed.
Lemma filter_true {A} (h : A -> bool) l : (forall x, In x l -> h x = true) -> filter h l = l.
Proof. induction l as [|x l IH]; intros H; [reflexivity|]. cbn. rewrite (H x (or_introl eq_refl)). f_equal. apply IH. intros y Y. apply H. right. exact Y. Qed.
Lemma whole_all p l n : off_of p l (length l) <= N.of_nat n -> whole_part p n l = l.
Proof.
  intros H. unfold whole_part. rewrite filter_true.
  - rewrite seq_length. apply firstn_all.
  - intros i I. apply in_seq in I. apply N.leb_le. assert (X := off_le p l i (length l) ltac:(lia) (le_n _)). lia.
Qed.
Lemma rebuild_ok ver t a b c m s : ver_ok (fst ver) (snd ver) -> rel m s -> s_w s = true -> s_h s = true -> op_ok (s_g s) (OSync None) (s_x s) -> let p := tuned_sp (ordered_tuning a b c) in fits p (settled s) ->
  exists m', m_rebuild ver t a b c m = SOk m' /\ rel m' (mkS (with_p (s_g s) p) (mkH (settled s) [] []) (s_w s) (s_h s) (s_a s) true (s_type s) (s_opaque s) (mkK p (settled s) false (s_type s) (pad64 (s_opaque s)))).
Proof.
  intros V R W H OK p FT. destruct (first_ok t m s R W H OK) as (m1 & E & D). unfold m_rebuild. rewrite E. cbn [sbind]. clear E.
  destruct D as [DG DW DH DA DF DT DL DQ DV DR DS DFT DOR DP DN DE DSO DU]. cbv zeta. assert (SL := stored_len _ _ _ DS).
  destruct (scan_whole (g_sp (s_g s)) (d_file (m_d m1)) (settled s) (length (d_file (m_d m1))) (rng_ok _ DR) DS DFT) as (e & ES & EN).
  { assert (X := off_base (g_sp (s_g s)) (settled s) (length (settled s))). unfold blen in SL. lia. }
  rewrite firstn_all in ES. assert (LL : off_of (g_sp (s_g s)) (settled s) (length (settled s)) <= N.of_nat (length (d_file (m_d m1)))) by (unfold blen in SL; lia).
  rewrite (EN LL) in ES. rewrite whole_all in ES by exact LL. rewrite DG, ES. cbn [sbind].
  destruct (write_new_ok ver t a b c 0 (repeat 0 64) (settled s) V ltac:(reflexivity) FT DOR DP) as (f2 & EW & FO). fold p in FO. rewrite EW. cbn [sbind].
  assert (ST2 := fo_stored _ _ FO). destruct FO as [_ _ _ _ _ _ _ (h & LD & CY & FS & CL & HT & HO & VO)]. cbn [k_p k_recs k_flag k_type k_opaque] in *. rewrite LD. cbn [sbind sm_p sm_num sm_eff sm_h].
  set (m2 := mkM _ _ _ _ _ _ _). set (s' := mkS (with_p (s_g s) p) (mkH (settled s) [] []) (s_w s) (s_h s) (s_a s) true (s_type s) (s_opaque s) (s_disk s)).
  assert (D2 : down m2 s' (settled s)).
  { constructor; cbn [m2 m_g m_d m_h m_writable m_healthy m_auto s' s_g s_w s_h s_a s_flag s_type s_opaque d_file d_num d_eff d_sorted d_updated sh_closure sh_type sh_opaque sh_major sh_minor with_p g_sp g_inorder]; auto.
    - apply tuned_rng.
    - apply Nat2Z.id.
    - apply N2Z.id. }
  destruct (down_save false m2 s' _ D2 eq_refl) as (F3 & D3 & _). rewrite andb_false_r in F3.
  eexists. split; [reflexivity|]. exact (down_fresh _ s' _ _ D3 W H (disk_of _ _ F3)).
Qed.
Lemma sync_step t red m s : rel m s -> s_w s = true -> s_h s = true -> op_ok (s_g s) (OSync red) (s_x s) -> let R := merged red (all_events (s_x s)) in
  exists m', m_sync t red m = SOk m' /\ rel m' (with_disk s R (mkK (g_sp (s_g s)) R false (s_type s) (pad64 (s_opaque s)))).
Proof.
  intros R W H OK RR. destruct (finish_down t red m s R W H OK) as (m0 & E & D & SZ). unfold m_sync. rewrite E. cbn [sbind]. eexists. split; [reflexivity|].
  destruct (down_save true m0 s _ D SZ) as (_ & D1 & SZ1). destruct (down_save false _ s _ D1 SZ1) as (F2 & D2 & _). rewrite andb_false_r in F2. apply down_fresh; auto. apply disk_of. exact F2.
Qed.
Lemma rel_cache m s d : rel m s -> s_w s && s_h s = false -> same_but_cache (m_d m) d -> cache_ok (g_sp (s_g s)) (x_old (s_x s)) (d_cache d) -> rel (with_d m d) s.
Proof.
  intros [G RW RH RA FL TY TL OQ VE RN DI RS] NA SC CO. destruct (sbc_file _ _ SC) as [SF SU]. constructor; auto.
  - unfold on_disk in *. cbn [with_d m_writable m_d m_orig]. rewrite SF. exact DI.
  - cbv zeta in *. rewrite NA in *. destruct RS as [[Q1 Q2 Q3 Q4 Q5 Q6 Q7 Q8] E]. split; [|exact E]. cbn [with_d m_d]. specialize (SC (d_cache d)).
    assert (E1 := f_equal d_num SC). assert (E2 := f_equal d_eff SC). cbn in E1, E2. constructor; auto; congruence.
Qed.
Lemma quiet_lookup g (PO : sp_ok (g_sp g)) d l k : quiet (g_sp g) d l -> exists c, lookup g k d = SOk (set_cache d c, first_val k l) /\ cache_ok (g_sp g) l c.
Proof.
  intros [HF HT HO HP HN HE HC HU]. unfold lookup.
  destruct (search_ok (g_sp g) (d_file d) l PO HF HT (ordered_ascending _ HO) (d_cache d) k false HC) as (c & o & C' & E & H). rewrite E. cbn [sbind]. rewrite first_val_pos. exists c. split; [|exact C'].
  destruct o as [r|].
  - destruct H as (i & G & B & D). assert (G' := G). destruct G' as (k0 & v & N & _). rewrite (get_value_ok (g_sp g) (d_file d) l i r k0 v HF G N). cbn [sbind].
    rewrite (first_pos_some (beqb k) l i); [rewrite N; reflexivity|apply (good_lt (g_sp g) l i r G)| |].
    + destruct D as [D|[D _]]; [|discriminate]. apply bcmp_eq in D. rewrite D. apply beqb_refl.
    + intros j J. rewrite beqb_bcmp, B by exact J. reflexivity.
  - rewrite first_pos_none; [reflexivity|]. intros j J. rewrite beqb_bcmp. specialize (H j J). destruct (bcmp k (keyat l j)); auto. congruence.
Qed.
Lemma mop_step ver o m s : ver_ok (fst ver) (snd ver) -> rel m s -> mop_ok o s -> exists m', do_mop ver o m = SOk (fst (spec_mop o s), m') /\ rel m' (snd (spec_mop o s)).
Proof.
  intros V R OK. assert (RG := r_g _ _ R). assert (RW := r_w _ _ R). assert (RH := r_h _ _ R). assert (RN := r_rng _ _ R). assert (PO := rng_ok _ RN).
  destruct o as [t o|t|t a b c|n|b| |t1 t2 w tn|t pad w tn|t n tn]; cbn [do_mop spec_mop mop_ok] in *.
  - rewrite RW, RH. destruct (is_update o && negb (s_w s && s_h s)) eqn:UP; [exists m; auto|]. specialize (OK eq_refl). destruct (s_w s && s_h s) eqn:AL.
    + apply andb_prop in AL as [W H]. destruct (alive_holds m s R W H) as [HO HU].
      assert (GEN : (forall red, o <> OSync red) -> exists m', (let* (x, d) := do_op (m_g m) o (m_d m) in SOk (MOut x, with_d m d)) = SOk (MOut (fst (spec_op (g_inorder (s_g s)) o (s_x s))), m') /\
        rel m' (mkS (s_g s) (snd (spec_op (g_inorder (s_g s)) o (s_x s))) (s_w s) (s_h s) (s_a s) (s_flag s) (s_type s) (s_opaque s) (s_disk s))).
      { intros NS. rewrite RG. destruct (op_step (s_g s) PO o (m_d m) (s_x s) HO OK) as (d' & E & H'). rewrite E. cbn [sbind]. eexists. split; [reflexivity|].
        destruct (op_keep (s_g s) PO o (m_d m) (s_x s) _ d' HO E NS) as [KF KU]. destruct R as [G RW' RH' RA FL TY TL OQ VE _ DI _].
        constructor; cbn [s_g s_w s_h s_a s_flag s_type s_opaque s_disk s_x]; auto.
        - unfold on_disk in *. cbn [with_d m_writable m_d m_orig]. rewrite KF. exact DI.
        - rewrite W, H. cbn [andb]. split; [exact H'|]. apply KU. exact HU. }
      destruct o as [k a|k h w|red| |sr|cs|]; try (destruct (GEN ltac:(discriminate)) as (m' & E & R'); exists m'; destruct (spec_op _ _ _) as [r x]; split; [exact E|exact R']).
      destruct (sync_step t red m s R W H OK) as (m' & E & R'). rewrite E. cbn [sbind spec_op fst snd]. exists m'. split; [reflexivity|]. exact R'.
    + assert (QS := r_state _ _ R). cbv zeta in QS. rewrite AL in QS. destruct QS as (Q & EP & ES). rewrite RG. cbn [negb] in UP. rewrite andb_true_r in UP.
      assert (SAME : mkS (s_g s) (s_x s) (s_w s) (s_h s) (s_a s) (s_flag s) (s_type s) (s_opaque s) (s_disk s) = s) by (destruct s; reflexivity).
      destruct o as [k a|k h w|red| |sr|cs|]; try discriminate; cbn [do_op spec_op fst snd is_update] in *.
      * subst w. unfold sdb_process. destruct (quiet_lookup (s_g s) PO (m_d m) _ k Q) as (c & E & C). rewrite E. cbn [sbind]. exists (with_d m (set_cache (m_d m) c)). rewrite SAME. split.
        -- destruct (first_val k (x_old (s_x s))); reflexivity.
        -- apply rel_cache; auto. apply sbc_set.
      * destruct (calls_ok (s_g s) (d_file (m_d m)) (x_old (s_x s)) PO (q_file _ _ _ Q) (q_fits _ _ _ Q) (ordered_ascending _ (q_ord _ _ _ Q)) cs (m_d m) (fun _ => it_clear) (fun _ => None)) as (d' & E & SY & SC).
        -- repeat split; [apply (q_num _ _ _ Q)|apply (q_cache _ _ _ Q)..].
        -- intros u. exact I.
        -- rewrite E. cbn [sbind]. eexists. split; [reflexivity|]. rewrite SAME. apply rel_cache; auto. apply SY.
      * eexists. split; [rewrite (q_num _ _ _ Q), (q_eff _ _ _ Q), EP; cbn [sbind length map data_size fold_right]; destruct (g_inorder (s_g s)); rewrite Nat.add_0_r, N.add_0_r; reflexivity|]. rewrite SAME. destruct m; exact R.
  - rewrite RW. destruct (s_w s) eqn:W; [|exists m; auto]. destruct (OK eq_refl) as [H O]. destruct (clear_ok t m s R W H O) as (m' & E & R'). rewrite E. cbn [sbind fst snd]. exists m'. rewrite W in R'. auto.
  - rewrite RW. destruct (s_w s) eqn:W; [|exists m; auto]. destruct (OK eq_refl) as (H & O & F). destruct (rebuild_ok ver t a b c m s V R W H O F) as (m' & E & R'). rewrite E. cbn [sbind fst snd]. exists m'. rewrite W in R'. auto.
  - rewrite RW. destruct (s_w s) eqn:W; [|exists m; auto]. eexists. split; [reflexivity|]. destruct R as [G RW' RH' RA FL TY TL OQ VE _ DI RS]. rewrite W in *. constructor; auto.
  - rewrite RW. destruct (s_w s) eqn:W; [|exists m; auto]. eexists. split; [reflexivity|]. destruct R as [G RW' RH' RA FL TY TL OQ VE _ DI RS]. rewrite W in *. constructor; auto.
  - exists m. split; [|exact R]. unfold info, sinfo. destruct R as [G RW' RH' RA FL TY TL OQ VE _ DI RS]. cbn [fst]. congruence.
  - assert (IN : forall m1 s1, rel m1 s1 -> info m1 = sinfo s1) by (intros m1 s1 [G RW' RH' RA FL TY TL OQ VE _ DI RS]; unfold info, sinfo; congruence).
    destruct (s_w s && s_h s) eqn:AL.
    + apply andb_prop in AL as [W H]. destruct (close_ok t1 m s R W H (OK eq_refl)) as (f & E & FO). rewrite E. cbn [sbind]. destruct (open_ok (restore ver) ver t2 w tn f 0 _ FO) as (m1 & E1 & R1).
      cbn [repeat] in E1. rewrite app_nil_r in E1. unfold m_open. rewrite E1. cbn [sbind fst snd]. exists m1. rewrite (IN _ _ R1). auto.
    + unfold m_close. rewrite RW, RH, AL. cbn [sbind]. fold (on_disk m). replace (if s_w s then d_file (m_d m) else m_orig m) with (on_disk m) by (unfold on_disk; rewrite RW; reflexivity).
      destruct (r_disk _ _ R) as (f0 & z & EF & FO). rewrite EF. destruct (open_ok (restore ver) ver t2 w tn f0 z _ FO) as (m1 & E1 & R1). unfold m_open. rewrite E1. cbn [sbind fst snd]. exists m1. rewrite (IN _ _ R1). auto.
  - assert (IN : forall m1 s1, rel m1 s1 -> info m1 = sinfo s1) by (intros m1 s1 [G RW' RH' RA FL TY TL OQ VE _ DI RS]; unfold info, sinfo; congruence).
    destruct (r_disk _ _ R) as (f0 & z & EF & FO). rewrite EF, <- app_assoc, <- repeat_app. destruct (open_ok (restore ver) ver t w tn f0 (z + pad) _ FO) as (m1 & E1 & R1). unfold m_open. rewrite E1. cbn [sbind fst snd]. exists m1. rewrite (IN _ _ R1). auto.
  - assert (IN : forall m1 s1, rel m1 s1 -> info m1 = sinfo s1) by (intros m1 s1 [G RW' RH' RA FL TY TL OQ VE _ DI RS]; unfold info, sinfo; congruence).
    destruct (r_disk _ _ R) as (f0 & z & EF & FO). rewrite EF. assert (SL := stored_len _ _ _ (fo_stored _ _ FO)). destruct OK as [N1 MO]. destruct (N.leb_spec (off_of (k_p (s_disk s)) (k_recs (s_disk s)) (length (k_recs (s_disk s)))) (N.of_nat n)) as [L|L].
    + assert (ZE : exists z', firstn n (f0 ++ repeat 0 z) = f0 ++ repeat 0 z').
      { rewrite firstn_app_ge by (unfold blen in SL; lia). exists (Nat.min (n - length f0) z). f_equal. destruct (le_lt_dec z (n - length f0)) as [X|X].
        - rewrite firstn_all2 by (rewrite repeat_length; lia). rewrite Nat.min_r by lia. reflexivity.
        - rewrite Nat.min_l by lia. replace z with ((n - length f0) + (z - (n - length f0)))%nat by lia. rewrite repeat_app, firstn_app, repeat_length, Nat.sub_diag. cbn [firstn]. rewrite app_nil_r. apply firstn_all2. rewrite repeat_length. lia. }
      destruct ZE as (z' & ->). destruct (open_ok (restore ver) ver t true tn f0 z' _ FO) as (m1 & E1 & R1). unfold m_open. rewrite E1. cbn [sbind fst snd]. exists m1. rewrite (IN _ _ R1). auto.
    + assert (ZE : firstn n (f0 ++ repeat 0 z) = firstn n f0). { rewrite firstn_app. replace (n - length f0)%nat with 0%nat by (unfold blen in SL; lia). cbn [firstn]. apply app_nil_r. }
      rewrite ZE. destruct (torn_ok ver t tn f0 n _ V MO FO N1 ltac:(lia)) as (m1 & E1 & R1). rewrite E1. cbn [sbind fst snd]. exists m1. rewrite (IN _ _ R1). auto.
Qed.
Lemma mops_step ver os : ver_ok (fst ver) (snd ver) -> forall m s, rel m s -> mops_ok os s -> exists m', do_mops ver os m = SOk (fst (spec_mops os s), m') /\ rel m' (snd (spec_mops os s)).
Proof.
  intros V. induction os as [|o os IH]; intros m s R OK; [exists m; auto|]. cbn [do_mops spec_mops mops_ok] in *. destruct OK as [O1 O2]. destruct (mop_step ver o m s V R O1) as (m1 & E1 & R1). rewrite E1.
  destruct (spec_mop o s) as [r s1]. cbn [fst snd sbind] in *. destruct (IH m1 s1 R1 O2) as (m2 & E2 & R2). rewrite E2. destruct (spec_mops os s1) as [rs s2]. cbn in *. exists m2. auto.
Qed.
