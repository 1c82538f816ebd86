(** C51: StdHashDBM and StdTreeDBM with their file.  Source: /repo/tkrzw_dbm_std.cc. *)
From Coq Require Import List NArith Bool Lia Sorting.Permutation Sorting.Sorted.
Import ListNotations.
From Verif Require Import Bytes BytesOrder CodecModel CodecProofs StatusModel StrSerialModel StrSearchModel StrSerialProps FlatModel FlatProofs FlatTotal DbmModel
  StdModel StdSpec StdProofs StdProps StdFileModel.
Local Open Scope N_scope.

(** * Export *)
Lemma exp_loop_ok l : forall n b, exp_loop (fun _ => true) n b SUCCESS l = (b ++ flat_export (rs l), SUCCESS).
Proof.
  induction l as [|e l IH]; intros n b; cbn [exp_loop exp_write]; [rewrite app_nil_r; reflexivity|]. change (code_eqb SUCCESS SUCCESS) with true. cbn iota.
  rewrite IH. cbn [rs map flat_export flat_map kv fst snd]. rewrite <- !app_assoc. reflexivity.
Qed.
Lemma exp_bytes_ok kd d wall : exp_bytes kd d (fun _ => true) wall = (flat_save (std_meta kd wall (length (s_map (d_db d)))) (rs (s_map (d_db d))), SUCCESS).
Proof. unfold exp_bytes. cbn [exp_write]. rewrite exp_loop_ok. reflexivity. Qed.

(** * Import *)
Fixpoint adds (kd : kind) (l : recs) (db : sdb) : sdb := match l with [] => db | (k, v) :: r => adds kd r (emplace_new kd db k v) end.
Lemma import_ok kd l : Forall kv_small l -> ~ ends_empty l ->
  forall pre s db ts fuel, fr_inv s pre (flat_export l) -> (length l < fuel)%nat ->
  std_import kd fuel (pre ++ flat_export l) s db ts = Some (SUCCESS, adds kd l db, ts).
Proof.
  induction 1 as [|[k v] l [H1 H2] _ IH]; intros HE pre s db ts fuel I Hf; (destruct fuel as [|fu]; [cbn in Hf; lia|]).
  - cbn [std_import]. destruct (@end_read _ s pre [] eq_refl I ltac:(cbn; lia)) as [s' E]. cbn [flat_export flat_map]. rewrite E. reflexivity.
  - change (flat_export ((k, v) :: l)) with ((flat_write (false, k) ++ flat_write (false, v)) ++ flat_export l) in *. rewrite <- app_assoc in *.
    assert (Lk := flat_len2 (false, k)). assert (Lv := flat_len2 (false, v)).
    destruct (read_ok (false, k) (flat_write (false, v) ++ flat_export l) pre s H1 I) as (s1 & E1 & I1); [rewrite !app_length; lia|].
    cbn [std_import]. rewrite E1. rewrite app_assoc.
    destruct (read_ok (false, v) (flat_export l) (pre ++ flat_write (false, k)) s1 H2 I1) as (s2 & E2 & I2).
    { rewrite app_length. destruct l as [|[k' v'] l].
      - assert (v <> []). { intros ->. apply HE. exists [], k. reflexivity. } rewrite flat_length. cbn [snd]. assert (P := size_var_pos (blen v)). destruct v; [contradiction|]. cbn [length]. lia.
      - assert (L3 := flat_len2 (false, k')). cbn [flat_export flat_map fst snd]. rewrite !app_length. lia. }
    rewrite E2. rewrite app_assoc, IH; [reflexivity| |exact I2|cbn in Hf; lia].
    intros (l' & k' & ->). apply HE. exists ((k, v) :: l'), k'. reflexivity.
Qed.
Lemma import_bad kd l k0 : Forall kv_small l -> blen k0 < 2^49 ->
  forall pre s db ts fuel, fr_inv s pre (flat_export (l ++ [(k0, [])])) -> (S (length l) < fuel)%nat ->
  std_import kd fuel (pre ++ flat_export (l ++ [(k0, [])])) s db ts = Some (BROKEN_DATA_ERROR, adds kd l db, ts).
Proof.
  intros H H0. induction H as [|[k v] l [H1 H2] _ IH]; intros pre s db ts fuel I Hf; (destruct fuel as [|fu]; [cbn in Hf; lia|]); cbn [app] in *.
  - change (flat_export [(k0, [])]) with ((flat_write (false, k0) ++ flat_write (false, [])) ++ []) in *. rewrite app_nil_r in *.
    assert (Lk := flat_len2 (false, k0)). assert (Lv := flat_len2 (false, [])).
    destruct (read_ok (false, k0) (flat_write (false, [])) pre s H0 I) as (s1 & E1 & I1); [rewrite app_length; lia|].
    cbn [std_import]. rewrite E1, app_assoc. destruct (@end_read _ s1 (pre ++ flat_write (false, k0)) _ eq_refl I1) as [s2 E2]; [apply Nat.le_refl|]. rewrite E2. reflexivity.
  - change (flat_export ((k, v) :: l ++ [(k0, [])])) with ((flat_write (false, k) ++ flat_write (false, v)) ++ flat_export (l ++ [(k0, [])])) in *. rewrite <- app_assoc in *.
    assert (Lk := flat_len2 (false, k)). assert (Lv := flat_len2 (false, v)).
    destruct (read_ok (false, k) (flat_write (false, v) ++ flat_export (l ++ [(k0, [])])) pre s H1 I) as (s1 & E1 & I1); [rewrite !app_length; lia|].
    cbn [std_import]. rewrite E1. rewrite app_assoc.
    destruct (read_ok (false, v) (flat_export (l ++ [(k0, [])])) (pre ++ flat_write (false, k)) s1 H2 I1) as (s2 & E2 & I2).
    { rewrite app_length. assert (L3 : (2 <= length (flat_export (l ++ [(k0, [])])))%nat); [|lia].
      unfold flat_export. rewrite flat_map_app, app_length. cbn [flat_map fst snd]. rewrite !app_length. assert (L3 := flat_len2 (false, k0)). lia. }
    rewrite E2. rewrite app_assoc, IH; [reflexivity|exact I2|cbn in Hf; lia].
Qed.
Lemma import_meta kd meta f rest s db ts ts' fuel : blen meta < 2^49 -> f = flat_write (true, meta) ++ rest -> (2 < length f)%nat -> fr_inv s [] f -> read_ts meta ts = Some ts' ->
  exists s', std_import kd (S fuel) f s db ts = std_import kd fuel f s' db ts' /\ fr_inv s' (flat_write (true, meta)) rest.
Proof.
  intros Hm -> L I R. destruct (read_ok (true, meta) rest [] s Hm I L) as (s' & E & I'). exists s'. split; [|exact I']. cbn [std_import app] in *. rewrite E, R. reflexivity.
Qed.
(** The metadata the databases write. *)
Lemma dec_len : forall f n acc, blen (dec f n acc) <= N.of_nat f + blen acc.
Proof.
  induction f as [|f IH]; intros n acc; cbn [dec]; [lia|]. destruct (n <? 10); [rewrite blen_cons; lia|]. eapply N.le_trans; [apply IH|]. rewrite blen_cons. lia.
Qed.
Definition short (wall : bytes) : Prop := wall <> [] /\ blen wall < 2^20.
Lemma meta_len kd wall n : short wall -> blen (std_meta kd wall n) < 2^21.
Proof.
  intros [_ H]. unfold std_meta, serialize_map. cbn [flat_map fst snd]. rewrite !blen_app, !write_var_length. set (D := dec 20 (N.of_nat n) []).
  assert (HD : blen D <= 20) by (unfold D; eapply N.le_trans; [apply dec_len|]; rewrite blen_nil; lia).
  assert (V : forall x, x < 2^49 -> size_var x <= 7) by apply size_var_7.
  assert (A1 := V (blen n_class) ltac:(vm_compute; reflexivity)). assert (A2 := V (blen n_num_records) ltac:(vm_compute; reflexivity)). assert (A3 := V (blen n_timestamp) ltac:(vm_compute; reflexivity)).
  assert (A4 : size_var (blen (if k_tree kd then n_tree else n_hash)) <= 7) by (destruct (k_tree kd); apply V; vm_compute; reflexivity).
  assert (A5 : size_var (blen D) <= 7) by (apply V; lia). assert (A6 : size_var (blen wall) <= 7) by (apply V; lia).
  assert (B1 : blen (if k_tree kd then n_tree else n_hash) = 10) by (destruct (k_tree kd); reflexivity).
  change (blen n_class) with 5 in *. change (blen n_num_records) with 11 in *. change (blen n_timestamp) with 9 in *. rewrite blen_nil. lia.
Qed.
Lemma meta_ts kd wall n ts : short wall -> read_ts (std_meta kd wall n) ts = Some (Some wall).
Proof.
  intros H. assert (L := meta_len kd wall n H). unfold read_ts, std_meta. rewrite C26_map.
  - assert (E1 : search_map [(n_class, if k_tree kd then n_tree else n_hash); (n_num_records, dec 20 (N.of_nat n) []); (n_timestamp, wall)] n_class = if k_tree kd then n_tree else n_hash) by (destruct (k_tree kd); reflexivity).
    assert (E2 : search_map [(n_class, if k_tree kd then n_tree else n_hash); (n_num_records, dec 20 (N.of_nat n) []); (n_timestamp, wall)] n_timestamp = wall) by reflexivity.
    rewrite E1, E2. assert (E3 : search (if k_tree kd then n_tree else n_hash) n_dbm <> None) by (destruct (k_tree kd); vm_compute; discriminate).
    destruct (search _ n_dbm); [|congruence]. destruct wall; [destruct H; congruence|reflexivity].
  - repeat constructor.
  - unfold std_meta in L. lia.
  - unfold serialize_map. cbn [flat_map length fst snd]. rewrite !app_length, !var_len. assert (P := size_var_pos (blen n_class)). cbn [length]. assert (X : length n_class = 5%nat) by reflexivity. lia.
Qed.
Lemma meta_nonempty kd wall n : std_meta kd wall n <> [].
Proof. unfold std_meta, serialize_map. cbn [flat_map fst snd]. intros H. apply app_eq_nil in H. destruct H as [H _]. apply app_eq_nil in H. destruct H as [_ H]. discriminate. Qed.
Lemma export_len l : (2 * length l <= length (flat_export l))%nat.
Proof. induction l as [|[k v] l IH]; cbn [flat_export flat_map length]; [lia|]. rewrite !app_length. assert (A := flat_len2 (false, k)). assert (B := flat_len2 (false, v)). unfold flat_export in IH. cbn [fst snd]. lia. Qed.

(** * The records after an import *)
Lemma placed_perm t l k v l' : placed t l k v l' -> Permutation l' ((k, v) :: l).
Proof. intros (a & b & -> & -> & _). symmetry. apply Permutation_middle. Qed.
Lemma adds_perm kd : kind_ok kd -> forall l db, inv kd db -> NoDup (map fst l ++ map e_key (s_map db)) ->
  inv kd (adds kd l db) /\ Permutation (rs (s_map (adds kd l db))) (l ++ rs (s_map db)).
Proof.
  intros HK. induction l as [|[k v] l IH]; intros db I N; cbn [adds map app fst] in *; [split; [exact I|apply Permutation_refl]|].
  inversion N as [|? ? N1 N2]; subst. assert (HF : find_key k (s_map db) = None). { destruct (find_key k (s_map db)) as [e|] eqn:F; [|reflexivity]. apply find_key_some in F. destruct F as [F1 F2]. exfalso. apply N1. apply in_or_app. right. rewrite <- F2. apply in_map, F1. }
  unfold emplace_new. rewrite HF. destruct (add_ok kd HK db k v I (find_key_none _ _ HF)) as (I1 & P1 & _). apply placed_perm in P1. cbn [abs p_recs] in P1.
  assert (PK : Permutation (map e_key (s_map (emplace kd db k v))) (k :: map e_key (s_map db))). { rewrite <- !rs_keys. change (k :: map fst (rs (s_map db))) with (map fst ((k, v) :: rs (s_map db))). apply Permutation_map, P1. }
  destruct (IH _ I1) as [I2 P2].
  - eapply Permutation_NoDup; [|exact N]. rewrite PK. apply Permutation_cons_app. apply Permutation_refl.
  - split; [exact I2|]. rewrite P2, P1. symmetry. apply Permutation_cons_app. apply Permutation_refl.
Qed.

(** * Close and open *)
Lemma open_reads kd d fs wr wall f : d_open d = false -> f_main fs = Some f -> std_open kd d fs wr false wall =
  match std_import kd (S (length f)) f (fr_new 0) (d_db d) (if blen f <? 1 then Some wall else d_ts d) with
  | None => None
  | Some (c, db, ts') => if code_eqb c SUCCESS then Some (SUCCESS, mkD db true wr ts', mkF (Some f) (f_tmp fs)) else Some (c, mkD db false (d_wr d) ts', mkF (Some f) (f_tmp fs))
  end.
Proof. intros H1 H2. unfold std_open. rewrite H1, H2. destruct wr; reflexivity. Qed.
Lemma open_saved kd' kd db wall fs wr wall2 : kind_ok kd' -> inv kd db -> short wall -> Forall kv_small (rs (s_map db)) -> ~ ends_empty (rs (s_map db)) ->
  f_main fs = Some (flat_save (std_meta kd wall (length (s_map db))) (rs (s_map db))) ->
  exists d2, std_open kd' (sd_new kd') fs wr false wall2 = Some (SUCCESS, d2, mkF (f_main fs) (f_tmp fs)) /\ inv kd' (d_db d2) /\
    Permutation (rs (s_map (d_db d2))) (rs (s_map db)) /\ d_ts d2 = Some wall /\ d_open d2 = true /\ d_wr d2 = wr.
Proof.
  intros HK I HW HS HE HM. set (meta := std_meta kd wall (length (s_map db))) in *. set (f := flat_save meta (rs (s_map db))) in *.
  rewrite (open_reads kd' (sd_new kd') fs wr wall2 f eq_refl HM), HM.
  assert (HB : blen meta < 2^49) by (assert (X := meta_len kd wall (length (s_map db)) HW); unfold meta; lia).
  assert (HN := meta_nonempty kd wall (length (s_map db))). fold meta in HN.
  assert (L : (2 < length f)%nat). { unfold f, flat_save. rewrite app_length, flat_length. cbn [snd]. assert (P := size_var_pos (blen meta)). destruct meta; [contradiction|]. cbn [length]. lia. }
  assert (Lb : (blen f <? 1) = false) by (apply N.ltb_ge; unfold blen; lia). rewrite Lb. change (d_db (sd_new kd')) with s_new.
  destruct (import_meta kd' meta f (flat_export (rs (s_map db))) (fr_new 0) s_new (d_ts (sd_new kd')) (Some wall) (length f) HB eq_refl L (fr_new_inv _ _) (meta_ts kd wall _ _ HW)) as (s' & E & I').
  rewrite E. unfold f at 2, flat_save. rewrite (import_ok kd' _ HS HE _ s' s_new (Some wall) (length f) I').
  2: { unfold f, flat_save. rewrite app_length. assert (A := export_len (rs (s_map db))). assert (B := flat_len2 (true, meta)). lia. }
  change (code_eqb SUCCESS SUCCESS) with true. cbn iota. destruct (adds_perm kd' HK (rs (s_map db)) s_new (new_inv kd')) as [I2 P2].
  { cbn. rewrite app_nil_r, rs_keys. apply I. }
  eexists. split; [reflexivity|]. cbn [d_db d_ts d_open d_wr]. split; [exact I2|]. split; [rewrite P2; cbn; rewrite app_nil_r; apply Permutation_refl|]. auto.
Qed.
Lemma view_perm kd kd' db db' : inv kd db -> inv kd' db' -> Permutation (rs (s_map db')) (rs (s_map db)) -> forall k, std_view db' k = std_view db k.
Proof.
  intros I I' P k. rewrite !view_rs. cbn. apply lookup_perm; [exact P|]. fold (rs (s_map db')). rewrite rs_keys. apply I'.
Qed.
Lemma run_inv S kd noop (cs : list (scall S)) s out db s' : std_kind kd -> std_run kd noop s_new cs s = Some (out, db, s') -> inv kd db.
Proof.
  intros HK H. destruct (run_ok kd (std_kind_ok kd HK) noop cs s_new s (new_inv kd)) as (out' & db' & s2 & E & I & P). rewrite E in H. injection H as <- <- <-. exact I.
Qed.
Definition sized (db : sdb) : Prop := Forall (fun e => blen (e_key e) < 2^49 /\ blen (e_val e) < 2^49) (s_map db).
Lemma sized_small db : sized db -> Forall kv_small (rs (s_map db)).
Proof. intros H. unfold rs. rewrite Forall_map. exact H. Qed.
(** A database filled by any calls, closed and opened again (as the same class or the other,
    writable or not): the same records, and the time of the closing.  The full claim is without
    the hypothesis on the last record of the iteration, whose value must not be empty. *)
Theorem C51_reopen_partial S kd kd' noop (cs : list (scall S)) s out db s' ts fs wall wr wall2 :
  std_kind kd -> std_kind kd' -> std_run kd noop s_new cs s = Some (out, db, s') ->
  sized db -> (forall l e, s_map db = l ++ [e] -> e_val e <> []) -> short wall ->
  exists d1 fs1 d2 fs2, std_close kd (mkD db true true ts) fs (fun _ => true) wall = (SUCCESS, d1, fs1) /\ s_map (d_db d1) = [] /\
    std_open kd' (sd_new kd') fs1 wr false wall2 = Some (SUCCESS, d2, fs2) /\
    (forall k, std_view (d_db d2) k = std_view db k) /\ std_count (d_db d2) = std_count db /\
    (k_tree kd = true -> k_tree kd' = true -> map (fun e => (e_key e, e_val e)) (s_map (d_db d2)) = map (fun e => (e_key e, e_val e)) (s_map db)) /\
    std_timestamp d2 = Some (SUCCESS, wall).
Proof.
  intros HK HK' HR HZ HL HW. assert (I := run_inv _ _ _ _ _ _ _ _ HK HR).
  unfold std_close. cbn [d_open d_wr]. unfold std_export. rewrite exp_bytes_ok. cbn [d_db].
  eexists _, _. destruct (open_saved kd' kd db wall (mkF (Some (flat_save (std_meta kd wall (length (s_map db))) (rs (s_map db)))) None) wr wall2) as (d2 & E & I2 & P & T & O & _); [apply std_kind_ok, HK'|exact I|exact HW|apply sized_small, HZ| |reflexivity|].
  { intros (l' & k & H). destruct (map_eq_app _ _ _ _ H) as (m1 & m2 & E1 & _ & E2). destruct m2 as [|e [|? ?]]; try discriminate. cbn in E2. injection E2 as E3 E4. exact (HL _ _ E1 E4). }
  exists d2. eexists. split; [reflexivity|]. split; [reflexivity|]. split; [exact E|]. split; [apply (view_perm kd kd'); auto|].
  split. { unfold std_count. apply Permutation_length in P. unfold rs in P. rewrite !map_length in P. exact P. }
  split.
  - intros T1 T2. fold kv. fold (rs (s_map (d_db d2))). fold (rs (s_map db)). assert (S1 := i_sorted _ _ I T1). assert (S2 := i_sorted _ _ I2 T2). rewrite <- rs_keys in S1, S2.
    revert S1 S2 P. generalize (rs (s_map db)) as a. generalize (rs (s_map (d_db d2))) as b. clear.
    induction b as [|[k v] b IH]; intros a S1 S2 P; [apply Permutation_nil in P; congruence|].
    destruct a as [|[k' v'] a]; [apply Permutation_sym, Permutation_nil in P; discriminate|]. cbn in S1, S2. inversion S1 as [|? ? A1 A2]; inversion S2 as [|? ? B1 B2]; subst. rewrite Forall_forall in A2, B2.
    assert (X : (k, v) = (k', v')).
    { assert (H1 : In (k, v) ((k', v') :: a)) by (eapply Permutation_in; [exact P|left; reflexivity]). assert (H2 : In (k', v') ((k, v) :: b)) by (eapply Permutation_in; [symmetry; exact P|left; reflexivity]).
      destruct H1 as [H1|H1]; [congruence|]. destruct H2 as [H2|H2]; [congruence|]. apply (in_map fst) in H1, H2. exfalso. exact (blt_asym _ _ (A2 _ H1) (B2 _ H2)). }
    injection X as -> ->. f_equal. apply IH; auto. eapply Permutation_cons_inv, P.
  - unfold std_timestamp. rewrite O, T. reflexivity.
Qed.
Print Assumptions C51_reopen_partial.
(** A database whose last record of the iteration has an empty value cannot be opened again, and the
    object that fails to open it holds the other records. *)
Theorem C51_reopen_refuted S kd kd' noop (cs : list (scall S)) s out db s' l e ts fs wall wr wall2 :
  std_kind kd -> std_kind kd' -> std_run kd noop s_new cs s = Some (out, db, s') ->
  sized db -> s_map db = l ++ [e] -> e_val e = [] -> short wall ->
  exists d1 fs1 d2 fs2, std_close kd (mkD db true true ts) fs (fun _ => true) wall = (SUCCESS, d1, fs1) /\
    std_open kd' (sd_new kd') fs1 wr false wall2 = Some (BROKEN_DATA_ERROR, d2, fs2) /\ d_open d2 = false /\ std_count (d_db d2) = length l.
Proof.
  intros HK0 HK HR0 HZ HM HV HW. assert (I := run_inv _ _ _ _ _ _ _ _ HK0 HR0). clear s' HR0. unfold std_close. cbn [d_open d_wr]. unfold std_export. rewrite exp_bytes_ok. cbn [d_db]. set (meta := std_meta kd wall (length (s_map db))).
  assert (HB : blen meta < 2^49) by (assert (X := meta_len kd wall (length (s_map db)) HW); unfold meta; lia). assert (HN := meta_nonempty kd wall (length (s_map db))). fold meta in HN.
  assert (HR : rs (s_map db) = rs l ++ [(e_key e, [])]) by (rewrite HM; unfold rs; rewrite map_app; cbn; unfold kv; rewrite HV; reflexivity). rewrite HR.
  set (f := flat_save meta (rs l ++ [(e_key e, [])])).
  assert (L : (2 < length f)%nat). { unfold f, flat_save. rewrite app_length, flat_length. cbn [snd]. assert (P := size_var_pos (blen meta)). destruct meta; [contradiction|]. cbn [length]. lia. }
  assert (Lb : (blen f <? 1) = false) by (apply N.ltb_ge; unfold blen; lia).
  assert (SM := sized_small _ HZ). rewrite HR in SM. apply Forall_app in SM. destruct SM as [SM1 SM2]. inversion SM2 as [|? ? [SM3 _] _]; subst.
  destruct (import_meta kd' meta f (flat_export (rs l ++ [(e_key e, [])])) (fr_new 0) s_new (d_ts (sd_new kd')) (Some wall) (length f) HB eq_refl L (fr_new_inv _ _) (meta_ts kd wall _ _ HW)) as (s' & E & I').
  eexists _, _, _, _. split; [reflexivity|]. rewrite (open_reads kd' (sd_new kd') (mkF (Some f) None) wr wall2 f eq_refl eq_refl), Lb. change (d_db (sd_new kd')) with s_new. rewrite E. unfold f at 2, flat_save.
  rewrite (import_bad kd' (rs l) (e_key e) SM1 SM3 _ s' s_new (Some wall) (length f) I').
  2: { unfold f, flat_save. rewrite app_length. assert (A := export_len (rs l ++ [(e_key e, [])])). assert (B := flat_len2 (true, meta)). rewrite app_length in A. unfold rs in *. rewrite map_length in *. cbn in A. lia. }
  split; [reflexivity|]. split; [reflexivity|]. cbn [d_db]. unfold std_count.
  destruct (adds_perm kd' (std_kind_ok kd' HK) (rs l) s_new (new_inv kd')) as [_ P2].
  { cbn. rewrite app_nil_r, rs_keys. assert (X := i_keys _ _ I). rewrite HM in X. apply (NoDup_mid e_key e l []) in X. rewrite app_nil_r in X. apply X. }
  apply Permutation_length in P2. unfold rs in P2. rewrite app_length, !map_length in P2. cbn in P2. unfold rs. lia.
Qed.
Print Assumptions C51_reopen_refuted.

(** * Crashes and failures of writing *)
(** At every moment of an export whose appends succeed, the file at the path is the old one or
    the new one, entire. *)
Theorem C51_crash kd d fs wall fs' : exporting kd d fs (fun _ => true) wall fs' ->
  f_main fs' = f_main fs \/ f_main fs' = Some (flat_save (std_meta kd wall (length (s_map (d_db d)))) (map (fun e => (e_key e, e_val e)) (s_map (d_db d)))).
Proof. intros [|p q _|]; cbn; auto. unfold std_export. rewrite exp_bytes_ok. right. reflexivity. Qed.
Print Assumptions C51_crash.
(** When the appends fail (no space), the old file is replaced all the same: what was saved before is
    lost; and Synchronize says SUCCESS. *)
Theorem C51_disk_full_refuted kd d fs wall wr wall2 : std_kind kd -> d_open d = true -> d_wr d = true ->
  exists d1 d2 fs2, std_close kd d fs (fun _ => false) wall = (SYSTEM_ERROR, d1, mkF (Some []) None) /\
    std_sync kd d fs (fun _ => false) wall = (SUCCESS, mkF (Some []) None) /\
    std_open kd (sd_new kd) (mkF (Some []) None) wr false wall2 = Some (SUCCESS, d2, fs2) /\ std_count (d_db d2) = 0%nat.
Proof.
  intros HK HO HW. assert (E : std_export kd d fs (fun _ => false) wall = (SYSTEM_ERROR, mkF (Some []) None)).
  { unfold std_export, exp_bytes. cbn. destruct (s_map (d_db d)); reflexivity. }
  unfold std_close, std_sync. rewrite HO, HW, E. cbn [andb snd]. eexists _, _, _. split; [reflexivity|]. split; [reflexivity|]. destruct wr; (split; [reflexivity|reflexivity]).
Qed.
Print Assumptions C51_disk_full_refuted.

(** * Opening *)
(** A file with an odd number of records is refused, but the records before stay in the object, and
    are there in whatever is opened next (and are saved to it). *)
Theorem C51_failed_open_refuted kd wall : std_kind kd ->
  exists d1 fs1 d2 fs2, std_open kd (sd_new kd) (mkF (Some (flat_export [([1], [2])] ++ flat_write (false, [3]))) None) true false wall = Some (BROKEN_DATA_ERROR, d1, fs1) /\
    std_open kd d1 (mkF None None) true false wall = Some (SUCCESS, d2, fs2) /\ std_view (d_db d2) [1] = Some [2] /\
    exists c d3, std_close kd d2 fs2 (fun _ => true) wall = (c, d3, mkF (Some (flat_save (std_meta kd wall 1) [([1], [2])])) None).
Proof.
  intros HK. assert (E : emplace_new kd s_new [1] [2] = mkS [mkE 0 [1] [2]] 1 (fun _ => None) []).
  { unfold emplace_new, emplace, insert_at. cbn. destruct (k_place kd [] [1]); reflexivity. }
  set (f := flat_export [([1], [2])] ++ flat_write (false, [3])). rewrite (open_reads kd (sd_new kd) (mkF (Some f) None) true wall f eq_refl eq_refl).
  replace (std_import kd (S (length f)) f (fr_new 0) (d_db (sd_new kd)) (if blen f <? 1 then Some wall else d_ts (sd_new kd)))
    with (Some (BROKEN_DATA_ERROR, emplace_new kd s_new [1] [2], d_ts (sd_new kd))) by reflexivity.
  rewrite E. eexists _, _, _, _. split; [reflexivity|]. split; [reflexivity|]. split; [reflexivity|]. eexists _, _. unfold std_close. cbn [d_open d_wr]. unfold std_export. rewrite exp_bytes_ok. reflexivity.
Qed.
Print Assumptions C51_failed_open_refuted.
(** A database opened as read-only takes updates, in memory only. *)
Theorem C51_readonly_refuted kd f d fs k v wok wall wall2 noop : std_kind kd -> std_open kd (sd_new kd) (mkF (Some f) None) false false wall = Some (SUCCESS, d, fs) ->
  exists cd n d' s', sd_step kd noop d (SProcess k (mkProc (fun _ _ (u : unit) => (ASet v, u)) (fun _ u => (ASet v, u))) true) tt = Some (cd, n, d', s') /\
    cd = SUCCESS /\ std_view (d_db d') k = Some v /\ exists d2, std_close kd d' fs wok wall2 = (SUCCESS, d2, mkF (Some f) None).
Proof.
  intros HK H. unfold std_open in H. cbn [sd_new d_open d_db d_wr f_main f_tmp] in H.
  destruct (std_import kd (S (length f)) f (fr_new 0) s_new (if blen f <? 1 then Some wall else d_ts (sd_new kd))) as [[[c db] ts]|]; [|discriminate].
  destruct (code_eqb c SUCCESS) eqn:Q; [|injection H as -> _ _; discriminate Q]. injection H as <- <-. unfold sd_step. cbn [d_db std_step]. unfold std_process.
  destruct (find_key k (s_map db)) as [e|] eqn:F; cbn [on_full on_empty]; eexists _, _, _, _; (split; [reflexivity|]); (split; [reflexivity|]); (split; [|eexists; reflexivity]).
  - cbn [d_db act_full set_rec s_map std_view]. unfold std_view, set_rec. cbn [s_map]. clear - F. unfold find_key, assign_id in *. induction (s_map db) as [|x l IH]; cbn in *; [discriminate|].
    destruct (beqb_spec (e_key x) k) as [Hk|Hk].
    + injection F as ->. rewrite Nat.eqb_refl. cbn. destruct (beqb_spec (e_key e) k); [reflexivity|contradiction].
    + destruct (Nat.eqb (e_id x) (e_id e)); cbn; (destruct (beqb_spec (e_key x) k); [contradiction|]); apply IH, F.
  - cbn [d_db]. unfold std_view, add_rec, emplace, insert_at. cbn [s_map log_add s_next]. apply find_key_none in F. rewrite <- (firstn_skipn (k_place kd (s_map db) k) (s_map db)) in F. rewrite map_app, in_app_iff in F.
    generalize (firstn (k_place kd (s_map db) k) (s_map db)) (skipn (k_place kd (s_map db) k) (s_map db)) F. clear. intros a b F. induction a as [|x a IH]; cbn; [rewrite beqb_refl; reflexivity|].
    destruct (beqb_spec (e_key x) k) as [<-|]; [exfalso; apply F; left; left; reflexivity|]. apply IH. cbn in F. tauto.
Qed.
Print Assumptions C51_readonly_refuted.
(** A file with a certain metadata record is never opened: DeserializeStrMap does not return. *)
Theorem C51_open_hangs_refuted kd wr wall rest : (forall fuel, deserialize_map fuel [128] = DRunning) /\
  std_open kd (sd_new kd) (mkF (Some (flat_write (true, [128]) ++ rest)) None) wr false wall = None.
Proof.
  split; [intros fuel; apply C26_malformed_never_returns_refuted|]. set (f := flat_write (true, [128]) ++ rest). rewrite (open_reads kd (sd_new kd) (mkF (Some f) None) wr wall f eq_refl eq_refl).
  assert (L : (2 < length f)%nat) by (unfold f; rewrite app_length; assert (X : length (flat_write (true, [128])) = 3%nat) by reflexivity; lia).
  destruct (read_ok (true, [128]) rest [] (fr_new 0) ltac:(reflexivity) (fr_new_inv _ _) L) as (s1 & E & _). cbn [app] in E. fold f in E. cbn [std_import]. rewrite E.
  unfold read_ts. rewrite (proj2 (C26_malformed_never_returns_refuted _)). reflexivity.
Qed.
Print Assumptions C51_open_hangs_refuted.
(** Apart from that every file is opened or refused: when Open does not return, DeserializeStrMap does not
    return or throws on some metadata record of the file. *)
Lemma import_any kd f : forall n s db ts, (N.to_nat (blen f - fr_off s) < n)%nat -> rd_inv f s -> std_import kd n f s db ts = None ->
  exists off m off', rec_at f off (true, m) off' /\ match deserialize_map (S (length m)) m with DDone _ => False | _ => True end.
Proof.
  induction n as [|n IH]; intros s db ts L I; [lia|]. cbn [std_import]. destruct (fr_read f s) as [[c o] s1] eqn:R. assert (P := read_step _ _ _ _ _ I R). destruct o as [[[] k]|].
  - destruct P as (I' & A & B & ->). destruct (read_ts k ts) as [ts'|] eqn:T; [apply IH; [destruct I'; lia|exact I']|]. intros _. exists (fr_off s), k, (fr_off s1). split; [exact A|].
    unfold read_ts in T. destruct (deserialize_map _ k); [discriminate|exact Logic.I..].
  - destruct P as (I' & _ & B & ->). destruct (fr_read f s1) as [[c1 o1] s2] eqn:R1. assert (P1 := read_step _ _ _ _ _ I' R1). destruct o1 as [[[] v]|].
    + destruct c1; discriminate.
    + destruct P1 as (I2 & _ & B2 & ->). apply IH; [destruct I', I2; lia|exact I2].
    + destruct c1; discriminate.
  - destruct c; discriminate.
Qed.
Theorem C51_open_returns kd d fs wr trunc wall : std_open kd d fs wr trunc wall = None ->
  exists f off m off', f_main fs = Some f /\ rec_at f off (true, m) off' /\ match deserialize_map (S (length m)) m with DDone _ => False | _ => True end.
Proof.
  unfold std_open. destruct (d_open d); [discriminate|]. set (fo := if wr then _ else _). destruct fo as [f|] eqn:E; [|discriminate]. subst fo.
  destruct (std_import kd (S (length f)) f (fr_new 0) (d_db d) _) as [[[c db] ts]|] eqn:H; [destruct (code_eqb c SUCCESS); discriminate|]. intros _.
  assert (LL : (N.to_nat (blen f - fr_off (fr_new 0)) < S (length f))%nat) by (unfold blen; cbn; lia). destruct (import_any kd f _ _ _ _ LL (rd_new _ _) H) as (off & m & off' & A & B). exists f, off, m, off'. split; [|auto].
  destruct wr; [|exact E]. assert (f <> []). { destruct A as (? & ? & ? & ? & A & _). intros ->. destruct (N.to_nat off); discriminate. }
  destruct trunc; [injection E as <-; contradiction|]. destruct (f_main fs) as [g|]; [injection E as ->; reflexivity|injection E as <-; contradiction].
Qed.
Print Assumptions C51_open_returns.
(** StdTreeDBM always has a timestamp; StdHashDBM reads an indeterminate one after the first opening
    of a file without metadata. *)
Theorem C51_timestamp_refuted kd wr wall : std_kind kd -> k_tree kd = false ->
  exists d fs, std_open kd (sd_new kd) (mkF (Some (flat_export [([1], [2])])) None) wr false wall = Some (SUCCESS, d, fs) /\ std_timestamp d = None.
Proof. intros HK T. unfold sd_new, std_open. rewrite T. destruct wr; eexists _, _; (split; [reflexivity|reflexivity]). Qed.
Print Assumptions C51_timestamp_refuted.
Lemma read_ts_some m ts ts' : ts <> None -> read_ts m ts = Some ts' -> ts' <> None.
Proof.
  unfold read_ts. intros H. destruct (deserialize_map _ m) as [x| |]; try discriminate. intros [= <-]. destruct (search _ n_dbm); [|exact H]. destruct (search_map x n_timestamp); [exact H|discriminate].
Qed.
Lemma import_ts kd f : forall fuel s db ts c db' ts', ts <> None -> std_import kd fuel f s db ts = Some (c, db', ts') -> ts' <> None.
Proof.
  induction fuel as [|fu IH]; cbn [std_import]; intros s db ts c db' ts' H E; [discriminate|].
  repeat (match type of E with context [match ?x with _ => _ end] => match x with fr_read _ _ => destruct x as [[[] [[[] ?]|]] ?] | read_ts _ _ => destruct x eqn:? end end; try (injection E as <- <- <-; exact H); try discriminate).
  all: try (eapply IH; [|exact E]; first [exact H|eapply read_ts_some; eauto]).
Qed.
Theorem C51_timestamp wall d fs wr trunc c d' fs' : d_ts d <> None -> std_open tree_kind d fs wr trunc wall = Some (c, d', fs') -> d_ts d' <> None.
Proof.
  intros H E. unfold std_open in E. destruct (d_open d); [injection E as <- <- <-; exact H|].
  destruct (if wr then _ else _) as [f|]; [|injection E as <- <- <-; exact H].
  destruct (std_import _ _ f _ _ _) as [[[c0 db] ts]|] eqn:I; [|discriminate]. assert (ts <> None). { eapply import_ts; [|exact I]. destruct (blen f <? 1); [discriminate|exact H]. }
  destruct (code_eqb c0 SUCCESS); injection E as <- <- <-; assumption.
Qed.
Print Assumptions C51_timestamp.

(** * Cases *)
Definition ex_db : sdb := match std_run tree_kind [] s_new (firstn 3 ex_calls) [] with Some (_, db, _) => db | None => s_new end.
Example C51_reopen_ex : exists out s', std_run tree_kind [] s_new (firstn 3 ex_calls) [] = Some (out, ex_db, s') /\ sized ex_db /\
  (forall l e, s_map ex_db = l ++ [e] -> e_val e <> []) /\ short [49; 46; 48].
Proof.
  eexists _, _. split; [reflexivity|]. split; [repeat constructor; vm_compute; reflexivity|]. split; [|split; [discriminate|vm_compute; reflexivity]].
  intros l e H. apply (f_equal (@rev elem)) in H. rewrite rev_app_distr in H. vm_compute in H. injection H as <- _. discriminate.
Qed.
Example C51_file_ex : match std_close tree_kind (mkD ex_db true true None) (mkF None None) (fun _ => true) [49; 46; 48] with
  | (c, _, fs) => c = SUCCESS /\ match std_open ex_kind (sd_new ex_kind) fs false false [] with
      | Some (c, d, _) => c = SUCCESS /\ map kv (s_map (d_db d)) = [([3], [30]); ([2], [20]); ([1], [10])] /\ std_timestamp d = Some (SUCCESS, [49; 46; 48])
      | None => False end end.
Proof. vm_compute. auto. Qed.
(** The append of the fourth record fails: the file that takes the place has the metadata and one record and a half. *)
Example C51_torn_ex : match std_close tree_kind (mkD ex_db true true None) (mkF None None) (fun n => negb (Nat.eqb n 4)) [49; 46; 48] with
  | (c, _, fs) => c = SYSTEM_ERROR /\ match std_open ex_kind (sd_new ex_kind) fs false false [] with Some (c, d, _) => c = BROKEN_DATA_ERROR /\ std_count (d_db d) = 1%nat | None => False end end.
Proof. vm_compute. auto. Qed.

(** * Opening *)
Lemma adds_view kd : kind_ok kd -> forall l db, inv kd db -> forall x, std_view (adds kd l db) x = match std_view db x with Some v => Some v | None => lookup x l end.
Proof.
  intros HK. induction l as [|[k v] l IH]; intros db I x; cbn [adds]; [destruct (std_view db x); reflexivity|].
  assert (E : lookup x ((k, v) :: l) = if beqb k x then Some v else lookup x l) by (unfold lookup; cbn; destruct (beqb k x); reflexivity). rewrite E. clear E.
  unfold emplace_new. destruct (find_key k (s_map db)) as [e|] eqn:F.
  - rewrite IH by exact I. destruct (std_view db x) eqn:V; [reflexivity|]. destruct (beqb k x) eqn:B; [|reflexivity]. apply beqb_eq in B. subst. unfold std_view in V. unfold find_key in F. rewrite F in V. discriminate.
  - destruct (add_ok kd HK db k v I (find_key_none _ _ F)) as (I1 & P1 & _). rewrite IH by exact I1. rewrite !view_rs.
    assert (E : lookup x (p_recs (abs (emplace kd db k v))) = lookup x ((k, v) :: p_recs (abs db))). { apply lookup_perm; [eapply placed_perm, P1|]. cbn. fold (rs (s_map (emplace kd db k v))). rewrite rs_keys. apply I1. }
    rewrite E. unfold lookup at 1. cbn [find fst]. destruct (beqb k x) eqn:B; [|reflexivity]. cbn [option_map snd]. apply beqb_eq in B. subst. rewrite <- view_rs. unfold std_view. unfold find_key in F. rewrite F. reflexivity.
Qed.
(** Of the records of a file with the same key the first counts.  The full claim is without the hypothesis on the last value. *)
Theorem C51_open_first_partial kd wr wall l : std_kind kd -> Forall kv_small l -> (forall l' k v, l = l' ++ [(k, v)] -> v <> []) ->
  exists d, std_open kd (sd_new kd) (mkF (Some (flat_export l)) None) wr false wall = Some (SUCCESS, d, mkF (Some (flat_export l)) None) /\ d_open d = true /\ d_wr d = wr /\
    forall k, std_view (d_db d) k = option_map snd (find (fun r => beqb (fst r) k) l).
Proof.
  intros HK HS HE. rewrite (open_reads kd (sd_new kd) (mkF (Some (flat_export l)) None) wr wall (flat_export l) eq_refl eq_refl). change (d_db (sd_new kd)) with s_new.
  assert (HE' : ~ ends_empty l). { intros (l' & k & E). exact (HE _ _ _ E eq_refl). }
  set (ts := if blen (flat_export l) <? 1 then _ else _).
  assert (X := import_ok kd l HS HE' [] (fr_new 0) s_new ts (S (length (flat_export l))) (fr_new_inv _ _) ltac:(assert (Y := export_len l); lia)). cbn [app] in X. rewrite X.
  change (code_eqb SUCCESS SUCCESS) with true. cbn iota. eexists. split; [reflexivity|]. split; [reflexivity|]. split; [reflexivity|]. intros k. cbn [d_db].
  rewrite (adds_view kd (std_kind_ok kd HK) l s_new (new_inv kd) k). reflexivity.
Qed.
Print Assumptions C51_open_first_partial.
(** What else opening and closing do: an open database is not opened again, one that is not open is not closed; a file that is not there is made for a
    writer and refused to a reader; truncation empties it; closing a reader leaves the files as they are. *)
Theorem C51_open_outcomes kd d fs wok wall :
  (d_open d = true -> forall wr trunc, std_open kd d fs wr trunc wall = Some (PRECONDITION_ERROR, d, fs)) /\
  (d_open d = false -> std_close kd d fs wok wall = (PRECONDITION_ERROR, d, fs)) /\
  (d_open d = false -> f_main fs = None -> forall trunc, std_open kd d fs false trunc wall = Some (NOT_FOUND_ERROR, d, fs)) /\
  (d_open d = false -> forall trunc, trunc = true \/ f_main fs = None ->
     std_open kd d fs true trunc wall = Some (SUCCESS, mkD (d_db d) true true (Some wall), mkF (Some []) (f_tmp fs))) /\
  (d_open d = true -> d_wr d = false -> exists d', std_close kd d fs wok wall = (SUCCESS, d', fs) /\ d_open d' = false /\ s_map (d_db d') = []).
Proof.
  repeat split.
  - intros H wr trunc. unfold std_open. rewrite H. reflexivity.
  - intros H. unfold std_close. rewrite H. reflexivity.
  - intros H F trunc. unfold std_open. rewrite H, F. reflexivity.
  - intros H trunc T. unfold std_open. rewrite H. assert (E : (if trunc then [] else match f_main fs with Some f => f | None => [] end) = []) by (destruct T as [-> | ->]; [|destruct trunc]; reflexivity). rewrite E. reflexivity.
  - intros H W. unfold std_close. rewrite H, W. eexists. split; [reflexivity|]. split; reflexivity.
Qed.
Print Assumptions C51_open_outcomes.
Example C51_open_case : match std_open tree_kind (sd_new tree_kind) (mkF (Some (flat_export [([2], [7]); ([1], [8]); ([2], [9])])) None) true false [49] with
  | Some (c, d, _) => c = SUCCESS /\ map (fun e => (e_key e, e_val e)) (s_map (d_db d)) = [([1], [8]); ([2], [7])] | None => False end.
Proof. vm_compute. auto. Qed.
