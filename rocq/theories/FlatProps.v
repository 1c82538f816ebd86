(** C23, C24: flat record files and text files.  Source: /repo/tkrzw_file_util.cc,
    /repo/tkrzw_dbm_common_impl.cc. *)
From Coq Require Import Lia.
From Verif Require Import Bytes CodecModel CodecProofs StatusModel TextCodecModel TextCodecProofs FlatModel FlatProofs.
Local Open Scope N_scope.

(** * C23 *)
(** Records of any types and contents (below 2^49 bytes), read back one by one with
    any buffer size, until the end is reported.  An empty record at the end is not
    reported: the reader takes two remaining bytes for the end of the file. *)
Theorem C23_reader_partial l buffer_size :
  Forall (fun r : frec => blen (snd r) < 2^49) l -> (forall l' t, l <> l' ++ [(t, [])]) ->
  fr_all (S (length l)) (flat_map flat_write l) (fr_new buffer_size) = Some (NOT_FOUND_ERROR, l).
Proof.
  intros H HE. assert (E := fr_all_ok l H [] (fr_new buffer_size) (S (length l)) (fr_new_inv _ _) (Nat.lt_succ_diag_r _)).
  cbn [app] in E. unfold flats in E. rewrite E. f_equal. f_equal. clear E H.
  induction l as [|r l IH]; [reflexivity|]. assert (X : readable l = l). { apply IH. intros l' t ->. apply (HE (r :: l') t). reflexivity. }
  destruct r as [t [|x d]]; [|cbn [readable]; rewrite X; reflexivity]. destruct l as [|y l]; [exfalso; apply (HE [] t); reflexivity|]. cbn [readable] in *. rewrite X. reflexivity.
Qed.
Print Assumptions C23_reader_partial.
(** ... and it is the only thing that is lost. *)
Theorem C23_reader_refuted l t buffer_size :
  Forall (fun r : frec => blen (snd r) < 2^49) l ->
  fr_all (S (S (length l))) (flat_map flat_write (l ++ [(t, [])])) (fr_new buffer_size) = Some (NOT_FOUND_ERROR, l).
Proof.
  intros H. assert (H' : Forall small (l ++ [(t, [])])) by (apply Forall_app; split; [exact H|constructor; [reflexivity|constructor]]).
  assert (E := fr_all_ok _ H' [] (fr_new buffer_size) (S (S (length l))) (fr_new_inv _ _)). cbn [app] in E. unfold flats in E. rewrite E by (rewrite app_length; cbn; lia).
  f_equal. f_equal. clear. induction l as [|[t' [|x d]] l IH]; [reflexivity| |].
  - change (((t', []) :: l) ++ [(t, [])]) with ((t', @nil N) :: (l ++ [(t, [])])). destruct l as [|y l]; [reflexivity|]. cbn [app] in *. cbn [readable]. cbn [readable] in IH. rewrite IH. reflexivity.
  - cbn [app readable]. rewrite IH. reflexivity.
Qed.
Print Assumptions C23_reader_refuted.
Example C23_reader_ex : let l := [(true, [1; 2]); (false, []); (false, repeat 7 300); (false, [9])] in
  fr_all 5 (flat_map flat_write l) (fr_new 8) = Some (NOT_FOUND_ERROR, l) /\
  fr_all 6 (flat_map flat_write (l ++ [(false, [])])) (fr_new 0) = Some (NOT_FOUND_ERROR, l).
Proof. vm_compute. auto. Qed.

(** Reading one record at its offset: the record and its size, empty ones too. *)
Theorem C23_direct pre r rest : blen (flat_write r) <= 2^40 ->
  flat_read (pre ++ flat_write r ++ rest) (blen pre) = (SUCCESS, Some (r, blen (flat_write r))).
Proof. apply flat_read_ok. Qed.
Print Assumptions C23_direct.
Example C23_direct_ex : flat_read (flat_write (false, [5]) ++ flat_write (true, []) ++ []) 3 = (SUCCESS, Some ((true, []), 2)).
Proof. reflexivity. Qed.
(** Import into a database whose Set succeeds. *)
Theorem C23_import_partial T (t_set : T -> bytes -> bytes -> code * T) l t :
  (forall t k v, fst (t_set t k v) = SUCCESS) ->
  Forall (fun kv : bytes * bytes => blen (fst kv) < 2^49 /\ blen (snd kv) < 2^49) l -> (forall l' k, l <> l' ++ [(k, [])]) ->
  flat_import t_set (S (length l)) (flat_export l) (fr_new 0) t = Some (SUCCESS, fold_left (fun t kv => snd (t_set t (fst kv) (snd kv))) l t).
Proof.
  intros HS H HE. assert (E := flat_import_ok T t_set l HS H ltac:(intros (l' & k & X); apply (HE _ _ X)) [] (fr_new 0) t (S (length l)) (fr_new_inv _ _) (Nat.lt_succ_diag_r _)).
  cbn [app] in E. rewrite E. f_equal. f_equal. clear. revert t; induction l as [|[k v] l IH]; intros t; cbn; auto.
Qed.
Print Assumptions C23_import_partial.
(** A database whose last record (in the order of the export) has an empty value
    cannot be imported. *)
Theorem C23_import_refuted T (t_set : T -> bytes -> bytes -> code * T) l k0 t :
  (forall t k v, fst (t_set t k v) = SUCCESS) ->
  Forall (fun kv : bytes * bytes => blen (fst kv) < 2^49 /\ blen (snd kv) < 2^49) l -> blen k0 < 2^49 ->
  flat_import t_set (S (S (length l))) (flat_export (l ++ [(k0, [])])) (fr_new 0) t =
    Some (BROKEN_DATA_ERROR, fold_left (fun t kv => snd (t_set t (fst kv) (snd kv))) l t).
Proof.
  intros HS H HE. assert (E := flat_import_bad T t_set l k0 HS H HE [] (fr_new 0) t (S (S (length l))) (fr_new_inv _ _) (Nat.lt_succ_diag_r _)).
  cbn [app] in E. rewrite E. f_equal. f_equal. clear. revert t; induction l as [|[k v] l IH]; intros t; cbn; auto.
Qed.
Print Assumptions C23_import_refuted.

(** Contents: a list of the records of a map. *)
Definition lists (m : amap) (l : list (bytes * bytes)) : Prop := NoDup (map fst l) /\ forall k v, In (k, v) l <-> m k = Some v.
Definition am_set (m : amap) (k v : bytes) : code * amap := (SUCCESS, aset m k v).
Lemma sets_view l : NoDup (map fst l) -> forall m k,
  fold_left (fun t kv => snd (am_set t (fst kv) (snd kv))) l m k = match find (fun kv => beqb (fst kv) k) l with Some (_, v) => Some v | None => m k end.
Proof.
  induction l as [|[k0 v0] l IH]; intros ND m k; [reflexivity|]. cbn [map fst] in ND. inversion ND as [|? ? N1 N2]; subst. cbn [fold_left fst snd am_set find].
  rewrite IH by exact N2. unfold aset. destruct (beqb_spec k0 k) as [->|Hk]; [|reflexivity].
  destruct (find (fun kv => beqb (fst kv) k) l) as [[k' v']|] eqn:F; [|reflexivity].
  apply find_some in F. destruct F as [F1 F2]. cbn [fst] in F2. destruct (beqb_spec k' k) as [->|]; [|discriminate]. exfalso. apply N1. apply (in_map fst) in F1. exact F1.
Qed.
Lemma sets_lists m l : lists m l -> forall k, fold_left (fun t kv => snd (am_set t (fst kv) (snd kv))) l aempty k = m k.
Proof.
  intros [ND H] k. rewrite sets_view by exact ND. destruct (find (fun kv => beqb (fst kv) k) l) as [[k' v']|] eqn:F.
  - apply find_some in F. destruct F as [F1 F2]. cbn [fst] in F2. destruct (beqb_spec k' k) as [->|]; [|discriminate]. symmetry. apply H, F1.
  - unfold aempty. destruct (m k) as [v|] eqn:E; [|reflexivity]. apply H in E. apply (find_none _ _ F) in E. cbn [fst] in E. rewrite beqb_refl in E. discriminate.
Qed.
(** Saving and opening an on-memory database (a metadata record and the records in
    any order): the same contents, unless the last record is empty. *)
Theorem C23_save_partial m l meta :
  lists m l -> Forall (fun kv : bytes * bytes => blen (fst kv) < 2^49 /\ blen (snd kv) < 2^49) l -> (forall l' k, l <> l' ++ [(k, [])]) ->
  meta <> [] -> blen meta < 2^49 ->
  exists m', flat_import am_set (S (S (length l))) (flat_save meta l) (fr_new 0) aempty = Some (SUCCESS, m') /\ forall k, m' k = m k.
Proof.
  intros HL H HE HM HB. unfold flat_save.
  destruct (flat_import_meta amap am_set meta (flat_write (true, meta) ++ flat_export l) (flat_export l) (fr_new 0) aempty (S (length l)) HB eq_refl) as (s' & E & I).
  - rewrite app_length, flat_length. cbn [snd]. assert (P := size_var_pos (blen meta)). destruct meta; [contradiction|]. cbn [length]. lia.
  - apply fr_new_inv.
  - assert (E2 := flat_import_ok amap am_set l ltac:(reflexivity) H ltac:(intros (l' & k & X); apply (HE _ _ X)) _ s' aempty (S (length l)) I (Nat.lt_succ_diag_r _)).
    eexists. split; [exact (eq_trans E E2)|]. intros k. rewrite <- (sets_lists m l HL k). clear. generalize aempty. induction l as [|[k' v'] l IH]; intros t; cbn; auto.
Qed.
Print Assumptions C23_save_partial.
(** One record with an empty value: saved, it can never be opened again. *)
Theorem C23_save_refuted : exists m l, lists m l /\ forall meta, meta <> [] -> blen meta < 2^49 ->
  flat_import am_set 3 (flat_save meta l) (fr_new 0) aempty = Some (BROKEN_DATA_ERROR, aempty).
Proof.
  exists (aset aempty [97] []), [([97], [])]. split.
  - split; [constructor; [intros []|constructor]|]. intros k v. unfold aset, aempty. destruct (beqb_spec [97] k) as [<-|Hk]; cbn; split.
    + intros [X|[]]. inversion X. reflexivity.
    + intros X. inversion X. auto.
    + intros [X|[]]. inversion X. congruence.
    + discriminate.
  - intros meta HM HB. unfold flat_save.
    destruct (flat_import_meta amap am_set meta (flat_write (true, meta) ++ flat_export [([97], [])]) (flat_export [([97], [])]) (fr_new 0) aempty 2 HB eq_refl) as (s' & E & I).
    + assert (P := flat_len2 (true, meta)). rewrite app_length. change (length (flat_export [([97], [])])) with 5%nat. lia.
    + apply fr_new_inv.
    + refine (eq_trans E _). apply (flat_import_bad amap am_set [] [97] ltac:(reflexivity) ltac:(constructor) ltac:(reflexivity) _ s' aempty 2 I). cbn. lia.
Qed.
Print Assumptions C23_save_refuted.
Example C23_save_ex : let l := [([1], []); ([2; 2], [3])] in
  match flat_import am_set 4 (flat_save [77] l) (fr_new 0) aempty with Some (c, m) => c = SUCCESS /\ m [1] = Some [] /\ m [2; 2] = Some [3] /\ m [3] = None | None => False end.
Proof. vm_compute. auto. Qed.
(** The keys alone. *)
Theorem C23_keys_partial l buffer_size : Forall (fun kv : bytes * bytes => blen (fst kv) < 2^49) l -> (forall l' v, l <> l' ++ [([], v)]) ->
  fr_all (S (length l)) (flat_export_keys l) (fr_new buffer_size) = Some (NOT_FOUND_ERROR, map (fun kv => (false, fst kv)) l).
Proof.
  intros H HE. assert (E := C23_reader_partial (map (fun kv : bytes * bytes => (false, fst kv)) l) buffer_size). rewrite map_length in E.
  unfold flat_export_keys. replace (flat_map (fun kv : bytes * bytes => flat_write (false, fst kv)) l) with (flat_map flat_write (map (fun kv : bytes * bytes => (false, fst kv)) l)).
  - apply E; [rewrite Forall_map; exact H|]. intros l' t X. destruct (@exists_last _ l) as (l1 & [k v] & ->); [intros ->; destruct l'; discriminate|].
    rewrite map_app in X. apply app_inj_tail in X. destruct X as [_ X]. cbn in X. inversion X; subst. apply (HE l1 v). reflexivity.
  - clear. induction l; cbn; congruence.
Qed.
Print Assumptions C23_keys_partial.

(** * C24 *)
(** Lines: any text is read back line by line whatever the buffer boundaries. *)
Fixpoint lines_all (fuel : nat) (f : bytes) (s : lr) : option (code * list bytes) :=
  match fuel with
  | O => None
  | S fu =>
      match read_line (S (length f)) f s [] with
      | Some (SUCCESS, l, s') => match lines_all fu f s' with Some (c, ls) => Some (c, l :: ls) | None => None end
      | Some (c, _, _) => Some (c, [])
      | None => None
      end
  end.
Lemma lines_gen f last : ~ In 10 last -> forall ls, Forall (fun l => ~ In 10 l) ls -> forall s q fuel, (length q <= length f)%nat ->
  lr_inv f s (flat_map (fun l => l ++ [10]) ls ++ last) q -> (S (length ls) < fuel)%nat ->
  lines_all fuel f s = Some (NOT_FOUND_ERROR, map (fun l => l ++ [10]) ls ++ match last with [] => [] | _ => [last] end).
Proof.
  intros HL. induction ls as [|l ls IH]; intros HF s q fuel Hq I Hf; (destruct fuel as [|fu]; [lia|]); cbn [lines_all].
  - cbn [flat_map app map] in *. destruct last as [|x last].
    + destruct (read_line_end f s q (S (length f)) I ltac:(lia)) as [s' E]. rewrite E. reflexivity.
    + destruct (read_line_tail f (x :: last) ltac:(discriminate) HL (S (length f)) s q [] _ I ltac:(lia) eq_refl) as (s' & E & I'). rewrite E.
      destruct fu as [|fu]; [cbn in Hf; lia|]. cbn [lines_all]. destruct (read_line_end f s' [] (S (length f)) I' ltac:(lia)) as [s2 E2]. rewrite E2. reflexivity.
  - inversion HF; subst. cbn [flat_map map app] in *. rewrite <- !app_assoc in I. cbn [app] in I.
    destruct (read_line_ok f l (flat_map (fun l => l ++ [10]) ls ++ last) ltac:(assumption) (S (length f)) s q [] l I ltac:(lia) ltac:(assumption) eq_refl) as (s' & q' & E & I' & Hq').
    rewrite E, (IH ltac:(assumption) s' q' fu ltac:(lia) I') by (cbn in Hf; lia). reflexivity.
Qed.
Theorem C24_lines ls last : Forall (fun l => ~ In 10 l) ls -> ~ In 10 last ->
  lines_all (S (S (length ls))) (flat_map (fun l => l ++ [10]) ls ++ last) lr_new =
    Some (NOT_FOUND_ERROR, map (fun l => l ++ [10]) ls ++ match last with [] => [] | _ => [last] end).
Proof. intros H HL. eapply lines_gen; eauto using lr_new_inv; lia. Qed.
Print Assumptions C24_lines.

Section Tsv.
  Variable T : Type.
  Variable t_set : T -> bytes -> bytes -> code * T.
  Hypothesis HS : forall t k v, fst (t_set t k v) = SUCCESS.
  (** Lines of the form key, tab, value. *)
  Lemma tsv_gen (un : bool) f (el : list (bytes * bytes)) : Forall (fun kv => ~ In 9 (fst kv) /\ ~ In 10 (fst kv) /\ ~ In 10 (snd kv)) el ->
    forall s q t fuel, (length q <= length f)%nat -> lr_inv f s (flat_map (fun kv => fst kv ++ [9] ++ snd kv ++ [10]) el) q -> (length el < fuel)%nat ->
    tsv_import t_set fuel un f s t = Some (SUCCESS,
      fold_left (fun t kv => snd (t_set t (if un then unescape_c (fst kv) else fst kv) (if un then unescape_c (snd kv) else snd kv))) el t).
  Proof.
    induction 1 as [|[k v] el (H1 & H2 & H3) _ IH]; intros s q t fuel Hq I Hf; (destruct fuel as [|fu]; [cbn in Hf; lia|]); cbn [tsv_import].
    - destruct (read_line_end f s q (S (length f)) I ltac:(lia)) as [s' E]. rewrite E. reflexivity.
    - cbn [flat_map fst snd] in *.
      assert (EI : (k ++ [9] ++ v ++ [10]) ++ flat_map (fun kv => fst kv ++ [9] ++ snd kv ++ [10]) el = (k ++ 9 :: v) ++ 10 :: flat_map (fun kv => fst kv ++ [9] ++ snd kv ++ [10]) el).
      { rewrite <- !app_assoc. cbn [app]. rewrite <- ?app_assoc. reflexivity. }
      rewrite EI in I. clear EI.
      assert (NL : ~ In 10 (k ++ 9 :: v)). { intros X. apply in_app_or in X. destruct X as [X|[X|X]]; [auto|discriminate|auto]. }
      destruct (read_line_ok f (k ++ 9 :: v) _ NL (S (length f)) s q [] (k ++ 9 :: v) I ltac:(lia) NL eq_refl) as (s' & q' & E & I' & Hq').
      rewrite E, content_line, split_tab_app by exact H1. cbn [fold_left fst snd].
      assert (X := HS t (if un then unescape_c k else k) (if un then unescape_c v else v)).
      destruct (t_set t _ _) as [c t'] eqn:ET. cbn [fst] in X. subst c. change (code_eqb SUCCESS SUCCESS) with true. cbn iota.
      rewrite (IH s' q' t' fu) by (try exact I'; cbn in Hf; lia). cbn [snd]. reflexivity.
  Qed.
End Tsv.

(** Every record comes back byte for byte, in the order of the export. *)
Theorem C24_tsv T (t_set : T -> bytes -> bytes -> code * T) l t :
  (forall t k v, fst (t_set t k v) = SUCCESS) -> Forall (fun kv : bytes * bytes => bytes_ok (fst kv) /\ bytes_ok (snd kv)) l ->
  tsv_import t_set (S (length l)) true (tsv_export true l) lr_new t = Some (SUCCESS, fold_left (fun t kv => snd (t_set t (fst kv) (snd kv))) l t).
Proof.
  intros HS H. set (el := map (fun kv : bytes * bytes => (escape_c false (fst kv), escape_c false (snd kv))) l).
  assert (EF : tsv_export true l = flat_map (fun kv => fst kv ++ [9] ++ snd kv ++ [10]) el).
  { unfold el, tsv_export. clear. induction l as [|x l IH]; [reflexivity|]. cbn [flat_map map fst snd]. rewrite IH. reflexivity. }
  rewrite (tsv_gen T t_set HS true _ el) with (q := tsv_export true l).
  - f_equal. f_equal. unfold el. clear EF. revert t; induction H as [|[k v] l [H1 H2] _ IH]; intros t; [reflexivity|]. cbn [map fold_left fst snd] in *.
    rewrite !escape_round by assumption. apply IH.
  - unfold el. rewrite Forall_map. eapply Forall_impl; [|exact H]. intros [k v] [H1 H2]. cbn [fst snd] in *.
    repeat split; intros X; apply escape_printable in X; auto; lia.
  - lia.
  - rewrite <- EF. apply lr_new_inv.
  - unfold el. rewrite map_length. lia.
Qed.
Print Assumptions C24_tsv.
Example C24_tsv_ex : tsv_export true [([0; 49], [9; 10; 92; 255]); ([], [])] = [92;120;48;48;49; 9; 92;116;92;110;92;92;255; 10; 9; 10] /\
  match tsv_import am_set 3 true (tsv_export true [([0; 49], [9; 10; 92; 255]); ([], [])]) lr_new aempty with
  | Some (c, m) => c = SUCCESS /\ m [0; 49] = Some [9; 10; 92; 255] /\ m [] = Some [] | None => False end.
Proof. vm_compute. auto. Qed.
(** As contents. *)
Theorem C24_tsv_contents m l : lists m l -> Forall (fun kv : bytes * bytes => bytes_ok (fst kv) /\ bytes_ok (snd kv)) l ->
  exists m', tsv_import am_set (S (length l)) true (tsv_export true l) lr_new aempty = Some (SUCCESS, m') /\ forall k, m' k = m k.
Proof. intros HL H. rewrite C24_tsv by (auto; reflexivity). eexists. split; [reflexivity|]. apply sets_lists, HL. Qed.
Print Assumptions C24_tsv_contents.
(** Without escaping, exactly the bytes above 32 but 127 survive for sure. *)
Lemma trim_id keep s : Forall (fun c => 32 <= c /\ c <> 127 \/ keep = true /\ c = 9) s -> trim_tsv keep s = s.
Proof.
  induction 1 as [|c s H _ IH]; [reflexivity|]. cbn [trim_tsv map]. unfold trim_tsv in IH. rewrite IH. f_equal.
  destruct H as [[H1 H2]|[-> ->]]; [|reflexivity]. destruct (N.leb_spec c 32).
  - replace c with 32 by lia. reflexivity.
  - destruct (N.eqb_spec c 127); [contradiction|reflexivity].
Qed.
Theorem C24_tsv_plain T (t_set : T -> bytes -> bytes -> code * T) l t :
  (forall t k v, fst (t_set t k v) = SUCCESS) ->
  Forall (fun kv : bytes * bytes => Forall (fun c => 32 <= c /\ c <> 127) (fst kv) /\ Forall (fun c => c = 9 \/ 32 <= c /\ c <> 127) (snd kv)) l ->
  tsv_import t_set (S (length l)) false (tsv_export false l) lr_new t = Some (SUCCESS, fold_left (fun t kv => snd (t_set t (fst kv) (snd kv))) l t).
Proof.
  intros HS H.
  assert (EF : tsv_export false l = flat_map (fun kv => fst kv ++ [9] ++ snd kv ++ [10]) l).
  { unfold tsv_export. clear t. induction H as [|[k v] l [H1 H2] _ IH]; [reflexivity|]. cbn [flat_map fst snd] in *. rewrite IH.
    rewrite !trim_id; [reflexivity| |]; (eapply Forall_impl; [|eassumption]); cbn; intros; tauto. }
  rewrite (tsv_gen T t_set HS false _ l) with (q := tsv_export false l).
  - reflexivity.
  - eapply Forall_impl; [|exact H]. intros [k v] [H1 H2]. cbn [fst snd] in *. rewrite Forall_forall in H1, H2.
    repeat split; intros X; [apply H1 in X|apply H1 in X|apply H2 in X]; lia.
  - lia.
  - rewrite <- EF. apply lr_new_inv.
  - lia.
Qed.
Print Assumptions C24_tsv_plain.
Theorem C24_tsv_plain_refuted : exists k v m, tsv_import am_set 2 false (tsv_export false [(k, v)]) lr_new aempty = Some (SUCCESS, m) /\ m k = None.
Proof. exists [10], [1]. eexists. split; [vm_compute; reflexivity|]. reflexivity. Qed.
