(** SkipDBM under any history of updates, merges, synchronizations, reverts and lookups. *)
From Coq Require Import List NArith ZArith Bool Lia Arith Sorted Permutation.
Import ListNotations.
From Verif Require Import Bytes BytesOrder CodecModel CodecProofs StatusModel StrSerialModel StrSerialProofs FlatModel DbmModel MqProofs FlatProofs SkipModel SkipLayout SkipWrite SkipSearch SkipIter SkipMerge SkipSync.
Open Scope N_scope.

(** Another skip database file: its parameters, its bytes and its records. *)
Record src := mkSrc { s_p : sp; s_f : bytes; s_l : list krec }.
Definition src_ok (s : src) : Prop := sp_ok (s_p s) /\ stored (s_p s) (s_f s) (s_l s) /\ fits (s_p s) (s_l s) /\ ordered (s_l s).
Definition src_pair (s : src) : sp * bytes := (s_p s, s_f s).
Definition sorter_holds (s : sorter) (tmps : list (list krec)) (mem : list krec) : Prop :=
  so_mem s = map ser mem /\ so_tmp s = map tmp_bytes tmps /\ Forall tame mem /\ Forall (fun l => ordered l /\ Forall tame l /\ l <> []) tmps.

Lemma flush_ok s tmps mem : sorter_holds s tmps mem -> mem <> [] -> sorter_holds (so_flush s) (tmps ++ [r_sort mem]) [] /\ so_skips (so_flush s) = so_skips s.
Proof.
  intros (A & B & C & D) NE. split; [|reflexivity]. unfold so_flush. split; [reflexivity|]. cbn [so_tmp]. split.
  - rewrite A, B, st_sort_ser by exact C. rewrite map_app. cbn [map]. f_equal. f_equal. unfold tmp_bytes, flats. generalize (r_sort mem). intros l. induction l as [|r l IH]; [reflexivity|]. cbn. f_equal. f_equal. exact IH.
  - split; [constructor|]. apply Forall_app. split; [exact D|]. constructor; [|constructor]. split; [apply r_sort_ordered|]. split.
    + apply Forall_forall. intros x X. rewrite Forall_forall in C. apply C. apply r_sort_in. exact X.
    + intros X. apply NE. apply length_zero_iff_nil. rewrite <- r_sort_len, X. reflexivity.
Qed.
Lemma add_ok mm k v s tmps mem : sorter_holds s tmps mem -> tame (k, v) -> exists tmps' mem', sorter_holds (so_add mm k v s) tmps' mem' /\ so_skips (so_add mm k v s) = so_skips s /\
  forall x, vals x (concat tmps' ++ mem') = vals x ((concat tmps ++ mem) ++ [(k, v)]).
Proof.
  intros (A & B & C & D) T. unfold so_add. cbv zeta. set (s1 := mkSo _ _ _ _).
  assert (H1 : sorter_holds s1 tmps (mem ++ [(k, v)])).
  { split; [unfold s1; cbn; rewrite A, map_app; reflexivity|]. split; [exact B|]. split; [apply Forall_app; split; [exact C|constructor; [exact T|constructor]]|exact D]. }
  destruct (mm <=? so_size s1).
  - destruct (flush_ok s1 _ _ H1) as [H2 E2]; [destruct mem; discriminate|]. exists (tmps ++ [r_sort (mem ++ [(k, v)])]), []. split; [exact H2|]. split; [exact E2|].
    intros x. rewrite app_nil_r, concat_app. cbn [concat]. rewrite app_nil_r, <- app_assoc, !vals_app. f_equal. unfold vals. rewrite r_sort_key, at_key_app, map_app. reflexivity.
  - exists tmps, (mem ++ [(k, v)]). split; [exact H1|]. split; [reflexivity|]. intros x. rewrite app_assoc. reflexivity.
Qed.

(** * Finish *)
Lemma smap_ok {A B} (g : A -> sres B) (R : B -> Prop) l : Forall (fun a => exists b, g a = SOk b /\ R b) l -> exists bs, smap g l = SOk bs /\ Forall R bs.
Proof. induction 1 as [|a l (b & E & Rb) F (bs & IH & RB)]; [exists []; auto|]. exists (b :: bs). cbn. rewrite E. cbn. rewrite IH. cbn. auto. Qed.
Lemma smap_ok2 {A B C} (g : A -> sres B) (R : B -> C -> Prop) l cs : Forall2 (fun a c => exists b, g a = SOk b /\ R b c) l cs -> exists bs, smap g l = SOk bs /\ Forall2 R bs cs.
Proof. induction 1 as [|a c l cs (b & E & Rb) F (bs & IH & RB)]; [exists []; auto|]. exists (b :: bs). cbn. rewrite E. cbn. rewrite IH. cbn. auto. Qed.
Lemma Forall2_map_l {A B C} (R : B -> C -> Prop) (h : A -> B) (k : A -> C) l : Forall (fun a => R (h a) (k a)) l -> Forall2 R (map h l) (map k l).
Proof. induction 1; cbn; constructor; auto. Qed.
Lemma tmp_len l : (length l <= length (tmp_bytes l))%nat.
Proof.
  induction l as [|r l IH]; [cbn; lia|]. change (tmp_bytes (r :: l)) with (flat_write (false, ser r) ++ tmp_bytes l). rewrite app_length. cbn [length flat_write]. lia.
Qed.
Lemma ser_pos r : (1 <= length (ser r))%nat.
Proof. assert (X := ser_len r). assert (P := size_var_pos (blen (fst r))). unfold blen in X at 1. lia. Qed.
Definition sum_len (fs : list bytes) : nat := fold_right (fun f n => length f + n)%nat O fs.
Lemma sum_len_app a b : sum_len (a ++ b) = (sum_len a + sum_len b)%nat.
Proof. unfold sum_len. induction a as [|x a IH]; [reflexivity|]. cbn [app fold_right]. rewrite IH. lia. Qed.
Lemma sum_len_le {A} (h : A -> bytes) (k : A -> list krec) l : Forall (fun a => (length (k a) <= length (h a))%nat) l -> (length (concat (map k l)) <= sum_len (map h l))%nat.
Proof. unfold sum_len. induction 1 as [|a l X F IH]; [cbn; lia|]. cbn [map concat fold_right]. rewrite app_length. lia. Qed.
Definition rest_of (mem : list krec) : list (list krec) := match mem with [] => [] | _ => [r_sort mem] end.
Lemma finish_slots s srcs tmps mem : sorter_holds s tmps mem -> so_skips s = map src_pair srcs -> Forall src_ok srcs ->
  exists sls, so_finish s = SOk sls /\ Forall2 slot_holds sls (map s_l srcs ++ tmps ++ rest_of mem) /\ (count (map s_l srcs ++ tmps ++ rest_of mem) < merge_fuel s)%nat.
Proof.
  intros SH SK SO.
  assert (X : exists s1, match so_mem s with [] => s | _ => so_flush s end = s1 /\ sorter_holds s1 (tmps ++ rest_of mem) [] /\ so_skips s1 = map src_pair srcs).
  { assert (SM := proj1 SH). destruct mem as [|m mem]; rewrite SM; cbn [map].
    - exists s. cbn. rewrite app_nil_r. auto.
    - destruct (flush_ok s tmps (m :: mem) SH ltac:(discriminate)) as [H E]. exists (so_flush s). rewrite E. auto. }
  destruct X as (s1 & E1 & (A & B & _ & D) & K1). unfold so_finish. rewrite E1, K1, B.
  destruct (smap_ok2 (fun '(p, f) => skip_next p f 128 0) slot_holds (map src_pair srcs) (map s_l srcs)) as (a & EA & FA).
  { apply Forall2_map_l. eapply Forall_impl; [|exact SO]. intros z (PO & ST & FT & O). cbn. apply (source_ok (SSkip (s_p z) (s_f z) 128 0)). cbn. exists (s_l z).
    rewrite off_0. repeat split; auto; try apply PO; try apply FT. lia. }
  destruct (smap_ok2 (fun f => flat_next f (fr_new 0)) slot_holds (map tmp_bytes (tmps ++ rest_of mem)) (map (fun l => l) (tmps ++ rest_of mem))) as (b & EB & FB).
  { apply Forall2_map_l. eapply Forall_impl; [|exact D]. intros l (O & T & _). apply (source_ok (SFlat (tmp_bytes l) (fr_new 0))). cbn. exists []. cbn. split; [reflexivity|]. split; [apply fr_new_inv|exact T]. }
  rewrite map_id in FB. rewrite EA. cbn [sbind]. rewrite EB. cbn [sbind].
  assert (NX : existsb (fun sl : option (bytes * bytes) * source => match fst sl with None => true | _ => false end) b = false).
  { clear - D FB. revert D. induction FB as [|x l b ls H F IH]; intros D; [reflexivity|]. inversion D as [|? ? (_ & _ & NE) D']; subst. cbn. rewrite (IH D'), orb_false_r.
    unfold slot_holds in H. destruct (fst x); [reflexivity|contradiction]. }
  rewrite NX. exists (a ++ b). split; [reflexivity|]. split; [apply Forall2_app; assumption|].
  unfold count, merge_fuel. fold (sum_len (map snd (so_skips s) ++ so_tmp s ++ so_mem s)). rewrite !concat_app, !app_length, !sum_len_app. destruct SH as (H1 & H2 & H3 & H4). rewrite SK, H2, H1, map_map.
  assert (L1 : (length (concat (map s_l srcs)) <= sum_len (map (fun x => snd (src_pair x)) srcs))%nat).
  { apply sum_len_le. eapply Forall_impl; [|exact SO]. intros z (_ & ST & _ & _). apply (n_fuel (s_p z)). exact ST. }
  assert (L2 : (length (concat tmps) <= sum_len (map tmp_bytes tmps))%nat). { rewrite <- (map_id tmps) at 1. apply sum_len_le. apply Forall_forall. intros l _. apply tmp_len. }
  assert (L3 : (length (concat (rest_of mem)) <= sum_len (map ser mem))%nat).
  { assert (L4 : length (concat (rest_of mem)) = length mem) by (destruct mem; [reflexivity|]; unfold rest_of; cbn [concat]; rewrite app_nil_r, r_sort_len; reflexivity).
    rewrite L4. clear. unfold sum_len. induction mem as [|r mem IH]; [cbn; lia|]. cbn [map fold_right length]. assert (X := ser_pos r). lia. }
  lia.
Qed.
Lemma rest_key k mem : concat (map (at_key k) (rest_of mem)) = at_key k mem.
Proof. destruct mem as [|m mem]; [reflexivity|]. unfold rest_of. cbn [map concat]. rewrite app_nil_r, r_sort_key. reflexivity. Qed.
(** The merging loop gives the records of the specification. *)
Lemma merge_ok p (PO : sp_ok p) red removed s srcs tmps mem evs : sorter_holds s tmps mem -> so_skips s = map src_pair srcs -> Forall src_ok srcs ->
  (forall k, vals k (concat (map s_l srcs) ++ concat tmps ++ mem) = vals k (map ev_rec evs)) -> Forall plain evs -> (removed = false -> Forall (fun e => snd e <> None) evs) ->
  (forall i r, nth_error (merged red evs) i = Some r -> rsize p i r < 2^31) ->
  exists f past, (let* sl := so_finish s in merge_loop p red removed (merge_fuel s) sl None (mkW meta0 0 (repeat 0 (maxl p)) 0 0))
    = SOk (mkW f (length (merged red evs)) past (length (merged red evs)) (data_size (merged red evs))) /\ stored p f (merged red evs).
Proof.
  intros SH SK SO EV PL RM SZ. destruct (finish_slots s srcs tmps mem SH SK SO) as (sls & -> & F & L). cbn [sbind].
  destruct (loop_ok p red removed (merge_fuel s) sls _ F L) as (out & P & H). rewrite H. clear H.
  destruct (picks_spec _ _ P) as (O & AK & _).
  { apply Forall_app. split; [apply Forall_forall; intros l X; apply in_map_iff in X as (z & <- & Z); rewrite Forall_forall in SO; apply (SO z Z)|].
    apply Forall_app. split; [destruct SH as (_ & _ & _ & D); eapply Forall_impl; [|exact D]; intros l X; apply X|]. destruct mem; constructor; [apply r_sort_ordered|constructor]. }
  destruct (written_ok red removed out O) as (WO & WV).
  assert (E : written red removed out None = merged red evs).
  { apply ordered_ext; [exact WO|apply merged_ordered|]. intros k. rewrite WV, merged_vals, <- (chosen_result red removed evs k PL RM). f_equal. rewrite <- EV. unfold vals. f_equal.
    rewrite AK, !map_app, !concat_app, rest_key, !at_key_app, !at_key_concat. reflexivity. }
  rewrite E. destruct (write_list_ok p PO (merged red evs) [] meta0 (repeat 0 (maxl p)) 0 0) as (f & past & W & ST & _); [apply stored_nil; reflexivity|apply past_0|exact SZ|].
  exists f, past. split; [exact W|exact ST].
Qed.

(** * The database *)
Section Db.
Variable g : scfg.
Let p := g_sp g.
Hypothesis PO : sp_ok p.

(** The records that are not synchronized yet. *)
Definition pending (d : sdb) (pend : list event) : Prop :=
  if g_inorder g then exists sf, d_sorted d = Some sf /\ stored p sf (map ev_rec pend) /\ past_ok p (map ev_rec pend) (d_past d) /\ d_idx d = length pend /\ so_mem (d_sorter d) = [] /\ so_tmp (d_sorter d) = []
  else d_sorted d = None /\ exists tmps mem, sorter_holds (d_sorter d) tmps mem /\ forall k, vals k (concat tmps ++ mem) = vals k (map ev_rec pend).
(** The database [d] holds the records [old]; [pend] has been asked for since, and the files [srcs] are to be merged. *)
Record holds (d : sdb) (old : list krec) (pend : list event) (srcs : list src) : Prop := mkHolds {
  h_file : stored p (d_file d) old; h_fits : fits p old; h_ord : ordered old; h_plain : Forall plain (kept old ++ pend); h_rm : d_removed d = false -> Forall (fun e => snd e <> None) pend;
  h_onum : d_old_num d = length old; h_oeff : d_old_eff d = data_size old;
  h_num : d_num d = (length old + if g_inorder g then length pend else 0)%nat; h_eff : d_eff d = data_size old + (if g_inorder g then data_size (map ev_rec pend) else 0);
  h_cache : cache_ok p old (d_cache d);
  h_skips : so_skips (d_sorter d) = map src_pair srcs; h_srcs : Forall src_ok srcs; h_splain : Forall (fun s => Forall plain (kept (s_l s))) srcs;
  h_pend : pending d pend }.
Definition events (old : list krec) (pend : list event) (srcs : list src) : list event := concat (map (fun s => kept (s_l s)) srcs) ++ kept old ++ pend.
Lemma kept_rec l : map ev_rec (kept l) = l.
Proof. unfold kept. rewrite map_map. rewrite <- (map_id l) at 2. apply map_ext. intros [k v]. reflexivity. Qed.
Lemma concat_kept srcs : map ev_rec (concat (map (fun s => kept (s_l s)) srcs)) = concat (map s_l srcs).
Proof. induction srcs as [|s srcs IH]; [reflexivity|]. cbn [map concat]. rewrite map_app, kept_rec, IH. reflexivity. Qed.
Lemma kept_some l : Forall (fun e => snd e <> None) (kept l).
Proof. apply Forall_forall. intros e H. apply in_map_iff in H as (r & <- & _). discriminate. Qed.
Lemma nil_stored old f : stored p f old -> (128 <? blen f) = negb (match old with [] => true | _ => false end) /\ (blen f =? 128) = match old with [] => true | _ => false end.
Proof.
  intros ST. rewrite (stored_len p f old ST). destruct old as [|r old]; [cbn [length]; rewrite off_0; split; reflexivity|].
  assert (X := off_lt p (r :: old) 0 (length (r :: old)) ltac:(cbn; lia) (le_n _)). rewrite off_0 in X. destruct (N.ltb_spec 128 (off_of p (r :: old) (length (r :: old)))), (N.eqb_spec (off_of p (r :: old) (length (r :: old))) 128); split; auto; lia.
Qed.
Lemma prepare_ok d old f : stored p (d_file d) old -> fits p old -> ordered old -> Forall plain (kept old) -> d_num d = length old -> d_eff d = data_size old -> d_sorted d = None -> cache_ok p old f ->
  holds (set_cache (prepare g d) f) old [] [].
Proof.
  intros ST FT O PL NM EF SN CO.
  assert (X : d_file (prepare g d) = d_file d /\ d_num (prepare g d) = d_num d /\ d_eff (prepare g d) = d_eff d /\ d_old_num (prepare g d) = d_num d /\ d_old_eff (prepare g d) = d_eff d /\ d_sorter (prepare g d) = so_new)
    by (unfold prepare; destruct (g_inorder g); repeat split; reflexivity).
  destruct X as (X1 & X2 & X3 & X4 & X5 & X6).
  constructor; cbn [set_cache d_file d_num d_eff d_old_num d_old_eff d_removed d_cache d_sorter d_sorted d_idx d_past]; rewrite ?X1, ?X2, ?X3, ?X4, ?X5, ?X6; auto.
  - rewrite app_nil_r. exact PL.
  - rewrite NM. cbn [length]. destruct (g_inorder g); lia.
  - rewrite EF. cbn [map data_size fold_right]. destruct (g_inorder g); lia.
  - unfold pending, prepare. destruct (g_inorder g) eqn:IN; cbn.
    + exists meta0. split; [reflexivity|]. split; [apply stored_nil; reflexivity|]. split; [apply past_0|]. auto.
    + split; [exact SN|]. exists [], []. split; [|reflexivity]. repeat split; constructor.
Qed.
Lemma new_ok : 128 <= 256 ^ N.of_nat (ow p) -> holds (sdb_new g) [] [] [].
Proof.
  intros W. unfold sdb_new. set (d := mkDB _ _ _ _ _ _ _ _ _ _ _ _). replace (prepare g d) with (set_cache (prepare g d) (d_cache d)) by (unfold prepare; destruct (g_inorder g); reflexivity).
  apply prepare_ok; try reflexivity.
  - apply stored_nil. reflexivity.
  - split; [cbn; rewrite off_0; exact W|]. intros i r H. destruct i; discriminate.
  - constructor.
  - constructor.
  - apply cache_new_ok. apply PO.
Qed.
(** What in-order insertion relies on. *)
Definition inorder_ok (red : reducer) (old : list krec) (pend : list event) (srcs : list src) : Prop :=
  g_inorder g = true -> ordered (map ev_rec pend) /\ fits p (map ev_rec pend) /\ (red = None -> old = [] -> srcs = [] -> Forall (fun e => snd e <> None) pend).
Lemma sync_ok red d old pend srcs : holds d old pend srcs -> inorder_ok red old pend srcs -> let R := merged red (events old pend srcs) in fits p R -> Forall plain (kept R) ->
  exists d', synchronize g red d = SOk d' /\ holds d' R [] [].
Proof.
  intros [HF HT HO HP HR HON HOE HN HE HC HK HS HSP HQ] IO R FR PR.
  assert (FIN : exists d1, finish g red d = SOk d1 /\ stored p (d_file d1) R /\ d_num d1 = length R /\ d_eff d1 = data_size R /\ d_sorted d1 = None).
  { assert (PE : Forall plain (events old pend srcs)).
    { unfold events. apply Forall_app. split; [|exact HP]. apply Forall_forall. intros e X. apply in_concat in X as (l & L1 & L2). apply in_map_iff in L1 as (s & <- & S). rewrite Forall_forall in HSP. specialize (HSP s S). rewrite Forall_forall in HSP. apply HSP. exact L2. }
    assert (RE : d_removed d = false -> Forall (fun e => snd e <> None) (events old pend srcs)).
    { intros X. unfold events. apply Forall_app. split; [|apply Forall_app; split; [apply kept_some|apply HR; exact X]]. apply Forall_forall. intros e Y. apply in_concat in Y as (l & L1 & L2). apply in_map_iff in L1 as (s & <- & S).
      assert (Z := kept_some (s_l s)). rewrite Forall_forall in Z. apply Z. exact L2. }
    destruct (nil_stored old (d_file d) HF) as [N1 N2].
    (* the general branch *)
    assert (GEN : forall s2 srcs2 tmps mem, sorter_holds s2 tmps mem -> so_skips s2 = map src_pair srcs2 -> Forall src_ok srcs2 ->
      (forall k, vals k (concat (map s_l srcs2) ++ concat tmps ++ mem) = vals k (map ev_rec (events old pend srcs))) ->
      exists d1, (let* sl := so_finish s2 in let* w := merge_loop p red (d_removed d) (merge_fuel s2) sl None (mkW meta0 0 (repeat 0 (maxl p)) 0 0) in
         SOk (mkDB (w_file w) (w_num w) (w_eff w) (d_old_num d) (d_old_eff d) (d_removed d) false None (w_idx w) [] so_new (d_cache d))) = SOk d1 /\
        stored p (d_file d1) R /\ d_num d1 = length R /\ d_eff d1 = data_size R /\ d_sorted d1 = None).
    { intros s2 srcs2 tmps mem A B C D. destruct (merge_ok p PO red (d_removed d) s2 srcs2 tmps mem (events old pend srcs) A B C D PE RE (proj2 FR)) as (f & past & E & ST).
      destruct (so_finish s2) as [sl| | |]; cbn [sbind] in E; try discriminate. cbn [sbind]. rewrite E. cbn. eexists. split; [reflexivity|]. cbn. auto. }
    set (oldsrc := match old with [] => [] | _ => [mkSrc p (d_file d) old] end).
    assert (OS : Forall src_ok oldsrc) by (unfold oldsrc; destruct old; constructor; [repeat split; auto; try apply PO; try apply HT|constructor]).
    assert (OL : concat (map s_l oldsrc) = old) by (unfold oldsrc; destruct old; cbn; [reflexivity|rewrite app_nil_r; reflexivity]).
    set (s1 := if 128 <? blen (d_file d) then so_add_skip p (d_file d) (d_sorter d) else d_sorter d).
    assert (S1 : so_skips s1 = map src_pair (srcs ++ oldsrc) /\ so_mem s1 = so_mem (d_sorter d) /\ so_tmp s1 = so_tmp (d_sorter d)).
    { unfold s1. rewrite N1. unfold oldsrc. destruct old; cbn [negb]; [rewrite app_nil_r; auto|]. cbn. rewrite HK, map_app. auto. }
    destruct S1 as (S1 & S1m & S1t).
    unfold pending in HQ. unfold finish. fold p. destruct (g_inorder g) eqn:IN.
    - destruct HQ as (sf & E & SS & PA & EI & EM & ET). rewrite E, N2. destruct (IO IN) as (PO' & PF & PN). destruct (nil_stored (map ev_rec pend) sf SS) as [M1 M2].
      assert (UP : so_updated (d_sorter d) = negb (match srcs with [] => true | _ => false end)) by (unfold so_updated; rewrite EM, ET, HK; destruct srcs; reflexivity).
      set (psrc := match map ev_rec pend with [] => [] | _ => [mkSrc p sf (map ev_rec pend)] end).
      assert (PS : Forall src_ok psrc). { unfold psrc. destruct (map ev_rec pend) eqn:Q; constructor; [|constructor]. rewrite <- Q in *. repeat split; auto; try apply PO; try apply PF. }
      assert (PL : concat (map s_l psrc) = map ev_rec pend) by (unfold psrc; destruct (map ev_rec pend); cbn; [reflexivity|rewrite app_nil_r; reflexivity]).
      assert (GEN1 : exists d1, (let* sl := so_finish (if 128 <? blen sf then so_add_skip p sf s1 else s1) in let* w := merge_loop p red (d_removed d) (merge_fuel (if 128 <? blen sf then so_add_skip p sf s1 else s1)) sl None (mkW meta0 0 (repeat 0 (maxl p)) 0 0) in
         SOk (mkDB (w_file w) (w_num w) (w_eff w) (d_old_num d) (d_old_eff d) (d_removed d) false None (w_idx w) [] so_new (d_cache d))) = SOk d1 /\
        stored p (d_file d1) R /\ d_num d1 = length R /\ d_eff d1 = data_size R /\ d_sorted d1 = None).
      { apply (GEN _ ((srcs ++ oldsrc) ++ psrc) [] []).
        - rewrite M1. unfold sorter_holds. destruct (map ev_rec pend); cbn [negb so_add_skip so_mem so_tmp]; rewrite S1m, S1t, EM, ET; repeat split; constructor.
        - rewrite M1. unfold psrc. destruct (map ev_rec pend); cbn [negb so_add_skip so_skips]; rewrite S1, ?app_nil_r; [reflexivity|]. rewrite !map_app. reflexivity.
        - apply Forall_app. split; [apply Forall_app; split; assumption|exact PS].
        - intros k. cbn [concat app]. rewrite app_nil_r, !map_app, !concat_app, OL, PL. unfold events. rewrite !map_app, concat_kept, kept_rec, app_assoc. reflexivity. }
      rewrite UP. destruct red as [h|]; [exact GEN1|].
      destruct (match old with [] => true | _ => false end && negb (negb (match srcs with [] => true | _ => false end))) eqn:C; [|exact GEN1].
      apply andb_prop in C as [C1 C2]. destruct old; [|discriminate]. destruct srcs; [|discriminate]. eexists. split; [reflexivity|]. cbn [d_file d_num d_eff d_sorted].
      assert (ER : R = map ev_rec pend).
      { unfold R. apply ordered_ext; [apply merged_ordered|exact PO'|]. intros k. rewrite merged_vals, vals_raw. unfold result, events. cbn [map concat app kept]. unfold live. rewrite live_all.
        - cbn [app]. destruct (map raw (evals k pend)); reflexivity.
        - specialize (PN eq_refl eq_refl eq_refl). apply Forall_forall. intros x X. apply evals_in in X. rewrite Forall_forall in PN. apply (PN (k, x) X). }
      rewrite ER. split; [exact SS|]. rewrite map_length. cbn [length data_size fold_right] in HN, HE. split; [exact HN|]. split; [rewrite HE; apply N.add_0_l|reflexivity].
    - destruct HQ as (E & tmps & mem & SH & VE). rewrite E.
      assert (GEN1 : exists d1, (let* sl := so_finish s1 in let* w := merge_loop p red (d_removed d) (merge_fuel s1) sl None (mkW meta0 0 (repeat 0 (maxl p)) 0 0) in
         SOk (mkDB (w_file w) (w_num w) (w_eff w) (d_old_num d) (d_old_eff d) (d_removed d) false None (w_idx w) [] so_new (d_cache d))) = SOk d1 /\
        stored p (d_file d1) R /\ d_num d1 = length R /\ d_eff d1 = data_size R /\ d_sorted d1 = None).
      { apply (GEN _ (srcs ++ oldsrc) tmps mem).
        - destruct SH as (A & B & C & D). unfold sorter_holds. rewrite S1m, S1t. auto.
        - exact S1.
        - apply Forall_app. auto.
        - intros k. rewrite map_app, concat_app, OL. rewrite !vals_app, <- (vals_app k (concat tmps)), VE. unfold events. rewrite !map_app, concat_kept, kept_rec, !vals_app, app_assoc. reflexivity. }
      destruct red; exact GEN1. }
  destruct FIN as (d1 & E & ST & NM & EF & SN). unfold synchronize. rewrite E. cbn [sbind]. eexists. split; [reflexivity|].
  replace (d_num (prepare g d1)) with (d_num d1) at 2 by (unfold prepare; destruct (g_inorder g); reflexivity).
  apply (prepare_ok d1 R); auto; [apply merged_ordered|]. apply cache_new_ok. apply PO.
Qed.
Lemma revert_ok d old pend srcs : holds d old pend srcs -> holds (revert g d) old [] [].
Proof.
  intros [HF HT HO HP HR HON HOE HN HE HC HK HS HSP HQ]. unfold revert. set (d1 := mkDB _ _ _ _ _ _ _ _ _ _ _ _).
  replace (prepare g d1) with (set_cache (prepare g d1) (d_cache d)) by (unfold prepare, d1; destruct (g_inorder g); reflexivity).
  apply prepare_ok; auto. apply Forall_app in HP. apply HP.
Qed.
Lemma merge_db_ok d old pend srcs s : holds d old pend srcs -> src_ok s -> Forall plain (kept (s_l s)) -> holds (merge_db (s_p s) (s_f s) d) old pend (srcs ++ [s]).
Proof.
  intros [HF HT HO HP HR HON HOE HN HE HC HK HS HSP HQ] SO SP. constructor; cbn; auto.
  - rewrite HK, map_app. reflexivity.
  - apply Forall_app. auto.
  - apply Forall_app. auto.
Qed.
Definition event_of (k : bytes) (a : action) : list event := match a with ANoop => [] | ARemove => [(k, None)] | ASet v => [(k, Some v)] end.
(** A record that can be added: not the mark of a removal, not of 2^47 bytes, and for in-order insertion not of 2^31 bytes at its index. *)
Definition event_ok (n : nat) (e : event) : Prop := plain e /\ tame (ev_rec e) /\ (g_inorder g = true -> rsize p n (ev_rec e) < 2^31).
Lemma update_ok d old pend srcs k a : holds d old pend srcs -> Forall (event_ok (length pend)) (event_of k a) -> exists d', update_record g k a d = SOk d' /\ holds d' old (pend ++ event_of k a) srcs.
Proof.
  intros [HF HT HO HP HR HON HOE HN HE HC HK HS HSP HQ] EO. unfold update_record.
  assert (ST : forall e rm, event_of k a = [e] -> fst e = k -> (rm = false -> d_removed d = false /\ snd e <> None) ->
    exists d', match d_sorted d with
    | None => SOk (mkDB (d_file d) (d_num d) (d_eff d) (d_old_num d) (d_old_eff d) rm true None (d_idx d) (d_past d) (so_add (g_mem g) k (raw (snd e)) (d_sorter d)) (d_cache d))
    | Some sf => let* w := write_record (g_sp g) k (raw (snd e)) (mkW sf (d_idx d) (d_past d) (d_num d) (d_eff d)) in
        SOk (mkDB (d_file d) (w_num w) (w_eff w) (d_old_num d) (d_old_eff d) rm true (Some (w_file w)) (w_idx w) (w_past w) (d_sorter d) (d_cache d)) end = SOk d' /\ holds d' old (pend ++ event_of k a) srcs).
  { intros e rm EE EK ER. rewrite EE in *. inversion EO as [|? ? (E1 & E2 & E3) _]; subst.
    assert (HP' : Forall plain (kept old ++ pend ++ [e])) by (rewrite app_assoc; apply Forall_app; split; [exact HP|constructor; [exact E1|constructor]]).
    assert (HR' : rm = false -> Forall (fun e => snd e <> None) (pend ++ [e])) by (intros X; destruct (ER X) as [Y Z]; apply Forall_app; split; [apply HR; exact Y|constructor; [exact Z|constructor]]).
    unfold pending in HQ. destruct (g_inorder g) eqn:IN.
    - destruct HQ as (sf & E & SS & PA & EI & EM & ET). rewrite E, EI. fold p.
      assert (LM : length (map ev_rec pend) = length pend) by apply map_length.
      destruct (write_ok p PO (map ev_rec pend) (ev_rec e) sf (d_past d) (d_num d) (d_eff d) SS PA) as (f' & W & ST' & PA'); [rewrite LM; apply E3; reflexivity|].
      rewrite LM in *. cbn [ev_rec fst snd] in W. rewrite W. cbn [sbind]. eexists. split; [reflexivity|]. constructor; cbn; auto.
      + rewrite HN, IN, app_length. cbn. lia.
      + rewrite HE, IN, map_app, data_size_app. cbn. lia.
      + unfold pending. rewrite IN. cbn. exists f'. rewrite map_app. cbn [map]. rewrite app_length. cbn [length]. split; [reflexivity|]. split; [exact ST'|]. split; [exact PA'|]. split; [lia|auto].
    - destruct HQ as (E & tmps & mem & SH & VE). rewrite E. destruct (add_ok (g_mem g) (fst e) (raw (snd e)) (d_sorter d) tmps mem SH E2) as (tmps' & mem' & SH' & SK' & V').
      eexists. split; [reflexivity|]. constructor; cbn; auto.
      + rewrite HN, IN. lia.
      + rewrite HE, IN. lia.
      + rewrite SK'. exact HK.
      + unfold pending. rewrite IN. cbn. split; [reflexivity|]. exists tmps', mem'. split; [exact SH'|]. intros x. rewrite V', map_app. cbn [map]. rewrite !(vals_app x _ [_]), VE. reflexivity. }
  destruct a as [| |v].
  - exists d. split; [reflexivity|]. cbn [event_of]. rewrite app_nil_r. constructor; auto.
  - apply (ST (k, None) true); auto. discriminate.
  - apply (ST (k, Some v) (d_removed d)); auto. intros X. split; [exact X|discriminate].
Qed.

Lemma lookup_ok d old pend srcs k : holds d old pend srcs -> exists c, lookup g k d = SOk (set_cache d c, first_val k old) /\ cache_ok p old c.
Proof.
  intros [HF HT HO HP HR HON HOE HN HE HC HK HS HSP HQ]. unfold lookup. fold p.
  destruct (search_ok p (d_file d) old PO HF HT (ordered_ascending _ HO) (d_cache d) k false HC) as (c & o & C' & E & H). rewrite E. cbn [sbind]. rewrite first_val_pos. exists c. split; [|exact C'].
  destruct o as [r|].
  - destruct H as (i & G & B & D). assert (G' := G). destruct G' as (k0 & v & N & _). rewrite (get_value_ok p (d_file d) old i r k0 v HF G N). cbn [sbind].
    rewrite (first_pos_some (beqb k) old i); [rewrite N; reflexivity|apply (good_lt p old i r G)| |].
    + destruct D as [D|[D _]]; [|discriminate]. apply bcmp_eq in D. rewrite D. apply beqb_refl.
    + intros j J. rewrite beqb_bcmp, B by exact J. reflexivity.
  - rewrite first_pos_none; [reflexivity|]. intros j J. rewrite beqb_bcmp. specialize (H j J). destruct (bcmp k (keyat old j)); auto. congruence.
Qed.
Lemma holds_cache d old pend srcs c : holds d old pend srcs -> cache_ok p old c -> holds (set_cache d c) old pend srcs.
Proof. intros [HF HT HO HP HR HON HOE HN HE HC HK HS HSP HQ] C. constructor; auto. Qed.
End Db.
