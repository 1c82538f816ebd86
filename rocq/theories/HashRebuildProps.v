(** Property C42: the whole of Rebuild of the hash database, from the first import
    to the use of the reopened file. *)
From Verif Require Import Bytes MapSpec CodecModel CodecProofs FileModel HashUtilModel HashUtilProofs HashRecModel
  HashRecProofs FbpModel FbpProofs HashDbModel HashDbLayout HashDbAppend HashDbInPlace HashDbProofs HashRestoreModel HashRestoreProofs
  HashMetaModel HashMetaProofs HashMetaProps HashRebuildModel HashRebuildProofs HashDbProps HashRestoreProps.
Open Scope N_scope.

Lemma meq_apply m m' k a w : meq m m' -> meq (map_apply m k a w) (map_apply m' k a w).
Proof. intros E k'. unfold map_apply. destruct w; [|apply E]. destruct a; unfold adel, aset; [apply E| |]; destruct (beqb _ _); auto. Qed.
Lemma meq_seen m m' k r : meq m m' -> map_seen m k r = map_seen m' k r.
Proof. intros E. unfold map_seen. now rewrite E. Qed.
Lemma meq_run ops : forall m m', meq m m' -> snd (map_run m ops) = snd (map_run m' ops) /\ meq (fst (map_run m ops)) (fst (map_run m' ops)).
Proof.
  induction ops as [|o ops IH]; intros m m' E; cbn [map_run]; [auto|]. rewrite (meq_seen m m' _ _ E).
  specialize (IH _ _ (meq_apply m m' (o_key o) (o_proc o (map_seen m' (o_key o) (o_readable o))) (o_writable o) E)).
  destruct (map_run (map_apply m _ _ _) ops), (map_run (map_apply m' _ _ _) ops). cbn in *. destruct IH as [-> IH]. auto.
Qed.
Lemma meq_ops_ok ops : forall m m', meq m m' -> ops_ok m ops -> ops_ok m' ops.
Proof.
  induction ops as [|o ops IH]; intros m m' E; cbn [ops_ok]; [auto|]. rewrite (meq_seen m m' _ _ E). intros (A & B & C).
  repeat split; try apply A; auto. eapply IH; [|exact C]. now apply meq_apply.
Qed.

(** * C42 *)
(** Any history on a database of any format [d], then Rebuild to any format [d2] (in either update mode) with any updates
    running while it copies: the reopened database is healthy, has the new format and the old type and opaque data, and from
    then on any history of operations sees the map left by all the operations before. *)
Theorem C42_rebuild_reopened_partial : forall d cap ops d2 cap2 skip view0 rounds last (appending : bool) x x2 time cap3 mrs,
  hdb_ok d -> 1 <= cap -> hdb_ok d2 -> d_inplace d2 = true -> 1 <= cap2 -> 1 <= cap3 -> META_MIN_READ_SIZE <= mrs ->
  misc_ok x2 -> int64 time -> (Z.of_N (d_nb d2) <= MAX_NUM_BUCKETS)%Z ->
  let all := ops ++ rounds_ops rounds ++ last in
  ops_ok aempty all ->
  let s := fst (h_run d (h_init d cap) ops) in
  sees d (s_file s) view0 -> rounds_see d s rounds ->
  let s3 := fst (h_run (as_appending d) s (rounds_ops rounds ++ last)) in
  let d3 := if appending then as_appending d2 else d2 in
  fsize (s_file s3) <= capacity d ->
  fsize (s_file (fst (rebuild_first d d2 cap2 s skip view0))) <= capacity d2 ->
  exists t3, rebuild d d2 cap2 s skip view0 rounds last appending = Some (s3, d3, t3) /\
    (fsize (s_file t3) <= capacity d2 -> fsize (s_file t3) < 2 ^ 63 ->
     exists o, rebuild_reopen cap3 mrs x x2 time d3 t3 = Some o /\ op_healthy o = true /\ op_db o = with_mrs d3 mrs /\
       x_type (op_misc o) = x_type x /\ x_opaque (op_misc o) = x_opaque x /\
       holds (op_db o) (op_st o) (fst (map_run aempty all)) /\
       forall later, ops_ok (fst (map_run aempty all)) later ->
         let '(s4, out) := h_run (op_db o) (op_st o) later in
         fsize (s_file s4) <= capacity d2 ->
         out = map (fun r => (HOk, Some r)) (snd (map_run (fst (map_run aempty all)) later)) /\
         holds (op_db o) s4 (fst (map_run aempty (all ++ later)))).
Proof.
  intros d cap ops d2 cap2 skip view0 rounds last appending x x2 time cap3 mrs Hd Hcp Hd2 Hip2 Hcp2 Hcp3 Hmrs Hx2 Ht Hnb all Hops s Hsee0 Hsee s3 d3 Hcap Hfit.
  assert (Hall := Hops). unfold all in Hops. apply ops_ok_app in Hops. destruct Hops as [Hops1 Hops2].
  assert (G := h_run_grows (as_appending d) (rounds_ops rounds ++ last) s).
  destruct (h_layout d cap ops Hd Hcp Hops1 ltac:(fold s; fold s3 in G; lia)) as (L & B & Inv & Hok). fold s in Inv.
  destruct (rebuild_spec d d2 cap2 s skip view0 rounds last appending _ L B Hd Hd2 Hip2 Hcp2 Inv Hok Hsee0 Hsee Hops2 Hcap Hfit) as (t3 & R1 & R2).
  exists t3. split; [exact R1|]. intros Hc H63. specialize (R2 Hc).
  assert (Eall : fst (map_run aempty all) = fst (map_run (fst (map_run aempty ops)) (rounds_ops rounds ++ last))) by (unfold all; now rewrite map_run_app).
  fold d3 in R2. rewrite <- Eall in R2. destruct R2 as (mt & Hi & He).
  assert (Hd3 : hdb_ok d3) by (unfold d3; destruct appending; exact Hd2).
  assert (Ec : capacity d3 = capacity d2) by (unfold d3; destruct appending; reflexivity).
  assert (Hclose : close_ok d3 x2 t3 time).
  { apply close_ok_intro with (m := mt); auto; [unfold d3; destruct appending; exact Hnb|now rewrite Ec]. }
  destruct (reopen d3 x2 t3 mt time cap3 mrs _ Hd3 Hi Hclose Hcp3 (padded_refl _)) as (x' & s' & E & _ & I' & _ & _ & _ & _ & _ & _ & Sz).
  unfold rebuild_reopen. rewrite E. cbn [op_healthy op_db op_misc op_st]. eexists. split; [reflexivity|]. cbn [op_healthy op_db op_misc op_st x_type x_opaque].
  repeat (split; [reflexivity|]).
  assert (Hd4 : hdb_ok (with_mrs d3 mrs)) by (destruct Hd3 as (D1 & D2 & D3); repeat split; try apply D1; assumption).
  assert (Ec4 : capacity (with_mrs d3 mrs) = capacity d2) by exact Ec.
  split; [apply same_lookups_holds; [exact Hd4|exists mt; auto|rewrite Ec4, Sz; exact Hc]|].
  intros later Hl. destruct (h_run (with_mrs d3 mrs) s' later) as [s4 out] eqn:Er. intros Hc4.
  assert (Hl' := meq_ops_ok later _ mt (fun k => eq_sym (He k)) Hl).
  destruct (h_history (with_mrs d3 mrs) later s' mt Hd4 I' Hl' ltac:(rewrite Er, Ec4; exact Hc4)) as (A1 & A2 & _). rewrite Er in A1, A2. cbn [fst snd] in *.
  destruct (meq_run later _ _ He) as [M1 M2]. split; [now rewrite A1, M1|].
  apply same_lookups_holds; [exact Hd4| |rewrite Ec4; exact Hc4]. eexists. split; [exact A2|]. rewrite map_run_app. exact M2.
Qed.
Print Assumptions C42_rebuild_reopened_partial.

(** The case of HashRestoreProps.v, closed and reopened: the rebuilt database goes on in its file. *)
Example C42_reopened_ex :
  match rebuild (ex_db true) ex42_db2 4 ex42_s false ex42_view [(ex42_round, ex42_view)] [ex_set [110] [8]] true with
  | Some (_, d3, t) =>
      match rebuild_reopen 4 48 (mkmisc 7 1 0 1 9 [77]) (mkmisc 1 1 0 1 0 []) 5 d3 t with
      | Some o => op_healthy o = true /\ d_inplace (op_db o) = false /\ x_type (op_misc o) = 9 /\ s_num (op_st o) = 3%Z /\
          map (fun k => h_seen (h_get (op_db o) (op_st o) k)) [[97]; [98]; [110]] = [Some (Some [5]); Some None; Some (Some [8])]
      | None => False
      end
  | None => False
  end.
Proof. vm_compute. repeat split. Qed.
