(** Rebuilding keeps the contents. *)
From Verif Require Import Bytes MapSpec CodecModel CodecProofs FileModel HashUtilModel HashUtilProofs HashRecModel
  HashRecProofs FbpModel FbpProofs HashDbModel HashDbLayout HashDbAppend HashDbInPlace HashDbProofs HashRestoreModel HashRestoreProofs
  HashRebuildModel.
Open Scope N_scope.

(** [view] holds at least the records of the file [f]. *)
Definition sees (d : hdb) (f view : file) : Prop :=
  fsize f <= fsize view /\ forall p, record_base d <= p -> p < fsize f -> fdata view p = fdata f p.
Lemma sees_refl d f : sees d f f. Proof. split; [lia|auto]. Qed.

Lemma sees_segment d f view Lb L mid : recs d f (Lb ++ L) -> contig (record_base d) Lb mid -> sees d f view ->
  segment (d_c d) view mid L (fsize f).
Proof.
  intros (Hcon & _ & Hr) Hb (H1 & H2). destruct (contig_app _ _ _ _ Hcon) as (mid' & C1 & C2).
  rewrite (contig_fun _ _ _ _ C1 Hb) in C2. split; [exact C2|]. split; [|exact H1].
  intros o r Hi. assert (El := in_lget _ _ _ _ _ Hcon (in_or_app Lb L (o, r) (or_intror Hi))).
  destruct (Hr o r El) as ((A1 & A2) & A3 & _). split; [|exact A3].
  destruct (contig_range _ _ _ _ _ Hcon El) as (B1 & B2 & _).
  split; [|lia]. rewrite <- A1. apply dread_ext. intros i Hi1 Hi2. apply H2; lia.
Qed.

Lemma import_forward_grows d s c f skip base e : fsize (s_file s) <= fsize (s_file (fst (import_forward d s c f skip base e))).
Proof.
  unfold import_forward. destruct (replay _ _ _ _ _ _ _) as [l en]. cbn [fst]. rewrite apply_ops_run. apply h_run_grows.
Qed.

Definition both_ok (d : hdb) (s : hst) (m : amap) : Prop := exists L B, ap_inv d s L B m /\ layout_ok L.

(** One catching-up import. *)
Lemma catch_up d d2 s t m ops view :
  hdb_ok d -> hdb_ok d2 -> ops_ok m ops ->
  forall L B, ap_inv d s L B m -> layout_ok L ->
  let s1 := fst (h_run (as_appending d) s ops) in
  fsize (s_file s1) <= capacity d -> sees d (s_file s1) view ->
  let res := import_forward d2 t (d_c d) view false (fsize (s_file s)) (Some (fsize (s_file s1))) in
  snd res = ScanOk /\
  exists L' B', ap_inv d s1 L' B' (fst (map_run m ops)) /\ layout_ok L' /\
    (fsize (s_file (fst res)) <= capacity d2 -> same_lookups d2 t (layout_map L) -> same_lookups d2 (fst res) (layout_map L')).
Proof.
  intros Hd Hd2 Hops L B Inv Hok s1 Hcap Hsee res. subst res.
  assert (Inv' : ap_inv (as_appending d) s L B m) by (destruct Inv; constructor; assumption).
  destruct (ap_trace (as_appending d) s L B m Hd eq_refl Inv' Hok ops Hops Hcap) as (Ls & E0 & H1 & H2).
  destruct (H1 (length ops) (le_n _)) as (Hok1 & B1 & Inv1). rewrite firstn_all in Inv1. fold s1 in Inv1.
  destruct (trace_mono Ls (length ops) 0 H2 ltac:(lia)) as (ext & EL). rewrite E0 in EL. rewrite EL in *.
  assert (Inv1' : ap_inv d s1 (L ++ ext) B1 (fst (map_run m ops))) by (destruct Inv1; constructor; assumption).
  assert (Hseg := sees_segment d (s_file s1) view L ext (fsize (s_file s)) (ap_recs _ _ _ _ _ Inv1')
    (proj1 (ap_recs _ _ _ _ _ Inv)) Hsee).
  assert (Hoke : layout_ok ext) by (intros o r H; apply (Hok1 o), in_or_app; right; exact H).
  assert (Elim : scan_limit view (Some (fsize (s_file s1))) = fsize (s_file s1)) by (cbn; destruct Hsee; lia).
  split.
  - unfold import_forward. rewrite Elim, (replay_segment (d_c d) view (d_mrs d2) false _ ext _ ltac:(apply Hd) ltac:(apply Hd2) Hseg). reflexivity.
  - exists (L ++ ext), B1. split; [exact Inv1'|]. split; [exact Hok1|]. intros Hcap2 (mt & Ht & Em).
    apply (import_forward_segment d2 t mt (d_c d) view false (fsize (s_file s)) (Some (fsize (s_file s1))) L ext (fsize (s_file s1))
      Hd2 Ht Em ltac:(apply Hd) Hseg Hoke Elim Hcap2).
Qed.

Definition rounds_ops (rounds : list (list hop * file)) : list hop := concat (map fst rounds).

(** Each import of the loop reads a file holding the records it needs. *)
Fixpoint rounds_see (d : hdb) (s : hst) (rounds : list (list hop * file)) : Prop :=
  match rounds with
  | [] => True
  | (ops, view) :: rounds' =>
      let s1 := fst (h_run (as_appending d) s ops) in
      sees d (s_file s1) view /\ rounds_see d s1 rounds'
  end.

Lemma h_run_app d s o1 o2 : fst (h_run d s (o1 ++ o2)) = fst (h_run d (fst (h_run d s o1)) o2).
Proof.
  revert s; induction o1 as [|o o1 IH]; intros s; [reflexivity|]. cbn [app h_run].
  specialize (IH (h_st (h_process d s (o_key o) (o_proc o) (o_readable o) (o_writable o)))).
  destruct (h_run d _ (o1 ++ o2)). destruct (h_run d _ o1). cbn [fst] in *. exact IH.
Qed.

Lemma rounds_spec d d2 rounds : hdb_ok d -> hdb_ok d2 ->
  forall s t m L B, ap_inv d s L B m -> layout_ok L ->
  ops_ok m (rounds_ops rounds) -> rounds_see d s rounds ->
  fsize (s_file (fst (h_run (as_appending d) s (rounds_ops rounds)))) <= capacity d ->
  exists s' t', rebuild_rounds d d2 s t (fsize (s_file s)) rounds = Some (s', t', fsize (s_file s')) /\
    s' = fst (h_run (as_appending d) s (rounds_ops rounds)) /\ fsize (s_file t) <= fsize (s_file t') /\
    exists L' B', ap_inv d s' L' B' (fst (map_run m (rounds_ops rounds))) /\ layout_ok L' /\
     (fsize (s_file t') <= capacity d2 -> same_lookups d2 t (layout_map L) -> same_lookups d2 t' (layout_map L')).
Proof.
  intros Hd Hd2. induction rounds as [|[ops view] rounds IH]; intros s t m L B Inv Hok Hops Hsee Hcap; cbn [rebuild_rounds rounds_see] in *.
  - exists s, t. split; [reflexivity|]. split; [reflexivity|]. split; [lia|]. exists L, B. auto.
  - unfold rounds_ops in *. cbn [map fst concat] in *. rewrite h_run_app in *. apply ops_ok_app in Hops. destruct Hops as [Hops1 Hops2].
    destruct Hsee as [Hsee1 Hsee2]. set (s1 := fst (h_run (as_appending d) s ops)) in *.
    assert (G := h_run_grows (as_appending d) (concat (map fst rounds)) s1).
    destruct (catch_up d d2 s t m ops view Hd Hd2 Hops1 L B Inv Hok ltac:(fold s1; lia) Hsee1) as (C1 & L1 & B1 & C2 & C3 & C4). fold s1 in C1, C2, C4.
    assert (G2 := import_forward_grows d2 t (d_c d) view false (fsize (s_file s)) (Some (fsize (s_file s1)))).
    destruct (import_forward d2 t (d_c d) view false (fsize (s_file s)) (Some (fsize (s_file s1)))) as [t1 e1] eqn:Eimp. cbn [fst snd] in *. subst e1.
    destruct (IH s1 t1 _ L1 B1 C2 C3 Hops2 Hsee2 Hcap) as (s' & t' & R1 & R2 & R3 & L' & B' & R4 & R5 & R6).
    exists s', t'. split; [exact R1|]. split; [exact R2|]. split; [lia|]. exists L', B'. rewrite map_run_app. cbn [fst].
    split; [exact R4|]. split; [exact R5|]. intros Hc Hs. apply R6; [exact Hc|]. apply C4; [lia|exact Hs].
Qed.

Lemma rebuild_spec d d2 cap s skip view0 rounds last (appending : bool) m L B :
  hdb_ok d -> hdb_ok d2 -> d_inplace d2 = true -> 1 <= cap -> ap_inv d s L B m -> layout_ok L ->
  sees d (s_file s) view0 -> rounds_see d s rounds -> ops_ok m (rounds_ops rounds ++ last) ->
  let s3 := fst (h_run (as_appending d) s (rounds_ops rounds ++ last)) in
  let d3 := if appending then as_appending d2 else d2 in
  fsize (s_file s3) <= capacity d ->
  fsize (s_file (fst (rebuild_first d d2 cap s skip view0))) <= capacity d2 ->
  exists t3, rebuild d d2 cap s skip view0 rounds last appending = Some (s3, d3, t3) /\
    (fsize (s_file t3) <= capacity d2 -> same_lookups d3 t3 (fst (map_run m (rounds_ops rounds ++ last)))).
Proof.
  intros Hd Hd2 Hip2 Hcp Inv Hok Hsee0 Hsee Hops s3 d3 Hcap Hfit.
  unfold s3 in *. rewrite h_run_app in *. set (s2 := fst (h_run (as_appending d) s (rounds_ops rounds))) in *.
  apply ops_ok_app in Hops. destruct Hops as [Hops1 Hops2].
  assert (G := h_run_grows (as_appending d) last s2).
  assert (Hseg := sees_segment d (s_file s) view0 [] L (record_base d) (ap_recs _ _ _ _ _ Inv) eq_refl Hsee0).
  assert (Elim : scan_limit view0 (Some (fsize (s_file s))) = fsize (s_file s)) by (cbn; destruct Hsee0; lia).
  assert (First : snd (rebuild_first d d2 cap s skip view0) = ScanOk /\ same_lookups d2 (fst (rebuild_first d d2 cap s skip view0)) (layout_map L)).
  { unfold rebuild_first in *. destruct (d_inplace d).
    - exact (import_forward_segment d2 (h_init d2 cap) aempty (d_c d) view0 skip (record_base d) (Some (fsize (s_file s))) [] L (fsize (s_file s))
        Hd2 (h_init_inv d2 cap Hd2 Hcp) (fun k => eq_refl) ltac:(apply Hd) Hseg Hok Elim Hfit).
    - exact (import_backward_segment d2 cap (d_c d) view0 skip (record_base d) (Some (fsize (s_file s))) L (fsize (s_file s))
        Hd2 Hcp ltac:(apply Hd) Hseg Hok Elim Hfit). }
  unfold rebuild. destruct (rebuild_first d d2 cap s skip view0) as [t1 e1]. cbn [fst snd] in *. destruct First as [-> Ht1].
  destruct (rounds_spec d d2 rounds Hd Hd2 s t1 m L B Inv Hok Hops1 Hsee ltac:(fold s2; lia)) as (s' & t2 & R1 & R2 & R3 & L2 & B2 & R4 & R5 & R6).
  rewrite R1. fold s2 in R2. subst s'.
  assert (SW : forall t, same_lookups d2 t (fst (map_run m (rounds_ops rounds ++ last))) -> same_lookups d3 t (fst (map_run m (rounds_ops rounds ++ last)))).
  { intros t (mt & Hi & He). exists mt. split; [|exact He]. unfold d3. destruct appending; [|exact Hi]. apply h_inv_switch; assumption. }
  rewrite map_run_app in *. cbn [fst] in *.
  set (s3' := fst (h_run (as_appending d) s2 last)) in *.
  destruct (catch_up d d2 s2 t2 _ last (s_file s3') Hd Hd2 Hops2 L2 B2 R4 R5 Hcap (sees_refl _ _)) as (C1 & L3 & B3 & C2 & C3 & C4). fold s3' in C1, C2, C4.
  assert (G2 := import_forward_grows d2 t2 (d_c d) (s_file s3') false (fsize (s_file s2)) (Some (fsize (s_file s3')))).
  assert (Tr : forall t, same_lookups d2 t (layout_map L3) -> same_lookups d2 t (fst (map_run (fst (map_run m (rounds_ops rounds))) last))).
  { intros t (mt & Hi & He). exists mt. split; [exact Hi|]. intros k. rewrite He. symmetry. apply (ap_map _ _ _ _ _ C2). }
  destruct (N.ltb_spec (fsize (s_file s2)) (fsize (s_file s3'))) as [Hlt|Hge].
  - destruct (import_forward d2 t2 (d_c d) (s_file s3') false (fsize (s_file s2)) (Some (fsize (s_file s3')))) as [t3 e3] eqn:Eimp. cbn [fst snd] in *. subst e3.
    exists t3. split; [reflexivity|]. intros Hc. apply SW, Tr, C4; [exact Hc|]. apply R6; [lia|exact Ht1].
  - exists t2. split; [reflexivity|]. intros Hc. apply SW, Tr.
    (* nothing was appended: the last import would add nothing *)
    assert (Heq : fsize (s_file s3') = fsize (s_file s2)) by lia.
    assert (Enone : fst (import_forward d2 t2 (d_c d) (s_file s3') false (fsize (s_file s2)) (Some (fsize (s_file s3')))) = t2).
    { unfold import_forward. cbn [scan_limit]. rewrite Heq, N.min_id, scan_done_replay. reflexivity. }
    rewrite Enone in C4. apply C4; [exact Hc|]. apply R6; [exact Hc|exact Ht1].
Qed.
