(** C15, C16 and C42 for the nodes of a TreeDBM in its HashDBM file. *)
From Coq Require Import List NArith ZArith Bool Lia.
Import ListNotations.
From Verif Require Import Bytes MapSpec CodecModel CodecProofs FileModel HashUtilModel HashRecModel FbpModel HashDbModel HashDbLayout HashDbAppend HashDbProofs
  HashRestoreModel HashRestoreProofs HashMetaModel HashMetaProofs HashMetaProps HashRebuildModel HashRebuildProofs HashRebuildProps HashDbProps HashRestoreProps BtreeModel TreePageModel TreePageProps TreeReopen TreeFileModel TreeFileProofs.
Open Scope N_scope.

Lemma init_agree : agree aempty c_init. Proof. intros x _. reflexivity. Qed.
Lemma init_cinv : cinv c_init. Proof. intros x e E. discriminate. Qed.
Lemma run_init d cap : hdb_ok d -> 1 <= cap -> tracks d (capacity d) c_init (h_init d cap) aempty.
Proof. intros Hd Hc. split; [apply init_agree|]. split; [apply init_cinv|]. apply serves_inv; auto. now apply h_init_inv. Qed.

(** * C15 *)
(** Any history of node operations, with nodes leaving the cache at any time, on a tree whose pages are records of a hash database of any
    format: every node loaded is the node that was last written. *)
Theorem C15_pages_in_file : forall os l g, hrun os (fun _ => None) l g -> Forall cop_ok os ->
  forall d cap, hdb_ok d -> 1 <= cap -> fsize (s_file (fst (h_run d (h_init d cap) (run_calls os c_init)))) <= capacity d ->
  exists f, f_run d os (f_init d cap) = POk (l, f) /\ f_db f = fst (h_run d (h_init d cap) (run_calls os c_init)).
Proof.
  intros os l g R F d cap Hd Hc Hs. destruct (C15_evictions os l g R) as (s' & E & _).
  destruct (run_track d (capacity d) os c_init (h_init d cap) aempty l s' F (run_init d cap Hd Hc) E Hs) as (A & _). eexists. split; [exact A|reflexivity].
Qed.

(** * C42 *)
(** The nodes in memory after a history. *)
Definition nodes_after (os : list cop) : cstate := match c_run os c_init with POk (_, s) => s | _ => c_init end.

(** TreeDBM::Rebuild rebuilds the hash database while the tree goes on working.  Node operations [os1]; the rebuilding, to any format, with
    the operations [os2] going on; [os3] on the reopened file: in all of them the nodes are those last written, and the opaque data of the file
    (the metadata of the tree) are kept. *)
Theorem C42_tree_rebuild : forall os1 os2 os3 l g, hrun (os1 ++ os2 ++ os3) (fun _ => None) l g -> Forall cop_ok (os1 ++ os2 ++ os3) ->
  forall d cap d2 cap2 skip view0 rounds last (appending : bool) x x2 time cap3 mrs,
  hdb_ok d -> 1 <= cap -> hdb_ok d2 -> d_inplace d2 = true -> 1 <= cap2 -> 1 <= cap3 -> META_MIN_READ_SIZE <= mrs ->
  misc_ok x2 -> int64 time -> (Z.of_N (d_nb d2) <= MAX_NUM_BUCKETS)%Z ->
  let s := fst (h_run d (h_init d cap) (run_calls os1 c_init)) in
  rounds_ops rounds ++ last = run_calls os2 (nodes_after os1) ->
  sees d (s_file s) view0 -> rounds_see d s rounds ->
  let s3 := fst (h_run (as_appending d) s (run_calls os2 (nodes_after os1))) in
  let d3 := if appending then as_appending d2 else d2 in
  fsize (s_file s3) <= capacity d ->
  fsize (s_file (fst (rebuild_first d d2 cap2 s skip view0))) <= capacity d2 ->
  exists l1 l2 l3 f1 f2 t3, l = l1 ++ l2 ++ l3 /\
    f_run d os1 (f_init d cap) = POk (l1, f1) /\ f_run (as_appending d) os2 f1 = POk (l2, f2) /\
    rebuild d d2 cap2 (f_db f1) skip view0 rounds last appending = Some (f_db f2, d3, t3) /\
    (fsize (s_file t3) <= capacity d2 -> fsize (s_file t3) < 2 ^ 63 ->
     exists o, rebuild_reopen cap3 mrs x x2 time d3 t3 = Some o /\ op_healthy o = true /\ op_db o = with_mrs d3 mrs /\
       x_type (op_misc o) = x_type x /\ x_opaque (op_misc o) = x_opaque x /\
       (fsize (s_file (fst (h_run (op_db o) (op_st o) (run_calls os3 (nodes_after (os1 ++ os2)))))) <= capacity d2 ->
        exists f3, f_run (op_db o) os3 (mkF (f_cache f2) (op_st o)) = POk (l3, f3))).
Proof.
  intros os1 os2 os3 l g R F d cap d2 cap2 skip view0 rounds last appending x x2 time cap3 mrs Hd Hcp Hd2 Hip2 Hcp2 Hcp3 Hmrs Hx2 Ht Hnb s Hops Hsee0 Hsee s3 d3 Hcap Hfit.
  destruct (C15_evictions _ l g R) as (c3 & E & _).
  destruct (c_run_app os1 (os2 ++ os3) c_init l c3 E) as (l1 & c1 & lr & E1 & Er & -> & _).
  destruct (c_run_app os2 os3 c1 lr c3 Er) as (l2 & c2 & l3 & E2 & E3 & -> & _).
  assert (N1 : nodes_after os1 = c1) by (unfold nodes_after; now rewrite E1).
  assert (N2 : nodes_after (os1 ++ os2) = c2).
  { unfold nodes_after. assert (X : c_run (os1 ++ os2) c_init = POk (l1 ++ l2, c2)); [|now rewrite X]. clear - E1 E2. revert l1 E1. generalize c_init.
    induction os1 as [|o os IH]; intros c0 l1 E1; cbn [app c_run] in *; [now injection E1 as <- <-|]. destruct (c_step o c0) as [[a s']| |]; try discriminate. cbn [pbind] in *.
    destruct (c_run os s') as [[l' s'']| |] eqn:Es; try discriminate. cbn [pbind] in E1. injection E1 as <- <-. now rewrite (IH s' l' Es). }
  apply Forall_app in F. destruct F as [F1 F]. apply Forall_app in F. destruct F as [F2 F3].
  subst c1. rewrite N2. set (c1 := nodes_after os1) in *.
  assert (G1 := h_run_grows (as_appending d) (run_calls os2 c1) s).
  destruct (run_track d (capacity d) os1 c_init (h_init d cap) aempty l1 c1 F1 (run_init d cap Hd Hcp) E1) as (A1 & A2 & (A3 & A4 & A5)); [fold s3 in G1; unfold after; fold s; lia|].
  unfold after in A1, A3, A5. fold s in A1, A5. set (m1 := fst (map_run aempty (run_calls os1 c_init))) in *.
  destruct (h_layout d cap _ Hd Hcp A2 ltac:(fold s; fold s3 in G1; lia)) as (L & B & Inv & Hok). fold s in Inv.
  assert (Hda : hdb_ok (as_appending d)) by exact Hd.
  assert (Inv' : h_inv (as_appending d) s m1). { unfold h_inv. cbn [as_appending d_inplace]. exists L, B. destruct Inv; constructor; assumption. }
  assert (T2 : tracks (as_appending d) (capacity d) c1 s m1) by (split; [exact A3|]; split; [exact A4|]; apply (serves_inv (as_appending d) s m1 Hda Inv')).
  destruct (run_track (as_appending d) (capacity d) os2 c1 s m1 l2 c2 F2 T2 E2 Hcap) as (B1 & B2 & (B3 & B4 & B5)). unfold after in B1, B3, B5. fold s3 in B1, B5.
  assert (All : ops_ok aempty (run_calls os1 c_init ++ rounds_ops rounds ++ last)) by (rewrite Hops; apply ops_ok_app; auto).
  assert (S3 : s3 = fst (h_run (as_appending d) s (rounds_ops rounds ++ last))) by (now rewrite Hops).
  destruct (C42_rebuild_reopened_partial d cap (run_calls os1 c_init) d2 cap2 skip view0 rounds last appending x x2 time cap3 mrs
     Hd Hcp Hd2 Hip2 Hcp2 Hcp3 Hmrs Hx2 Ht Hnb All Hsee0 Hsee ltac:(fold s; rewrite <- S3; exact Hcap) Hfit) as (t3 & R1 & R2).
  fold s d3 in R1. rewrite <- S3 in R1.
  exists l1, l2, l3, (fof c1 s), (fof c2 s3), t3. split; [reflexivity|]. split; [exact A1|]. split; [exact B1|]. split; [exact R1|].
  intros Q1 Q2. destruct (R2 Q1 Q2) as (o & O1 & O2 & O3 & O4 & O5 & _ & O6). exists o. repeat (split; [assumption|]). intros Q3.
  set (m2 := fst (map_run m1 (run_calls os2 c1))) in *.
  assert (M2 : fst (map_run aempty (run_calls os1 c_init ++ rounds_ops rounds ++ last)) = m2) by (rewrite Hops, map_run_app; reflexivity).
  rewrite M2 in O6.
  assert (T3 : tracks (op_db o) (capacity d2) c2 (op_st o) m2).
  { split; [exact B3|]. split; [exact B4|]. intros later Hl Hf. specialize (O6 later Hl). destruct (h_run (op_db o) (op_st o) later) as [s4 out]. cbn [fst snd] in *. apply (O6 Hf). }
  destruct (run_track (op_db o) (capacity d2) os3 c2 (op_st o) m2 l3 c3 F3 T3 E3 Q3) as (C1 & _). eexists. exact C1.
Qed.

(** The tree is the same after rebuilding: if the nodes of the tree [s] were the pages when the file was put in place (the history [os1 ++ os2])
    and its metadata [m] had been saved, then reading the metadata of the rebuilt file and any node of it, through the cache as it
    was left (which is empty if everything had been flushed), gives the tree [s] as it is reopened (TreeReopen.v). *)
Theorem C42_tree_contents : forall os1 os2 l g, hrun (os1 ++ os2) (fun _ => None) l g -> Forall cop_ok (os1 ++ os2) ->
  forall d cap d2 cap2 skip view0 rounds last (appending : bool) x x2 time cap3 mrs,
  hdb_ok d -> 1 <= cap -> hdb_ok d2 -> d_inplace d2 = true -> 1 <= cap2 -> 1 <= cap3 -> META_MIN_READ_SIZE <= mrs ->
  misc_ok x2 -> int64 time -> (Z.of_N (d_nb d2) <= MAX_NUM_BUCKETS)%Z ->
  let s := fst (h_run d (h_init d cap) (run_calls os1 c_init)) in
  rounds_ops rounds ++ last = run_calls os2 (nodes_after os1) ->
  sees d (s_file s) view0 -> rounds_see d s rounds ->
  let s3 := fst (h_run (as_appending d) s (run_calls os2 (nodes_after os1))) in
  let d3 := if appending then as_appending d2 else d2 in
  fsize (s_file s3) <= capacity d ->
  fsize (s_file (fst (rebuild_first d d2 cap2 s skip view0))) <= capacity d2 ->
  forall pid mp mb tree m given, image pid mp mb tree m g -> x_opaque x = save_meta m -> meta_ok m -> 1 <= t_leaves m -> 1 <= mp -> (2 <= mb)%nat -> (1 <= b_level tree)%nat ->
  (comp_known (t_comp m) = true \/ t_comp m = 255 /\ given = true) ->
  exists l1 l2 f1 f2 t3, l = l1 ++ l2 /\
    f_run d os1 (f_init d cap) = POk (l1, f1) /\ f_run (as_appending d) os2 f1 = POk (l2, f2) /\
    rebuild d d2 cap2 (f_db f1) skip view0 rounds last appending = Some (f_db f2, d3, t3) /\
    (fsize (s_file t3) <= capacity d2 -> fsize (s_file t3) < 2 ^ 63 ->
     exists o m', rebuild_reopen cap3 mrs x x2 time d3 t3 = Some o /\ op_healthy o = true /\
       load_meta given (x_opaque (op_misc o)) = POk m' /\ image pid mp mb (reopened tree) m' g /\
       forall y n, b_h tree y = Some n -> pid y < 2^48 -> fsize (s_file (op_st o)) <= capacity d2 ->
         exists f3, f_load (op_db o) (pid y) (mkF (f_cache f2) (op_st o)) = POk (page_of pid n, f3)).
Proof.
  intros os1 os2 l g R F d cap d2 cap2 skip view0 rounds last appending x x2 time cap3 mrs Hd Hcp Hd2 Hip2 Hcp2 Hcp3 Hmrs Hx2 Ht Hnb s Hops Hsee0 Hsee s3 d3 Hcap Hfit
    pid mp mb tree m given Im Hx Mo L1 L2 L3 L4 K.
  assert (G : forall os3 a, hrun (os1 ++ os2 ++ os3) (fun _ => None) (l ++ a) g -> Forall cop_ok os3 ->
     exists l1 l2 l3 f1 f2 t3, l ++ a = l1 ++ l2 ++ l3 /\ f_run d os1 (f_init d cap) = POk (l1, f1) /\ f_run (as_appending d) os2 f1 = POk (l2, f2) /\
      rebuild d d2 cap2 (f_db f1) skip view0 rounds last appending = Some (f_db f2, d3, t3) /\
      (fsize (s_file t3) <= capacity d2 -> fsize (s_file t3) < 2 ^ 63 ->
       exists o, rebuild_reopen cap3 mrs x x2 time d3 t3 = Some o /\ op_healthy o = true /\ op_db o = with_mrs d3 mrs /\ x_type (op_misc o) = x_type x /\ x_opaque (op_misc o) = x_opaque x /\
       (fsize (s_file (fst (h_run (op_db o) (op_st o) (run_calls os3 (nodes_after (os1 ++ os2)))))) <= capacity d2 -> exists f3, f_run (op_db o) os3 (mkF (f_cache f2) (op_st o)) = POk (l3, f3)))).
  { intros os3 a R3 F3. apply (C42_tree_rebuild os1 os2 os3 (l ++ a) g R3); auto. rewrite app_assoc. apply Forall_app. auto. }
  assert (LEN : forall os h f0 l0 f', f_run h os f0 = POk (l0, f') -> length l0 = length os).
  { induction os as [|o os IH]; intros h f0 l0 f' E; cbn [f_run] in E; [now injection E as <- <-|]. destruct (f_step h o f0) as [[a s']| |]; try discriminate. cbn [pbind] in E.
    destruct (f_run h os s') as [[l' s'']| |] eqn:Es; try discriminate. cbn [pbind] in E. injection E as <- <-. cbn [length]. now rewrite (IH _ _ _ _ Es). }
  assert (LH : forall os g0 l0 g1, hrun os g0 l0 g1 -> length l0 = length os) by (induction 1; cbn [length]; congruence).
  assert (SN : forall os g0 l0 g1 o a g2, hrun os g0 l0 g1 -> hstep o g1 a g2 -> hrun (os ++ [o]) g0 (l0 ++ [a]) g2).
  { intros os g0 l0 g1 o a g2 H St. revert St. induction H as [g0|o' os' g0 a' g' l' g'' H1 H2 IH]; intros St; cbn [app].
    - eapply hr_cons; [exact St|]. apply hr_nil.
    - eapply hr_cons; [exact H1|]. apply IH, St. }
  destruct (G [] [] ltac:(now rewrite !app_nil_r) (Forall_nil _)) as (l1 & l2 & l3 & f1 & f2 & t3 & El & A1 & A2 & A3 & A4).
  assert (Z : l3 = []).
  { apply (f_equal (@length _)) in El. rewrite !app_length in El. cbn [length] in El. rewrite (LEN _ _ _ _ _ A1), (LEN _ _ _ _ _ A2), (LH _ _ _ _ R), app_length in El. destruct l3; [reflexivity|]. cbn [length] in El. lia. }
  subst l3. rewrite !app_nil_r in El. exists l1, l2, f1, f2, t3. split; [exact El|]. split; [exact A1|]. split; [exact A2|]. split; [exact A3|].
  intros Q1 Q2. destruct (A4 Q1 Q2) as (o & O1 & O2 & O3 & _ & O5 & _).
  destruct (C16_reopen_image pid mp mb tree m g given Im Mo L1 L2 L3 L4 K) as (m' & M1 & M2).
  exists o, m'. split; [exact O1|]. split; [exact O2|]. split; [now rewrite O5, Hx|]. split; [exact M2|].
  intros y n Hy Hp Hc. destruct Im as (_ & _ & _ & _ & _ & _ & _ & Im). assert (Gy := Im y n Hy).
  assert (R3 := SN _ _ _ _ (CLoad (pid y)) (Some (page_of pid n)) g R (hs_load _ _ _ Gy)). rewrite <- app_assoc in R3.
  destruct (G [CLoad (pid y)] [Some (page_of pid n)] R3 ltac:(repeat constructor; exact Hp)) as (k1 & k2 & k3 & g1 & g2 & u3 & Ek & B1 & B2 & B3 & B4).
  rewrite A1 in B1. injection B1 as <- <-. rewrite A2 in B2. injection B2 as <- <-. rewrite A3 in B3. injection B3 as <-.
  destruct (B4 Q1 Q2) as (o' & P1 & _ & _ & _ & _ & P6). rewrite O1 in P1. injection P1 as <-.
  assert (U : forall cs, fst (h_run (op_db o) (op_st o) (run_calls [CLoad (pid y)] cs)) = op_st o).
  { intros cs. cbn [run_calls step_calls]. unfold load_calls. destruct (c_cache cs (pid y)).
    - cbn [app]. destruct (c_step _ _) as [[? ?]| |]; reflexivity.
    - assert (W : forall tl, tl = [] -> fst (h_run (op_db o) (op_st o) ([load_hop (pid y)] ++ tl)) = op_st o) by (intros tl ->; cbn [app]; rewrite h_run_cons; cbn [h_run fst]; apply h_get_unchanged).
      apply W. destruct (c_step _ _) as [[? ?]| |]; reflexivity. }
  destruct P6 as (f3 & P6); [rewrite U; exact Hc|].
  rewrite El, <- app_assoc in Ek. apply app_inv_head in Ek. apply app_inv_head in Ek. subst k3.
  cbn [f_run f_step] in P6. destruct (f_load (op_db o) (pid y) (mkF (f_cache f2) (op_st o))) as [[n1 f4]| |]; try discriminate. cbn [pbind] in P6. injection P6 as <- <-. eauto.
Qed.

(** * A case *)
(** A tree of two leaves under an inner node, written, flushed in part; while the file is rebuilt to another format a record is added and its
    leaf leaves the cache, and a leaf is removed; afterwards the nodes are read. *)
Definition tf_os1 : list cop :=
  [CNew 1 (PLeaf 0 0 []); CWrite 1 (PLeaf 0 2 [([97], [1; 2])]); CNew 2 (PLeaf 1 0 [([98], [])]); CNew 3 (PLeaf 2 0 []); CNew inner_base (PInner 1 [([98], 2)]);
   CEvict 2; CEvict 3; CSave 1; CEvict inner_base; CLoad inner_base].
Definition tf_os2 : list cop := [CWrite 2 (PLeaf 1 0 [([98], [7; 7; 7])]); CEvict 2; CRemove 3; CLoad 2].
Definition tf_os3 : list cop := [CEvict 1; CEvict inner_base; CLoad inner_base; CLoad 1; CLoad 2].
Definition tf_l : list (option pnode) :=
  repeat None 9 ++ [Some (PInner 1 [([98], 2)])] ++ [None; None; None; Some (PLeaf 1 0 [([98], [7; 7; 7])])] ++
  [None; None; Some (PInner 1 [([98], 2)]); Some (PLeaf 0 2 [([97], [1; 2])]); Some (PLeaf 1 0 [([98], [7; 7; 7])])].
Definition tf_g : heap := upd (upd (upd (upd (upd (upd (upd (fun _ => None) 1 (Some (PLeaf 0 0 []))) 1 (Some (PLeaf 0 2 [([97], [1; 2])]))) 2 (Some (PLeaf 1 0 [([98], [])]))) 3 (Some (PLeaf 2 0 [])))
  inner_base (Some (PInner 1 [([98], 2)]))) 2 (Some (PLeaf 1 0 [([98], [7; 7; 7])]))) 3 None.
Example C42_tree_hyps : hrun (tf_os1 ++ tf_os2 ++ tf_os3) (fun _ => None) tf_l tf_g /\ Forall cop_ok (tf_os1 ++ tf_os2 ++ tf_os3).
Proof.
  split.
  - unfold tf_os1, tf_os2, tf_os3, tf_l, tf_g. cbn [app repeat].
    repeat (eapply hr_cons; [first [eapply hs_load; reflexivity|apply hs_save|apply hs_evict|apply hs_new; [reflexivity|unfold fits, inner_base; repeat split; try reflexivity; repeat constructor]|apply hs_write; [discriminate|unfold fits; repeat split; try reflexivity]|apply hs_remove; discriminate]|]).
    apply hr_nil.
  - unfold tf_os1, tf_os2, tf_os3. cbn [app].
    repeat (apply Forall_cons; [unfold cop_ok, page_fits, inner_base; cbn [fst snd]; repeat (first [split|apply Forall_cons|apply Forall_nil|apply bytes_ok_nil|lia|reflexivity|(vm_compute; congruence)])|]). apply Forall_nil.
Qed.
Example C42_tree_ex :
  let d := ex_db true in
  match f_run d tf_os1 (f_init d 4) with
  | POk (l1, f1) =>
      match f_run (as_appending d) tf_os2 f1 with
      | POk (l2, f2) =>
          match rebuild d ex42_db2 4 (f_db f1) false (s_file (f_db f2)) [] (run_calls tf_os2 (nodes_after tf_os1)) false with
          | Some (s3, d3, t3) =>
              fsize (s_file t3) <= capacity ex42_db2 /\
              match rebuild_reopen 4 48 (mkmisc 7 1 0 1 9 [77]) (mkmisc 1 1 0 1 0 []) 5 d3 t3 with
              | Some o => match f_run (op_db o) tf_os3 (mkF (f_cache f2) (op_st o)) with POk (l3, _) => l1 ++ l2 ++ l3 = tf_l /\ x_opaque (op_misc o) = [77] | _ => False end
              | None => False
              end
          | None => False
          end
      | _ => False
      end
  | _ => False
  end.
Proof. vm_compute. repeat split; congruence. Qed.
(** A tree of one leaf is the image of such pages. *)
Example C42_tree_image : exists m, image (fun y => N.of_nat y + 1) 8130 256 (mkB (fun y => match y with O => Some (Leaf None None [([97], [1; 2])]) | _ => None end) 1%nat 1%nat 0%nat 0%nat 0%nat [] 1%Z (fun _ => None)) m (upd (fun _ => None) 1 (Some (PLeaf 0 0 [([97], [1; 2])]))) /\ meta_ok m /\ 1 <= t_leaves m.
Proof.
  exists (mkTM 1 3 1 1 1 1 0 8130 256 1 1 (repeat 0 10)). split; [|split; [|cbn; lia]].
  - unfold image; cbn. repeat split. intros [|y] n E; [|discriminate]. injection E as <-. reflexivity.
  - unfold meta_ok; cbn. repeat split; lia.
Qed.
Print Assumptions C15_pages_in_file.
Print Assumptions C42_tree_rebuild.
Print Assumptions C42_tree_contents.
