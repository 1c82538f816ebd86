(** C07: the pool of free blocks. *)
From Verif Require Import Bytes CodecModel FileModel FbpModel FbpProofs.
Open Scope N_scope.

(** A fetched block is one of the pool, large enough, the smallest such one,
    and no longer in the pool; the other blocks stay. *)
Theorem C07_fetch_best_fit : forall p n b p', fbp_ok p -> fbp_fetch p n = Some (b, p') ->
  In b (fp_data p) /\ n <= fb_size b /\ ~ In b (fp_data p') /\
  (forall x, In x (fp_data p) <-> x = b \/ In x (fp_data p')) /\
  (forall x, In x (fp_data p) -> n <= fb_size x -> fb_size b <= fb_size x).
Proof. exact fbp_fetch_spec. Qed.
Print Assumptions C07_fetch_best_fit.

(** A fetch fails only if every block is too small. *)
Theorem C07_fetch_fails_only_if_none : forall p n, fbp_fetch p n = None ->
  forall x, In x (fp_data p) -> fb_size x < n.
Proof. exact fbp_fetch_none. Qed.
Print Assumptions C07_fetch_fails_only_if_none.

(** An insertion adds nothing else, and drops a block (the new one or an old
    one) only when the pool is full and the block is not larger than any kept. *)
Theorem C07_insert_drops_smallest : forall p b p', fbp_ok p -> fbp_insert p b = Some p' ->
  (forall x, In x (fp_data p') -> x = b \/ In x (fp_data p)) /\
  (forall x, (x = b \/ In x (fp_data p)) -> ~ In x (fp_data p') ->
     length (fp_data p) = N.to_nat (fp_cap p) /\ forall y, In y (fp_data p') -> fb_size x <= fb_size y).
Proof. exact fbp_insert_spec. Qed.
Print Assumptions C07_insert_drops_smallest.

(** Over any history from an empty pool, each block is handed out at most as
    often as it was inserted, the pool never exceeds its capacity and holds no
    block twice. *)
Theorem C07_never_handed_out_twice : forall cap ops q out x,
  frun (mkfbp cap []) ops = Some (q, out) ->
  (count_occ fb_dec out x <= count_occ fb_dec (inserted ops) x)%nat /\
  (length (fp_data q) <= N.to_nat (fp_cap q))%nat /\ NoDup (fp_data q).
Proof.
  intros cap ops q out x E.
  assert (H0 : fbp_ok (mkfbp cap [])) by (split; [constructor|cbn; lia]).
  destruct (frun_count ops (mkfbp cap []) q out x H0 E) as [H1 [H2 H3]].
  cbn [fp_data count_occ] in H1. repeat split; [lia|lia|exact (fbsorted_nodup _ H2)].
Qed.
Print Assumptions C07_never_handed_out_twice.

(** The operations are defined on every history of a pool of capacity at least
    one (which HashDBM's SetTuning guarantees); with capacity zero, which
    HashDBM::RebuildAdvanced and FreeBlockPool::SetCapacity accept, the first
    insertion is undefined. *)
Theorem C07_insert_defined : forall p b, fbp_ok p -> 1 <= fp_cap p -> exists p', fbp_insert p b = Some p'.
Proof. exact fbp_insert_defined. Qed.
Print Assumptions C07_insert_defined.
Theorem C07_zero_capacity_refuted : forall p b, fbp_ok p ->
  fbp_insert (fbp_set_capacity p 0) b = None.
Proof.
  intros p b _. unfold fbp_insert, fbp_set_capacity. cbn [fp_cap fp_data].
  rewrite Nat.sub_0_r, skipn_all. reflexivity.
Qed.
Print Assumptions C07_zero_capacity_refuted.

(** Saving to and loading from a section of [size] bytes gives the largest
    blocks that fit, in the same order. *)
Theorem C07_save_load : forall p q width apow size,
  fbp_ok p ->
  (forall b, In b (fp_data p) -> 1 <= fb_size b /\ fb_size b < 2 ^ 32 /\
     fb_off b mod 2 ^ apow = 0 /\ fb_off b < 256 ^ N.of_nat width * 2 ^ apow) ->
  let n := N.to_nat (size / (N.of_nat width + 4)) in
  (Nat.min n (length (fp_data p)) <= N.to_nat (fp_cap q))%nat ->
  fp_data (fbp_deserialize q width apow (fbp_serialize p width apow size))
  = skipn (length (fp_data p) - n) (fp_data p).
Proof.
  intros p q width apow size Hp Hb. exact (fbp_load_save p q width apow size Hp (proj2 (Forall_forall _ _) Hb)).
Qed.
Print Assumptions C07_save_load.

Definition c07_ops : list fop :=
  [FInsert (mkfb 32 4096); FInsert (mkfb 16 8192); FInsert (mkfb 64 512); FFetch 20; FFetch 20; FInsert (mkfb 32 4096); FFetch 20].
Example C07_ex : frun (mkfbp 2 []) c07_ops = Some (mkfbp 2 [], [mkfb 32 4096; mkfb 64 512; mkfb 32 4096]).
Proof. vm_compute. reflexivity. Qed.
Example C07_save_ex :
  fp_data (fbp_deserialize (mkfbp 8 []) 4 3 (fbp_serialize (mkfbp 8 [mkfb 16 8192; mkfb 32 4096; mkfb 64 512]) 4 3 20))
  = [mkfb 32 4096; mkfb 64 512].
Proof. vm_compute. reflexivity. Qed.
