(** The positional files: the store behind the head buffer (the file, with or without a page cache) is a view. *)
From Coq Require Import List NArith Bool Arith Lia.
Import ListNotations.
From Verif Require Import Bytes StatusModel PcacheModel PcacheProofs PcachePages FioSpec FioModel FioProofs.
Local Open Scope nat_scope.

Lemma align_mono b x y : 0 < b -> x <= y -> y mod b = 0 -> align b x <= y.
Proof.
  intros Hb H M. destruct (align_lt b x Hb) as [L M']. destruct (Nat.le_gt_cases (align b x) y) as [|G]; auto. exfalso.
  apply Nat.mod_divides in M as [a Ha]; [|lia]. apply Nat.mod_divides in M' as [c Hc]; [|lia].
  assert (a < c) by nia. assert (c <= a); [|lia]. assert (b * c < b * a + b) by lia. nia.
Qed.
Lemma align_multiple b m x : 0 < m -> m mod b = 0 -> 0 < b -> align m x mod b = 0.
Proof.
  intros Hm M Hb. destruct (align_lt m x Hm) as [_ A]. apply Nat.mod_divides in A as [a ->]; [|lia]. apply Nat.mod_divides in M as [c ->]; [|lia].
  replace (b * c * a) with (c * a * b) by lia. apply Nat.mod_mul. lia.
Qed.
Lemma firstn_range V off n m : m <= n -> firstn m (range V off n) = range V off m.
Proof. intros H. replace n with (m + (n - m)) by lia. rewrite range_app, firstn_app, range_length, Nat.sub_diag, firstn_O, app_nil_r. apply firstn_all2. rewrite range_length. lia. Qed.
Lemma skipn_range V off n m : m <= n -> skipn m (range V off n) = range V (off + m) (n - m).
Proof.
  intros H. replace n with (m + (n - m)) at 1 by lia. rewrite range_app, skipn_app, range_length, Nat.sub_diag. cbn.
  rewrite skipn_all2 by (rewrite range_length; lia). reflexivity.
Qed.
Lemma pread_range f off n : off + n <= length f -> pread f off n = Some (range (fbyte f) off n).
Proof. intros H. destruct (pread_ok f off n H) as [b E]. rewrite E. f_equal. now apply pread_some in E. Qed.
Lemma pread_into_range f off n : off + n <= length f -> pread_into f off n = map Some (range (fbyte f) off n).
Proof.
  intros H. unfold pread_into. assert (E : firstn n (skipn off f) = range (fbyte f) off n).
  { pose proof (pread_range f off n H) as E. unfold pread in E. rewrite (proj2 (Nat.leb_le _ _) H), orb_true_r in E. congruence. }
  rewrite E, range_length, Nat.sub_diag. cbn. apply app_nil_r.
Qed.
Lemma range_written_in V off d : range (written V off d) off (length d) = d.
Proof.
  symmetry. apply is_range; auto. intros j Hj. pose proof (written_in V off d (off + j) ltac:(lia)) as E.
  replace (off + j - off) with j in E by lia. exact E.
Qed.
Lemma range_nth_d V off n j : j < n -> nth j (range V off n) 0%N = V (off + j).
Proof. intros H. apply nth_error_nth. now apply range_nth. Qed.
(** Writing a view over itself changes nothing. *)
Lemma pwrite_self f off la d lb : la <= off -> forall x,
  fbyte (pwrite f (off - la) (range (fbyte f) (off - la) la ++ d ++ range (fbyte f) (off + length d) lb)) x = written (fbyte f) off d x.
Proof.
  intros Ha x. rewrite pwrite_spec. unfold written at 1. rewrite !app_length, !range_length.
  destruct (Nat.leb_spec (off - la) x) as [H1|H1]; cbn [andb]; [|rewrite written_out by lia; reflexivity].
  destruct (Nat.ltb_spec x (off - la + (la + (length d + lb)))) as [H2|H2]; [|rewrite written_out by lia; reflexivity].
  destruct (Nat.lt_ge_cases x off) as [H3|H3].
  - rewrite app_nth1, range_nth_d, written_out by (rewrite ?range_length; lia). f_equal. lia.
  - rewrite app_nth2, range_length by (rewrite range_length; lia). destruct (Nat.lt_ge_cases x (off + length d)) as [H4|H4].
    + rewrite app_nth1 by lia. unfold written. rewrite (proj2 (Nat.leb_le _ _) H3), (proj2 (Nat.ltb_lt _ _) H4). cbn. f_equal. lia.
    + rewrite app_nth2, range_nth_d, written_out by lia. f_equal. lia.
Qed.

Lemma Hcap : 0 < cap.
Proof. unfold cap, slot_capacity. lia. Qed.
Definition pp_kind (pad : nat) : kind := mkKind pad PRECONDITION_ERROR false false.
Section Pos.
  Variables (page block init : nat) (inc : nat -> nat) (padding cached : bool).
  Hypothesis Hpage : 0 < page.
  Hypothesis Hblock : 0 < block.
  Hypothesis Hdiv : Nat.max page block mod block = 0.
  Hypothesis Hcached : cached = true -> 8 <= block.
  Notation pread_rest := (pp_read_rest block cached).
  Notation pwrite_rest := (pp_write_rest block cached).

  (** The store: a view, for a size and a head buffer of some length. *)
  Definition sinv (V : nat -> N) (size hs : nat) (s : pcache) : Prop :=
    if cached then inv block V size s /\ allp (fun o n => hs <= o /\ o + n <= align block size) s else forall x, V x = fbyte (pc_file s) x.
  Lemma sinv_grow V size size' hs s : size <= size' -> sinv V size hs s -> sinv V size' hs s.
  Proof.
    unfold sinv. destruct cached; auto. intros H [I A]. split; [eapply inv_ext; eauto|]. eapply allp_impl; [|exact A]. cbn. intros o n [B C]. split; auto.
    assert (align block size <= align block size'); [|lia]. apply align_mono; auto; [pose proof (align_le block size' Hblock); lia|]. now apply align_lt.
  Qed.
  Lemma sinv_ext V V' size hs s : (forall x, V' x = V x) -> sinv V size hs s -> sinv V' size hs s.
  Proof.
    unfold sinv. destruct cached; intros E; [intros [I A]; split; auto; eapply inv_ext; eauto|]. intros H x. now rewrite E.
  Qed.
  (** Changing the file outside of the part that pages may hold. *)
  Lemma sinv_disk V size hs s f : sinv V size hs s -> (cached = true -> hs mod block = 0) ->
    (forall x, hs <= x < align block size -> fbyte f x = fbyte (pc_file s) x) ->
    exists V', sinv V' size hs (on_disk s f) /\ (forall x, hs <= x < align block size -> V' x = V x) /\
      (forall x, ~ (hs <= x < align block size) -> V' x = fbyte f x).
  Proof.
    intros S Hh E. unfold sinv in *. destruct cached eqn:Ec.
    - destruct S as [I A]. exists (fun x => if (hs <=? x) && (x <? align block size) then V x else fbyte f x).
      split; [split; [|exact A]|].
      + apply (inv_change block cap Hblock Hcap V size s hs (align block size) f); auto.
      + split.
        * intros x Hx. rewrite (proj2 (Nat.leb_le _ _)), (proj2 (Nat.ltb_lt _ _)) by lia. reflexivity.
        * intros x Hx. destruct (Nat.leb_spec hs x), (Nat.ltb_spec x (align block size)); cbn [andb]; auto. lia.
    - exists (fbyte f). split; [intros x; reflexivity|]. split; [|auto]. intros x Hx. rewrite S. now apply E.
  Qed.

  Lemma rest_read V w size tr head s off n : sinv V size (length head) s -> length head <= off -> off + n <= size -> size <= tr ->
    tr <= length (pc_file s) -> (cached = true -> length head mod block = 0 /\ align block size <= length (pc_file s)) ->
    exists s', pread_rest (mkP w size tr head s) off n = Some (SUCCESS, range V off n, s') /\ sinv V size (length head) s' /\
      length (pc_file s) <= length (pc_file s') /\ pc_region s' = pc_region s /\ (cached = false -> s' = s).
  Proof.
    intros S Ho Hn Hs Ht Hc. unfold pp_read_rest. cbn [p_size p_trunc p_head p_pc]. unfold p_disk. cbn [p_pc].
    destruct (Nat.ltb_spec n 1) as [H0|H0]; [exists s; replace n with 0 by lia; repeat split; auto|].
    unfold sinv in *. destruct cached eqn:Ec.
    - destruct (Nat.eqb_spec block 1) as [X|_]; [specialize (Hcached eq_refl); lia|]. destruct S as [I A]. destruct (Hc eq_refl) as [Hm Ha].
      assert (Le : align block (off + n) <= align block size).
      { apply align_mono; auto; [pose proof (align_le block size Hblock); lia|]. now apply align_lt. }
      destruct (read_spec block cap Hblock Hcap V size s off n I) as (c & b & s' & E & I' & _ & _ & O & K & R & L).
      assert (A' : allp (fun o m => length head <= o /\ o + m <= align block size) s').
      { eapply read_pages; [exact A| |exact E]. eapply Forall_impl; [|apply (asks_between block cap Hblock Hcap)]. intros r [R1 R2]. split; [|lia].
        pose proof (base_ge block cap Hblock Hcap (length head) off Hm Ho). unfold base in *. lia. }
      rewrite E. specialize (K ltac:(lia)). destruct O as [[-> ->]|O]; [|congruence]. rewrite all_set_map. exists s'. split; auto. split; [split; auto|]. split; auto. split; auto. discriminate.
    - assert (G : forall o m, o + m <= length (pc_file s) -> pread (pc_file s) o m = Some (range V o m)).
      { intros o m H. rewrite pread_range by auto. f_equal. apply range_ext. intros x _. symmetry. apply S. }
      destruct (Nat.eqb_spec block 1) as [->|Hb1]; [rewrite G by lia; exists s; repeat split; auto|].
      set (off_rem := off mod block). set (end_rem := (off + n) mod block).
      pose proof (Nat.mod_le off block ltac:(lia)) as M1. fold off_rem in M1.
      destruct ((0 <? off_rem) || (0 <? end_rem)).
      + set (el := if tr <? off + n + (if 0 <? end_rem then block - end_rem else 0) then tr - (off + n) else (if 0 <? end_rem then block - end_rem else 0)).
        assert (Hel : off + n + el <= tr).
        { unfold el. destruct (Nat.ltb_spec tr (off + n + (if 0 <? end_rem then block - end_rem else 0))); lia. }
        clearbody el. rewrite G by lia. exists s. split; [|repeat split; auto].
        do 3 f_equal. rewrite skipn_range, firstn_range by lia. f_equal. lia.
      + rewrite G by lia. exists s. repeat split; auto.
  Qed.
  Lemma rest_write V w size tr head s off data : sinv V size (length head) s -> length head <= off -> off + length data <= size -> size <= tr ->
    tr <= length (pc_file s) -> align block (off + length data) <= tr -> (cached = true -> length head mod block = 0) ->
    exists s', pwrite_rest (mkP w size tr head s) off data = Some (SUCCESS, s') /\ sinv (written V off data) size (length head) s' /\
      length (pc_file s) <= length (pc_file s') /\ pc_region s <= pc_region s'.
  Proof.
    intros S Ho Hn Hs Ht Ha Hm. unfold pp_write_rest. cbn [p_size p_trunc p_head p_pc]. unfold p_disk. cbn [p_pc].
    destruct (Nat.ltb_spec (length data) 1) as [H0|H0].
    { exists s. split; auto. split; auto. eapply sinv_ext; [|exact S]. destruct data; [intros x; apply written_nil|cbn in H0; lia]. }
    unfold sinv in *. destruct cached eqn:Ec.
    - destruct (Nat.eqb_spec block 1) as [X|_]; [specialize (Hcached eq_refl); lia|]. destruct S as [I A]. specialize (Hm eq_refl).
      assert (Le : align block (off + length data) <= align block size).
      { apply align_mono; auto; [pose proof (align_le block size Hblock); lia|]. now apply align_lt. }
      destruct (write_spec block cap Hblock Hcap V size s off data I) as (c & s' & n & E & Hn' & I' & _ & _ & O & K & R & L).
      assert (A' : allp (fun o m => length head <= o /\ o + m <= align block size) s').
      { eapply write_pages_all; [exact A| |exact E]. eapply Forall_impl; [|apply (asks_between block cap Hblock Hcap)]. intros r [R1 R2]. split; [|lia].
        pose proof (base_ge block cap Hblock Hcap (length head) off Hm Ho). unfold base in *. lia. }
      rewrite E. specialize (K ltac:(lia)). destruct O as [[-> ->]|O]; [|congruence]. rewrite firstn_all in I'. exists s'. split; auto. split; [split; auto|lia].
      eapply inv_ext; try exact I'; auto; lia.
    - assert (G : forall x, written V off data x = written (fbyte (pc_file s)) off data x) by (intros x; unfold written; now rewrite S).
      destruct (Nat.eqb_spec block 1) as [->|Hb1].
      { eexists. split; [reflexivity|]. cbn [on_disk pc_file pc_region]. split; [intros x; rewrite pwrite_spec; apply G|]. split; auto. apply pwrite_length. }
      set (off_rem := off mod block). set (end_rem := (off + length data) mod block).
      assert (M1 : off_rem <= off /\ off_rem < block) by (split; [apply Nat.mod_le; lia|apply Nat.mod_upper_bound; lia]).
      assert (M2 : end_rem < block) by (apply Nat.mod_upper_bound; lia).
      set (el := if 0 <? end_rem then block - end_rem else 0).
      assert (Hel : off + length data + el <= length (pc_file s)).
      { unfold el, end_rem, align in *. destruct (Nat.eqb_spec ((off + length data) mod block) 0) as [E|E].
        - rewrite E. cbn. lia.
        - rewrite (proj2 (Nat.ltb_lt _ _)) by lia. pose proof (Nat.mod_le (off + length data) block ltac:(lia)). lia. }
      assert (Hel2 : (el = 0 /\ end_rem = 0) \/ (0 < end_rem /\ el = block - end_rem)).
      { unfold el. destruct (Nat.ltb_spec 0 end_rem); [right|left]; lia. }
      (* the end of the last block is at least one block away from the start *)
      assert (Hend : off - off_rem + block <= off + length data + el).
      { assert (A1 : (off - off_rem) mod block = 0).
        { destruct (base_spec block cap Hblock Hcap off) as [B _]. exact B. }
        destruct (align_lt block (off + length data) Hblock) as [_ A2].
        assert (A3 : off + length data + el = align block (off + length data)).
        { unfold align, el. fold end_rem. destruct (Nat.eqb_spec end_rem 0) as [->|]; [cbn; lia|].
          rewrite (proj2 (Nat.ltb_lt 0 end_rem)) by lia. pose proof (Nat.mod_le (off + length data) block ltac:(lia)) as Q. fold end_rem in Q. lia. }
        rewrite A3. apply Nat.mod_divides in A1 as [a Ea]; [|lia]. apply Nat.mod_divides in A2 as [b Eb]; [|lia].
        assert (block * a < block * b) by (pose proof (align_le block (off + length data) Hblock); lia). assert (a < b) by nia.
        pose proof (Nat.mul_le_mono_l (a + 1) b block ltac:(lia)). lia. }
      destruct (Nat.ltb_spec 0 off_rem) as [R1|R1]; cbn [orb].
      2: destruct (Nat.ltb_spec 0 end_rem) as [R2|R2]; cbn [orb].
      3: { eexists. split; [reflexivity|]. cbn [on_disk pc_file pc_region]. split; [intros x; rewrite pwrite_spec; apply G|]. split; auto. apply pwrite_length. }
      all: fold el.
      all: set (again := (off_rem =? 0) || negb (off + length data + el - block =? off - off_rem)).
      all: set (last := if again then pread_into (pc_file s) (off + length data + el - block) block else pread_into (pc_file s) (off - off_rem) block).
      all: assert (Hlast : last = map Some (range V (off + length data + el - block) block)).
      1,3: assert (P : forall o, o + block <= length (pc_file s) -> pread_into (pc_file s) o block = map Some (range V o block));
        [intros o Hoo; rewrite pread_into_range by auto; f_equal; apply range_ext; intros x _; symmetry; apply S|].
      1,2: unfold last; destruct again eqn:Eg; [rewrite P by lia; reflexivity|]; unfold again in Eg; apply orb_false_iff in Eg as [_ Eg];
        apply negb_false_iff, Nat.eqb_eq in Eg; rewrite <- Eg; rewrite P by lia; reflexivity.
      all: assert (Hok : ((off_rem =? 0) || (off - off_rem + block <=? length (pc_file s))) = true /\
             ((el =? 0) || negb again || (off + length data + el <=? length (pc_file s))) = true)
        by (split; [rewrite (proj2 (Nat.leb_le (off - off_rem + block) _)) by lia; apply orb_true_r|rewrite (proj2 (Nat.leb_le (off + length data + el) _)) by lia; apply orb_true_r]).
      all: destruct Hok as [-> ->]; cbn [andb].
      all: assert (Hfirst : firstn off_rem (pread_into (pc_file s) (off - off_rem) block) = map Some (range V (off - off_rem) off_rem))
        by (rewrite pread_into_range, firstn_map, firstn_range by lia; f_equal; apply range_ext; intros x _; symmetry; apply S).
      all: assert (Hlst : firstn el (skipn end_rem last) = map Some (range V (off + length data) el))
        by (rewrite Hlast, skipn_map, skipn_range, firstn_map, firstn_range by lia; f_equal; destruct Hel2 as [[-> ->]|[Z ->]]; [reflexivity|]; f_equal; lia).
      all: rewrite Hfirst, Hlst, <- !map_app, all_set_map; eexists; split; [reflexivity|]; cbn [on_disk pc_file pc_region].
      all: split; [|split; auto; apply pwrite_length].
      all: intros x; rewrite G; symmetry.
      all: rewrite (range_ext V (fbyte (pc_file s)) (off - off_rem)) by (intros y _; apply S).
      all: rewrite (range_ext V (fbyte (pc_file s)) (off + length data)) by (intros y _; apply S).
      all: apply pwrite_self; lia.
  Qed.

  (** Outside of the part that pages may hold the file has the view. *)
  Lemma sinv_out V size hs s x : sinv V size hs s -> ~ (hs <= x < align block size) -> fbyte (pc_file s) x = V x.
  Proof.
    unfold sinv. destruct cached; [|intros S _; symmetry; apply S]. intros [[L I] A] Hx.
    destruct (I (slot_of block x) (slot_lt block cap Hblock Hcap x)) as (_ & _ & H3). destruct (H3 x eq_refl) as [|(p & Hp & E & _ & Lt)]; auto.
    exfalso. specialize (A (slot_of block x)). unfold allq, good in A. rewrite Forall_forall in A. specialize (A p Hp). cbn in A.
    destruct (base_spec block cap Hblock Hcap x) as [_ B]. rewrite E in *. lia.
  Qed.
  Lemma sinv_region V size hs s n : sinv V size hs s -> sinv V size hs (region cached s n).
  Proof. unfold sinv, region. destruct cached; auto. Qed.
  Lemma region_file s n : pc_file (region cached s n) = pc_file s.
  Proof. unfold region. now destruct cached. Qed.
  Lemma flush_ok V size hs s off n : sinv V size hs s -> (cached = true -> size <= pc_region s) ->
    exists s', flush block cached s off n = Some s' /\ sinv V size hs s' /\ length (pc_file s) <= length (pc_file s') /\
      pc_region s' = pc_region s /\ (off = 0 -> forall x, n = 0 \/ x < align block n -> fbyte (pc_file s') x = V x).
  Proof.
    unfold sinv, flush. destruct cached; intros S Hr; [|exists s; repeat split; auto; intros _ x _; symmetry; apply S].
    destruct S as [I A]. specialize (Hr eq_refl).
    destruct (flush_spec block cap Hblock Hcap V size s off n I) as (s' & E & I' & _ & _ & F1 & F2 & R & L).
    exists s'. rewrite E. split; auto. split; [split; auto; eapply flush_pages; eauto|]. split; auto. split; auto.
    intros -> x Hx. assert (B0 : base block 0 = 0) by (unfold base; lia). rewrite B0 in *. destruct (Nat.eqb_spec n 0) as [->|Hn].
    - apply F2; lia.
    - destruct Hx as [|Hx]; [lia|]. apply F1. cbn [Nat.add]. lia.
  Qed.
  Lemma cleared V size hs s f size' hs' n : sinv V size hs s ->
    sinv (fbyte f) size' hs' (region cached (on_disk (if cached then pc_clear s else s) f) n).
  Proof.
    intros S. apply sinv_region. unfold sinv in *. destruct cached; [|intros x; reflexivity]. destruct S as [[L _] _].
    split; [|exact (clear_pages _ s)]. apply nil_slots_ok; [cbn; now rewrite map_length|]. intros i. cbn [pc_clear pc_slots].
    generalize (pc_slots s). intros ss. revert i. induction ss as [|a ss IH]; intros [|i]; cbn; auto.
  Qed.

  (** What is read at an address: the head buffer, then the store. *)
  Definition hv (head : bytes) (V : nat -> N) (x : nat) : N := if x <? length head then fbyte head x else V x.
  Definition pp_ok (p : pfile) : Prop :=
    p_size p <= p_trunc p <= length (p_disk p) /\ (p_w p = true -> p_trunc p mod block = 0) /\
    (cached = true -> p_w p = true /\ p_trunc p <= pc_region (p_pc p) /\ length (p_head p) mod block = 0).
  Lemma pp_ok_align p : pp_ok p -> p_w p = true -> align block (p_size p) <= p_trunc p.
  Proof. intros (A & B & _) W. apply align_mono; auto; lia. Qed.

  Lemma read_ok V p off n : pp_ok p -> sinv V (p_size p) (length (p_head p)) (p_pc p) -> off + n <= p_size p ->
    exists s', pp_read block cached p off n = Some (SUCCESS, range (hv (p_head p) V) off n, s') /\
      sinv V (p_size p) (length (p_head p)) s' /\ length (p_disk p) <= length (pc_file s') /\ pc_region s' = pc_region (p_pc p) /\ (cached = false -> s' = p_pc p).
  Proof.
    intros Ok S Hn. pose proof (pp_ok_align p Ok) as Ok0. destruct p as [w size tr head pc]. unfold pp_ok, p_disk in *. cbn [p_w p_size p_trunc p_head p_pc] in *.
    destruct Ok as (A & B & C). unfold pp_read. cbn [p_w p_size p_trunc p_head p_pc]. rewrite (proj2 (Nat.ltb_ge _ _) Hn).
    assert (Hc : cached = true -> length head mod block = 0 /\ align block size <= length (pc_file pc)).
    { intros E. destruct (C E) as (C1 & _ & C3). split; auto. specialize (Ok0 C1). lia. }
    destruct (Nat.ltb_spec off (length head)) as [H|H].
    - set (pre := Nat.min n (length head - off)).
      assert (Hd : exists s', pread_rest (mkP w size tr head pc) (length head) (n - pre) = Some (SUCCESS, range V (length head) (n - pre), s') /\
        sinv V size (length head) s' /\ length (pc_file pc) <= length (pc_file s') /\ pc_region s' = pc_region pc /\ (cached = false -> s' = pc)).
      { destruct (Nat.eq_dec (n - pre) 0) as [E|E].
        - rewrite E. exists pc. unfold pp_read_rest. cbn [Nat.ltb Nat.leb]. auto 10.
        - apply (rest_read V w size tr head pc); auto; lia. }
      destruct Hd as (s' & -> & S' & L' & R' & U'). exists s'. split; [|auto]. do 3 f_equal.
      replace n with (pre + (n - pre)) at 2 by lia. rewrite range_app. f_equal.
      + symmetry. symmetry. apply is_range; [rewrite firstn_length, skipn_length; lia|]. intros j Hj.
        rewrite nth_firstn, (proj2 (Nat.ltb_lt _ _) Hj), nth_skipn. unfold hv. rewrite (proj2 (Nat.ltb_lt (off + j) _)) by lia.
        apply nth_error_nth'. lia.
      + destruct (Nat.eq_dec (n - pre) 0) as [E|E]; [now rewrite E|]. replace (off + pre) with (length head) by lia.
        apply range_ext. intros x Hx. unfold hv. rewrite (proj2 (Nat.ltb_ge _ _)) by lia. reflexivity.
    - destruct (rest_read V w size tr head pc off n) as (s' & -> & S' & L' & R' & U'); auto; try lia. exists s'. split; auto. do 3 f_equal.
      apply range_ext. intros x Hx. unfold hv. rewrite (proj2 (Nat.ltb_ge _ _)) by lia. reflexivity.
  Qed.
  Lemma write_ok V p off data : pp_ok p -> p_w p = true -> sinv V (p_size p) (length (p_head p)) (p_pc p) -> off + length data <= p_size p ->
    exists p' V', pp_write block cached p off data = Some (SUCCESS, p') /\ p_w p' = true /\ p_size p' = p_size p /\ pp_ok p' /\
      sinv V' (p_size p') (length (p_head p')) (p_pc p') /\ forall x, hv (p_head p') V' x = written (hv (p_head p) V) off data x.
  Proof.
    intros Ok W S Hn. pose proof (pp_ok_align p Ok W) as Al. destruct p as [w size tr head pc]. unfold pp_ok, p_disk in *. cbn [p_w p_size p_trunc p_head p_pc] in *.
    destruct Ok as (A & B & C). unfold pp_write. cbn [p_w p_size p_trunc p_head p_pc].
    assert (Al2 : forall e, e <= size -> align block e <= tr).
    { intros e He. transitivity (align block size); [|lia]. apply align_mono; auto; [pose proof (align_le block size Hblock); lia|]. now apply align_lt. }
    destruct (Nat.ltb_spec off (length head)) as [H|H].
    - set (pre := Nat.min (length data) (length head - off)).
      assert (Lp : length (firstn pre data) = pre) by (rewrite firstn_length; lia).
      assert (Hh : length (pwrite head off (firstn pre data)) = length head) by (apply pwrite_len; lia).
      assert (Hd : exists s', pwrite_rest (mkP w size tr head pc) (length head) (skipn pre data) = Some (SUCCESS, s') /\
        sinv (written V (length head) (skipn pre data)) size (length head) s' /\ length (pc_file pc) <= length (pc_file s') /\ pc_region pc <= pc_region s').
      { destruct (Nat.eq_dec (length data - pre) 0) as [E|E].
        - rewrite (skipn_all2 data) by lia. exists pc. unfold pp_write_rest. cbn [length Nat.ltb Nat.leb]. split; auto. split; [|auto].
          eapply sinv_ext; [|exact S]. intros x. apply written_nil.
        - apply (rest_write V w size tr head pc); rewrite ?skipn_length; auto; try lia; try (apply Al2; lia); intros E'; now destruct (C E'). }
      destruct Hd as (s' & -> & S' & L' & R'). eexists _, _. split; [reflexivity|]. cbn [p_w p_size p_trunc p_head p_pc]. rewrite Hh.
      split; auto. split; auto. split; [|split; [exact S'|]].
      + split; [lia|]. split; auto. intros E. destruct (C E) as (C1 & C2 & C3). split; auto. split; auto. lia.
      + intros x. unfold hv. rewrite Hh. destruct (Nat.ltb_spec x (length head)) as [Hx|Hx].
        * rewrite pwrite_spec. unfold written. rewrite Lp. destruct (Nat.leb_spec off x); cbn [andb]; [|now rewrite (proj2 (Nat.ltb_lt _ _) Hx)].
          destruct (Nat.ltb_spec x (off + pre)), (Nat.ltb_spec x (off + length data)); try lia; [|now rewrite (proj2 (Nat.ltb_lt _ _) Hx)].
          rewrite <- (firstn_skipn pre data) at 2. rewrite app_nth1 by lia. reflexivity.
        * unfold written. rewrite skipn_length. rewrite (proj2 (Nat.leb_le (length head) x)), (proj2 (Nat.leb_le off x)) by lia. cbn [andb].
          destruct (Nat.ltb_spec x (length head + (length data - pre))), (Nat.ltb_spec x (off + length data)); try lia.
          -- rewrite <- (firstn_skipn pre data) at 2. rewrite app_nth2 by lia. rewrite Lp. f_equal. lia.
          -- now rewrite (proj2 (Nat.ltb_ge _ _) Hx).
    - destruct (rest_write V w size tr head pc off data) as (s' & -> & S' & L' & R'); auto; try lia; try (apply Al2; lia); try (intros E'; now destruct (C E')).
      eexists _, _. split; [reflexivity|]. cbn [p_w p_size p_trunc p_head p_pc]. split; auto. split; auto. split; [|split; [exact S'|]].
      + split; [lia|]. split; auto. intros E. destruct (C E) as (C1 & C2 & C3). split; auto. split; auto. lia.
      + intros x. unfold hv, written. destruct (Nat.ltb_spec x (length head)) as [Hx|Hx]; auto.
        rewrite (proj2 (Nat.leb_gt off x)) by lia. reflexivity.
  Qed.
  Lemma max_pos : 0 < Nat.max page block.
  Proof. lia. Qed.
  (** A change of the file that keeps the part below the size. *)
  Lemma disk_ok V p n f c pr : sinv V (p_size p) (length (p_head p)) (p_pc p) -> (cached = true -> length (p_head p) mod block = 0) ->
    shows (hv (p_head p) V) (p_size p) c pr ->
    (forall x, length (p_head p) <= x < align block (p_size p) -> fbyte f x = fbyte (p_disk p) x) ->
    (forall x, length (p_head p) <= x -> fbyte f x = fbyte (p_disk p) x \/ fbyte f x = 0%N) ->
    exists V1, sinv V1 (p_size p) (length (p_head p)) (region cached (on_disk (p_pc p) f) n) /\ shows (hv (p_head p) V1) (p_size p) c pr.
  Proof.
    intros S Hm Sh E1 E2. destruct (sinv_disk V _ _ _ f S Hm E1) as (V1 & S1 & G1 & G2). pose proof (align_le block (p_size p) Hblock) as Al. exists V1. split; [now apply sinv_region|].
    eapply shows_ext; [exact Sh| |].
    - intros x Hx. unfold hv. destruct (Nat.ltb_spec x (length (p_head p))); auto. apply G1. lia.
    - intros P x Hx. destruct Sh as [_ Z]. specialize (Z P x Hx). unfold hv in *. destruct (Nat.ltb_spec x (length (p_head p))) as [H|H]; auto.
      destruct (Nat.lt_ge_cases x (align block (p_size p))) as [H1|H1]; [rewrite G1; auto|].
      rewrite G2 by lia. destruct (E2 x H) as [->| ->]; auto. unfold p_disk. rewrite (sinv_out V _ _ _ x S) by lia. exact Z.
  Qed.

  Lemma region_of q n : cached = true -> pc_region (region cached q n) = n.
  Proof. intros E. unfold region. now rewrite E. Qed.
  Lemma room_ok V p off n c pr : pp_ok p -> p_w p = true -> sinv V (p_size p) (length (p_head p)) (p_pc p) -> shows (hv (p_head p) V) (p_size p) c pr ->
    let p1 := pp_room page block inc true cached p off n in
    p_w p1 = true /\ p_size p1 = Nat.max (p_size p) (off + n) /\ p_head p1 = p_head p /\ pp_ok p1 /\
    exists V1, sinv V1 (p_size p1) (length (p_head p1)) (p_pc p1) /\ shows (hv (p_head p1) V1) (p_size p) c pr.
  Proof.
    intros Ok W S Sh p1. pose proof (pp_ok_align p Ok W) as Al. destruct Ok as (A & B & C).
    pose proof (align_le block (off + n) Hblock) as Al1. unfold p1, pp_room, pp_alloc. destruct (Nat.leb_spec (align block (off + n)) (p_trunc p)) as [H|H].
    - cbn [p_w p_size p_trunc p_head p_pc]. split; auto. split; auto. split; auto. split.
      + unfold pp_ok, p_disk in *. cbn [p_w p_size p_trunc p_head p_pc]. split; [lia|]. auto.
      + exists V. split; auto. eapply sinv_grow; [|exact S]. lia.
    - cbn [negb]. set (tr := align (Nat.max page block) (Nat.max (align block (off + n)) (inc (p_trunc p)))).
      pose proof (align_le (Nat.max page block) (Nat.max (align block (off + n)) (inc (p_trunc p))) max_pos) as At. fold tr in At.
      destruct (disk_ok V p tr (ftrunc (p_disk p) tr) c pr S) as (V1 & S1 & Sh1); auto.
      + intros E. now destruct (C E).
      + intros x Hx. rewrite ftrunc_byte, (proj2 (Nat.ltb_lt x tr)) by lia. reflexivity.
      + intros x Hx. rewrite ftrunc_byte. destruct (x <? tr); auto.
      + cbn [p_w p_size p_trunc p_head p_pc]. split; auto. split; auto. split; auto. split.
        * unfold pp_ok, p_disk in *. cbn [p_w p_size p_trunc p_head p_pc]. rewrite region_file. cbn [on_disk pc_file]. rewrite ftrunc_length.
          split; [lia|]. split; [intros _; apply align_multiple; auto; apply max_pos|]. intros E. destruct (C E) as (_ & _ & C3).
          split; auto. split; auto. rewrite region_of by auto. lia.
        * exists V1. split; auto. eapply sinv_grow; [|exact S1]. lia.
  Qed.
  Lemma truncate_ok V p n c pr : pp_ok p -> p_w p = true -> sinv V (p_size p) (length (p_head p)) (p_pc p) -> shows (hv (p_head p) V) n c pr ->
    (pr = true -> p_size p <= n) ->
    exists p1 V1, pp_truncate page block init true cached p n = Some p1 /\ p_w p1 = true /\ p_size p1 = n /\ pp_ok p1 /\
      sinv V1 n (length (p_head p1)) (p_pc p1) /\ shows (hv (p_head p1) V1) n c pr.
  Proof.
    intros Ok W S Sh Hp. pose proof (pp_ok_align p Ok W) as Al. destruct Ok as (A & B & C). unfold pp_truncate. cbn [negb].
    destruct (flush_ok V _ _ _ 0 n S) as (s' & -> & S' & L & R & F); [intros E; destruct (C E) as (_ & ? & _); lia|]. specialize (F eq_refl).
    set (tr := align (Nat.max page block) (Nat.max (Nat.max n page) init)).
    pose proof (align_le (Nat.max page block) (Nat.max (Nat.max n page) init) max_pos) as At. fold tr in At.
    assert (Fc : pc_file (if cached then pc_clear s' else s') = pc_file s') by (now destruct cached). rewrite Fc.
    eexists _, _. split; [reflexivity|]. cbn [p_w p_size p_trunc p_head p_pc]. split; auto. split; auto. split; [|split; [eapply cleared; exact S'|]].
    - unfold pp_ok, p_disk in *. cbn [p_w p_size p_trunc p_head p_pc]. rewrite region_file. cbn [on_disk pc_file]. rewrite ftrunc_length.
      split; [lia|]. split; [intros _; apply align_multiple; auto; apply max_pos|]. intros E. destruct (C E) as (_ & _ & C3).
      split; auto. split; auto. rewrite region_of by auto. lia.
    - pose proof (align_le block n Hblock) as An. eapply shows_ext; [exact Sh| |].
      + intros x Hx. unfold hv. destruct (Nat.ltb_spec x (length (p_head p))); auto. rewrite ftrunc_byte, (proj2 (Nat.ltb_lt x tr)) by lia. apply F. lia.
      + intros P x Hx. specialize (Hp P). destruct Sh as [_ Z]. specialize (Z P x Hx). unfold hv in *.
        destruct (Nat.ltb_spec x (length (p_head p))); auto. rewrite ftrunc_byte. destruct (x <? tr); auto.
        destruct (Nat.lt_ge_cases x (align block n)) as [H1|H1]; [rewrite F; auto|].
        rewrite (sinv_out V _ _ _ x S'); auto. assert (align block (p_size p) <= align block n); [|lia].
        apply align_mono; auto; [lia|]. now apply align_lt.
  Qed.
  Lemma sync_ok V p off n c pr : pp_ok p -> p_w p = true -> sinv V (p_size p) (length (p_head p)) (p_pc p) -> shows (hv (p_head p) V) (p_size p) c pr ->
    exists p1 V1, pp_sync block cached p off n = Some p1 /\ p_w p1 = true /\ p_size p1 = p_size p /\ pp_ok p1 /\
      sinv V1 (p_size p) (length (p_head p1)) (p_pc p1) /\ shows (hv (p_head p1) V1) (p_size p) c pr.
  Proof.
    intros Ok W S Sh. pose proof (pp_ok_align p Ok W) as Al. destruct Ok as (A & B & C). unfold pp_sync.
    destruct (flush_ok V _ _ _ off n S) as (s' & -> & S' & L & R & _); [intros E; destruct (C E) as (_ & ? & _); lia|].
    set (tr := align block (p_size p)). set (f := ftrunc (pwrite (pc_file s') 0 (p_head p)) tr).
    destruct (disk_ok V (mkP (p_w p) (p_size p) (p_trunc p) (p_head p) s') tr f c pr S') as (V1 & S1 & Sh1); auto; cbn [p_head p_size p_pc].
    - intros E. now destruct (C E).
    - intros x Hx. unfold f. rewrite ftrunc_byte, (proj2 (Nat.ltb_lt x tr)), pwrite_spec, written_out by lia. reflexivity.
    - intros x Hx. unfold f. rewrite ftrunc_byte, pwrite_spec, written_out by lia. destruct (x <? tr); auto.
    - cbn [p_head p_size p_pc] in *. eexists _, V1. split; [reflexivity|]. cbn [p_w p_size p_trunc p_head p_pc]. split; auto. split; auto. split; auto.
      unfold pp_ok, p_disk in *. cbn [p_w p_size p_trunc p_head p_pc]. rewrite region_file. cbn [on_disk pc_file]. unfold f. rewrite ftrunc_length.
      pose proof (align_le block (p_size p) Hblock). fold tr in H. split; [lia|]. split; [intros _; now apply align_lt|].
      intros E. destruct (C E) as (_ & _ & C3). split; auto. split; auto. rewrite region_of by auto. lia.
  Qed.
  (** The file once everything is written to it. *)
  Lemma written_back V head s x : (forall y, fbyte (pc_file s) y = V y) -> fbyte (pwrite (pc_file s) 0 head) x = hv head V x.
  Proof.
    intros F. rewrite pwrite_spec. unfold hv. destruct (Nat.ltb_spec x (length head)) as [H|H].
    - unfold written. cbn [Nat.leb Nat.add andb]. rewrite (proj2 (Nat.ltb_lt _ _) H), Nat.sub_0_r. reflexivity.
    - rewrite written_out by lia. apply F.
  Qed.
  Lemma back_ok V p s c pr (pad : bool) : pp_ok p -> p_w p = true -> shows (hv (p_head p) V) (p_size p) c pr ->
    (forall y, fbyte (pc_file s) y = V y) -> length (p_disk p) <= length (pc_file s) ->
    let d := ftrunc (pwrite (pc_file s) 0 (p_head p)) (if pad then align block (p_size p) else p_size p) in
    padded (if pad then block else 1) c d /\ grown pr c (length d) d.
  Proof.
    intros Ok W Sh F L d. pose proof (pp_ok_align p Ok W) as Al. destruct Ok as (A & B & C). set (f := pwrite (pc_file s) 0 (p_head p)) in *.
    pose proof (pwrite_length (pc_file s) 0 (p_head p)) as Lw. fold f in Lw. pose proof (align_le block (p_size p) Hblock) as Al1.
    set (m := if pad then align block (p_size p) else p_size p) in *.
    assert (Hm : p_size p <= m <= align block (p_size p)) by (unfold m; destruct pad; lia).
    assert (Sh' : shows (fbyte f) (p_size p) c pr) by (eapply shows_same; [exact Sh|]; intros x; now apply written_back).
    assert (E : d = range (fbyte f) 0 m).
    { unfold d. rewrite range_file by lia. unfold ftrunc. replace (m - length f) with 0 by lia. apply app_nil_r. }
    destruct (shows_grown _ _ _ _ m Sh' ltac:(lia)) as [G _]. pose proof (shows_length _ _ _ _ Sh) as Lc.
    rewrite E, range_length. split; auto. unfold padded. rewrite range_length, Lc. split; [rewrite range_first by lia; now destruct Sh'|].
    unfold m. destruct pad; [|rewrite Nat.mod_1_r; lia]. destruct (align_lt block (p_size p) Hblock). split; auto; lia.
  Qed.
  Lemma close_ok V p c pr : pp_ok p -> p_w p = true -> sinv V (p_size p) (length (p_head p)) (p_pc p) -> shows (hv (p_head p) V) (p_size p) c pr ->
    exists d, pp_close block padding cached p = Some (PClosed (Some d)) /\ padded (if padding then block else 1) c d /\ grown pr c (length d) d.
  Proof.
    intros Ok W S Sh. unfold pp_close. rewrite W. destruct (flush_ok V _ _ _ 0 0 S) as (s' & -> & S' & L & R & F).
    { intros E. destruct Ok as (A & B & C). destruct (C E) as (_ & ? & _). lia. }
    eexists. split; [reflexivity|]. apply (back_ok V); auto.
  Qed.
  (** After Synchronize the file holds the contents. *)
  Lemma sync_disk V p off n c pr p1 : pp_ok p -> p_w p = true -> sinv V (p_size p) (length (p_head p)) (p_pc p) -> shows (hv (p_head p) V) (p_size p) c pr ->
    (cached = true -> off = 0 /\ n = 0) -> pp_sync block cached p off n = Some p1 -> padded block c (p_disk p1) /\ grown pr c (length (p_disk p1)) (p_disk p1).
  Proof.
    intros Ok W S Sh Hc. unfold pp_sync. destruct (flush_ok V _ _ _ off n S) as (s' & -> & S' & L & R & F).
    { intros E. destruct Ok as (A & B & C). destruct (C E) as (_ & ? & _). lia. }
    intros E. injection E as <-. unfold p_disk at 1 2 3. cbn [p_pc]. rewrite region_file. apply (back_ok V p s' c pr true); auto.
    intros y. destruct cached eqn:Ec; [destruct (Hc eq_refl); subst; auto|]. unfold sinv in S'. rewrite Ec in S'. symmetry. apply S'.
  Qed.
  Lemma head_size n : 0 < n -> cached = true -> Nat.max 8 (align block n) mod block = 0.
  Proof.
    intros Hn E. specialize (Hcached E). destruct (align_lt block n Hblock) as [_ M]. rewrite Nat.max_r; auto.
    pose proof (align_le block n Hblock) as Al. apply Nat.mod_divides in M as [q Hq]; [|lia]. destruct q; [lia|]. nia.
  Qed.
  Lemma fbyte_head f rs k x : rs <= length f -> fbyte (firstn rs f ++ repeat 0%N k) x = if x <? rs then fbyte f x else 0%N.
  Proof.
    intros H. rewrite fbyte_app, fbyte_first, fbyte_zeros, firstn_length, Nat.min_l by auto. now destruct (x <? rs).
  Qed.
  Lemma head_ok V p n c pr : pp_ok p -> p_w p = true -> sinv V (p_size p) (length (p_head p)) (p_pc p) -> shows (hv (p_head p) V) (p_size p) c pr ->
    exists p1 V1, pp_head block cached p n = Some (SUCCESS, p1) /\ p_w p1 = true /\ p_size p1 = p_size p /\ pp_ok p1 /\
      sinv V1 (p_size p) (length (p_head p1)) (p_pc p1) /\ shows (hv (p_head p1) V1) (p_size p) c pr.
  Proof.
    intros Ok W S Sh. destruct Ok as (A & B & C). unfold pp_head. rewrite W.
    destruct (flush_ok V _ _ _ 0 0 S) as (s' & -> & S' & L & R & F); [intros E; destruct (C E) as (_ & ? & _); lia|]. specialize (F eq_refl).
    assert (Fc : pc_file (if cached then pc_clear s' else s') = pc_file s') by (now destruct cached).
    assert (Rc : pc_region (if cached then pc_clear s' else s') = pc_region (p_pc p)) by (destruct cached; exact R).
    rewrite Fc. set (f1 := pwrite (pc_file s') 0 (p_head p)).
    assert (Ef : forall x, fbyte f1 x = hv (p_head p) V x) by (intros x; apply written_back; intros y; apply F; auto).
    pose proof (pwrite_length (pc_file s') 0 (p_head p)) as Lw. fold f1 in Lw. unfold p_disk in *.
    assert (Sc : forall hs, sinv (fbyte f1) (p_size p) hs (on_disk (if cached then pc_clear s' else s') f1)).
    { intros hs. pose proof (cleared V (p_size p) _ s' f1 (p_size p) hs (pc_region s') S') as Q. unfold sinv, region in *. destruct cached; exact Q. }
    assert (Cd : match p_head p with [] => SUCCESS | _ :: _ => SUCCESS end = SUCCESS) by (now destruct (p_head p)). rewrite Cd.
    destruct (Nat.ltb_spec n 1) as [Hn|Hn].
    - eexists _, _. split; [reflexivity|]. cbn [p_w p_size p_trunc p_head p_pc]. split; auto. split; auto. split; [|split; [apply Sc|]].
      + unfold pp_ok, p_disk. cbn [p_w p_size p_trunc p_head p_pc on_disk pc_file pc_region length]. split; [lia|]. split; auto.
        intros E. destruct (C E) as (_ & C2 & _). rewrite Rc. split; auto. split; auto. apply Nat.mod_0_l. lia.
      + eapply shows_same; [exact Sh|]. intros x. unfold hv at 1. cbn [length Nat.ltb Nat.leb]. apply Ef.
    - set (hs := Nat.max 8 (align block n)). set (rs := Nat.min hs (p_size p)). cbn [on_disk pc_file].
      assert (Hrs : rs <= length f1) by lia. rewrite (proj2 (Nat.leb_le _ _) Hrs), orb_true_r.
      assert (Lh : length (firstn rs f1 ++ repeat 0%N (hs - length (firstn rs f1))) = hs) by (rewrite app_length, repeat_length, firstn_length; lia).
      eexists _, _. split; [reflexivity|]. cbn [p_w p_size p_trunc p_head p_pc]. split; auto. split; auto. split; [|split; [apply Sc|]].
      + unfold pp_ok, p_disk. cbn [p_w p_size p_trunc p_head p_pc on_disk pc_file pc_region]. rewrite Lh. split; [lia|]. split; auto.
        intros E. destruct (C E) as (_ & C2 & _). rewrite Rc. split; auto. split; auto. now apply head_size.
      + eapply shows_ext; [exact Sh| |].
        * intros x Hx. unfold hv at 1. rewrite Lh, fbyte_head by auto. destruct (Nat.ltb_spec x hs); auto.
          rewrite (proj2 (Nat.ltb_lt x rs)) by lia. apply Ef.
        * intros P x Hx. unfold hv at 1. rewrite Lh, fbyte_head by auto. destruct (Nat.ltb_spec x hs).
          -- rewrite (proj2 (Nat.ltb_ge x rs)) by lia. reflexivity.
          -- rewrite Ef. now apply Sh.
  Qed.

  Definition pp_rel (s : pstate) (t : sfile) : Prop :=
    match s, t with
    | PClosed d, SClosed d' => d = d'
    | POpen p, SOpen w d0 c pr =>
        p_w p = w /\ pp_ok p /\ (exists V, sinv V (p_size p) (length (p_head p)) (p_pc p) /\ shows (hv (p_head p) V) (p_size p) c pr) /\
        (w = false -> p_disk p = d0 /\ (pr = true -> p_size p = length d0 /\ forall x, x < Nat.min (length (p_head p)) (p_size p) -> fbyte (p_head p) x = fbyte d0 x))
    | _, _ => False
    end.
  (** With a page cache: the file is opened for writing, and TruncateFakely is not called. *)
  Definition pp_allowed (call : fcall) : Prop :=
    cached = true -> match call with FOpen w _ _ => w = true | FTruncateFakely _ => False | _ => True end.
  Lemma open_ok f w : (cached = true -> w = true) -> forall tr, tr = (if w : bool then align (Nat.max page block) (Nat.max (length f) init) else length f) ->
    pp_rel (POpen (mkP w (length f) tr [] (region cached (pc_new (if w then ftrunc f tr else f)) tr))) (SOpen w f f true).
  Proof.
    intros Hc tr Et. cbn [pp_rel p_w p_size p_head p_pc length]. split; auto.
    assert (Ht : length f <= tr) by (rewrite Et; destruct w; auto; pose proof (align_le (Nat.max page block) (Nat.max (length f) init) max_pos); lia).
    assert (Eb : forall x, fbyte (if w then ftrunc f tr else f) x = fbyte f x).
    { intros x. destruct w; auto. rewrite ftrunc_byte. destruct (Nat.ltb_spec x tr); auto. symmetry. apply fbyte_out. lia. }
    split; [|split].
    - unfold pp_ok, p_disk. cbn [p_w p_size p_trunc p_head p_pc length]. rewrite region_file. cbn [pc_new pc_file]. split; [|split].
      + destruct w; [rewrite ftrunc_length|]; lia.
      + intros ->. rewrite Et. apply align_multiple; auto. apply max_pos.
      + intros E. split; auto. rewrite region_of by auto. split; auto. apply Nat.mod_0_l. lia.
    - exists (fbyte f). split; [|apply (shows_same (fbyte f)); [apply shows_file|reflexivity]]. apply sinv_region.
      unfold sinv. destruct cached; [|intros x; symmetry; apply Eb]. destruct (new_spec block cap Hblock Hcap (if w then ftrunc f tr else f)) as [I _].
      split; [|apply new_pages]. eapply inv_ext; try exact I; auto; try lia; intros x; symmetry; apply Eb.
    - intros ->. unfold p_disk. cbn [p_pc]. rewrite region_file. split; auto. intros _. split; auto. intros x Hx. cbn in Hx. lia.
  Qed.

  Lemma pp_step_ok s t call : pp_rel s t -> pp_allowed call ->
    exists o s1 t1, pp_step page block init inc true padding cached s call = Some (o, s1) /\
      fstep (pp_kind (if padding then block else 1)) t call o t1 /\ pp_rel s1 t1.
  Proof.
    intros R Al. set (k := pp_kind (if padding then block else 1)). destruct s as [d|p], t as [d'|w d0 c pr]; try contradiction.
    - cbn in R. subst d'. destruct call as [w cr tr| | | | | | | | | |n];
        try (eexists _, _, _; split; [reflexivity|]; split; [apply st_closed; congruence|reflexivity]).
      cbn [pp_step]. unfold pp_open, os_open. destruct d as [f|].
      + destruct (w && tr) eqn:E.
        * apply andb_true_iff in E as [-> ->]. eexists _, _, _. split; [reflexivity|]. split; [apply st_open_trunc|]. exact (open_ok [] true (fun _ => eq_refl) _ eq_refl).
        * eexists _, _, _. split; [reflexivity|]. split; [now apply st_open|]. refine (open_ok f w _ _ eq_refl). intros Ec. exact (Al Ec).
      + destruct (w && cr) eqn:E; [|eexists _, _, _; split; [reflexivity|]; split; [now apply st_open_missing|reflexivity]].
        apply andb_true_iff in E as [-> ->]. eexists _, _, _. split; [reflexivity|]. split; [apply st_open_create|]. exact (open_ok [] true (fun _ => eq_refl) _ eq_refl).
    - pose proof R as R0. cbn [pp_rel] in R. destruct R as (Hw & Ok & (V & S & Sh) & Hr). pose proof (shows_length _ _ _ _ Sh) as L.
      destruct call as [w' cr tr| |off n|off data|data|n|n|n|h off n| |n]; cbn [pp_step].
      + eexists _, _, _. split; [reflexivity|]. split; [apply st_open_twice|auto].
      + destruct w.
        * destruct (close_ok V p c pr Ok Hw S Sh) as (d & -> & P & G). eexists _, _, _. split; [reflexivity|]. split; [exact (st_close k d0 c pr d P G)|reflexivity].
        * unfold pp_close. rewrite Hw. eexists _, _, _. split; [reflexivity|]. split; [apply st_close_readonly|]. cbn. f_equal. now apply Hr.
      + destruct (Nat.le_gt_cases (off + n) (p_size p)) as [H|H].
        * destruct (read_ok V p off n Ok S H) as (s' & -> & S' & L' & R' & U'). eexists _, _, _. split; [reflexivity|]. split.
          -- rewrite <- (shows_read _ _ _ _ off n Sh) by lia. apply st_read. lia.
          -- cbn [pp_rel p_w p_size p_head p_pc]. split; auto. destruct Ok as (A & B & C). split; [|split].
             ++ unfold pp_ok, p_disk in *. cbn [p_w p_size p_trunc p_head p_pc]. split; [lia|]. split; auto. intros E. rewrite R'. auto.
             ++ exists V. auto.
             ++ intros W. specialize (Hr W). unfold p_disk in *. cbn [p_pc]. rewrite U'; auto. destruct cached; auto. destruct (C eq_refl) as (C1 & _). congruence.
        * unfold pp_read. rewrite (proj2 (Nat.ltb_lt _ _)) by lia. eexists _, _, _. split; [reflexivity|]. split; [apply st_read_beyond; lia|].
          destruct p; exact R0.
      + rewrite Hw. destruct w; cbn [negb]; [|eexists _, _, _; split; [reflexivity|]; split; [now apply st_readonly|auto]].
        destruct (room_ok V p off (length data) c pr Ok Hw S Sh) as (P1 & P2 & P3 & P4 & V1 & S1 & Sh1).
        set (p1 := pp_room page block inc true cached p off (length data)) in *.
        destruct (write_ok V1 p1 off data P4 P1 S1 ltac:(lia)) as (p2 & V2 & -> & Q1 & Q2 & Q3 & Q4 & Q5).
        destruct (shows_write _ _ _ _ off data Sh1) as (c1 & G & Wr).
        eexists _, _, _. split; [reflexivity|]. split; [apply (st_write k d0 c pr off data c1 G)|]. cbn [pp_rel fst snd]. split; auto. split; auto. split; [|discriminate].
        exists V2. split; auto. rewrite Q2, P2. eapply shows_same; [exact Wr|exact Q5].
      + rewrite Hw. destruct w; cbn [negb]; [|eexists _, _, _; split; [reflexivity|]; split; [now apply st_readonly|auto]].
        destruct (room_ok V p (p_size p) (length data) c pr Ok Hw S Sh) as (P1 & P2 & P3 & P4 & V1 & S1 & Sh1).
        set (p1 := pp_room page block inc true cached p (p_size p) (length data)) in *.
        destruct (write_ok V1 p1 (p_size p) data P4 P1 S1 ltac:(lia)) as (p2 & V2 & -> & Q1 & Q2 & Q3 & Q4 & Q5).
        eexists _, _, _. split; [reflexivity|]. cbn [fst snd]. split; [rewrite <- L; apply st_append|]. cbn [pp_rel]. split; auto. split; auto. split; [|discriminate].
        exists V2. split; auto. rewrite Q2, P2, Nat.max_r by lia. eapply shows_same; [apply shows_append; exact Sh1|exact Q5].
      + rewrite Hw. destruct w; cbn [negb]; [|eexists _, _, _; split; [reflexivity|]; split; [now apply st_readonly|auto]].
        destruct (room_ok V p (p_size p) n c pr Ok Hw S Sh) as (P1 & P2 & P3 & P4 & V1 & S1 & Sh1).
        set (p1 := pp_room page block inc true cached p (p_size p) n) in *.
        destruct (shows_grown _ _ _ _ (p_size p + n) Sh1 ltac:(lia)) as [G Gs].
        eexists _, _, _. split; [reflexivity|]. split; [rewrite <- L at 1; apply st_expand; rewrite L; exact G|]. cbn [pp_rel]. split; auto. split; auto. split; [|discriminate].
        exists V1. split; auto. rewrite P2, Nat.max_r by lia. exact Gs.
      + rewrite Hw. destruct w; cbn [negb]; [|eexists _, _, _; split; [reflexivity|]; split; [now apply st_readonly|auto]].
        destruct (Nat.le_gt_cases n (p_size p)) as [H|H].
        * destruct (truncate_ok V p n (firstn n c) (pr && (n =? length c)) Ok Hw S) as (p1 & V1 & -> & Q1 & Q2 & Q3 & Q4 & Q5).
          -- now apply (shows_shrink _ (p_size p)).
          -- intros E. apply andb_true_iff in E as [_ E]. apply Nat.eqb_eq in E. lia.
          -- eexists _, _, _. split; [reflexivity|]. split; [apply st_shrink; lia|]. cbn [pp_rel]. rewrite Q2. split; auto. split; auto. split; [|discriminate]. exists V1. auto.
        * destruct (shows_grown _ _ _ _ n Sh ltac:(lia)) as [G Gs].
          destruct (truncate_ok V p n _ pr Ok Hw S Gs) as (p1 & V1 & -> & Q1 & Q2 & Q3 & Q4 & Q5); [lia|].
          eexists _, _, _. split; [reflexivity|]. split; [apply st_stretch; [lia|exact G]|]. cbn [pp_rel]. rewrite Q2. split; auto. split; auto. split; [|discriminate]. exists V1. auto.
      + assert (Ec : cached = false) by (unfold pp_allowed in Al; destruct cached; auto; destruct (Al eq_refl)). destruct Ok as (A & B & C).
        destruct (Nat.ltb_spec (p_trunc p) n) as [H|H].
        * eexists _, _, _. split; [reflexivity|]. split; [apply st_fake_fail; lia|auto].
        * assert (Ok1 : pp_ok (mkP (p_w p) n (p_trunc p) (p_head p) (p_pc p))).
          { unfold pp_ok, p_disk in *. cbn [p_w p_size p_trunc p_head p_pc]. split; [lia|]. auto. }
          assert (S1 : sinv V n (length (p_head p)) (p_pc p)) by (unfold sinv in *; rewrite Ec in *; exact S).
          destruct (Nat.le_gt_cases n (p_size p)) as [H1|H1].
          -- eexists _, _, _. split; [reflexivity|]. split; [apply st_fake_shrink; lia|]. cbn [pp_rel p_w p_size p_head p_pc]. split; auto. split; auto. split.
             ++ exists V. split; auto. now apply (shows_shrink _ (p_size p)).
             ++ intros W. destruct (Hr W) as [H2 H3]. split; auto. intros E. apply andb_true_iff in E as [E1 E2]. apply Nat.eqb_eq in E2.
                replace n with (p_size p) by lia. auto.
          -- destruct (shows_grown _ _ _ _ n Sh ltac:(lia)) as [G Gs].
             eexists _, _, _. split; [reflexivity|]. split; [apply st_fake_stretch; [lia|exact G]|]. cbn [pp_rel p_w p_size p_head p_pc]. split; auto. split; auto. split; [exists V; auto|].
             intros W. destruct (Hr W) as [H2 H3]. split; auto. intros E. specialize (H3 E). rewrite <- H2 in H3. lia.
      + rewrite Hw. destruct w; cbn [negb]; [|eexists _, _, _; split; [reflexivity|]; split; [apply st_sync_readonly|auto]].
        destruct (sync_ok V p off n c pr Ok Hw S Sh) as (p1 & V1 & -> & Q1 & Q2 & Q3 & Q4 & Q5).
        eexists _, _, _. split; [reflexivity|]. split; [apply st_sync|]. cbn [pp_rel]. rewrite Q2. split; auto. split; auto. split; [|discriminate]. exists V1. auto.
      + eexists _, _, _. split; [reflexivity|]. split; [rewrite <- L; apply st_size|auto].
      + destruct w.
        * destruct (head_ok V p n c pr Ok Hw S Sh) as (p1 & V1 & -> & Q1 & Q2 & Q3 & Q4 & Q5).
          eexists _, _, _. split; [reflexivity|]. split; [apply st_head|]. cbn [pp_rel fst snd]. rewrite Q2. split; auto. split; auto. split; [|discriminate]. exists V1. auto.
        * destruct Ok as (A & B & C). assert (Ec : cached = false) by (destruct cached eqn:Ec; auto; destruct (C eq_refl); congruence).
          destruct (Hr eq_refl) as [Hd Hp]. assert (SV : forall x, V x = fbyte d0 x) by (intros x; unfold sinv in S; rewrite Ec in S; rewrite S; unfold p_disk in Hd; now rewrite Hd).
          unfold p_disk in *. unfold pp_head. rewrite Hw, Ec. 
          (* what becomes of a new head buffer that starts with the file *)
          assert (N : forall nh, (forall x, x < Nat.min (length nh) (p_size p) -> fbyte nh x = fbyte d0 x) ->
             (forall x, p_size p <= x -> x < length nh -> fbyte nh x = 0%N) ->
             exists c1, length c1 = length c /\ ((p_head p = [] \/ pr = true) -> c1 = c) /\
               pp_rel (POpen (mkP (p_w p) (p_size p) (p_trunc p) nh (p_pc p))) (SOpen false d0 c1 pr)).
          { intros nh N1 N2. exists (range (hv nh V) 0 (p_size p)). rewrite range_length. split; auto.
            assert (Hv : forall x, x < p_size p -> hv nh V x = fbyte d0 x).
            { intros x Hx. unfold hv. destruct (Nat.ltb_spec x (length nh)); auto. apply N1. lia. }
            split.
            - intros Hc. destruct Sh as [-> _]. apply range_ext. intros x Hx. rewrite Hv by lia. unfold hv. destruct (Nat.ltb_spec x (length (p_head p))) as [Hl|Hl]; auto.
              destruct Hc as [E|E]; [rewrite E in Hl; cbn in Hl; lia|]. destruct (Hp E) as [_ X]. symmetry. apply X. lia.
            - cbn [pp_rel p_w p_size p_head p_pc]. split; auto. split; [|split].
              + unfold pp_ok, p_disk. cbn [p_w p_size p_trunc p_head p_pc]. split; auto. split; auto. congruence.
              + exists V. split; [unfold sinv in *; rewrite Ec in *; exact S|]. split; auto. intros E x Hx. unfold hv. destruct (Nat.ltb_spec x (length nh)); auto.
                rewrite SV. destruct (Hp E) as [E1 _]. apply fbyte_out. lia.
              + intros _. unfold p_disk. cbn [p_pc]. split; auto. intros E. destruct (Hp E) as [E1 _]. split; auto. }
          destruct (Nat.ltb_spec n 1) as [Hn|Hn].
          -- destruct (N []) as (c1 & N1 & N2 & N3); [intros x Hx; cbn in Hx; lia|intros x _ Hx; cbn in Hx; lia|]. rewrite Hw in N3.
             destruct (p_head p) eqn:Eh.
             ++ eexists _, _, _. split; [reflexivity|]. split; [apply st_head|]. cbn [fst snd]. rewrite <- (N2 (or_introl eq_refl)). exact N3.
             ++ eexists _, _, _. split; [reflexivity|]. split; [apply (st_head_readonly k d0 c pr n c1); auto|]. exact N3.
          -- set (hs := Nat.max 8 (align block n)). set (rs := Nat.min hs (p_size p)). rewrite Hd.
             assert (Hrs : rs <= length d0) by (rewrite <- Hd; lia). rewrite (proj2 (Nat.leb_le _ _) Hrs), orb_true_r.
             destruct (N (firstn rs d0 ++ repeat 0%N (hs - length (firstn rs d0)))) as (c1 & N1 & N2 & N3).
             { intros x. rewrite fbyte_head, app_length, repeat_length, firstn_length by auto. intros Hx. rewrite (proj2 (Nat.ltb_lt x rs)) by lia. reflexivity. }
             { intros x Hx Hx2. rewrite fbyte_head by auto. rewrite (proj2 (Nat.ltb_ge x rs)) by lia. reflexivity. }
             rewrite Hw in N3. destruct (p_head p) eqn:Eh.
             ++ eexists _, _, _. split; [reflexivity|]. split; [apply st_head|]. cbn [fst snd]. rewrite <- (N2 (or_introl eq_refl)). exact N3.
             ++ eexists _, _, _. split; [reflexivity|]. split; [apply (st_head_readonly k d0 c pr n c1); auto|]. exact N3.
  Qed.
End Pos.
