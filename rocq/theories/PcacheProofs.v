(** Proofs about the page cache. *)
From Coq Require Import List NArith Bool Arith Lia Permutation.
Import ListNotations.
From Verif Require Import Bytes StatusModel PcacheModel.
Local Open Scope nat_scope.

(** The byte at an address of a file; zero beyond its end. *)
Definition fbyte (f : bytes) (x : nat) : N := nth x f 0%N.
(** The bytes of a view from an address on. *)
Definition range (V : nat -> N) (off n : nat) : bytes := map V (seq off n).
(** A view after bytes have been written at an address. *)
Definition written (V : nat -> N) (off : nat) (data : bytes) (x : nat) : N :=
  if (off <=? x) && (x <? off + length data) then nth (x - off) data 0%N else V x.

(* ---- lists ---- *)
Lemma range_length V off n : length (range V off n) = n.
Proof. unfold range. now rewrite map_length, seq_length. Qed.
Lemma range_nth V off n j : j < n -> nth_error (range V off n) j = Some (V (off + j)).
Proof.
  intros H. unfold range. rewrite nth_error_map, (nth_error_nth' _ 0); [|now rewrite seq_length]. cbn. now rewrite seq_nth.
Qed.
Lemma range_app V off n m : range V off (n + m) = range V off n ++ range V (off + n) m.
Proof. unfold range. now rewrite seq_app, map_app. Qed.
Lemma list_ext {T} (a b : list T) : (forall j, nth_error a j = nth_error b j) -> a = b.
Proof.
  revert b; induction a as [|x a IH]; intros [|y b] H; auto; try (specialize (H 0); discriminate).
  f_equal; [specialize (H 0); cbn in H; congruence|]. apply IH. intros j. exact (H (S j)).
Qed.
Lemma range_ext V V' off n : (forall x, off <= x < off + n -> V x = V' x) -> range V off n = range V' off n.
Proof. intros H. apply map_ext_in. intros x Hx. apply in_seq in Hx. now apply H. Qed.
Lemma is_range (b : bytes) V off n : length b = n -> (forall j, j < n -> nth_error b j = Some (V (off + j))) -> b = range V off n.
Proof.
  intros Hl H. apply list_ext. intros j. destruct (Nat.lt_ge_cases j n) as [Hj|Hj].
  - rewrite range_nth by auto. auto.
  - rewrite (proj2 (nth_error_None b j)) by lia. symmetry. apply nth_error_None. rewrite range_length. lia.
Qed.
Lemma nth_firstn {T} (l : list T) n j : nth_error (firstn n l) j = if j <? n then nth_error l j else None.
Proof.
  revert l j; induction n as [|n IH]; intros l j; [now destruct j|].
  destruct l as [|x l]; [rewrite firstn_nil; destruct (j <? S n), j; reflexivity|].
  destruct j as [|j]; [reflexivity|]. cbn [firstn nth_error]. rewrite IH. reflexivity.
Qed.
Lemma nth_skipn {T} (l : list T) n j : nth_error (skipn n l) j = nth_error l (n + j).
Proof.
  revert l; induction n as [|n IH]; intros l; [reflexivity|]. destruct l as [|x l]; [now destruct j|]. cbn. apply IH.
Qed.
Lemma fbyte_nth f x : fbyte f x = match nth_error f x with Some c => c | None => 0%N end.
Proof. unfold fbyte. destruct (nth_error f x) eqn:E; [now apply nth_error_nth|apply nth_overflow; now apply nth_error_None]. Qed.

(* ---- the file ---- *)
Lemma pread_some f off size b : pread f off size = Some b -> b = range (fbyte f) off size.
Proof.
  unfold pread. destruct (Nat.eqb_spec size 0) as [->|Hs]; cbn [orb].
  - intros E. injection E as <-. reflexivity.
  - destruct (Nat.leb_spec (off + size) (length f)) as [H|H]; [|discriminate]. intros E. injection E as <-.
    apply is_range; [rewrite firstn_length, skipn_length; lia|]. intros j Hj.
    rewrite nth_firstn, (proj2 (Nat.ltb_lt _ _) Hj), nth_skipn, fbyte_nth.
    destruct (nth_error f (off + j)) eqn:E; auto. apply nth_error_None in E. lia.
Qed.
Lemma pread_ok f off size : off + size <= length f -> exists b, pread f off size = Some b.
Proof. intros H. unfold pread. rewrite (proj2 (Nat.leb_le _ _) H), orb_true_r. eauto. Qed.
Lemma nth_error_repeat_lt {T} (x : T) n j : nth_error (repeat x n) j = if j <? n then Some x else None.
Proof. revert j; induction n as [|n IH]; intros [|j]; cbn; auto. rewrite IH. reflexivity. Qed.
Lemma pwrite_spec f off data x : fbyte (pwrite f off data) x = written (fbyte f) off data x.
Proof.
  destruct data as [|c d].
  - cbn. unfold written. cbn [length]. destruct (Nat.leb_spec off x), (Nat.ltb_spec x (off + 0)); cbn; auto; lia.
  - unfold pwrite. set (data := c :: d). unfold written.
    assert (L : length (firstn off (f ++ repeat 0%N (off - length f))) = off) by (rewrite firstn_length, app_length, repeat_length; lia).
    rewrite !fbyte_nth. destruct (Nat.leb_spec off x) as [H1|H1]; cbn [andb].
    + rewrite nth_error_app2 by lia. rewrite L. destruct (Nat.ltb_spec x (off + length data)) as [H2|H2].
      * rewrite nth_error_app1 by lia. rewrite (nth_error_nth' data 0%N) by lia. reflexivity.
      * rewrite nth_error_app2 by lia. rewrite nth_skipn. replace (off + length data + (x - off - length data)) with x by lia. reflexivity.
    + rewrite nth_error_app1 by lia. rewrite nth_firstn, (proj2 (Nat.ltb_lt _ _) H1).
      destruct (Nat.lt_ge_cases x (length f)) as [H2|H2]; [now rewrite nth_error_app1|].
      rewrite nth_error_app2 by lia. rewrite nth_error_repeat_lt. rewrite (proj2 (nth_error_None f x)) by lia.
      destruct (x - length f <? off - length f); reflexivity.
Qed.
Lemma pwrite_length f off data : length f <= length (pwrite f off data).
Proof.
  destruct data as [|c d]; [cbn; lia|]. unfold pwrite. rewrite !app_length, firstn_length, app_length, repeat_length, skipn_length. lia.
Qed.

(* ---- buffers ---- *)
Lemma slice_some b pos size : pos + size <= length b -> slice b pos size = Some (firstn size (skipn pos b)).
Proof. intros H. unfold slice. now rewrite (proj2 (Nat.leb_le _ _) H). Qed.
Lemma blit_some b pos d : pos + length d <= length b -> exists b', blit b pos d = Some b' /\ length b' = length b /\
  forall j, nth_error b' j = if (pos <=? j) && (j <? pos + length d) then nth_error d (j - pos) else nth_error b j.
Proof.
  intros H. unfold blit. rewrite (proj2 (Nat.leb_le _ _) H). eexists. split; [reflexivity|]. split.
  - rewrite !app_length, firstn_length, skipn_length. lia.
  - intros j. assert (L : length (firstn pos b) = pos) by (rewrite firstn_length; lia).
    destruct (Nat.leb_spec pos j) as [H1|H1]; cbn [andb].
    + rewrite nth_error_app2 by lia. rewrite L. destruct (Nat.ltb_spec j (pos + length d)) as [H2|H2].
      * now rewrite nth_error_app1 by lia.
      * rewrite nth_error_app2 by lia. rewrite nth_skipn. f_equal. lia.
    + rewrite nth_error_app1 by lia. rewrite nth_firstn, (proj2 (Nat.ltb_lt _ _) H1). reflexivity.
Qed.
Lemma all_set_map l : all_set (map Some l) = Some l.
Proof. induction l as [|c l IH]; cbn; auto. now rewrite IH. Qed.

(* ---- views ---- *)
Lemma written_out V off d x : x < off \/ off + length d <= x -> written V off d x = V x.
Proof. intros H. unfold written. destruct (Nat.leb_spec off x), (Nat.ltb_spec x (off + length d)); cbn; auto; lia. Qed.
Lemma written_in V off d x : off <= x < off + length d -> nth_error d (x - off) = Some (written V off d x).
Proof.
  intros H. unfold written. rewrite (proj2 (Nat.leb_le _ _)), (proj2 (Nat.ltb_lt _ _)) by lia. cbn. apply nth_error_nth'. lia.
Qed.
Lemma written_app V off a b x : written (written V off a) (off + length a) b x = written V off (a ++ b) x.
Proof.
  unfold written at 1 3. rewrite app_length.
  destruct (Nat.leb_spec (off + length a) x) as [H1|H1]; cbn [andb].
  - destruct (Nat.leb_spec off x); [|lia]. cbn [andb].
    destruct (Nat.ltb_spec x (off + length a + length b)), (Nat.ltb_spec x (off + (length a + length b))); try lia.
    + rewrite app_nth2 by lia. f_equal. lia.
    + apply written_out. lia.
  - unfold written. destruct (Nat.leb_spec off x); cbn [andb]; auto.
    destruct (Nat.ltb_spec x (off + length a)), (Nat.ltb_spec x (off + (length a + length b))); try lia. now rewrite app_nth1 by lia.
Qed.
Lemma written_nil V off x : written V off [] x = V x.
Proof. apply written_out. cbn. lia. Qed.

Section Pcache.
  Variables ps cap : nat.
  Hypothesis Hps : 0 < ps.
  Hypothesis Hcap : 0 < cap.
  Notation slot_of := (slot_of ps).

  (** The start of the page of an address. *)
  Definition base (x : nat) : nat := x - x mod ps.
  Lemma base_spec x : base x mod ps = 0 /\ base x <= x < base x + ps.
  Proof.
    unfold base. pose proof (Nat.mod_upper_bound x ps ltac:(lia)). pose proof (Nat.mod_le x ps ltac:(lia)).
    split; [|lia]. pose proof (Nat.div_mod x ps ltac:(lia)) as E.
    replace (x - x mod ps) with (x / ps * ps) by lia. apply Nat.mod_mul. lia.
  Qed.
  Lemma base_at off j : off mod ps = 0 -> j < ps -> base (off + j) = off.
  Proof.
    intros Ho Hj. unfold base. rewrite <- Nat.add_mod_idemp_l, Ho by lia. cbn. rewrite Nat.mod_small by lia. lia.
  Qed.
  Lemma base_in off x : off mod ps = 0 -> off <= x < off + ps -> base x = off.
  Proof. intros Ho Hx. replace x with (off + (x - off)) by lia. apply base_at; auto. lia. Qed.
  Lemma slot_base x : slot_of (base x) = slot_of x.
  Proof.
    unfold PcacheModel.slot_of. assert (E : base x / ps = x / ps); [|now rewrite E]. unfold base.
    pose proof (Nat.div_mod x ps ltac:(lia)) as E. assert (E' : x - x mod ps = x / ps * ps) by (pose proof (Nat.mod_le x ps ltac:(lia)); lia). rewrite E'. apply Nat.div_mul. lia.
  Qed.
  Lemma slot_lt x : slot_of x < 16.
  Proof. apply Nat.mod_upper_bound. lia. Qed.
  Lemma slot_in off x : off mod ps = 0 -> off <= x < off + ps -> slot_of x = slot_of off.
  Proof. intros Ho Hx. rewrite <- (slot_base x). now rewrite (base_in off x). Qed.

  (* ---- one slot ---- *)
  Definition pok (V : nat -> N) (hi i : nat) (p : page) : Prop :=
    p_off p mod ps = 0 /\ slot_of (p_off p) = i /\ p_size p <= ps /\ p_buf p = map Some (range V (p_off p) (p_size p)) /\
    (p_dirty p = true -> p_off p < hi).
  Definition covered (l : list page) (x : nat) : Prop := exists p, In p l /\ p_off p = base x /\ p_dirty p = true /\ x < p_off p + p_size p.
  Definition sok (V F : nat -> N) (hi i : nat) (l : list page) : Prop :=
    Forall (pok V hi i) l /\ NoDup (map p_off l) /\ forall x, slot_of x = i -> F x = V x \/ covered l x.

  Lemma sok_perm V F hi i l l' : Permutation l l' -> sok V F hi i l -> sok V F hi i l'.
  Proof.
    intros P (H1 & H2 & H3). split; [eapply Permutation_Forall; eauto|]. split.
    - eapply Permutation_NoDup; [|exact H2]. now apply Permutation_map.
    - intros x Hx. destruct (H3 x Hx) as [E|(p & Hp & R)]; auto. right. exists p. split; auto. eapply Permutation_in; eauto.
  Qed.
  Lemma sok_better V F F' hi i l : (forall x, F' x = F x \/ F' x = V x) -> sok V F hi i l -> sok V F' hi i l.
  Proof.
    intros B (H1 & H2 & H3). split; auto. split; auto. intros x Hx. destruct (B x) as [->| ->]; auto.
  Qed.
  Lemma sok_ext V V' F hi hi' i l : (forall x, slot_of x = i -> V' x = V x) -> hi <= hi' -> sok V F hi i l -> sok V' F hi' i l.
  Proof.
    intros E Hh (H1 & H2 & H3). split; [|split; auto].
    - eapply Forall_impl; [|exact H1]. intros p (A & B & C & D & G). repeat split; auto; [|intros H; specialize (G H); lia].
      rewrite D at 1. f_equal. apply range_ext. intros x Hx. symmetry. apply E. rewrite (slot_in (p_off p)) by (auto; lia). exact B.
    - intros x Hx. rewrite E by auto. auto.
  Qed.
  Lemma get_page_some l off p : get_page l off = Some p -> In p l /\ p_off p = off.
  Proof. intros E. apply find_some in E as [H1 H2]. apply Nat.eqb_eq in H2. auto. Qed.
  Lemma get_page_none l off : get_page l off = None -> forall p, In p l -> p_off p <> off.
  Proof. intros E p Hp H. pose proof (find_none _ _ E p Hp) as H'. cbn in H'. apply Nat.eqb_neq in H'. auto. Qed.
  Lemma get_page_in l p : NoDup (map p_off l) -> In p l -> get_page l (p_off p) = Some p.
  Proof.
    induction l as [|q l IH]; intros N [].
    - subst q. cbn. now rewrite Nat.eqb_refl.
    - cbn. inversion N as [|? ? Nq Nl]; subst. destruct (Nat.eqb_spec (p_off q) (p_off p)) as [E|]; auto.
      exfalso. apply Nq. rewrite E. now apply in_map.
  Qed.
  Lemma in_del l off p : In p (del_page l off) <-> In p l /\ p_off p <> off.
  Proof. unfold del_page. rewrite filter_In. destruct (Nat.eqb_spec (p_off p) off); cbn; intuition congruence. Qed.
  Lemma del_absent l off : (forall p, In p l -> p_off p <> off) -> del_page l off = l.
  Proof.
    induction l as [|q l IH]; intros H; auto. cbn. destruct (Nat.eqb_spec (p_off q) off) as [E|]; cbn.
    - exfalso. apply (H q); auto. now left.
    - f_equal. apply IH. intros p Hp. apply H. now right.
  Qed.
  Lemma del_perm l off p : NoDup (map p_off l) -> get_page l off = Some p -> Permutation l (del_page l off ++ [p]).
  Proof.
    induction l as [|q l IH]; intros N E; [discriminate|]. inversion N as [|? ? Nq Nl]; subst. cbn in *.
    destruct (Nat.eqb_spec (p_off q) off) as [Eq|Ne]; cbn.
    - injection E as ->. fold (del_page l off). rewrite del_absent; [apply Permutation_cons_append|].
      intros r Hr Er. apply Nq. rewrite Eq, <- Er. now apply in_map.
    - constructor. now apply IH.
  Qed.
  Lemma del_nodup l off : NoDup (map p_off l) -> NoDup (map p_off (del_page l off)).
  Proof.
    induction l as [|q l IH]; intros N; [constructor|]. inversion N as [|? ? Nq Nl]; subst. cbn.
    destruct (negb (p_off q =? off)); cbn; auto. constructor; auto. intros H. apply Nq. apply in_map_iff in H as (r & Er & Hr).
    rewrite <- Er. apply in_map. now apply in_del in Hr.
  Qed.
  Lemma nodup_snoc {T} (l : list T) x : NoDup l -> ~ In x l -> NoDup (l ++ [x]).
  Proof.
    intros N H. apply (Permutation_NoDup (l := x :: l)); [apply Permutation_cons_append|]. now constructor.
  Qed.
  (** Replacing a page, possibly with another view inside of it. *)
  Lemma sok_put V V' F hi hi' i l p : sok V F hi i l -> hi <= hi' -> pok V' hi' i p ->
    (forall x, base x <> p_off p -> V' x = V x) ->
    (forall x, base x = p_off p -> F x = V' x \/ (p_dirty p = true /\ x < p_off p + p_size p)) ->
    sok V' F hi' i (del_page l (p_off p) ++ [p]).
  Proof.
    intros (H1 & H2 & H3) Hh Hp Hv Hx. split; [|split].
    - apply Forall_app. split; [|repeat constructor; apply Hp]. apply Forall_forall. intros q Hq. apply in_del in Hq as [Hq Hne].
      rewrite Forall_forall in H1. destruct (H1 q Hq) as (A & B & C & D & G). repeat split; auto; [|intros H; specialize (G H); lia].
      rewrite D at 1. f_equal. apply range_ext. intros x Hx'. symmetry. apply Hv. rewrite (base_in (p_off q)); auto. lia.
    - rewrite map_app. apply nodup_snoc; [now apply del_nodup|]. intros H. apply in_map_iff in H as (q & E & Hq). apply in_del in Hq. tauto.
    - intros x Hs. destruct (Nat.eq_dec (base x) (p_off p)) as [E|Ne].
      + destruct (Hx x E) as [->|[Hd Hlt]]; auto. right. exists p. split; [apply in_or_app; right; now left|]. auto.
      + rewrite Hv by auto. destruct (H3 x Hs) as [->|(q & Hq & Eq & R)]; auto. right. exists q. split; auto.
        apply in_or_app. left. apply in_del. split; auto. congruence.
  Qed.
  (** What a page of a slot says about its addresses. *)
  Lemma sok_absent V F hi i l off x : sok V F hi i l -> get_page l off = None -> base x = off -> slot_of x = i -> F x = V x.
  Proof.
    intros (_ & _ & H3) G E Hs. destruct (H3 x Hs) as [|(q & Hq & Eq & _)]; auto. exfalso. apply (get_page_none _ _ G q Hq). congruence.
  Qed.
  Lemma sok_at V F hi i l off p x : sok V F hi i l -> get_page l off = Some p -> base x = off -> slot_of x = i ->
    F x = V x \/ (p_dirty p = true /\ x < off + p_size p).
  Proof.
    intros (_ & H2 & H3) G E Hs. destruct (H3 x Hs) as [|(q & Hq & Eq & Hd & Hlt)]; auto. right.
    pose proof (get_page_in l q H2 Hq) as G'. rewrite Eq, E, G in G'. injection G' as <-.
    apply get_page_some in G as [_ Ep]. rewrite Ep in Hlt. auto.
  Qed.

  (* ---- PreparePage ---- *)
  (** The page as prepared: right, apart from the bytes that are about to be written over. *)
  Definition nearly (V F : nat -> N) (hi i off size : nat) (w : nat -> Prop) (p : page) : Prop :=
    p_off p = off /\ size <= p_size p <= ps /\
    (forall j, j < p_size p -> nth_error (p_buf p) j = Some (Some (V (off + j))) \/ w j) /\
    (forall x, base x = off -> F x = V x \/ (p_dirty p = true /\ x < off + p_size p)) /\
    (p_dirty p = true -> off < hi).
  Definition fresh_ok (f : bytes) (off size : nat) (w : nat -> Prop) (b : buffer) : Prop :=
    length b = size /\ forall j, j < size -> nth_error b j = Some (Some (fbyte f (off + j))) \/ w j.
  Lemma prepare_spec V f hi i l off size load batch w b0 : sok V (fbyte f) hi i l -> off mod ps = 0 -> slot_of off = i -> size <= ps ->
    fresh_buffer f off size load batch = Some b0 -> (forall b, b0 = Some b -> fresh_ok f off size w b) ->
    match prepare f l off size load batch with
    | None => False
    | Some (PFail l') => Permutation l l' /\ b0 = None
    | Some (PPage rest p) => rest = del_page l off /\ nearly V (fbyte f) hi i off size w p /\
                             (b0 = None -> exists p0, get_page l off = Some p0 /\ size <= p_size p0)
    end.
  Proof.
    intros S Ho Hi Hsz Hf Hb. unfold prepare. rewrite Hf. destruct (get_page l off) as [p|] eqn:G.
    - pose proof S as (H1 & H2 & _). pose proof (get_page_some _ _ _ G) as [Hp Ep].
      rewrite Forall_forall in H1. destruct (H1 p Hp) as (A & B & C & D & E).
      destruct (Nat.ltb_spec (p_size p) size) as [Hlt|Hge].
      + destruct b0 as [b|]; [|split; auto; now apply del_perm]. destruct (Hb b eq_refl) as [Lb Nb].
        destruct (p_dirty p) eqn:Dp.
        * destruct (blit_some b 0 (p_buf p)) as (b' & -> & Lb' & Nb'); [unfold p_size in Hlt; cbn; lia|].
          split; auto. split; [|discriminate]. split; [reflexivity|]. unfold p_size in *. cbn [p_buf p_dirty]. rewrite Lb'.
          split; [lia|]. split; [|split].
          { intros j Hj. rewrite Nb'. cbn [Nat.leb andb plus]. destruct (Nat.ltb_spec j (length (p_buf p))) as [Hj'|Hj'].
            - left. rewrite D, Nat.sub_0_r, nth_error_map, range_nth by auto. cbn. now rewrite Ep.
            - destruct (Nb j ltac:(lia)) as [->|]; auto. left. do 2 f_equal.
              destruct (sok_at V (fbyte f) hi i l off p (off + j) S G) as [E1|[_ E1]].
              + apply base_at; auto. lia.
              + rewrite (slot_in off); auto. lia.
              + exact E1.
              + unfold p_size in E1. lia. }
          { intros x Hx. destruct (sok_at V (fbyte f) hi i l off p x S G Hx) as [|[_ E1]]; auto.
            - rewrite <- slot_base, Hx. exact Hi.
            - right. split; auto. unfold p_size in E1. lia. }
          { intros _. rewrite <- Ep. auto. }
        * split; auto. split; [|discriminate]. split; [reflexivity|]. unfold p_size in *. cbn [p_buf p_dirty]. rewrite Lb.
          assert (Hall : forall x, base x = off -> fbyte f x = V x).
          { intros x Hx. destruct (sok_at V (fbyte f) hi i l off p x S G Hx) as [|[E1 _]]; auto; [|congruence]. now rewrite <- slot_base, Hx. }
          split; [lia|]. split; [|split; [auto|discriminate]].
          intros j Hj. destruct (Nb j Hj) as [->|]; auto. left. rewrite Hall; auto. apply base_at; auto. lia.
      + split; auto. split; [|intros _; eauto]. split; [auto|]. split; [lia|]. split; [|split].
        * intros j Hj. left. rewrite D, nth_error_map, range_nth by auto. cbn. now rewrite Ep.
        * intros x Hx. eapply sok_at; eauto. now rewrite <- slot_base, Hx.
        * rewrite <- Ep. exact E.
    - assert (Hall : forall x, base x = off -> fbyte f x = V x).
      { intros x Hx. eapply sok_absent; eauto. now rewrite <- slot_base, Hx. }
      destruct b0 as [b|]; [|split; auto]. destruct (Hb b eq_refl) as [Lb Nb]. unfold p_size.
      split; [symmetry; apply del_absent; now apply get_page_none|]. split; [|discriminate]. split; [reflexivity|].
      unfold p_size. cbn [p_buf p_dirty]. rewrite Lb. split; [lia|]. split; [|split; [auto|discriminate]].
      intros j Hj. destruct (Nb j Hj) as [->|]; auto. left. rewrite Hall; auto. apply base_at; auto. lia.
  Qed.
  (** A page with nothing to be written over can be kept. *)
  Lemma nearly_read V F hi i l off size p : sok V F hi i l -> off mod ps = 0 -> slot_of off = i ->
    nearly V F hi i off size (fun _ => False) p -> sok V F hi i (del_page l off ++ [p]).
  Proof.
    intros S Ho Hi (E & Hs & Hb & Hx & Hd). rewrite <- E in *. apply (sok_put V V F hi hi); auto.
    repeat split; auto; [lia|]. apply list_ext. intros j. destruct (Nat.lt_ge_cases j (p_size p)) as [Hj|Hj].
    - destruct (Hb j Hj) as [->|[]]. rewrite nth_error_map, range_nth by auto. reflexivity.
    - rewrite (proj2 (nth_error_None (p_buf p) j)) by exact Hj. symmetry. apply nth_error_None. rewrite map_length, range_length. exact Hj.
  Qed.
  Lemma nearly_slice V F hi i off size p pos n : nearly V F hi i off size (fun _ => False) p -> pos + n <= size ->
    slice (p_buf p) pos n = Some (map Some (range V (off + pos) n)).
  Proof.
    intros (E & Hs & Hb & _) Hn. rewrite slice_some by (unfold p_size in Hs; lia). f_equal. apply list_ext. intros j.
    rewrite nth_firstn. destruct (Nat.ltb_spec j n) as [Hj|Hj].
    - rewrite nth_skipn. destruct (Hb (pos + j) ltac:(lia)) as [->|[]]. rewrite nth_error_map, range_nth by auto. cbn. do 3 f_equal. lia.
    - symmetry. apply nth_error_None. rewrite map_length, range_length. lia.
  Qed.
  (** A page after its bytes have been written over. *)
  Lemma nearly_write V F hi i l off size p pos d : sok V F hi i l -> off mod ps = 0 -> slot_of off = i ->
    nearly V F hi i off size (fun j => pos <= j < pos + length d) p -> pos + length d <= size ->
    exists b, blit (p_buf p) pos (map Some d) = Some b /\
      forall hi', hi <= hi' -> off < hi' -> sok (written V (off + pos) d) F hi' i (del_page l off ++ [mkPage (p_off p) b true]).
  Proof.
    intros S Ho Hi (E & Hs & Hb & Hx & Hd) Hn.
    destruct (blit_some (p_buf p) pos (map Some d)) as (b & Eb & Lb & Nb); [rewrite map_length; unfold p_size in Hs; lia|].
    rewrite map_length in Nb. exists b. split; auto. intros hi' Hh Hlt. rewrite E. change off with (p_off (mkPage off b true)) at 2.
    apply (sok_put V (written V (off + pos) d) F hi hi'); auto; cbn [p_off p_dirty].
    - unfold pok, p_size in *. cbn [p_off p_buf p_dirty]. repeat split; auto; [lia|]. apply list_ext. intros j. rewrite Nb.
      destruct (Nat.lt_ge_cases j (length b)) as [Hj|Hj].
      + rewrite (nth_error_map Some j (range _ _ _)), range_nth by auto. cbn [option_map].
        destruct (Nat.leb_spec pos j) as [H1|H1]; cbn [andb]; [destruct (Nat.ltb_spec j (pos + length d)) as [H2|H2]|].
        * rewrite nth_error_map. replace (j - pos) with (off + j - (off + pos)) by lia. rewrite (written_in V) by lia. reflexivity.
        * rewrite written_out by lia. destruct (Hb j ltac:(lia)) as [|]; [auto|lia].
        * rewrite written_out by lia. destruct (Hb j ltac:(lia)) as [|]; [auto|lia].
      + rewrite (proj2 (nth_error_None (map Some (range _ _ _)) j)) by (rewrite map_length, range_length; lia).
        destruct (Nat.leb_spec pos j); cbn [andb]; [destruct (Nat.ltb_spec j (pos + length d)); [lia|]|]; apply nth_error_None; lia.
    - intros x Hne. apply written_out. destruct (Nat.lt_ge_cases x (off + pos)); [now left|]. right.
      destruct (Nat.lt_ge_cases x (off + pos + length d)); auto. exfalso. apply Hne. apply base_in; auto. lia.
    - intros x Hbx. destruct (Nat.lt_ge_cases x (off + length b)) as [H|H]; [right; auto|]. left.
      rewrite written_out by (unfold p_size in *; lia). destruct (Hx x Hbx) as [|[_ H']]; auto. unfold p_size in H'. lia.
  Qed.

  (* ---- WritePages ---- *)
  Definition wok (V : nat -> N) (hi i : nat) (l : list page) : Prop := Forall (pok V hi i) l /\ NoDup (map p_off l).
  Lemma prev_spec V hi i l : wok V hi i l -> forall n off,
    let r := prev_pages ps n l off in
    length r * ps <= off /\ (forall q, In q r -> In q l /\ off - length r * ps <= p_off q /\ p_off q + p_size q <= off) /\
    concat (map p_buf (rev r)) = map Some (range V (off - length r * ps) (length r * ps)).
  Proof.
    intros [H1 H2]. induction n as [|n IH]; intros off r.
    - cbn in r. subst r. cbn. repeat split; auto; try lia; contradiction.
    - cbn [prev_pages] in r. destruct (Nat.ltb_spec off ps) as [Hlt|Hge].
      { subst r. cbn. repeat split; auto; try lia; contradiction. }
      destruct (get_page l (off - ps)) as [q|] eqn:G; [|subst r; cbn; repeat split; auto; try lia; contradiction].
      destruct (negb (p_dirty q) || negb (p_size q =? ps)) eqn:T; [subst r; cbn; repeat split; auto; try lia; contradiction|].
      apply orb_false_iff in T as [_ T]. apply negb_false_iff, Nat.eqb_eq in T.
      destruct (IH (off - ps)) as (A & B & C). set (r' := prev_pages ps n l (off - ps)) in *. subst r.
      apply get_page_some in G as [Gi Ge]. rewrite Forall_forall in H1. destruct (H1 q Gi) as (Q1 & Q2 & Q3 & Q4 & Q5).
      cbn [length]. split; [lia|]. split.
      + intros p [<-|Hp]; [split; auto; lia|]. destruct (B p Hp) as (B1 & B2 & B3). split; auto. lia.
      + cbn [rev]. rewrite map_app, concat_app, C. cbn [map concat]. rewrite app_nil_r, Q4, Ge, T, <- map_app. f_equal.
        replace (S (length r') * ps) with (length r' * ps + ps) by lia. rewrite range_app. f_equal; [f_equal; lia|f_equal; lia].
  Qed.
  Lemma next_spec V hi i l : wok V hi i l -> forall n off,
    let r := next_pages ps n l off in exists len,
    (forall q, In q r -> In q l /\ off + ps <= p_off q /\ p_off q + p_size q <= off + ps + len) /\
    concat (map p_buf r) = map Some (range V (off + ps) len).
  Proof.
    intros [H1 H2]. induction n as [|n IH]; intros off r.
    - subst r. exists 0. cbn. split; auto. contradiction.
    - cbn [next_pages] in r. destruct (get_page l (off + ps)) as [q|] eqn:G; [|subst r; exists 0; cbn; split; auto; contradiction].
      destruct (negb (p_dirty q)); [subst r; exists 0; cbn; split; auto; contradiction|].
      apply get_page_some in G as [Gi Ge]. rewrite Forall_forall in H1. destruct (H1 q Gi) as (Q1 & Q2 & Q3 & Q4 & Q5).
      destruct (Nat.eqb_spec (p_size q) ps) as [T|T]; cbn [negb] in r.
      + destruct (IH (off + ps)) as (len & B & C). set (r' := next_pages ps n l (off + ps)) in *. subst r. exists (ps + len). split.
        * intros p [<-|Hp]; [split; auto; lia|]. destruct (B p Hp) as (B1 & B2 & B3). split; auto. lia.
        * cbn [map concat]. rewrite C, Q4, Ge, T, <- map_app, <- range_app. reflexivity.
      + subst r. exists (p_size q). split.
        * intros p [<-|[]]. split; auto. lia.
        * cbn [map concat]. rewrite app_nil_r, Q4, Ge at 1. reflexivity.
  Qed.
  Definition same_shape (l l' : list page) : Prop :=
    map p_off l' = map p_off l /\ forall p', In p' l' -> exists p, In p l /\ p_off p' = p_off p /\ p_buf p' = p_buf p /\ (p_dirty p' = true -> p_dirty p = true).
  Lemma same_refl l : same_shape l l.
  Proof. split; auto. intros p Hp. exists p. auto. Qed.
  Lemma same_trans a b c : same_shape a b -> same_shape b c -> same_shape a c.
  Proof.
    intros [E1 H1] [E2 H2]. split; [congruence|]. intros p Hp. destruct (H2 p Hp) as (q & Hq & A & B & C).
    destruct (H1 q Hq) as (r & Hr & A' & B' & C'). exists r. repeat split; auto; congruence.
  Qed.
  Lemma write_pages_spec V f hi i l p : sok V (fbyte f) hi i l -> In p l ->
    exists l' f', write_pages ps f l p = Some (l', f') /\ sok V (fbyte f') hi i l' /\
      (forall x, fbyte f' x = fbyte f x \/ fbyte f' x = V x) /\ same_shape l l' /\
      (forall p', In p' l' -> p_off p' = p_off p -> p_dirty p' = false) /\ length f <= length f'.
  Proof.
    intros S Hp. pose proof S as (H1 & H2 & H3). unfold write_pages.
    pose proof (prev_spec V hi i l (conj H1 H2) 16 (p_off p)) as (A & B & C). cbv zeta in A, B, C.
    set (pv := prev_pages ps 16 l (p_off p)) in *.
    assert (HF := H1). rewrite Forall_forall in HF. destruct (HF p Hp) as (Q1 & Q2 & Q3 & Q4 & Q5).
    set (nx := if p_size p =? ps then next_pages ps 16 l (p_off p) else []).
    assert (Hn : exists len, (forall q, In q nx -> In q l /\ p_off p <= p_off q /\ p_off q + p_size q <= p_off p + p_size p + len) /\
      concat (map p_buf nx) = map Some (range V (p_off p + p_size p) len)).
    { unfold nx. destruct (Nat.eqb_spec (p_size p) ps) as [T|T].
      - destruct (next_spec V hi i l (conj H1 H2) 16 (p_off p)) as (len & B1 & C1). exists len. rewrite T. split; auto.
        intros q Hq. destruct (B1 q Hq) as (X & Y & Z). split; auto. lia.
      - exists 0. split; [contradiction|reflexivity]. }
    destruct Hn as (len & Bn & Cn). set (st := p_off p - length pv * ps) in *.
    set (run := rev pv ++ p :: nx).
    assert (Ec : concat (map p_buf run) = map Some (range V st (length pv * ps + (p_size p + len)))).
    { unfold run. rewrite map_app, concat_app, C. cbn [map concat]. rewrite Cn, Q4, !range_app, !map_app.
      replace (st + length pv * ps) with (p_off p) by (unfold st; lia). reflexivity. }
    rewrite Ec, all_set_map. set (tot := length pv * ps + (p_size p + len)) in *.
    exists (map (clean (map p_off run)) l), (pwrite f st (range V st tot)). split; [reflexivity|].
    assert (Hrun : forall q, In q run -> In q l /\ st <= p_off q /\ p_off q + p_size q <= st + tot).
    { intros q Hq. apply in_app_or in Hq as [Hq|[<-|Hq]].
      - apply in_rev in Hq. destruct (B q Hq) as (X & Y & Z). split; auto. unfold tot, st. lia.
      - split; auto. unfold tot, st. lia.
      - destruct (Bn q Hq) as (X & Y & Z). split; auto. unfold tot, st. lia. }
    assert (Hbyte : forall x, fbyte (pwrite f st (range V st tot)) x = if (st <=? x) && (x <? st + tot) then V x else fbyte f x).
    { intros x. rewrite pwrite_spec. unfold written. rewrite range_length. destruct ((st <=? x) && (x <? st + tot)) eqn:E; auto.
      apply andb_prop in E as [E1 E2]. apply Nat.leb_le in E1. apply Nat.ltb_lt in E2.
      rewrite (nth_error_nth _ _ _ (range_nth V st tot (x - st) ltac:(lia))). f_equal. lia. }
    assert (Hoff : forall q, p_off (clean (map p_off run) q) = p_off q) by (intros q; unfold clean; destruct (existsb _ _); reflexivity).
    assert (Hbuf : forall q, p_buf (clean (map p_off run) q) = p_buf q) by (intros q; unfold clean; destruct (existsb _ _); reflexivity).
    assert (Hd : forall q, p_dirty (clean (map p_off run) q) = true -> p_dirty q = true /\ ~ In (p_off q) (map p_off run)).
    { intros q. unfold clean. destruct (existsb (Nat.eqb (p_off q)) (map p_off run)) eqn:E; cbn; [discriminate|]. intros D. split; auto.
      intros Hi. assert (existsb (Nat.eqb (p_off q)) (map p_off run) = true); [|congruence]. apply existsb_exists. exists (p_off q). split; auto. apply Nat.eqb_refl. }
    assert (Emap : map p_off (map (clean (map p_off run)) l) = map p_off l) by (rewrite map_map; apply map_ext; auto).
    split; [|split; [|split; [|split; [|apply pwrite_length]]]].
    - split; [|split].
      + apply Forall_forall. intros q Hq. apply in_map_iff in Hq as (r & <- & Hr). destruct (HF r Hr) as (R1 & R2 & R3 & R4 & R5).
        unfold pok, p_size in *. rewrite Hoff, Hbuf. repeat split; auto. intros D. apply R5. now apply Hd in D.
      + now rewrite Emap.
      + intros x Hx. rewrite Hbyte. destruct ((st <=? x) && (x <? st + tot)) eqn:E; [now left|].
        destruct (H3 x Hx) as [|(q & Hq & Eq & Dq & Lq)]; auto. right. exists (clean (map p_off run) q).
        split; [now apply in_map|]. rewrite Hoff. split; auto. unfold p_size. rewrite Hbuf. split; auto.
        unfold clean. destruct (existsb (Nat.eqb (p_off q)) (map p_off run)) eqn:T; auto. exfalso.
        apply existsb_exists in T as (o & Ho & Eo). apply Nat.eqb_eq in Eo. apply in_map_iff in Ho as (r & Er & Hr).
        destruct (Hrun r Hr) as (R1 & R2 & R3).
        assert (r = q) as ->.
        { pose proof (get_page_in l r H2 R1) as G1. pose proof (get_page_in l q H2 Hq) as G2. rewrite Er, <- Eo, G2 in G1. congruence. }
        destruct (base_spec x). apply andb_false_iff in E as [E|E]; [apply Nat.leb_gt in E|apply Nat.ltb_ge in E]; lia.
    - intros x. rewrite Hbyte. destruct ((st <=? x) && (x <? st + tot)); auto.
    - split; [now rewrite Emap|]. intros q Hq. apply in_map_iff in Hq as (r & <- & Hr). exists r. split; auto. rewrite Hoff, Hbuf. repeat split; auto.
      intros D. now apply Hd in D.
    - intros q Hq Eq. apply in_map_iff in Hq as (r & <- & Hr). destruct (p_dirty (clean (map p_off run) r)) eqn:D; auto.
      apply Hd in D as [_ D]. exfalso. apply D. rewrite Hoff in Eq. rewrite Eq. apply in_map. unfold run. apply in_or_app. right. now left.
  Qed.

  (* ---- ReduceCache ---- *)
  Lemma sok_drop V F hi i l off : sok V F hi i l -> (forall p, In p l -> p_off p = off -> p_dirty p = false) -> sok V F hi i (del_page l off).
  Proof.
    intros (H1 & H2 & H3) Hc. split; [|split; [now apply del_nodup|]].
    - apply Forall_forall. intros q Hq. apply in_del in Hq as [Hq _]. rewrite Forall_forall in H1. auto.
    - intros x Hx. destruct (H3 x Hx) as [|(q & Hq & Eq & Dq & Lq)]; auto. right. exists q. split; auto. apply in_del. split; auto.
      intros E. rewrite (Hc q Hq E) in Dq. discriminate.
  Qed.
  Lemma del_length l p : NoDup (map p_off l) -> In p l -> S (length (del_page l (p_off p))) = length l.
  Proof.
    intros N Hp. rewrite (Permutation_length (del_perm l (p_off p) p N (get_page_in l p N Hp))), app_length. cbn. lia.
  Qed.
  Lemma reduce_loop_spec V hi i n : forall f l, sok V (fbyte f) hi i l -> n <= length l ->
    exists l' f', reduce_loop ps n f l = Some (l', f') /\ sok V (fbyte f') hi i l' /\
      (forall x, fbyte f' x = fbyte f x \/ fbyte f' x = V x) /\ length l' = length l - n /\ length f <= length f'.
  Proof.
    induction n as [|n IH]; intros f l S Hn; cbn [reduce_loop].
    - exists l, f. split; auto. split; auto. split; auto. lia.
    - destruct l as [|p r]; [cbn in Hn; lia|]. set (l := p :: r) in *. assert (Hp : In p l) by now left.
      assert (Hw : exists l1 f1, (if p_dirty p then write_pages ps f l p else Some (l, f)) = Some (l1, f1) /\ sok V (fbyte f1) hi i l1 /\
        (forall x, fbyte f1 x = fbyte f x \/ fbyte f1 x = V x) /\ map p_off l1 = map p_off l /\
        (forall p', In p' l1 -> p_off p' = p_off p -> p_dirty p' = false) /\ length f <= length f1).
      { destruct (p_dirty p) eqn:D.
        - destruct (write_pages_spec V f hi i l p S Hp) as (l1 & f1 & E & S1 & B & [M _] & C & Lf). exists l1, f1. auto 10.
        - exists l, f. do 4 (split; auto). split; [|lia]. intros q Hq Eq. destruct S as (_ & N & _).
          pose proof (get_page_in l q N Hq) as G. rewrite Eq, (get_page_in l p N Hp) in G. injection G as <-. exact D. }
      destruct Hw as (l1 & f1 & -> & S1 & B & M & C & Lf).
      assert (Hl : length (del_page l1 (p_off p)) + 1 = length l).
      { assert (Hin : In (p_off p) (map p_off l1)) by (rewrite M; now apply in_map). apply in_map_iff in Hin as (q & Eq & Hq).
        pose proof (del_length l1 q ltac:(apply S1) Hq) as Hd. rewrite Eq in Hd. rewrite <- (map_length p_off l), <- M, map_length. lia. }
      destruct (IH f1 (del_page l1 (p_off p))) as (l' & f' & -> & S' & B' & L' & Lf'); [now apply sok_drop|lia|].
      exists l', f'. split; auto. split; auto. split; [|split; lia].
      intros x. destruct (B' x) as [->| ->]; auto.
  Qed.
  Lemma reduce_spec V hi i f l : sok V (fbyte f) hi i l ->
    exists l' f', reduce ps cap f l = Some (l', f') /\ sok V (fbyte f') hi i l' /\
      (forall x, fbyte f' x = fbyte f x \/ fbyte f' x = V x) /\ length l' <= cap /\ length f <= length f'.
  Proof.
    intros S. destruct (reduce_loop_spec V hi i (length l - cap) f l S ltac:(lia)) as (l' & f' & E & S' & B & L & Lf).
    exists l', f'. unfold reduce. rewrite E. do 3 (split; auto). lia.
  Qed.
  (* ---- Flush of one slot ---- *)
  Lemma flush_slot_spec V hi i want offs : forall f l, sok V (fbyte f) hi i l -> (forall o, In o offs -> In o (map p_off l)) ->
    exists l' f', flush_slot ps offs want f l = Some (l', f') /\ sok V (fbyte f') hi i l' /\
      (forall x, fbyte f' x = fbyte f x \/ fbyte f' x = V x) /\ same_shape l l' /\
      (forall p, In p l' -> In (p_off p) offs -> want (p_off p) = true -> p_dirty p = false) /\ length f <= length f'.
  Proof.
    induction offs as [|o offs IH]; intros f l S Ho; cbn [flush_slot].
    - exists l, f. do 3 (split; auto). split; [apply same_refl|]. split; [contradiction|auto].
    - assert (Hin : In o (map p_off l)) by (apply Ho; now left). apply in_map_iff in Hin as (p & Ep & Hp).
      pose proof (get_page_in l p (proj1 (proj2 S)) Hp) as G. rewrite Ep in G. rewrite G.
      assert (Hw : exists l1 f1, (if p_dirty p && want o then write_pages ps f l p else Some (l, f)) = Some (l1, f1) /\ sok V (fbyte f1) hi i l1 /\
        (forall x, fbyte f1 x = fbyte f x \/ fbyte f1 x = V x) /\ same_shape l l1 /\
        (forall p', In p' l1 -> p_off p' = o -> want o = true -> p_dirty p' = false) /\ length f <= length f1).
      { destruct (p_dirty p && want o) eqn:D.
        - destruct (write_pages_spec V f hi i l p S Hp) as (l1 & f1 & E & S1 & B & M & C & Lf). exists l1, f1. rewrite Ep in C. auto 10.
        - exists l, f. do 3 (split; auto). split; [apply same_refl|]. split; [|lia]. intros q Hq Eq W. rewrite W, andb_true_r in D.
          pose proof (get_page_in l q (proj1 (proj2 S)) Hq) as G'. rewrite Eq, G in G'. injection G' as <-. exact D. }
      destruct Hw as (l1 & f1 & E & S1 & B & M & C & Lf).
      assert (Hgo : flush_slot ps offs want f1 l1 = (if p_dirty p && want o
        then match write_pages ps f l p with Some (l', f') => flush_slot ps offs want f' l' | None => None end
        else flush_slot ps offs want f l)).
      { destruct (p_dirty p && want o); [now rewrite E|]. injection E as <- <-. reflexivity. }
      rewrite <- Hgo. destruct (IH f1 l1 S1) as (l' & f' & -> & S' & B' & M' & C' & Lf').
      { intros o' Ho'. rewrite (proj1 M). apply Ho. now right. }
      exists l', f'. do 2 (split; auto). split; [intros x; destruct (B' x) as [->| ->]; auto|]. split; [eapply same_trans; eauto|].
      split; [|lia]. intros q Hq [Eq|Hq'] W; [|now apply C'].
      destruct (p_dirty q) eqn:Dq; auto. destruct (proj2 M' q Hq) as (r & Hr & A1 & _ & A3).
      specialize (A3 Dq). rewrite (C r Hr) in A3; [discriminate|congruence|congruence].
  Qed.

  (* ---- the whole cache ---- *)
  Definition inv (V : nat -> N) (hi : nat) (s : pcache) : Prop :=
    length (pc_slots s) = 16 /\ forall i, i < 16 -> sok V (fbyte (pc_file s)) hi i (get_slot s i).
  Lemma set_nth_length i l ss : length (set_nth i l ss) = length ss.
  Proof. revert i; induction ss as [|x ss IH]; intros [|i]; cbn; auto. Qed.
  Lemma nth_set_nth i l ss j : i < length ss -> nth j (set_nth i l ss) [] = if j =? i then l else nth j ss [].
  Proof.
    revert i j; induction ss as [|x ss IH]; intros [|i] [|j] H; cbn in *; try lia; auto. apply IH. lia.
  Qed.
  Lemma set_nth_twice i l l' ss : set_nth i l' (set_nth i l ss) = set_nth i l' ss.
  Proof. revert i; induction ss as [|x ss IH]; intros [|i]; cbn; f_equal; auto. Qed.
  Lemma get_set s i l f j : length (pc_slots s) = 16 -> i < 16 -> get_slot (set_slot s i l f) j = if j =? i then l else get_slot s j.
  Proof. intros H Hi. unfold get_slot, set_slot. cbn. apply nth_set_nth. lia. Qed.
  Lemma inv_set V V' hi hi' s i l f : inv V hi s -> i < 16 -> hi <= hi' -> sok V' (fbyte f) hi' i l ->
    (forall x, fbyte f x = fbyte (pc_file s) x \/ fbyte f x = V x) -> (forall x, slot_of x <> i -> V' x = V x) ->
    inv V' hi' (set_slot s i l f).
  Proof.
    intros [H1 H2] Hi Hh S B E. split; [unfold set_slot; cbn; now rewrite set_nth_length|]. intros j Hj. rewrite get_set by auto.
    cbn [pc_file set_slot]. destruct (Nat.eqb_spec j i) as [->|Ne]; auto.
    apply (sok_ext V V' _ hi hi'); auto; [intros x Hx; apply E; congruence|]. eapply sok_better; [|apply H2, Hj]. exact B.
  Qed.
  Lemma inv_ext V V' hi hi' s : (forall x, V' x = V x) -> hi <= hi' -> inv V hi s -> inv V' hi' s.
  Proof. intros E Hh [H1 H2]. split; auto. intros i Hi. apply (sok_ext V V' _ hi hi'); auto. Qed.

  (* ---- requests ---- *)
  Inductive chain : nat -> nat -> list req -> Prop :=
  | chain_nil off : chain off 0 []
  | chain_cons off size r rs : r_off r + r_pre r = off -> r_off r mod ps = 0 -> r_pre r < ps -> 0 < r_pre r + r_copy r -> r_pre r + r_copy r <= r_data r -> r_data r <= ps ->
      r_copy r <= size -> (rs = [] -> r_copy r = size) -> (rs <> [] -> r_pre r + r_copy r = ps) ->
      chain (off + r_copy r) (size - r_copy r) rs -> chain off size (r :: rs).
  Lemma whole_chain region : forall fuel off size, size <= fuel -> off mod ps = 0 -> chain off size (whole_requests ps fuel region off size).
  Proof.
    induction fuel as [|n IH]; intros off size Hf Ho; cbn [whole_requests].
    - replace size with 0 by lia. constructor.
    - destruct (Nat.ltb_spec 0 size) as [Hs|Hs]; [|replace size with 0 by lia; constructor].
      assert (Hnext : size - Nat.min size ps <> 0 -> (off + Nat.min size ps) mod ps = 0 /\ Nat.min size ps = ps).
      { intros H. assert (Nat.min size ps = ps) as -> by lia. split; auto. rewrite <- Nat.add_mod_idemp_r, Nat.mod_same, Nat.add_0_r by lia. exact Ho. }
      constructor; cbn [r_off r_pre r_data r_copy]; auto; try lia.
      + intros E. destruct (Nat.eq_dec (size - Nat.min size ps) 0); [lia|]. exfalso.
        destruct n; [lia|]. cbn [whole_requests] in E. rewrite (proj2 (Nat.ltb_lt _ _)) in E by lia. discriminate.
      + intros E. destruct (Nat.eq_dec (size - Nat.min size ps) 0) as [Z|Z]; [|now destruct (Hnext Z)].
        exfalso. apply E. rewrite Z. destruct n; reflexivity.
      + destruct (Nat.eq_dec (size - Nat.min size ps) 0) as [Z|Z].
        * rewrite Z. replace (whole_requests ps n region (off + Nat.min size ps) 0) with (@nil req) by (destruct n; reflexivity). constructor.
        * apply IH; [lia|]. now destruct (Hnext Z).
  Qed.
  Lemma make_chain region off size : chain off size (make_requests ps region off size).
  Proof.
    unfold make_requests. pose proof (base_spec off) as [B1 B2]. unfold base in *.
    pose proof (Nat.mod_upper_bound off ps ltac:(lia)) as Hm. pose proof (Nat.mod_le off ps ltac:(lia)) as Hle.
    destruct (Nat.ltb_spec 0 (off mod ps)) as [Hr|Hr]; [|apply whole_chain; lia].
    set (rem := off mod ps) in *. set (c := Nat.min size (ps - rem)).
    assert (Hnext : size - c <> 0 -> (off + c) mod ps = 0 /\ rem + c = ps).
    { intros H. unfold c in *. assert (Nat.min size (ps - rem) = ps - rem) as -> by lia. split; [|lia].
      replace (off + (ps - rem)) with (off - rem + ps) by lia. rewrite <- Nat.add_mod_idemp_r, Nat.mod_same, Nat.add_0_r by lia. exact B1. }
    constructor; cbn [r_off r_pre r_data r_copy]; auto; try (unfold c; lia).
    - intros E. destruct (Nat.eq_dec (size - c) 0); [unfold c in *; lia|]. exfalso.
      destruct size; [unfold c in *; lia|]. cbn [whole_requests] in E. rewrite (proj2 (Nat.ltb_lt _ _)) in E by (unfold c in *; lia). discriminate.
    - intros E. destruct (Nat.eq_dec (size - c) 0) as [Z|Z]; [|now destruct (Hnext Z)].
      exfalso. apply E. rewrite Z. destruct size; reflexivity.
    - destruct (Nat.eq_dec (size - c) 0) as [Z|Z].
      + rewrite Z. replace (whole_requests ps size region (off + c) 0) with (@nil req) by (destruct size; reflexivity). constructor.
      + apply whole_chain; [lia|]. now destruct (Hnext Z).
  Qed.
  (** The array of requests is long enough, tkrzw_file_util.cc:965-967. *)
  Lemma whole_count region : forall fuel off size, size <= fuel -> length (whole_requests ps fuel region off size) <= size / ps + (if size mod ps =? 0 then 0 else 1).
  Proof.
    induction fuel as [|n IH]; intros off size Hf; cbn [whole_requests]; [apply Nat.le_0_l|].
    destruct (Nat.ltb_spec 0 size) as [Hs|Hs]; [|apply Nat.le_0_l]. cbn [length].
    destruct (Nat.le_gt_cases ps size) as [H|H].
    - replace (Nat.min size ps) with ps by lia. specialize (IH (off + ps) (size - ps) ltac:(lia)).
      assert (Es : size = (size - ps) + 1 * ps) by lia.
      assert (D : size / ps = S ((size - ps) / ps)) by (rewrite Es at 1; rewrite Nat.div_add by lia; lia).
      assert (M : size mod ps = (size - ps) mod ps) by (rewrite Es at 1; apply Nat.mod_add; lia).
      rewrite D, M. lia.
    - replace (Nat.min size ps) with size by lia. rewrite Nat.sub_diag. rewrite (Nat.div_small size ps) by auto. rewrite (Nat.mod_small size ps) by auto.
      destruct (Nat.eqb_spec size 0); [lia|]. destruct n; cbn [whole_requests Nat.ltb Nat.leb length]; lia.
  Qed.
  Lemma make_count region off size : length (make_requests ps region off size) <= size / ps + 2.
  Proof.
    unfold make_requests. destruct (0 <? off mod ps).
    - cbn [length]. set (c := Nat.min size (ps - off mod ps)).
      assert (G : forall fuel o n, n <= fuel -> length (whole_requests ps fuel region o n) <= n / ps + 1).
      { intros fuel o n H. pose proof (whole_count region fuel o n H). destruct (n mod ps =? 0); lia. }
      specialize (G size (off + c) (size - c) ltac:(lia)). assert ((size - c) / ps <= size / ps) by (apply Nat.div_le_mono; lia). lia.
    - pose proof (whole_count region size off size (le_n _)). destruct (size mod ps =? 0); lia.
  Qed.

  (* ---- facts about the requests ---- *)
  Fixpoint alen (rs : list req) : nat := match rs with [] => 0 | r :: rs' => r_data r + alen rs' end.
  Lemma chain_tail off size r rs : chain off size (r :: rs) -> chain (off + r_copy r) (size - r_copy r) rs.
  Proof. intros H. now inversion H. Qed.
  Lemma chain_next off size r r' rs : chain off size (r :: r' :: rs) -> r_off r' = r_off r + ps /\ r_pre r' = 0 /\ r_data r = ps.
  Proof.
    intros H. inversion H as [|? ? ? ? A1 A2 A3 A3' A4 A5 A6 A7 A8 A9]; subst. specialize (A8 ltac:(discriminate)).
    inversion A9 as [|? ? ? ? B1 B2 B3 B3' B4 B5 B6 B7 B8 B9]; subst.
    assert (E : r_off r' + r_pre r' = r_off r + ps) by lia.
    assert (M : (r_off r + ps) mod ps = 0) by (rewrite <- Nat.add_mod_idemp_r, Nat.mod_same, Nat.add_0_r by lia; exact A2).
    assert (M' : (r_off r' + r_pre r') mod ps = r_pre r') by (rewrite <- Nat.add_mod_idemp_l, B2 by lia; cbn; apply Nat.mod_small; lia).
    rewrite E, M in M'. lia.
  Qed.
  Lemma last_cons {T} (a b : T) l d : last (a :: b :: l) d = last (b :: l) d.
  Proof. reflexivity. Qed.
  Lemma last_default {T} (a : T) l d d' : last (a :: l) d = last (a :: l) d'.
  Proof. revert a; induction l as [|b l IH]; intros a; [reflexivity|]. rewrite !last_cons. apply IH. Qed.
  Lemma chain_last rs : forall off size r d, chain off size (r :: rs) -> let z := last (r :: rs) d in
    r_off z + r_data z = r_off r + alen (r :: rs) /\ r_off z mod ps = 0 /\ r_data z <= ps /\
    exists k, off + size = r_off z + k /\ 0 < k <= ps.
  Proof.
    induction rs as [|r' rs IH]; intros off size r d H.
    - cbn. inversion H as [|? ? ? ? A1 A2 A3 A3' A4 A5 A6 A7 A8 A9]; subst. specialize (A7 eq_refl).
      split; [lia|]. split; auto. split; auto. exists (r_pre r + r_copy r). lia.
    - pose proof (chain_next _ _ _ _ _ H) as (N1 & N2 & N3). pose proof (chain_tail _ _ _ _ H) as T.
      inversion H as [|? ? ? ? A1 A2 A3 A3' A4 A5 A6 A7 A8 A9]; subst.
      rewrite last_cons. destruct (IH _ _ _ d T) as (I1 & I2 & I3 & k & I4 & I5). cbv zeta. split; [rewrite I1; cbn [alen]; lia|].
      split; auto. split; auto. exists k. lia.
  Qed.
  Lemma area_alen off size rs : chain off size rs -> area_size rs = alen rs.
  Proof.
    intros H. destruct rs as [|r rs]; [reflexivity|]. unfold area_size. destruct (chain_last rs off size r r H) as (E & _). cbv zeta in E. rewrite E. lia.
  Qed.
  Lemma align_at o k : o mod ps = 0 -> 0 < k <= ps -> align ps (o + k) = o + ps.
  Proof.
    intros Ho Hk. unfold align. destruct (Nat.eq_dec k ps) as [->|Ne].
    - replace ((o + ps) mod ps) with 0; [reflexivity|]. rewrite <- Nat.add_mod_idemp_r, Nat.mod_same, Nat.add_0_r by lia. auto.
    - rewrite <- Nat.add_mod_idemp_l, Ho by lia. cbn. rewrite Nat.mod_small by lia. destruct (Nat.eqb_spec k 0); lia.
  Qed.
  Lemma chain_end off size r rs : chain off size (r :: rs) -> r_off r + alen (r :: rs) <= align ps (off + size).
  Proof.
    intros H. destruct (chain_last rs off size r r H) as (E & M & D & k & K1 & K2). cbv zeta in *. rewrite <- E, K1, align_at by auto. lia.
  Qed.
  (** The area of a batch: right, apart from the bytes that are about to be written over. *)
  Fixpoint aok (w : req -> nat -> Prop) (f : bytes) (rs : list req) (area : buffer) : Prop :=
    match rs with
    | [] => True
    | r :: rs' => r_data r <= length area /\ fresh_ok f (r_off r) (r_data r) (w r) (firstn (r_data r) area) /\ aok w f rs' (skipn (r_data r) area)
    end.
  Definition wr (r : req) (j : nat) : Prop := r_pre r <= j < r_pre r + r_copy r.
  Lemma aok_range w f rs : forall off size, chain off size rs ->
    aok w f rs (map Some (match rs with [] => [] | r :: _ => range (fbyte f) (r_off r) (alen rs) end)).
  Proof.
    induction rs as [|r rs IH]; intros off size H; cbn [aok]; auto.
    split; [rewrite map_length, range_length; cbn [alen]; lia|]. split.
    - split; [rewrite firstn_length, map_length, range_length; cbn [alen]; lia|]. intros j Hj. left.
      rewrite nth_firstn, (proj2 (Nat.ltb_lt _ _) Hj), nth_error_map, range_nth by (cbn [alen]; lia). reflexivity.
    - cbn [alen]. rewrite range_app, map_app, skipn_app, skipn_all2, map_length, range_length, Nat.sub_diag by (rewrite map_length, range_length; lia).
      cbn [app skipn]. destruct rs as [|r' rs]; [exact I|]. destruct (chain_next _ _ _ _ _ H) as (N1 & _ & N3). rewrite N3, <- N1.
      apply (IH _ _ (chain_tail _ _ _ _ H)).
  Qed.
  Lemma fresh_unset f off r : r_pre r = 0 -> r_copy r = r_data r -> fresh_ok f off (r_data r) (wr r) (repeat None (r_data r)).
  Proof. intros H1 H2. split; [apply repeat_length|]. intros j Hj. right. unfold wr. lia. Qed.
  Lemma aok_unset f rs : forall off size, chain off size rs -> (forall r, In r rs -> r_pre r = 0 /\ r_copy r = r_data r) ->
    aok wr f rs (repeat None (alen rs)).
  Proof.
    induction rs as [|r rs IH]; intros off size H Hf; cbn [aok]; auto. cbn [alen]. rewrite repeat_app.
    destruct (Hf r (or_introl eq_refl)) as [F1 F2]. split; [rewrite app_length, repeat_length; lia|].
    rewrite firstn_app, skipn_app, firstn_all2, skipn_all2, repeat_length, Nat.sub_diag by (rewrite repeat_length; lia).
    cbn [firstn skipn app]. rewrite app_nil_r. split; [now apply fresh_unset|].
    apply (IH _ _ (chain_tail _ _ _ _ H)). intros r' Hr'. apply Hf. now right.
  Qed.
  Lemma aok_mixed f rs : forall off size, chain off size rs ->
    let skip := full_bytes ps rs (alen rs) in
    skip <= alen rs /\ aok wr f rs (repeat None skip ++ map Some (match rs with [] => [] | r :: _ => range (fbyte f) (r_off r + skip) (alen rs - skip) end)).
  Proof.
    induction rs as [|r rs IH]; intros off size H; cbv zeta; [split; [cbn; lia|exact I]|].
    cbn [full_bytes]. destruct ((r_copy r =? ps) && (ps <=? alen (r :: rs))) eqn:T.
    - apply andb_prop in T as [T1 T2]. apply Nat.eqb_eq in T1. apply Nat.leb_le in T2.
      inversion H as [|? ? ? ? A1 A2 A3 A3' A4 A5 A6 A7 A8 A9]; subst. assert (D : r_data r = ps) by lia. assert (P : r_pre r = 0) by lia.
      destruct (IH _ _ A9) as [I1 I2]. cbn [alen] in *. rewrite D in *. replace (ps + alen rs - ps) with (alen rs) by lia.
      set (sk := full_bytes ps rs (alen rs)) in *. split; [lia|]. rewrite repeat_app, <- app_assoc. cbn [aok]. rewrite D.
      split; [rewrite app_length, repeat_length; lia|].
      rewrite firstn_app, skipn_app, firstn_all2, skipn_all2, repeat_length, Nat.sub_diag by (rewrite repeat_length; lia).
      cbn [firstn skipn app]. rewrite app_nil_r. split; [pose proof (fresh_unset f (r_off r) r P ltac:(lia)) as X; rewrite D in X; exact X|].
      replace (ps + alen rs - (ps + sk)) with (alen rs - sk) by lia. destruct rs as [|r' rs]; [exact I|].
      destruct (chain_next _ _ _ _ _ H) as (N1 & _ & _). rewrite Nat.add_assoc, <- N1. exact I2.
    - split; [lia|]. cbn [repeat app]. rewrite Nat.add_0_r, Nat.sub_0_r. apply (aok_range wr f (r :: rs) off size H).
  Qed.
  Lemma aligned_full rs : forall off size, chain off size rs -> off mod ps = 0 -> size mod ps = 0 ->
    forall r, In r rs -> r_pre r = 0 /\ r_copy r = r_data r.
  Proof.
    induction rs as [|r rs IH]; intros off size H Ho Hs r0; [contradiction|].
    inversion H as [|? ? ? ? A1 A2 A3 A3' A4 A5 A6 A7 A8 A9]; subst.
    assert (M' : (r_off r + r_pre r) mod ps = r_pre r) by (rewrite <- Nat.add_mod_idemp_l, A2 by lia; cbn; apply Nat.mod_small; lia).
    rewrite Ho in M'. assert (C : r_copy r = ps).
    { destruct rs as [|r' rs]; [|specialize (A8 ltac:(discriminate)); lia]. specialize (A7 eq_refl). rewrite <- A7 in Hs.
      destruct (Nat.eq_dec (r_copy r) ps); auto. rewrite Nat.mod_small in Hs by lia. lia. }
    intros [<-|Hr]; [lia|]. eapply IH; [exact A9| | |exact Hr].
    - rewrite C, <- Nat.add_mod_idemp_r, Nat.mod_same, Nat.add_0_r by lia. exact Ho.
    - rewrite C in *. replace size with (size - ps + 1 * ps) in Hs by lia. now rewrite Nat.mod_add in Hs by lia.
  Qed.

  (* ---- Read ---- *)
  Definition sizes (s s' : pcache) : Prop := forall i, length (get_slot s' i) = length (get_slot s i).
  Lemma sizes_move s i l f : length (pc_slots s) = 16 -> i < 16 -> length l = length (get_slot s i) -> sizes s (set_slot s i l f).
  Proof. intros H Hi Hl j. rewrite get_set by auto. destruct (Nat.eqb_spec j i) as [->|]; auto. Qed.
  Lemma sizes_trans a b c : sizes a b -> sizes b c -> sizes a c.
  Proof. intros H1 H2 i. now rewrite H2. Qed.
  Lemma inv_move V hi s i off p : inv V hi s -> i < 16 -> get_page (get_slot s i) off = Some p ->
    inv V hi (set_slot s i (del_page (get_slot s i) off ++ [p]) (pc_file s)) /\
    sizes s (set_slot s i (del_page (get_slot s i) off ++ [p]) (pc_file s)).
  Proof.
    intros [L H] Hi G. pose proof (del_perm _ _ _ (proj1 (proj2 (H i Hi))) G) as P. split.
    - apply (inv_set V V hi hi); auto; [now split|]. eapply sok_perm; [exact P|]. auto.
    - apply sizes_move; auto. symmetry. now apply Permutation_length.
  Qed.
  Lemma page_slice V F hi i l off p pos n : sok V F hi i l -> get_page l off = Some p -> pos + n <= p_size p ->
    slice (p_buf p) pos n = Some (map Some (range V (off + pos) n)).
  Proof.
    intros (H1 & _ & _) G Hn. apply get_page_some in G as [Gi Ge]. rewrite Forall_forall in H1. destruct (H1 p Gi) as (_ & _ & _ & D & _).
    rewrite slice_some by exact Hn. f_equal. apply list_ext. intros j. rewrite nth_firstn. destruct (Nat.ltb_spec j n) as [Hj|Hj].
    - rewrite nth_skipn, D, !nth_error_map, !range_nth by lia. cbn. do 3 f_equal. lia.
    - symmetry. apply nth_error_None. rewrite map_length, range_length. lia.
  Qed.
  Lemma read_hits_spec V hi rs : forall s off size acc, inv V hi s -> chain off size rs ->
    exists rs' s' n, read_hits ps rs s acc = Some (rs', s', acc ++ map Some (range V off n)) /\ n <= size /\ chain (off + n) (size - n) rs' /\
      inv V hi s' /\ sizes s s' /\ pc_file s' = pc_file s /\ pc_region s' = pc_region s.
  Proof.
    induction rs as [|r rs IH]; intros s off size acc I H; cbn [read_hits].
    - exists [], s, 0. rewrite Nat.add_0_r, Nat.sub_0_r. cbn [range seq map]. rewrite app_nil_r.
      split; [reflexivity|]. split; [lia|]. split; auto. split; auto. split; [now intros i|]. auto.
    - set (i := slot_of (r_off r)). assert (Hi : i < 16) by apply slot_lt. assert (stop : forall s', inv V hi s' -> sizes s s' -> pc_file s' = pc_file s -> pc_region s' = pc_region s ->
        exists rs' s'' n, Some (r :: rs, s', acc) = Some (rs', s'', acc ++ map Some (range V off n)) /\ n <= size /\ chain (off + n) (size - n) rs' /\
        inv V hi s'' /\ sizes s s'' /\ pc_file s'' = pc_file s /\ pc_region s'' = pc_region s).
      { intros s' I' Z F R. exists (r :: rs), s', 0. rewrite Nat.add_0_r, Nat.sub_0_r. cbn [range seq map]. rewrite app_nil_r.
        split; [reflexivity|]. split; [lia|]. auto. }
      destruct (get_page (get_slot s i) (r_off r)) as [p|] eqn:G; [|apply stop; auto; now intros j].
      destruct (inv_move V hi s i (r_off r) p I Hi G) as [I1 Z1].
      destruct (Nat.leb_spec (r_data r) (p_size p)) as [Hd|Hd]; [|apply stop; auto].
      inversion H as [|? ? ? ? A1 A2 A3 A3' A4 A5 A6 A7 A8 A9]; subst.
      rewrite (page_slice V _ hi i _ (r_off r) p (r_pre r) (r_copy r) (proj2 I i Hi) G) by lia.
      destruct (IH _ _ _ (acc ++ map Some (range V (r_off r + r_pre r) (r_copy r))) I1 A9) as (rs' & s' & n & E & Hn & C & I' & Z' & F' & R').
      exists rs', s', (r_copy r + n). rewrite E. split; [now rewrite range_app, map_app, app_assoc|]. split; [lia|].
      split; [now rewrite Nat.add_assoc, Nat.sub_add_distr|]. split; auto. split; [eapply sizes_trans; eauto|]. auto.
  Qed.
  Definition others (rs : list req) (s s' : pcache) : Prop := forall i, ~ In i (locked ps rs) -> get_slot s' i = get_slot s i.
  Lemma locked_in rs i : In i (locked ps rs) <-> exists r, In r rs /\ slot_of (r_off r) = i.
  Proof.
    unfold locked. rewrite filter_In, existsb_exists. split.
    - intros [_ (r & Hr & E)]. apply Nat.eqb_eq in E. eauto.
    - intros (r & Hr & E). split; [|exists r; split; auto; now apply Nat.eqb_eq]. apply in_seq. subst i. pose proof (slot_lt (r_off r)). lia.
  Qed.
  Lemma read_batch_spec V hi rs : forall s off size area acc, inv V hi s -> chain off size rs -> aok (fun _ _ => False) (pc_file s) rs area ->
    exists s', read_batch ps rs area s acc = Some (s', acc ++ map Some (range V off size)) /\ inv V hi s' /\ others rs s s' /\
      pc_file s' = pc_file s /\ pc_region s' = pc_region s.
  Proof.
    induction rs as [|r rs IH]; intros s off size area acc I H HA; cbn [read_batch].
    - inversion H; subst. exists s. cbn [range seq map]. rewrite app_nil_r. split; auto. split; auto. split; [now intros i|]. auto.
    - set (i := slot_of (r_off r)). assert (Hi : i < 16) by apply slot_lt.
      inversion H as [|? ? ? ? A1 A2 A3 A3' A4 A5 A6 A7 A8 A9]; subst. destruct HA as (L & FO & HA).
      assert (Hf : fresh_buffer (pc_file s) (r_off r) (r_data r) false (Some area) = Some (Some (firstn (r_data r) area))).
      { unfold fresh_buffer. rewrite slice_some by (cbn; lia). reflexivity. }
      assert (Hfo : forall b, Some (firstn (r_data r) area) = Some b -> fresh_ok (pc_file s) (r_off r) (r_data r) (fun _ => False) b)
        by (intros b E; injection E as <-; exact FO).
      pose proof (prepare_spec V (pc_file s) hi i _ (r_off r) (r_data r) false (Some area) (fun _ => False) _ (proj2 I i Hi) A2 eq_refl A5 Hf Hfo) as P.
      destruct (prepare _ _ _ _ _ _) as [[rest p|l]|]; [|destruct P; discriminate|contradiction].
      destruct P as (-> & Np & _).
      rewrite (nearly_slice V _ hi i _ _ p (r_pre r) (r_copy r) Np) by lia.
      set (s1 := set_slot s i (del_page (get_slot s i) (r_off r) ++ [p]) (pc_file s)).
      assert (I1 : inv V hi s1).
      { apply (inv_set V V hi hi); auto. eapply nearly_read; eauto. apply I, Hi. }
      destruct (IH s1 _ _ (skipn (r_data r) area) (acc ++ map Some (range V (r_off r + r_pre r) (r_copy r))) I1 A9 HA) as (s' & E & I' & O' & F' & R').
      exists s'. rewrite E. split.
      { rewrite <- app_assoc, <- map_app, <- range_app. replace (r_copy r + (size - r_copy r)) with size by lia. reflexivity. }
      split; auto. split; [|auto]. intros j Hj. rewrite O'.
      + unfold s1. rewrite get_set; auto; [|apply I]. destruct (Nat.eqb_spec j i) as [->|]; auto. exfalso. apply Hj. apply locked_in. exists r. split; auto. now left.
      + intros X. apply Hj. apply locked_in in X as (r' & X1 & X2). apply locked_in. exists r'. split; auto. now right.
  Qed.
  Lemma reduce_slots_spec V hi is_ : forall s, inv V hi s -> (forall i, In i is_ -> i < 16) ->
    exists s', reduce_slots ps cap is_ s = Some s' /\ inv V hi s' /\ (forall x, fbyte (pc_file s') x = fbyte (pc_file s) x \/ fbyte (pc_file s') x = V x) /\
      (forall i, In i is_ -> length (get_slot s' i) <= cap) /\ (forall i, ~ In i is_ -> get_slot s' i = get_slot s i) /\
      pc_region s' = pc_region s /\ length (pc_file s) <= length (pc_file s').
  Proof.
    induction is_ as [|i is_ IH]; intros s I Hb; cbn [reduce_slots].
    - exists s. split; auto. split; auto. split; auto. split; [contradiction|]. auto.
    - assert (Hi : i < 16) by (apply Hb; now left). destruct (reduce_spec V hi i (pc_file s) (get_slot s i) (proj2 I i Hi)) as (l & f & -> & S1 & B1 & L1 & F1).
      set (s1 := set_slot s i l f). assert (I1 : inv V hi s1) by (apply (inv_set V V hi hi); auto).
      destruct (IH s1 I1) as (s' & E & I' & B' & C' & O' & R' & F'); [intros j Hj; apply Hb; now right|].
      exists s'. split; auto. split; auto. split; [intros x; destruct (B' x) as [->| ->]; auto; apply B1|].
      assert (G : forall j, get_slot s1 j = if j =? i then l else get_slot s j) by (intros j; apply get_set; auto; apply I).
      split; [|split; [|split]]; auto.
      + intros j Hj. destruct (in_dec Nat.eq_dec j is_) as [Hin|Hn]; [auto|]. rewrite O' by auto. rewrite G.
        destruct Hj as [->|Hj]; [|contradiction]. now rewrite Nat.eqb_refl.
      + intros j Hj. rewrite O' by (intros X; apply Hj; now right). rewrite G. destruct (Nat.eqb_spec j i) as [->|]; auto.
        exfalso. apply Hj. now left.
      + cbn in F'. lia.
  Qed.
  Definition small (s : pcache) : Prop := forall i, length (get_slot s i) <= cap.
  Lemma read_spec V hi s off size : inv V hi s ->
    exists c b s', pc_read ps cap s off size = Some (c, b, s') /\ inv V hi s' /\ (small s -> small s') /\
      (forall x, fbyte (pc_file s') x = fbyte (pc_file s) x \/ fbyte (pc_file s') x = V x) /\
      (c = SUCCESS /\ b = map Some (range V off size) \/ c = INFEASIBLE_ERROR) /\
      (align ps (off + size) <= length (pc_file s) -> c = SUCCESS) /\ pc_region s' = pc_region s /\ length (pc_file s) <= length (pc_file s').
  Proof.
    intros I. unfold pc_read.
    destruct (read_hits_spec V hi (make_requests ps (pc_region s) off size) s off size [] I (make_chain _ _ _))
      as (rs & s1 & n & -> & Hn & C & I1 & Z1 & F1 & R1). cbn [app].
    assert (Sm : small s -> small s1) by (intros H i; rewrite Z1; apply H).
    destruct rs as [|r [|r' rs]].
    - inversion C; subst. exists SUCCESS, (map Some (range V off n)), s1. rewrite F1. replace n with size by lia.
      auto 10.
    - set (i := slot_of (r_off r)). assert (Hi : i < 16) by apply slot_lt.
      inversion C as [|? ? ? ? A1 A2 A3 A3' A4 A5 A6 A7 A8 A9]; subst. specialize (A7 eq_refl).
      pose proof (chain_end _ _ _ _ C) as Ce. cbn [alen] in Ce. replace (off + n + (size - n)) with (off + size) in Ce by lia.
      assert (Hf : exists b0, fresh_buffer (pc_file s1) (r_off r) (r_data r) true None = Some b0 /\
        (forall b, b0 = Some b -> fresh_ok (pc_file s1) (r_off r) (r_data r) (fun _ => False) b) /\
        (align ps (off + size) <= length (pc_file s1) -> b0 <> None)).
      { unfold fresh_buffer. destruct (pread (pc_file s1) (r_off r) (r_data r)) as [b|] eqn:P.
        - exists (Some (map Some b)). split; auto. split; [|discriminate]. intros b' E. injection E as <-. apply pread_some in P. subst b.
          split; [now rewrite map_length, range_length|]. intros j Hj. left. rewrite nth_error_map, range_nth by auto. reflexivity.
        - exists None. split; auto. split; [discriminate|]. intros X. destruct (pread_ok (pc_file s1) (r_off r) (r_data r)) as [b E]; [lia|]. congruence. }
      destruct Hf as (b0 & Hf & Hb & Hok).
      pose proof (prepare_spec V (pc_file s1) hi i _ (r_off r) (r_data r) true None (fun _ => False) b0 (proj2 I1 i Hi) A2 eq_refl A5 Hf Hb) as P.
      destruct (prepare _ _ _ _ _ _) as [[rest p|l]|]; [| |contradiction].
      + destruct P as (-> & Np & _). rewrite (nearly_slice V _ hi i _ _ p (r_pre r) (r_copy r) Np) by lia.
        destruct (reduce_spec V hi i (pc_file s1) (del_page (get_slot s1 i) (r_off r) ++ [p])) as (l & f & -> & S2 & B2 & L2 & F2).
        { eapply nearly_read; eauto. apply I1, Hi. }
        eexists SUCCESS, _, _. split; [reflexivity|]. split; [apply (inv_set V V hi hi); auto|]. split; [|split; [|split; [|split; [|split]]]]; auto.
        * intros H j. rewrite get_set; auto; [|apply I1]. destruct (Nat.eqb_spec j i); auto. apply Sm; auto.
        * cbn. rewrite <- F1. exact B2.
        * left. split; auto. rewrite <- map_app. f_equal. replace size with (n + r_copy r) by lia. rewrite range_app. do 2 f_equal. lia.
        * cbn. rewrite <- F1. exact F2.
      + destruct P as [P ->]. eexists INFEASIBLE_ERROR, _, _. split; [reflexivity|]. split; [|split; [|split; [|split; [|split; [|split]]]]]; auto.
        * apply (inv_set V V hi hi); auto. eapply sok_perm; [exact P|]. apply I1, Hi.
        * intros H j. rewrite get_set; auto; [|apply I1]. destruct (Nat.eqb_spec j i) as [->|]; [|apply Sm; auto].
          rewrite <- (Permutation_length P). apply Sm; auto.
        * cbn. rewrite F1. auto.
        * intros X. exfalso. apply Hok; auto. now rewrite F1.
        * cbn. rewrite F1. auto.
    - set (rs2 := r :: r' :: rs) in *. rewrite (area_alen _ _ _ C). pose proof (chain_end _ _ _ _ C) as Ce. fold rs2 in Ce.
      replace (off + n + (size - n)) with (off + size) in Ce by lia.
      destruct (pread (pc_file s1) (r_off r) (alen rs2)) as [area|] eqn:P.
      + apply pread_some in P. subst area.
        destruct (read_batch_spec V hi rs2 s1 _ _ (map Some (range (fbyte (pc_file s1)) (r_off r) (alen rs2))) (map Some (range V off n)) I1 C) as (s2 & E & I2 & O2 & F2 & R2).
        { apply (aok_range (fun _ _ => False) (pc_file s1) rs2 _ _ C). }
        rewrite E. destruct (reduce_slots_spec V hi (locked ps rs2) s2 I2) as (s3 & -> & I3 & B3 & C3 & O3 & R3 & F3).
        { intros i Hi. apply locked_in in Hi as (x & _ & <-). apply slot_lt. }
        eexists SUCCESS, _, s3. split; [reflexivity|]. split; auto. split; [|split; [|split; [|split; [|split]]]]; auto.
        * intros H i. destruct (in_dec Nat.eq_dec i (locked ps rs2)); auto. rewrite O3, O2 by auto. apply Sm; auto.
        * intros x. rewrite <- F1, <- F2. apply B3.
        * left. split; auto. rewrite <- map_app, <- range_app. do 2 f_equal. lia.
        * congruence.
        * rewrite <- F1, <- F2. exact F3.
      + eexists INFEASIBLE_ERROR, _, s1. split; [reflexivity|]. split; auto. split; auto. rewrite F1. split; auto. split; auto. split; auto.
        intros X. exfalso. destruct (pread_ok (pc_file s1) (r_off r) (alen rs2)) as [b E]; [rewrite F1; lia|]. congruence.
  Qed.

  (* ---- Write ---- *)
  Lemma written_slot V off d i b : b mod ps = 0 -> slot_of b = i -> b <= off -> off + length d <= b + ps ->
    forall x, slot_of x <> i -> written V off d x = V x.
  Proof.
    intros Hb Hi H1 H2 x Hx. apply written_out. destruct (Nat.lt_ge_cases x off); auto. right.
    destruct (Nat.lt_ge_cases x (off + length d)); auto. exfalso. apply Hx. rewrite (slot_in b x); auto. lia.
  Qed.
  Lemma skipn_add {T} (l : list T) a b : skipn (a + b) l = skipn b (skipn a l).
  Proof. revert l; induction a as [|a IH]; intros l; [reflexivity|]. destruct l; cbn; [now rewrite skipn_nil|apply IH]. Qed.
  Lemma firstn_add {T} (l : list T) a b : firstn (a + b) l = firstn a l ++ firstn b (skipn a l).
  Proof. revert l; induction a as [|a IH]; intros l; [reflexivity|]. destruct l; cbn; [now rewrite firstn_nil|f_equal; apply IH]. Qed.
  Lemma page_nearly V F hi i l off p w : sok V F hi i l -> get_page l off = Some p -> slot_of off = i -> nearly V F hi i off (p_size p) w p.
  Proof.
    intros S G Hi. pose proof S as (H1 & _ & _). pose proof (get_page_some _ _ _ G) as [Gi Ge]. rewrite Forall_forall in H1.
    destruct (H1 p Gi) as (_ & _ & C & D & E). split; auto. split; [lia|]. split; [|split].
    - intros j Hj. left. rewrite D, nth_error_map, range_nth by auto. cbn. now rewrite Ge.
    - intros x Hx. eapply sok_at; eauto. now rewrite <- slot_base, Hx.
    - now rewrite <- Ge.
  Qed.
  Lemma nearly_weaken V F hi i off size size' w p : size' <= size -> nearly V F hi i off size w p -> nearly V F hi i off size' w p.
  Proof. intros H (A & B & C). split; auto. split; auto. lia. Qed.
  (** One request served on the page of its slot. *)
  Lemma write_one V hi s r d p : inv V hi s -> r_off r mod ps = 0 -> r_pre r + length d <= r_data r -> r_data r <= ps ->
    0 < r_pre r + length d ->
    nearly V (fbyte (pc_file s)) hi (slot_of (r_off r)) (r_off r) (r_data r) (fun j => r_pre r <= j < r_pre r + length d) p ->
    let i := slot_of (r_off r) in
    exists b, blit (p_buf p) (r_pre r) (map Some d) = Some b /\
      sok (written V (r_off r + r_pre r) d) (fbyte (pc_file s)) (Nat.max hi (r_off r + r_pre r + length d)) i (del_page (get_slot s i) (r_off r) ++ [mkPage (p_off p) b true]) /\
      inv (written V (r_off r + r_pre r) d) (Nat.max hi (r_off r + r_pre r + length d))
        (set_slot s i (del_page (get_slot s i) (r_off r) ++ [mkPage (p_off p) b true]) (pc_file s)).
  Proof.
    intros I Ho Hd Hds Hpos Np i. assert (Hi : i < 16) by apply slot_lt.
    destruct (nearly_write V _ hi i (get_slot s i) (r_off r) (r_data r) p (r_pre r) d (proj2 I i Hi) Ho eq_refl Np Hd) as (b & Eb & Sb).
    exists b. split; auto. specialize (Sb (Nat.max hi (r_off r + r_pre r + length d)) ltac:(lia) ltac:(lia)). split; auto.
    apply (inv_set V _ hi _); auto; [lia|]. intros x Hx. apply (written_slot V _ _ i (r_off r)); auto; lia.
  Qed.
  Lemma write_hits_spec hi rs : forall V s off data, inv V hi s -> chain off (length data) rs ->
    exists rs' s' n, write_hits ps rs s data = Some (rs', s', skipn n data) /\ n <= length data /\ chain (off + n) (length data - n) rs' /\
      inv (written V off (firstn n data)) (Nat.max hi (off + n)) s' /\ sizes s s' /\ pc_file s' = pc_file s /\ pc_region s' = pc_region s.
  Proof.
    revert hi. induction rs as [|r rs IH]; intros hi V s off data I H; cbn [write_hits].
    - exists [], s, 0. rewrite Nat.add_0_r, Nat.sub_0_r. cbn [firstn skipn]. split; [reflexivity|]. split; [lia|]. split; auto.
      split; [|split; [now intros i|auto]]. eapply inv_ext; [| |exact I]; [intros x; apply written_nil|lia].
    - set (i := slot_of (r_off r)). assert (Hi : i < 16) by apply slot_lt. assert (stop : forall s', inv V hi s' -> sizes s s' -> pc_file s' = pc_file s -> pc_region s' = pc_region s ->
        exists rs' s'' n, Some (r :: rs, s', data) = Some (rs', s'', skipn n data) /\ n <= length data /\ chain (off + n) (length data - n) rs' /\
        inv (written V off (firstn n data)) (Nat.max hi (off + n)) s'' /\ sizes s s'' /\ pc_file s'' = pc_file s /\ pc_region s'' = pc_region s).
      { intros s' I' Z F R. exists (r :: rs), s', 0. rewrite Nat.add_0_r, Nat.sub_0_r. cbn [firstn skipn].
        split; [reflexivity|]. split; [lia|]. split; auto. split; auto. eapply inv_ext; [| |exact I']; [intros x; apply written_nil|lia]. }
      destruct (get_page (get_slot s i) (r_off r)) as [p|] eqn:G; [|apply stop; auto; now intros j].
      destruct (inv_move V hi s i (r_off r) p I Hi G) as [I1 Z1].
      destruct (Nat.leb_spec (r_data r) (p_size p)) as [Hd|Hd]; [|apply stop; auto].
      inversion H as [|? ? ? ? A1 A2 A3 A3' A4 A5 A6 A7 A8 A9]; subst.
      assert (Ld : length (firstn (r_copy r) data) = r_copy r) by (rewrite firstn_length; lia).
      destruct (write_one V hi s r (firstn (r_copy r) data) p I A2) as (b & Eb & _ & Ib); try lia.
      { apply (nearly_weaken _ _ _ _ _ (p_size p)); auto. apply page_nearly with (l := get_slot s i); auto. apply I, Hi. }
      fold i in Ib. rewrite Eb. rewrite Ld in Ib.
      destruct (IH _ _ _ (r_off r + r_pre r + r_copy r) (skipn (r_copy r) data) Ib) as (rs' & s' & n & E & Hn & C & I' & Z' & F' & R').
      { rewrite skipn_length. exact A9. }
      rewrite skipn_length in *. exists rs', s', (r_copy r + n). rewrite E. split; [now rewrite skipn_add|]. split; [lia|].
      split; [now rewrite Nat.add_assoc, Nat.sub_add_distr|]. split; [|split; [|auto]].
      + eapply inv_ext; [| |exact I']; [|lia]. intros x. rewrite firstn_add, <- written_app, Ld. reflexivity.
      + eapply sizes_trans; [|exact Z']. apply sizes_move; auto; [apply I|]. rewrite app_length. cbn [length].
        pose proof (get_page_some _ _ _ G) as [Gi <-]. pose proof (del_length (get_slot s i) p (proj1 (proj2 (proj2 I i Hi))) Gi). lia.
  Qed.
  Lemma write_batch_spec rs : forall V hi s off data area, inv V hi s -> chain off (length data) rs -> aok wr (pc_file s) rs area ->
    exists s', write_batch ps rs area s data = Some s' /\ inv (written V off data) (Nat.max hi (off + length data)) s' /\ others rs s s' /\
      pc_file s' = pc_file s /\ pc_region s' = pc_region s.
  Proof.
    induction rs as [|r rs IH]; intros V hi s off data area I H HA; cbn [write_batch].
    - inversion H as [? E1 E2|]; subst. exists s. split; auto. destruct data; [|discriminate]. split; [|split; [now intros i|auto]].
      eapply inv_ext; [| |exact I]; [intros x; apply written_nil|lia].
    - set (i := slot_of (r_off r)). assert (Hi : i < 16) by apply slot_lt.
      inversion H as [|? ? ? ? A1 A2 A3 A3' A4 A5 A6 A7 A8 A9]; subst. destruct HA as (L & FO & HA).
      assert (Hf : fresh_buffer (pc_file s) (r_off r) (r_data r) false (Some area) = Some (Some (firstn (r_data r) area))).
      { unfold fresh_buffer. rewrite slice_some by (cbn; lia). reflexivity. }
      assert (Ld : length (firstn (r_copy r) data) = r_copy r) by (rewrite firstn_length; lia).
      assert (Hfo : forall b, Some (firstn (r_data r) area) = Some b -> fresh_ok (pc_file s) (r_off r) (r_data r) (fun j => r_pre r <= j < r_pre r + length (firstn (r_copy r) data)) b)
        by (intros b E; injection E as <-; rewrite Ld; exact FO).
      pose proof (prepare_spec V (pc_file s) hi i _ (r_off r) (r_data r) false (Some area) _ _ (proj2 I i Hi) A2 eq_refl A5 Hf Hfo) as P.
      destruct (prepare _ _ _ _ _ _) as [[rest p|l]|]; [|destruct P; discriminate|contradiction].
      destruct P as (-> & Np & _).
      destruct (write_one V hi s r (firstn (r_copy r) data) p I A2) as (b & Eb & _ & Ib); try lia; auto.
      fold i in Ib. rewrite Eb. rewrite Ld in Ib. set (s1 := set_slot s i (del_page (get_slot s i) (r_off r) ++ [mkPage (p_off p) b true]) (pc_file s)) in *.
      destruct (IH _ _ s1 (r_off r + r_pre r + r_copy r) (skipn (r_copy r) data) (skipn (r_data r) area) Ib) as (s' & E & I' & O' & F' & R'); auto.
      { rewrite skipn_length. exact A9. }
      exists s'. split; auto. rewrite skipn_length in I'. split; [|split; [|auto]].
      + eapply inv_ext; [| |exact I']; [|lia]. intros x. rewrite <- (firstn_skipn (r_copy r) data) at 1. rewrite <- written_app, Ld. reflexivity.
      + intros j Hj. rewrite O'.
        * unfold s1. rewrite get_set; auto; [|apply I]. destruct (Nat.eqb_spec j i) as [->|]; auto. exfalso. apply Hj. apply locked_in. exists r. split; auto. now left.
        * intros X. apply Hj. apply locked_in in X as (r' & X1 & X2). apply locked_in. exists r'. split; auto. now right.
  Qed.
  Lemma write_area_spec f off size r rs : chain off size (r :: rs) ->
    match write_area ps f (r :: rs) off size with
    | Some area => aok wr f (r :: rs) area
    | None => length f < align ps (off + size)
    end.
  Proof.
    intros C. unfold write_area. rewrite (area_alen _ _ _ C). set (rs2 := r :: rs) in *. pose proof (chain_end _ _ _ _ C) as Ce. fold rs2 in Ce.
    destruct (negb (off mod ps =? 0) || negb (size mod ps =? 0)) eqn:T.
    - pose proof (aok_mixed f rs2 _ _ C) as [M1 M2]. set (sk := full_bytes ps rs2 (alen rs2)) in *. unfold rs2 in M2 at 2.
      destruct (Nat.ltb_spec 0 (alen rs2 - sk)) as [H|H].
      + destruct (pread f (r_off r + sk) (alen rs2 - sk)) as [b|] eqn:P.
        * apply pread_some in P. subst b. exact M2.
        * destruct (Nat.lt_ge_cases (length f) (align ps (off + size))) as [|G]; auto. exfalso.
          destruct (pread_ok f (r_off r + sk) (alen rs2 - sk)) as [b E]; [lia|]. congruence.
      + replace (alen rs2 - sk) with 0 in M2 by lia. cbn [range seq map] in M2. rewrite app_nil_r in M2. replace (alen rs2) with sk by lia. exact M2.
    - apply orb_false_iff in T as [T1 T2]. apply negb_false_iff, Nat.eqb_eq in T1. apply negb_false_iff, Nat.eqb_eq in T2.
      apply (aok_unset f rs2 _ _ C). apply (aligned_full rs2 _ _ C); auto.
  Qed.
  Lemma inv_grow V hi s o : inv V hi s -> inv V hi (grow s o).
  Proof. intros [H1 H2]. split; auto. Qed.
  Lemma written_full V off data n : firstn n data = data -> forall x, written V off (firstn n data) x = written V off data x.
  Proof. now intros ->. Qed.
  Lemma write_spec V hi s off data : inv V hi s ->
    exists c s' n, pc_write ps cap s off data = Some (c, s') /\ n <= length data /\
      inv (written V off (firstn n data)) (Nat.max hi (off + n)) s' /\ (small s -> small s') /\
      (forall x, fbyte (pc_file s') x = fbyte (pc_file s) x \/ fbyte (pc_file s') x = written V off (firstn n data) x) /\
      (c = SUCCESS /\ n = length data \/ c = INFEASIBLE_ERROR) /\
      (align ps (off + length data) <= length (pc_file s) -> c = SUCCESS) /\
      pc_region s' = Nat.max (pc_region s) (off + n) /\ length (pc_file s) <= length (pc_file s').
  Proof.
    intros I. unfold pc_write.
    destruct (write_hits_spec hi (make_requests ps (pc_region s) off (length data)) V s off data I (make_chain _ _ _))
      as (rs & s1 & n & -> & Hn & C & I1 & Z1 & F1 & R1).
    assert (Sm : small s -> small s1) by (intros H i; rewrite Z1; apply H). rewrite skipn_length.
    replace (length data - (length data - n)) with n by lia.
    set (V1 := written V off (firstn n data)) in *. set (hi1 := Nat.max hi (off + n)) in *.
    assert (Lf : length (firstn n data) = n) by (rewrite firstn_length; lia).
    assert (Vall : forall x, written V1 (off + n) (skipn n data) x = written V off (firstn (length data) data) x).
    { intros x. unfold V1. rewrite firstn_all. rewrite <- (firstn_skipn n data) at 3. rewrite <- written_app, Lf. reflexivity. }
    destruct rs as [|r [|r' rs]].
    - inversion C; subst. exists SUCCESS, (grow s1 (off + length data)), n. assert (n = length data) by lia. subst n.
      split; auto. split; auto. split; [now apply inv_grow|]. split; auto. cbn. rewrite F1, R1. auto 10.
    - set (i := slot_of (r_off r)). assert (Hi : i < 16) by apply slot_lt.
      inversion C as [|? ? ? ? A1 A2 A3 A3' A4 A5 A6 A7 A8 A9]; subst. specialize (A7 eq_refl).
      pose proof (chain_end _ _ _ _ C) as Ce. cbn [alen] in Ce. replace (off + n + (length data - n)) with (off + length data) in Ce by lia.
      assert (Efn : firstn (r_copy r) (skipn n data) = skipn n data) by (apply firstn_all2; rewrite skipn_length; lia). rewrite Efn.
      assert (Ls : length (skipn n data) = r_copy r) by (rewrite skipn_length; lia).
      assert (Hf : exists b0, fresh_buffer (pc_file s1) (r_off r) (r_data r) (negb (r_copy r =? r_data r)) None = Some b0 /\
        (forall b, b0 = Some b -> fresh_ok (pc_file s1) (r_off r) (r_data r) (fun j => r_pre r <= j < r_pre r + length (skipn n data)) b) /\
        (align ps (off + length data) <= length (pc_file s1) -> b0 <> None)).
      { unfold fresh_buffer. destruct (Nat.eqb_spec (r_copy r) (r_data r)) as [Ec|Ec]; cbn [negb].
        - eexists. split; [reflexivity|]. split; [|discriminate]. intros b E. injection E as <-. rewrite Ls. apply fresh_unset; lia.
        - destruct (pread (pc_file s1) (r_off r) (r_data r)) as [b|] eqn:P.
          + exists (Some (map Some b)). split; auto. split; [|discriminate]. intros b' E. injection E as <-. apply pread_some in P. subst b.
            split; [now rewrite map_length, range_length|]. intros j Hj. left. rewrite nth_error_map, range_nth by auto. reflexivity.
          + exists None. split; auto. split; [discriminate|]. intros X. destruct (pread_ok (pc_file s1) (r_off r) (r_data r)) as [b E]; [lia|]. congruence. }
      destruct Hf as (b0 & Hf & Hb & Hok).
      pose proof (prepare_spec V1 (pc_file s1) hi1 i _ (r_off r) (r_data r) _ None _ b0 (proj2 I1 i Hi) A2 eq_refl A5 Hf Hb) as P.
      destruct (prepare _ _ _ _ _ _) as [[rest p|l]|]; [| |contradiction].
      + destruct P as (-> & Np & _).
        destruct (write_one V1 hi1 s1 r (skipn n data) p I1 A2) as (b & Eb & Sb & Ib); try lia; auto. fold i in Sb, Ib. rewrite Eb.
        rewrite A1, Ls in *. set (V2 := written V1 (off + n) (skipn n data)) in *.
        destruct (reduce_spec V2 _ i (pc_file s1) _ Sb) as (l & f & -> & S2 & B2 & L2 & F2).
        eexists SUCCESS, _, (length data). split; [reflexivity|]. split; auto.
        assert (I3 : inv V2 (Nat.max hi1 (off + n + r_copy r)) (set_slot s1 i l f)).
        { assert (E : set_slot s1 i l f = set_slot (set_slot s1 i (del_page (get_slot s1 i) (r_off r) ++ [mkPage (p_off p) b true]) (pc_file s1)) i l f).
          { unfold set_slot. cbn. f_equal. symmetry. apply set_nth_twice. }
          rewrite E. eapply (inv_set V2 V2); eauto. }
        split; [|split; [|split; [|split; [|split; [|split]]]]]; auto.
        * apply inv_grow. eapply inv_ext; [| |exact I3]; [intros x; symmetry; apply Vall|unfold hi1; lia].
        * intros H j. change (length (get_slot (set_slot s1 i l f) j) <= cap). rewrite get_set; auto; [|apply I1]. destruct (Nat.eqb_spec j i); auto. apply Sm; auto.
        * cbn. intros x. rewrite <- F1, <- Vall. apply B2.
        * cbn. now rewrite R1.
        * cbn. rewrite <- F1. exact F2.
      + destruct P as [P ->]. eexists INFEASIBLE_ERROR, _, n. split; [reflexivity|]. split; auto. split; [|split; [|split; [|split; [|split; [|split]]]]]; auto.
        * apply inv_grow. apply (inv_set V1 V1 hi1 hi1); auto. eapply sok_perm; [exact P|]. apply I1, Hi.
        * intros H j. change (length (get_slot (set_slot s1 i l (pc_file s1)) j) <= cap). rewrite get_set; auto; [|apply I1]. destruct (Nat.eqb_spec j i) as [->|]; [|apply Sm; auto].
          rewrite <- (Permutation_length P). apply Sm; auto.
        * cbn. rewrite F1. auto.
        * intros X. exfalso. apply Hok; auto. now rewrite F1.
        * cbn. now rewrite R1.
        * cbn. rewrite F1. auto.
    - set (rs2 := r :: r' :: rs) in *. pose proof (write_area_spec (pc_file s1) _ _ r (r' :: rs) C) as WA. fold rs2 in WA.
      replace (off + n + (length data - n)) with (off + length data) in WA by lia.
      destruct (write_area ps (pc_file s1) rs2 (off + n) (length data - n)) as [area|].
      + destruct (write_batch_spec rs2 V1 hi1 s1 (off + n) (skipn n data) area I1) as (s2 & -> & I2 & O2 & F2 & R2); auto.
        { rewrite skipn_length. exact C. }
        rewrite skipn_length in I2. set (V2 := written V1 (off + n) (skipn n data)) in *.
        destruct (reduce_slots_spec V2 _ (locked ps rs2) s2 I2) as (s3 & -> & I3 & B3 & C3 & O3 & R3 & F3).
        { intros i Hi. apply locked_in in Hi as (x & _ & <-). apply slot_lt. }
        eexists SUCCESS, _, (length data). split; [reflexivity|]. split; auto. split; [|split; [|split; [|split; [|split; [|split]]]]]; auto.
        * apply inv_grow. eapply inv_ext; [| |exact I3]; [intros x; symmetry; apply Vall|unfold hi1; lia].
        * intros H i. change (length (get_slot s3 i) <= cap). destruct (in_dec Nat.eq_dec i (locked ps rs2)); auto. rewrite O3, O2 by auto. apply Sm; auto.
        * cbn. intros x. rewrite <- F1, <- F2, <- Vall. apply B3.
        * cbn. now rewrite R3, R2, R1.
        * cbn. rewrite <- F1, <- F2. exact F3.
      + eexists INFEASIBLE_ERROR, _, n. split; [reflexivity|]. split; auto. split; [now apply inv_grow|]. cbn. rewrite F1, R1. split; auto. split; auto. split; auto. split; auto.
        intros X. exfalso. rewrite F1 in WA. lia.
  Qed.

  (* ---- Flush and the destructor ---- *)
  Lemma flush_slots_spec V hi want is_ : forall s, inv V hi s -> (forall i, In i is_ -> i < 16) -> NoDup is_ ->
    exists s', flush_slots ps is_ want s = Some s' /\ inv V hi s' /\ sizes s s' /\
      (forall x, fbyte (pc_file s') x = fbyte (pc_file s) x \/ fbyte (pc_file s') x = V x) /\
      (forall i p, In i is_ -> In p (get_slot s' i) -> want (p_off p) = true -> p_dirty p = false) /\
      (forall i, ~ In i is_ -> get_slot s' i = get_slot s i) /\ pc_region s' = pc_region s /\ length (pc_file s) <= length (pc_file s').
  Proof.
    induction is_ as [|i is_ IH]; intros s I Hb N; cbn [flush_slots].
    - exists s. split; auto. split; auto. split; [now intros i|]. split; auto. split; [contradiction|]. auto.
    - assert (Hi : i < 16) by (apply Hb; now left). inversion N as [|? ? Ni Nis]; subst.
      destruct (flush_slot_spec V hi i want (map p_off (get_slot s i)) (pc_file s) (get_slot s i) (proj2 I i Hi)) as (l & f & -> & S1 & B1 & M1 & C1 & F1); auto.
      set (s1 := set_slot s i l f). assert (I1 : inv V hi s1) by (apply (inv_set V V hi hi); auto).
      destruct (IH s1 I1) as (s' & E & I' & Z' & B' & C' & O' & R' & F'); [intros j Hj; apply Hb; now right|auto|].
      assert (G : forall j, get_slot s1 j = if j =? i then l else get_slot s j) by (intros j; apply get_set; auto; apply I).
      exists s'. split; auto. split; auto. split; [|split; [|split; [|split; [|split]]]]; auto.
      + intros j. rewrite Z', G. destruct (Nat.eqb_spec j i) as [->|]; auto. rewrite <- (map_length p_off l), (proj1 M1). apply map_length.
      + intros x. destruct (B' x) as [->| ->]; auto.
      + intros j p [<-|Hj] Hp W; [|eapply C'; eauto]. rewrite O', G, Nat.eqb_refl in Hp by auto. apply C1; auto. rewrite <- (proj1 M1). now apply in_map.
      + intros j Hj. rewrite O' by (intros X; apply Hj; now right). rewrite G. destruct (Nat.eqb_spec j i) as [->|]; auto. exfalso. apply Hj. now left.
      + cbn in F'. lia.
  Qed.
  (** Every address of a page that the loop wants is in the file afterwards. *)
  Lemma flush_all_spec V hi want s : inv V hi s ->
    exists s', flush_slots ps (seq 0 16) want s = Some s' /\ inv V hi s' /\ sizes s s' /\
      (forall x, fbyte (pc_file s') x = fbyte (pc_file s) x \/ fbyte (pc_file s') x = V x) /\
      (forall x, want (base x) = true -> fbyte (pc_file s') x = V x) /\
      (forall x, hi <= base x -> fbyte (pc_file s') x = V x) /\
      pc_region s' = pc_region s /\ length (pc_file s) <= length (pc_file s').
  Proof.
    intros I. destruct (flush_slots_spec V hi want (seq 0 16) s I) as (s' & E & I' & Z & B & C & _ & R & F).
    { intros i Hi. apply in_seq in Hi. lia. } { apply seq_NoDup. }
    exists s'. split; auto. split; auto. split; auto. split; auto. split; [|split; [|split]]; auto.
    - intros x Hx. destruct (proj2 (proj2 (proj2 I' (slot_of x) (slot_lt x))) x eq_refl) as [|(p & Hp & Ep & Dp & _)]; auto.
      rewrite (C (slot_of x) p) in Dp; [discriminate| |auto|now rewrite Ep]. apply in_seq. pose proof (slot_lt x). lia.
    - intros x Hx. pose proof (proj2 I' (slot_of x) (slot_lt x)) as (Q & _ & Q3).
      destruct (Q3 x eq_refl) as [|(p & Hp & Ep & Dp & _)]; auto. rewrite Forall_forall in Q. destruct (Q p Hp) as (_ & _ & _ & _ & D). specialize (D Dp). lia.
  Qed.
  Lemma align_spec x : align ps x mod ps = 0 /\ x <= align ps x < x + ps.
  Proof.
    destruct (base_spec x) as [B1 B2]. unfold align. destruct (Nat.eqb_spec (x mod ps) 0) as [E|E]; [split; [auto|lia]|].
    unfold base in *. pose proof (Nat.mod_le x ps ltac:(lia)). split; [|lia]. rewrite <- Nat.add_mod_idemp_r, Nat.mod_same, Nat.add_0_r by lia. exact B1.
  Qed.
  Lemma base_ge o x : o mod ps = 0 -> o <= x -> o <= base x.
  Proof.
    intros Ho Hx. destruct (base_spec x) as [B1 B2]. destruct (Nat.le_gt_cases o (base x)); auto. exfalso.
    apply Nat.mod_divides in Ho as [a Ha]; [|lia]. apply Nat.mod_divides in B1 as [b Hb]; [|lia]. assert (b < a) by nia. pose proof (Nat.mul_le_mono_l (b + 1) a ps ltac:(lia)). lia.
  Qed.
  Lemma flush_spec V hi s off size : inv V hi s ->
    let stop := off + (if size =? 0 then pc_region s - off else size) in
    exists s', pc_flush ps s off size = Some (SUCCESS, s') /\ inv V hi s' /\ sizes s s' /\
      (forall x, fbyte (pc_file s') x = fbyte (pc_file s) x \/ fbyte (pc_file s') x = V x) /\
      (forall x, base off <= x < align ps stop -> fbyte (pc_file s') x = V x) /\
      (hi <= stop -> forall x, base off <= x -> fbyte (pc_file s') x = V x) /\
      pc_region s' = pc_region s /\ length (pc_file s) <= length (pc_file s').
  Proof.
    intros I stop. unfold pc_flush. fold stop.
    destruct (flush_all_spec V hi (fun o => (off - off mod ps <=? o) && (o <? align ps stop)) s I) as (s' & -> & I' & Z & B & C & D & R & F).
    exists s'. split; auto. split; auto. split; auto. split; auto.
    assert (Q : forall x, base off <= x < align ps stop -> fbyte (pc_file s') x = V x).
    { intros x Hx. apply C. apply andb_true_intro. split.
      - apply Nat.leb_le. change (base off <= base x). apply base_ge; [apply base_spec|lia].
      - apply Nat.ltb_lt. destruct (base_spec x). lia. }
    split; auto. split; [|auto]. intros Hh x Hx. destruct (Nat.lt_ge_cases x (align ps stop)) as [|G]; [now apply Q|].
    apply D. destruct (align_spec stop). pose proof (base_ge (align ps stop) x). lia.
  Qed.
  Lemma destroy_spec V hi s : inv V hi s -> exists f, pc_destroy ps s = Some f /\ (forall x, fbyte f x = V x) /\ length (pc_file s) <= length f.
  Proof.
    intros I. destruct (flush_all_spec V hi (fun _ => true) s I) as (s' & E & _ & _ & _ & C & _ & _ & F).
    exists (pc_file s'). unfold pc_destroy. rewrite E. auto.
  Qed.
  Lemma nil_slots_ok f hi ss r : length ss = 16 -> (forall i, nth i ss [] = []) -> inv (fbyte f) hi (mkPc ss r f).
  Proof.
    intros L H. split; [exact L|]. intros i Hi. unfold get_slot. cbn. rewrite H. split; [constructor|]. split; [constructor|]. auto.
  Qed.
  Lemma nth_empties i n : nth i (repeat (@nil page) n) [] = [].
  Proof. revert i; induction n as [|n IH]; intros [|i]; cbn; auto. Qed.
  Lemma new_spec f : inv (fbyte f) 0 (pc_new f) /\ small (pc_new f).
  Proof.
    split; [apply nil_slots_ok; [reflexivity|intros i; apply (nth_empties i 16)]|].
    intros i. unfold get_slot, pc_new. cbn [pc_slots]. rewrite nth_empties. cbn. lia.
  Qed.
  Lemma clear_spec V hi s : inv V hi s -> inv (fbyte (pc_file s)) 0 (pc_clear s) /\ small (pc_clear s).
  Proof.
    intros [L _]. assert (E : forall i, nth i (map (fun _ : list page => @nil page) (pc_slots s)) [] = []).
    { generalize (pc_slots s). intros ss. induction ss as [|a ss IH]; intros [|i]; cbn; auto. }
    split; [apply nil_slots_ok; [now rewrite map_length|exact E]|]. intros i. unfold get_slot, pc_clear. cbn [pc_slots]. rewrite E. cbn. lia.
  Qed.
End Pcache.
