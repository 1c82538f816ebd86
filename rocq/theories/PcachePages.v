(** Which pages a page cache holds: any property of offset and size that holds of the pages requested holds of all pages. *)
From Coq Require Import List NArith Bool Arith Lia.
Import ListNotations.
From Verif Require Import Bytes StatusModel PcacheModel PcacheProofs.
Local Open Scope nat_scope.

Section Pages.
  Variables ps cap : nat.
  Variable Q : nat -> nat -> Prop.
  Definition good (p : page) : Prop := Q (p_off p) (p_size p).
  Definition allq (l : list page) : Prop := Forall good l.
  Definition allp (s : pcache) : Prop := forall i, allq (get_slot s i).
  Definition asks (rs : list req) : Prop := Forall (fun r => Q (r_off r) (r_data r)) rs.

  Lemma allq_del l off : allq l -> allq (del_page l off).
  Proof. unfold allq. rewrite !Forall_forall. intros H p Hp. apply filter_In in Hp as [Hp _]. auto. Qed.
  Lemma allq_snoc l p : allq l -> good p -> allq (l ++ [p]).
  Proof. intros H1 H2. apply Forall_app. split; auto. Qed.
  Lemma allq_get l off p : allq l -> get_page l off = Some p -> good p /\ p_off p = off.
  Proof.
    intros H E. unfold get_page in E. apply find_some in E as [E1 E2]. apply Nat.eqb_eq in E2. unfold allq in H. rewrite Forall_forall in H. auto.
  Qed.
  Lemma get_set_any s i l f j : get_slot (set_slot s i l f) j = l \/ get_slot (set_slot s i l f) j = get_slot s j.
  Proof.
    unfold get_slot, set_slot. cbn [pc_slots]. generalize (pc_slots s). intros ss. revert i j; induction ss as [|x ss IH]; intros i j; [right; destruct i, j; reflexivity|].
    destruct i, j; cbn; auto.
  Qed.
  Lemma allp_set s i l f : allp s -> allq l -> allp (set_slot s i l f).
  Proof. intros H1 H2 j. destruct (get_set_any s i l f j) as [-> | ->]; auto. Qed.

  Lemma fresh_size f off size load batch b : fresh_buffer f off size load batch = Some (Some b) -> length b = size.
  Proof.
    unfold fresh_buffer. destruct batch as [a|].
    - unfold slice. destruct (Nat.leb_spec (0 + size) (length a)) as [H|]; [|discriminate]. intros E. injection E as <-.
      rewrite firstn_length. cbn. lia.
    - destruct load; [|intros E; injection E as <-; apply repeat_length]. destruct (pread f off size) as [x|] eqn:E; [|discriminate].
      intros X. injection X as <-. rewrite map_length, (pread_some _ _ _ _ E). apply range_length.
  Qed.
  Lemma blit_length b pos d b' : blit b pos d = Some b' -> length b' = length b.
  Proof.
    unfold blit. destruct (Nat.leb_spec (pos + length d) (length b)); [|discriminate]. intros E. injection E as <-.
    rewrite !app_length, firstn_length, skipn_length. lia.
  Qed.
  Lemma prepare_pages f l off size load batch : allq l -> Q off size ->
    match prepare f l off size load batch with
    | None => True
    | Some (PFail l') => allq l'
    | Some (PPage rest p) => allq rest /\ good p
    end.
  Proof.
    intros H Hq. unfold prepare. destruct (get_page l off) as [p|] eqn:G.
    - destruct (allq_get _ _ _ H G) as [Gp Ep]. destruct (Nat.ltb_spec (p_size p) size) as [Hs|Hs]; [|split; auto; now apply allq_del].
      destruct (fresh_buffer f off size load batch) as [[b|]|] eqn:E; auto; [|apply allq_snoc; auto; now apply allq_del].
      apply fresh_size in E. destruct (p_dirty p).
      + destruct (blit b 0 (p_buf p)) as [b'|] eqn:B; auto. split; [now apply allq_del|]. unfold good, p_size. cbn. now rewrite (blit_length _ _ _ _ B), E.
      + split; [now apply allq_del|]. unfold good, p_size. cbn. now rewrite E.
    - destruct (fresh_buffer f off size load batch) as [[b|]|] eqn:E; auto. apply fresh_size in E. split; auto.
      unfold good, p_size. cbn. now rewrite E.
  Qed.
  Lemma write_pages_pages f l p l' f' : allq l -> write_pages ps f l p = Some (l', f') -> allq l'.
  Proof.
    unfold write_pages. destruct (all_set _); [|discriminate]. intros H E. injection E as <- _. apply Forall_map. unfold allq in H.
    eapply Forall_impl; [|exact H]. intros q Hq. unfold clean. destruct (existsb _ _); exact Hq.
  Qed.
  Lemma reduce_loop_pages n : forall f l l' f', allq l -> reduce_loop ps n f l = Some (l', f') -> allq l'.
  Proof.
    induction n as [|n IH]; intros f l l' f' H E; cbn in E; [injection E as <- _; auto|]. destruct l as [|p l0]; [discriminate|].
    destruct (p_dirty p).
    - destruct (write_pages ps f (p :: l0) p) as [[l1 f1]|] eqn:W; [|discriminate]. apply write_pages_pages in W; auto.
      eapply IH; [|exact E]. now apply allq_del.
    - eapply IH; [|exact E]. exact (allq_del (p :: l0) (p_off p) H).
  Qed.
  Lemma reduce_pages f l l' f' : allq l -> reduce ps cap f l = Some (l', f') -> allq l'.
  Proof. apply reduce_loop_pages. Qed.
  Lemma reduce_slots_pages is_ : forall s s', allp s -> reduce_slots ps cap is_ s = Some s' -> allp s'.
  Proof.
    induction is_ as [|i is_ IH]; intros s s' H E; cbn in E; [injection E as <-; auto|].
    destruct (reduce ps cap (pc_file s) (get_slot s i)) as [[l f]|] eqn:R; [|discriminate]. apply reduce_pages in R; auto.
    eapply IH; [|exact E]. now apply allp_set.
  Qed.

  Lemma read_hits_pages rs : forall s acc rs' s' acc', allp s -> asks rs -> read_hits ps rs s acc = Some (rs', s', acc') -> allp s' /\ asks rs'.
  Proof.
    induction rs as [|r rs IH]; intros s acc rs' s' acc' H A E; cbn [read_hits] in E; [injection E as <- <- <-; auto|].
    set (i := slot_of ps (r_off r)) in *. destruct (get_page (get_slot s i) (r_off r)) as [p|] eqn:G; [|injection E as <- <- <-; auto].
    destruct (allq_get _ _ _ (H i) G) as [Gp _].
    assert (H1 : allp (set_slot s i (del_page (get_slot s i) (r_off r) ++ [p]) (pc_file s))) by (apply allp_set; auto; apply allq_snoc; auto; now apply allq_del).
    inversion A as [|? ? A1 A2]; subst. destruct (r_data r <=? p_size p); [|injection E as <- <- <-; auto].
    destruct (slice _ _ _); [|discriminate]. eapply IH; [exact H1|exact A2|exact E].
  Qed.
  Lemma read_batch_pages rs : forall area s acc s' acc', allp s -> asks rs -> read_batch ps rs area s acc = Some (s', acc') -> allp s'.
  Proof.
    induction rs as [|r rs IH]; intros area s acc s' acc' H A E; cbn [read_batch] in E; [injection E as <- <-; auto|].
    inversion A as [|? ? A1 A2]; subst. set (i := slot_of ps (r_off r)) in *.
    pose proof (prepare_pages (pc_file s) (get_slot s i) (r_off r) (r_data r) false (Some area) (H i) A1) as P.
    destruct (prepare _ _ _ _ _ _) as [[rest p|]|]; try discriminate. destruct P as [P1 P2]. destruct (slice _ _ _); [|discriminate].
    eapply IH; [|exact A2|exact E]. apply allp_set; auto. now apply allq_snoc.
  Qed.
  Lemma write_hits_pages rs : forall s data rs' s' d', allp s -> asks rs -> write_hits ps rs s data = Some (rs', s', d') -> allp s' /\ asks rs'.
  Proof.
    induction rs as [|r rs IH]; intros s data rs' s' d' H A E; cbn [write_hits] in E; [injection E as <- <- <-; auto|].
    set (i := slot_of ps (r_off r)) in *. destruct (get_page (get_slot s i) (r_off r)) as [p|] eqn:G; [|injection E as <- <- <-; auto].
    destruct (allq_get _ _ _ (H i) G) as [Gp _]. inversion A as [|? ? A1 A2]; subst.
    destruct (r_data r <=? p_size p).
    - destruct (blit (p_buf p) (r_pre r) _) as [b|] eqn:B; [|discriminate]. eapply IH; [|exact A2|exact E].
      apply allp_set; auto. apply allq_snoc; [now apply allq_del|]. unfold good, p_size. cbn. rewrite (blit_length _ _ _ _ B). exact Gp.
    - injection E as <- <- <-. split; auto. apply allp_set; auto. apply allq_snoc; auto. now apply allq_del.
  Qed.
  Lemma write_batch_pages rs : forall area s data s', allp s -> asks rs -> write_batch ps rs area s data = Some s' -> allp s'.
  Proof.
    induction rs as [|r rs IH]; intros area s data s' H A E; cbn [write_batch] in E; [injection E as <-; auto|].
    inversion A as [|? ? A1 A2]; subst. set (i := slot_of ps (r_off r)) in *.
    pose proof (prepare_pages (pc_file s) (get_slot s i) (r_off r) (r_data r) false (Some area) (H i) A1) as P.
    destruct (prepare _ _ _ _ _ _) as [[rest p|]|]; try discriminate. destruct P as [P1 P2].
    destruct (blit (p_buf p) (r_pre r) _) as [b|] eqn:B; [|discriminate].
    eapply IH; [|exact A2|exact E]. apply allp_set; auto. apply allq_snoc; auto. unfold good, p_size. cbn. rewrite (blit_length _ _ _ _ B). exact P2.
  Qed.

  Lemma read_pages s off size c b s' : allp s -> asks (make_requests ps (pc_region s) off size) ->
    pc_read ps cap s off size = Some (c, b, s') -> allp s'.
  Proof.
    intros H A E. unfold pc_read in E. destruct (read_hits ps _ s []) as [[[rs s1] acc]|] eqn:R; [|discriminate].
    apply read_hits_pages in R as [H1 A1]; auto. destruct rs as [|r [|r' rs]]; [injection E as <- <- <-; auto| |].
    - inversion A1 as [|? ? A2 _]; subst. set (i := slot_of ps (r_off r)) in *.
      pose proof (prepare_pages (pc_file s1) (get_slot s1 i) (r_off r) (r_data r) true None (H1 i) A2) as P.
      destruct (prepare _ _ _ _ _ _) as [[rest p|l]|]; try discriminate.
      + destruct P as [P1 P2]. destruct (slice _ _ _); [|discriminate]. destruct (reduce ps cap _ _) as [[l f]|] eqn:R; [|discriminate].
        injection E as <- <- <-. apply allp_set; auto. apply reduce_pages in R; auto. now apply allq_snoc.
      + injection E as <- <- <-. now apply allp_set.
    - destruct (pread _ _ _) as [area|]; [|injection E as <- <- <-; auto].
      destruct (read_batch ps _ _ s1 acc) as [[s2 acc2]|] eqn:B; [|discriminate]. apply read_batch_pages in B; auto.
      destruct (reduce_slots ps cap _ s2) as [s3|] eqn:R; [|discriminate]. injection E as <- <- <-. eapply reduce_slots_pages; eauto.
  Qed.
  Lemma write_pages_all s off data c s' : allp s -> asks (make_requests ps (pc_region s) off (length data)) ->
    pc_write ps cap s off data = Some (c, s') -> allp s'.
  Proof.
    intros H A E. unfold pc_write in E. destruct (write_hits ps _ s data) as [[[rs s1] d]|] eqn:R; [|discriminate].
    apply write_hits_pages in R as [H1 A1]; auto. destruct rs as [|r [|r' rs]]; [injection E as <- <-; exact H1| |].
    - inversion A1 as [|? ? A2 _]; subst. set (i := slot_of ps (r_off r)) in *.
      pose proof (prepare_pages (pc_file s1) (get_slot s1 i) (r_off r) (r_data r) (negb (r_copy r =? r_data r)) None (H1 i) A2) as P.
      destruct (prepare _ _ _ _ _ _) as [[rest p|l]|]; try discriminate.
      + destruct P as [P1 P2]. destruct (blit (p_buf p) (r_pre r) _) as [b|] eqn:B; [|discriminate].
        destruct (reduce ps cap _ _) as [[l f]|] eqn:R; [|discriminate]. injection E as <- <-.
        assert (X : allp (set_slot s1 i l f)); [|exact X]. apply allp_set; auto. apply reduce_pages in R; auto.
        apply allq_snoc; auto. unfold good, p_size. cbn. rewrite (blit_length _ _ _ _ B). exact P2.
      + injection E as <- <-. assert (X : allp (set_slot s1 i l (pc_file s1))) by now apply allp_set. exact X.
    - destruct (write_area ps _ _ _ _) as [area|]; [|injection E as <- <-; exact H1].
      destruct (write_batch ps _ area s1 d) as [s2|] eqn:B; [|discriminate]. apply write_batch_pages in B; auto.
      destruct (reduce_slots ps cap _ s2) as [s3|] eqn:R; [|discriminate]. injection E as <- <-.
      assert (X : allp s3) by (eapply reduce_slots_pages; eauto). exact X.
  Qed.
  Lemma flush_slot_pages offs want : forall f l l' f', allq l -> flush_slot ps offs want f l = Some (l', f') -> allq l'.
  Proof.
    induction offs as [|o offs IH]; intros f l l' f' H E; cbn [flush_slot] in E; [injection E as <- _; auto|].
    destruct (get_page l o); [|discriminate]. destruct (p_dirty p && want o); [|eapply IH; eauto].
    destruct (write_pages ps f l p) as [[l1 f1]|] eqn:W; [|discriminate]. apply write_pages_pages in W; auto. eapply IH; eauto.
  Qed.
  Lemma flush_slots_pages is_ want : forall s s', allp s -> flush_slots ps is_ want s = Some s' -> allp s'.
  Proof.
    induction is_ as [|i is_ IH]; intros s s' H E; cbn [flush_slots] in E; [injection E as <-; auto|].
    destruct (flush_slot _ _ _ _ _) as [[l f]|] eqn:F; [|discriminate]. apply flush_slot_pages in F; auto. eapply IH; [|exact E]. now apply allp_set.
  Qed.
  Lemma flush_pages s off size c s' : allp s -> pc_flush ps s off size = Some (c, s') -> allp s'.
  Proof.
    intros H E. unfold pc_flush in E. destruct (flush_slots _ _ _ _) as [s1|] eqn:F; [|discriminate]. injection E as _ <-.
    eapply flush_slots_pages; eauto.
  Qed.
  Lemma clear_pages s : allp (pc_clear s).
  Proof.
    intros i. unfold get_slot, pc_clear. cbn [pc_slots]. replace (nth i (map (fun _ => []) (pc_slots s)) []) with (@nil page); [constructor|].
    generalize (pc_slots s). intros ss. revert i. induction ss as [|a ss IH]; intros [|i]; cbn; auto.
  Qed.
  Lemma new_pages f : allp (pc_new f).
  Proof. intros i. unfold get_slot, pc_new. cbn [pc_slots]. rewrite nth_empties. constructor. Qed.
End Pages.
Lemma allp_impl (Q Q' : nat -> nat -> Prop) s : (forall o n, Q o n -> Q' o n) -> allp Q s -> allp Q' s.
Proof. intros H A i. eapply Forall_impl; [|apply A]. intros p. apply H. Qed.

Section Change.
  Variables ps cap : nat.
  Hypothesis Hps : 0 < ps.
  Hypothesis Hcap : 0 < cap.
  (** The requests of a call lie between the page of its first byte and the end of the page of its last. *)
  Lemma asks_between region off size : asks (fun o n => off - off mod ps <= o /\ o + n <= align ps (off + size)) (make_requests ps region off size).
  Proof.
    assert (G : forall rs o n, chain ps o n rs -> asks (fun a m => o - o mod ps <= a /\ a + m <= align ps (o + n)) rs).
    { induction rs as [|r rs IH]; intros o n C; constructor.
      - pose proof (chain_end ps cap Hps Hcap o n r rs C) as E. cbn [alen] in E. split; [|lia].
        inversion C as [|? ? ? ? A1 A2 A3 A3' A4 A5 A6 A7 A8 A9]; subst. rewrite <- Nat.add_mod_idemp_l, A2 by lia. cbn. 
        rewrite Nat.mod_small by lia. lia.
      - pose proof C as C0. apply (chain_tail ps) in C0. specialize (IH _ _ C0). eapply Forall_impl; [|exact IH]. intros q [H1 H2].
        inversion C as [|? ? ? ? A1 A2 A3 A3' A4 A5 A6 A7 A8 A9]; subst.
        destruct (base_spec ps cap Hps Hcap (r_off r + r_pre r)) as [B1 B2]. unfold base in *.
        pose proof (base_ge ps cap Hps Hcap _ (r_off r + r_pre r + r_copy r) B1 ltac:(lia)) as B3. unfold base in B3. split; [lia|].
        replace (r_off r + r_pre r + n) with (r_off r + r_pre r + r_copy r + (n - r_copy r)); [exact H2|lia]. }
    apply G, (make_chain ps cap); auto.
  Qed.
  (** Changing the file where no page is. *)
  Lemma inv_change V hi s lo up f : inv ps V hi s -> allp (fun o n => lo <= o /\ o + n <= up) s ->
    lo mod ps = 0 -> (forall x, lo <= x < up -> fbyte f x = fbyte (pc_file s) x) ->
    inv ps (fun x => if (lo <=? x) && (x <? up) then V x else fbyte f x) hi (mkPc (pc_slots s) (pc_region s) f).
  Proof.
    intros [L I] A Hlo E. split; [exact L|]. intros i Hi. destruct (I i Hi) as (H1 & H2 & H3). change (get_slot (mkPc (pc_slots s) (pc_region s) f) i) with (get_slot s i).
    cbn [pc_file]. specialize (A i). unfold allq, good in A. rewrite Forall_forall in A. split; [|split; auto].
    - apply Forall_forall. intros p Hp. rewrite Forall_forall in H1. destruct (H1 p Hp) as (B1 & B2 & B3 & B4 & B5). repeat split; auto.
      rewrite B4 at 1. f_equal. apply range_ext. intros x Hx. specialize (A p Hp). cbn in A.
      rewrite (proj2 (Nat.leb_le _ _)), (proj2 (Nat.ltb_lt _ _)) by lia. reflexivity.
    - intros x Hx. destruct (Nat.leb_spec lo x), (Nat.ltb_spec x up); cbn [andb]; auto. rewrite E by lia. auto.
  Qed.
End Change.
