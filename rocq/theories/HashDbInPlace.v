(** The in-place update mode refines the abstract map. *)
From Verif Require Import Bytes MapSpec CodecModel CodecProofs FileModel HashUtilModel HashUtilProofs HashRecModel
  HashRecProofs FbpModel FbpProofs HashDbModel HashDbLayout HashDbAppend.
Open Scope N_scope.

Definition live (g : store) (o : N) (r : hrec) : Prop := g o = Some r /\ r_type r <> OpVoid.

Definition all_linked (d : hdb) (g : store) (B : N -> list N) : Prop :=
  forall o r, live g o r -> In o (B (primary_hash (r_key r) (d_nb d))).
Definition uniq (g : store) : Prop :=
  forall o1 r1 o2 r2, live g o1 r1 -> live g o2 r2 -> r_key r1 = r_key r2 -> o1 = o2.
Definition set_types (g : store) : Prop := forall o r, live g o r -> is_set_type (r_type r) = true.
Definition store_map (g : store) (m : amap) : Prop :=
  forall k v, m k = Some v <-> exists o r, live g o r /\ r_key r = k /\ r_val r = v.
Definition fbp_void (g : store) (p : fbpool) : Prop :=
  forall fb, In fb (fp_data p) -> exists r, g (fb_off fb) = Some r /\ r_type r = OpVoid /\ r_whole r = fb_size fb.

Record ip_inv (d : hdb) (s : hst) (L : layout) (B : N -> list N) (m : amap) : Prop := mk_ip_inv {
  ip_recs : recs d (s_file s) L;
  ip_buckets : buckets d (s_file s) (bhd B);
  ip_chains : chains d (lget L) B;
  ip_all : all_linked d (lget L) B;
  ip_uniq : uniq (lget L);
  ip_types : set_types (lget L);
  ip_map : store_map (lget L) m;
  ip_fbpok : fbp_ok (s_fbp s) /\ 1 <= fp_cap (s_fbp s);
  ip_fbp : fbp_void (lget L) (s_fbp s);
  ip_size : msize m (s_num s) (s_eff s) }.

(** * Changing the stored records and one chain *)
Definition core (r : hrec) := (r_type r, r_key r, r_val r, r_whole r).

Lemma last_app_one {A} (l : list A) x d : last (l ++ [x]) d = x.
Proof. induction l as [|a l IH]; [reflexivity|]. cbn [app last]. destruct (l ++ [x]) eqn:E; [destruct l; discriminate|exact IH]. Qed.

Lemma list_snoc {A} (l : list A) : l = [] \/ exists l0 x, l = l0 ++ [x].
Proof. destruct l as [|a l]; [left; reflexivity|right]. destruct (exists_last (l := a :: l)) as (l0 & x & E); [congruence|eauto]. Qed.

Lemma nodup_app_disj {A} (l1 l2 : list A) x : NoDup (l1 ++ l2) -> In x l1 -> In x l2 -> False.
Proof.
  induction l1 as [|a l1 IH]; cbn [app In]; [tauto|]. intros H. inversion H as [|? ? Hn Hd]; subst.
  intros [<-|Hi] H2; [apply Hn, in_or_app; auto|auto].
Qed.

Lemma rw_last_in (pre : list N) : pre <> [] -> In (last pre 0) pre.
Proof.
  intros H. destruct (list_snoc pre) as [->|(l0 & x & ->)]; [congruence|].
  rewrite last_app_one. apply in_or_app. right; left; reflexivity.
Qed.

Section Rewire.
  Variable d : hdb.
  Variables (g g' : store) (B : N -> list N) (m m' : amap) (key : bytes) (pre post mid : list N) (o : N) (r rv : hrec).
  Let b := primary_hash key (d_nb d).
  Hypothesis Hnb : 0 < d_nb d.
  Hypothesis HC : chains d g B.
  Hypothesis HA : all_linked d g B.
  Hypothesis HU : uniq g.
  Hypothesis HT : set_types g.
  Hypothesis HM : store_map g m.
  Hypothesis EB : B b = pre ++ o :: post.
  Hypothesis Eo : g o = Some r.
  Hypothesis Hkey : r_key r = key.
  Hypothesis Ho' : g' o = Some rv.
  Hypothesis Hrv : r_type rv = OpVoid.
  Hypothesis Hmid : (length mid <= 1)%nat.
  Hypothesis Hmid' : forall n, In n mid -> exists rn, g' n = Some rn /\ r_child rn = hd 0 post /\
     is_set_type (r_type rn) = true /\ r_key rn = key /\ (forall rx, ~ live g n rx).
  Hypothesis Hpar : pre <> [] -> forall rp, g (last pre 0) = Some rp ->
     g' (last pre 0) = Some (with_child rp (hd 0 (mid ++ post))).
  Hypothesis Hsame : forall x, x <> o -> ~ In x mid -> (pre = [] \/ x <> last pre 0) -> g' x = g x.
  Hypothesis Hm' : forall k, m' k = if beqb k key then match mid with [] => None | n :: _ => option_map r_val (g' n) end else m k.
  Let B' := bupd B b (pre ++ mid ++ post).

  Lemma rw_b : b < d_nb d. Proof. apply primary_hash_lt; exact Hnb. Qed.
  Lemma rw_chain : linked g (pre ++ o :: post) /\ NoDup (pre ++ o :: post).
  Proof. destruct (HC b rw_b) as (H1 & H2 & _). rewrite EB in H1, H2. auto. Qed.
  Lemma rw_mid_out n b' : In n mid -> b' < d_nb d -> ~ In n (B b').
  Proof.
    intros Hn Hb' Hi. destruct (Hmid' n Hn) as (rn & _ & _ & _ & _ & Hl).
    destruct (HC b' Hb') as (HL & _). destruct (linked_in _ _ _ HL Hi) as (rx & E & Hv). exact (Hl rx (conj E Hv)).
  Qed.
  Lemma rw_other b' x : b' < d_nb d -> b' <> b -> In x (B b') -> ~ In x (pre ++ o :: post).
  Proof.
    intros Hb' Hne Hi Hi2. destruct (HC b' Hb') as (HL & _ & HH). destruct (HC b rw_b) as (_ & _ & HHb).
    destruct (linked_in _ _ _ HL Hi) as (rx & E & _). rewrite EB in HHb.
    apply Hne. rewrite <- (HH x rx Hi E). apply (HHb x rx Hi2 E).
  Qed.
  Lemma rw_core x : x <> o -> ~ In x mid -> option_map core (g' x) = option_map core (g x).
  Proof.
    intros H1 H2. destruct (list_snoc pre) as [E|(l0 & p & E)]; [rewrite Hsame; auto|].
    assert (Hl : last pre 0 = p) by (rewrite E; apply last_app_one).
    destruct (N.eq_dec x p) as [->|Hne]; [|rewrite Hsame; [reflexivity|auto|auto|right; congruence]].
    assert (Hne : pre <> []) by (rewrite E; destruct l0; discriminate).
    destruct rw_chain as [HL _]. destruct (linked_in _ _ p HL) as (rp & Ep & _).
    { apply in_or_app. left. rewrite <- Hl. apply rw_last_in; exact Hne. }
    rewrite <- Hl in *. rewrite (Hpar Hne rp Ep), Ep. reflexivity.
  Qed.
  Lemma rw_live x rx : live g' x rx -> (In x mid /\ r_key rx = key /\ is_set_type (r_type rx) = true) \/
     (x <> o /\ ~ In x mid /\ exists r0, live g x r0 /\ core rx = core r0).
  Proof.
    intros [E Hv]. destruct (in_dec N.eq_dec x mid) as [Hi|Hi].
    - left. destruct (Hmid' x Hi) as (rn & En & _ & Ht & Hk & _). rewrite E in En. injection En as <-. auto.
    - destruct (N.eq_dec x o) as [->|Hne]; [rewrite E in Ho'; injection Ho' as ->; congruence|].
      right. split; [exact Hne|]. split; [exact Hi|]. assert (Ec := rw_core x Hne Hi). rewrite E in Ec.
      destruct (g x) as [r0|] eqn:Ex; [|discriminate]. cbn [option_map] in Ec. injection Ec as E1 E2 E3 E4.
      exists r0. split; [split; [exact Ex|congruence]|]. unfold core. congruence.
  Qed.
  Lemma rw_live_back x r0 : live g x r0 -> x <> o -> exists rx, live g' x rx /\ core rx = core r0.
  Proof.
    intros [E Hv] Hne. assert (Hi : ~ In x mid).
    { intros Hi. destruct (Hmid' x Hi) as (rn & _ & _ & _ & _ & Hl). exact (Hl r0 (conj E Hv)). }
    assert (Ec := rw_core x Hne Hi). rewrite E in Ec. destruct (g' x) as [rx|] eqn:Ex; [|discriminate].
    cbn [option_map] in Ec. injection Ec as E1 E2 E3 E4. exists rx.
    split; [split; [exact Ex|congruence]|]. unfold core; congruence.
  Qed.
  Lemma rw_oldkey x r0 : live g x r0 -> r_key r0 = key -> x = o.
  Proof.
    intros Hl Hk. apply (HU x r0 o r Hl); [|congruence]. split; [exact Eo|].
    destruct rw_chain as [HL _]. apply (linked_hit _ _ _ _ _ HL Eo).
  Qed.

  Lemma rewire_chains : chains d g' B'.
  Proof.
    destruct rw_chain as [HL HN]. intros b' Hb'. unfold B', bupd. destruct (N.eqb_spec b' b) as [->|Hne].
    - assert (HNpp : NoDup (pre ++ post)) by (apply NoDup_remove_1 in HN; exact HN).
      assert (Hnotin : ~ In o (pre ++ post)) by (apply NoDup_remove_2 in HN; exact HN).
      assert (Hmo : forall n, In n mid -> ~ In n (pre ++ post)).
      { intros n Hn Hi. apply (rw_mid_out n b Hn rw_b). rewrite EB. apply in_app_or in Hi. apply in_or_app; cbn [In]; tauto. }
      assert (HLpost : linked g post) by (apply linked_app_r in HL; cbn [linked] in HL; apply HL).
      assert (Hpp : forall x, In x post -> g' x = g x).
      { intros x Hx. apply Hsame.
        - intros ->. apply Hnotin. apply in_or_app; auto.
        - intros Hi. apply (Hmo x Hi). apply in_or_app; auto.
        - destruct (list_snoc pre) as [->|(l0 & p & E)]; [left; reflexivity|right].
          intros ->. assert (Hi : In (last pre 0) pre) by (apply rw_last_in; rewrite E; destruct l0; discriminate).
          exact (nodup_app_disj _ _ _ HNpp Hi Hx). }
      assert (HLpost' : linked g' post) by (apply (linked_ext g); auto).
      assert (HLmp : linked g' (mid ++ post)).
      { destruct mid as [|n [|n2 mid0]]; cbn [app]; [exact HLpost'| |cbn [length] in Hmid; lia].
        cbn [linked]. split; [|exact HLpost']. destruct (Hmid' n (or_introl eq_refl)) as (rn & En & Hch & Ht & _).
        exists rn. repeat split; auto. intros E. rewrite E in Ht. discriminate. }
      split; [|split].
      + destruct (list_snoc pre) as [E|(l0 & p & E)]; [rewrite E; exact HLmp|].
        assert (Hl : last pre 0 = p) by (rewrite E; apply last_app_one).
        assert (Hnn : pre <> []) by (rewrite E; destruct l0; discriminate).
        assert (Hip : In p pre) by (rewrite <- Hl; apply rw_last_in; exact Hnn).
        destruct (linked_in _ _ p HL) as (rp & Ep & _); [apply in_or_app; auto|].
        assert (Hp' := Hpar Hnn). rewrite Hl in Hp'. specialize (Hp' rp Ep).
        rewrite E in *. rewrite <- !app_assoc in *. cbn [app] in *.
        apply (linked_splice g g' l0 p rp (o :: post) (mid ++ post)); auto.
        intros x Hx. apply Hsame.
        * intros ->. apply Hnotin. apply in_or_app; auto.
        * intros Hi. apply (Hmo x Hi). apply in_or_app; auto.
        * right. intros ->. rewrite Hl in *. apply NoDup_remove_2 in HN. apply HN. apply in_or_app; auto.
      + destruct mid as [|n [|n2 mid0]]; cbn [app]; [exact HNpp| |cbn [length] in Hmid; lia].
        apply NoDup_Add with (a := n) (l := pre ++ post); [apply Add_app|]. split; [exact HNpp|].
        apply Hmo. left; reflexivity.
      + intros x rx Hx E. destruct (in_dec N.eq_dec x mid) as [Hi|Hi].
        * destruct (Hmid' x Hi) as (rn & En & _ & _ & Hk & _). rewrite E in En. injection En as <-. rewrite Hk. reflexivity.
        * assert (Hx2 : In x (pre ++ post)) by (rewrite !in_app_iff in *; tauto).
          assert (Hxo : x <> o) by (intros ->; auto).
          assert (Ec := rw_core x Hxo Hi). rewrite E in Ec. destruct (g x) as [r0|] eqn:Ex; [|discriminate].
          cbn [option_map] in Ec. injection Ec as E1 E2 E3 E4. rewrite E2.
          destruct (HC b rw_b) as (_ & _ & HH). apply (HH x r0); [|exact Ex].
          rewrite EB. rewrite in_app_iff in *. cbn [In]. tauto.
    - destruct (HC b' Hb') as (HL' & HN' & HH').
      assert (Hs : forall x, In x (B b') -> g' x = g x).
      { intros x Hx. assert (Hno := rw_other b' x Hb' Hne Hx). rewrite in_app_iff in Hno. cbn [In] in Hno. apply Hsame.
        - intros ->. tauto.
        - intros Hi. exact (rw_mid_out x b' Hi Hb' Hx).
        - destruct (list_snoc pre) as [->|(l0 & p & E)]; [left; reflexivity|right].
          intros ->. apply Hno. left. apply rw_last_in. rewrite E; destruct l0; discriminate. }
      split; [apply (linked_ext g); assumption|]. split; [exact HN'|]. intros x rx Hx E. rewrite (Hs x Hx) in E. eauto.
  Qed.

  Lemma rewire_all : all_linked d g' B'.
  Proof.
    intros x rx Hl. unfold B', bupd. destruct (rw_live x rx Hl) as [(Hi & Hk & _)|(Hne & Hni & r0 & Hl0 & Hc)].
    - rewrite Hk. fold b. rewrite N.eqb_refl. rewrite !in_app_iff. auto.
    - assert (Ek : r_key rx = r_key r0) by (unfold core in Hc; congruence). rewrite Ek.
      assert (Hin := HA x r0 Hl0). destruct (N.eqb_spec (primary_hash (r_key r0) (d_nb d)) b) as [E|]; [|exact Hin].
      rewrite E, EB in Hin. rewrite !in_app_iff in *. cbn [In] in Hin. intuition congruence.
  Qed.

  Lemma rewire_uniq : uniq g'.
  Proof.
    intros o1 r1 o2 r2 H1 H2 Hk.
    destruct (rw_live o1 r1 H1) as [(Hi1 & Hk1 & _)|(Hne1 & Hni1 & r10 & Hl1 & Hc1)];
      destruct (rw_live o2 r2 H2) as [(Hi2 & Hk2 & _)|(Hne2 & Hni2 & r20 & Hl2 & Hc2)].
    - destruct mid as [|n [|n2 mid0]]; [destruct Hi1| |cbn [length] in Hmid; lia]. destruct Hi1 as [<-|[]], Hi2 as [<-|[]]. reflexivity.
    - exfalso. apply Hne2. apply (rw_oldkey o2 r20 Hl2). unfold core in Hc2. congruence.
    - exfalso. apply Hne1. apply (rw_oldkey o1 r10 Hl1). unfold core in Hc1. congruence.
    - apply (HU o1 r10 o2 r20 Hl1 Hl2). unfold core in Hc1, Hc2. congruence.
  Qed.

  Lemma rewire_types : set_types g'.
  Proof.
    intros x rx Hl. destruct (rw_live x rx Hl) as [(_ & _ & Ht)|(_ & _ & r0 & Hl0 & Hc)]; [exact Ht|].
    assert (Ht := HT x r0 Hl0). unfold core in Hc. congruence.
  Qed.

  Lemma rewire_map : store_map g' m'.
  Proof.
    intros k v. rewrite Hm'. destruct (beqb_spec k key) as [->|Hne].
    - assert (Hcase : mid = [] \/ exists n, mid = [n]).
      { clear -Hmid. destruct mid as [|n [|n2 mid0]]; [left; reflexivity|right; eauto|cbn [length] in Hmid; lia]. }
      destruct Hcase as [Em|[n Em]].
      + rewrite Em. split; [discriminate|]. intros (x & rx & Hl & Hk & Hv). exfalso.
        destruct (rw_live x rx Hl) as [(Hi & _)|(Hxo & _ & r0 & Hl0 & Hc)]; [rewrite Em in Hi; destruct Hi|].
        apply Hxo. apply (rw_oldkey x r0 Hl0). unfold core in Hc; congruence.
      + assert (Hin : In n mid) by (rewrite Em; left; reflexivity).
        destruct (Hmid' n Hin) as (rn & En & _ & Ht & Hk & _). rewrite Em, En. cbn [option_map]. split.
        * intros E. injection E as <-. exists n, rn. repeat split; auto. intros E. rewrite E in Ht. discriminate.
        * intros (x & rx & Hl & Hkx & Hv). f_equal.
          destruct (rw_live x rx Hl) as [(Hi & _)|(Hxo & _ & r0 & Hl0 & Hc)].
          -- rewrite Em in Hi. destruct Hi as [<-|[]]. destruct Hl as [E _]. rewrite En in E. injection E as <-. exact Hv.
          -- exfalso. apply Hxo. apply (rw_oldkey x r0 Hl0). unfold core in Hc; congruence.
    - rewrite (HM k v). split.
      + intros (x & r0 & Hl0 & Hk & Hv). assert (Hxo : x <> o).
        { intros ->. destruct Hl0 as [E _]. rewrite Eo in E. injection E as <-. congruence. }
        destruct (rw_live_back x r0 Hl0 Hxo) as (rx & Hl & Hc). exists x, rx. unfold core in Hc. repeat split; try congruence; apply Hl.
      + intros (x & rx & Hl & Hk & Hv). destruct (rw_live x rx Hl) as [(_ & Hkx & _)|(_ & _ & r0 & Hl0 & Hc)]; [congruence|].
        exists x, r0. unfold core in Hc. repeat split; try congruence; apply Hl0.
  Qed.

  Lemma rewire_fbp p : fbp_void g p -> (forall fb, In fb (fp_data p) -> ~ In (fb_off fb) mid) -> fbp_void g' p.
  Proof.
    intros H Hmf fb Hfb. destruct (H fb Hfb) as (rx & E & Hv & Hs).
    assert (Hxo : fb_off fb <> o).
    { intros Ex. rewrite Ex in E. destruct rw_chain as [HL _]. destruct (linked_hit _ _ _ _ _ HL Eo). congruence. }
    exists rx. split; [|auto]. rewrite Hsame; auto.
    destruct (list_snoc pre) as [->|(l0 & q & Eq)]; [left; reflexivity|right]. intros Ex.
    destruct rw_chain as [HL _]. destruct (linked_in _ _ (fb_off fb) HL) as (ry & Ey & Hy); [|congruence].
    apply in_or_app. left. rewrite Ex. apply rw_last_in. rewrite Eq; destruct l0; discriminate.
  Qed.
End Rewire.

(** * The steps of the code *)
Lemma place_ok d f L V p t t' key v child f1 p1 noff :
  hdb_ok d -> d_inplace d = true -> recs d f L -> buckets d f V -> fbp_ok p -> fbp_void (lget L) p ->
  key_ok key -> value_ok v -> child_ok (d_c d) child ->
  place d f p t t' key v child = (f1, p1, noff) ->
  exists L1 rn, recs d f1 L1 /\ buckets d f1 V /\ fsize f <= fsize f1 /\
    (forall x, lget L1 x = if noff =? x then Some rn else lget L x) /\
    (r_type rn = t \/ r_type rn = t') /\ r_key rn = key /\ r_val rn = v /\ r_child rn = child /\
    (forall rx, ~ live (lget L) noff rx) /\
    fbp_ok p1 /\ fp_cap p1 = fp_cap p /\
    (forall fb, In fb (fp_data p1) -> In fb (fp_data p) /\ fb_off fb <> noff).
Proof.
  intros (Hcfg & _) Hip HR HB Hp Hvoid Hk Hv Hch E.
  assert (HRc := HR). destruct HRc as (Hcon & Hmod & Hr).
  unfold place in E. rewrite Hip in E.
  set (r := set_data (d_c d) t 0 key v child) in *.
  assert (Hrok : rec_ok (d_c d) r) by (apply set_data_rec_ok; auto).
  destruct (fbp_fetch p (r_whole r)) as [[fb p']|] eqn:Ef.
  - destruct (fbp_fetch_spec _ _ _ _ Hp Ef) as (F1 & F2 & F3 & F4 & F5).
    destruct (Hvoid fb F1) as (rx & Ex & Hvx & Hsx).
    destruct (contig_range _ _ _ _ _ Hcon Ex) as (Hlo & _). assert (G := record_base_ge d). unfold METADATA_SIZE in G.
    destruct (N.eqb_spec (fb_off fb) 0); [lia|]. injection E as <- <- <-.
    set (rn := set_data (d_c d) t' (fb_size fb) key v child).
    destruct (Hr _ _ Ex) as (_ & Hxok & _).
    assert (Hw : r_whole rn = fb_size fb).
    { unfold rn. cbn [set_data r_whole]. unfold r in F2. cbn [set_data r_whole] in F2. rewrite N.max_0_r in F2.
      assert (G2 := align_num_ge (base_size (d_c d) key v) (halign (d_c d)) (halign_nz _)).
      rewrite N.max_r by lia. apply align_num_id; [apply halign_nz|]. rewrite <- Hsx. apply Hxok. }
    assert (Hnok : rec_ok (d_c d) rn).
    { destruct Hk as [Hk1 Hk2], Hv as [Hv1 Hv2]. apply set_data_ok; auto. fold rn. rewrite Hw, <- Hsx. apply Hxok. }
    destruct (replace_ok d f L V (fb_off fb) rx rn HR HB Ex) as (HR1 & HB1 & Hs1); [congruence|exact Hnok|].
    exists (lupd L (fb_off fb) rn), rn. split; [exact HR1|]. split; [exact HB1|]. split; [rewrite Hs1; lia|].
    split; [intros x; rewrite lget_lupd, Ex; reflexivity|].
    split; [right; reflexivity|]. do 3 (split; [reflexivity|]).
    split; [intros ry [Ey Hy]; congruence|].
    destruct (fbp_fetch_ok _ _ _ _ Hp Ef) as [Hp1 Hcap]. split; [exact Hp1|]. split; [exact Hcap|].
    intros fb2 Hfb2. assert (Hfb2' : In fb2 (fp_data p)) by (apply F4; auto). split; [exact Hfb2'|].
    intros Eoff. destruct (Hvoid fb2 Hfb2') as (ry & Ey & _ & Hsy). rewrite Eoff, Ex in Ey. injection Ey as <-.
    apply F3. replace fb with fb2; [exact Hfb2|]. apply fb_eq; congruence.
  - change (0 =? 0) with true in E. cbn iota in E. unfold file_append in E. injection E as <- <- <-.
    destruct (append_ok d f L V r HR HB Hrok) as (HR1 & HB1 & Hs1). unfold file_append in HR1, HB1, Hs1. cbn [fst] in *.
    exists (L ++ [(fsize f, r)]), r. split; [exact HR1|]. split; [exact HB1|]. split; [lia|].
    split; [intros x; apply (lget_snoc _ _ _ _ _ Hcon)|].
    split; [left; reflexivity|]. do 3 (split; [reflexivity|]).
    assert (Hnone : lget L (fsize f) = None) by (apply (lget_above _ _ _ _ Hcon); lia).
    split; [intros ry [Ey _]; congruence|]. split; [exact Hp|]. split; [reflexivity|].
    intros fb Hfb. split; [exact Hfb|]. intros Eoff. destruct (Hvoid fb Hfb) as (ry & Ey & _). congruence.
Qed.

Lemma relink_ok d f L B b pre tl v :
  hdb_ok d -> recs d f L -> buckets d f (bhd B) -> b < d_nb d -> B b = pre ++ tl -> child_ok (d_c d) v ->
  (pre <> [] -> exists rp, lget L (last pre 0) = Some rp) ->
  let f' := relink d f b (last pre 0) v in
  exists L', recs d f' L' /\ fsize f' = fsize f /\
    (forall l, buckets d f' (bhd (bupd B b (pre ++ l))) \/ hd 0 l <> v) /\
    (forall x, (pre = [] \/ x <> last pre 0) -> lget L' x = lget L x) /\
    (pre <> [] -> forall rp, lget L (last pre 0) = Some rp -> lget L' (last pre 0) = Some (with_child rp v)).
Proof.
  intros (Hcfg & _) HR HB Hb EB Hv Hp f'.
  destruct (list_snoc pre) as [E|(l0 & p & E)].
  - assert (Hf : f' = set_bucket d f b v) by (unfold f', relink; rewrite E; reflexivity).
    destruct (set_bucket_ok d f L (bhd B) b v HR HB Hb Hv) as (H1 & H2 & H3). rewrite <- Hf in *.
    exists L. split; [exact H1|]. split; [exact H3|]. split; [|split].
    + intros l. destruct (N.eq_dec (hd 0 l) v) as [Ev|]; [left|right; assumption].
      eapply buckets_ext; [|exact H2]. intros b' _. unfold bhd, bupd. rewrite E. destruct (b' =? b); [symmetry; exact Ev|reflexivity].
    + intros x _. reflexivity.
    + congruence.
  - assert (Hnn : pre <> []) by (rewrite E; destruct l0; discriminate).
    destruct (Hp Hnn) as (rp & Ep).
    assert (HRc := HR). destruct HRc as (Hcon & _). destruct (contig_range _ _ _ _ _ Hcon Ep) as (Hlo & _).
    assert (G := record_base_ge d). unfold METADATA_SIZE in G.
    assert (Hf : f' = write_child (d_c d) f (last pre 0) v).
    { unfold f', relink. destruct (N.ltb_spec 0 (last pre 0)); [reflexivity|lia]. }
    destruct (write_child_ok d f L (bhd B) (last pre 0) rp v Hcfg HR HB Ep Hv) as (H1 & H2 & H3). rewrite <- Hf in *.
    exists (lupd L (last pre 0) (with_child rp v)). split; [exact H1|]. split; [exact H3|]. split; [|split].
    + intros l. left. eapply buckets_ext; [|exact H2]. intros b' _. unfold bhd, bupd.
      destruct (N.eqb_spec b' b) as [->|]; [|reflexivity]. rewrite EB. destruct pre; [congruence|reflexivity].
    + intros x [?|Hne]; [congruence|]. rewrite lget_lupd. destruct (N.eqb_spec (last pre 0) x); [congruence|reflexivity].
    + intros _ rp' Ep'. rewrite lget_lupd, N.eqb_refl, Ep. congruence.
Qed.

Lemma void_rec_ok c size r : rec_ok c r -> r_whole r = size ->
  rec_ok c (void_rec c size) /\ r_whole (void_rec c size) = size /\ r_type (void_rec c size) = OpVoid.
Proof.
  intros (K1 & K2 & K3 & K4 & K5 & K6 & K7) <-.
  assert (Hb : base_size c [] [] <= r_whole r).
  { assert (S1 := size_var_pos (blen (r_key r))). assert (S2 := size_var_pos (blen (r_val r))).
    unfold base_size in *. change (size_var (blen [])) with 1. change (blen []) with 0. lia. }
  assert (Hw : r_whole (void_rec c (r_whole r)) = r_whole r).
  { unfold void_rec. cbn [set_data r_whole]. rewrite N.max_r by exact Hb. apply align_num_id; [apply halign_nz|exact K6]. }
  split; [|split; [exact Hw|reflexivity]].
  apply set_data_ok; [apply Forall_nil|apply Forall_nil|apply N.le_0_l|fold (void_rec c (r_whole r)); rewrite Hw; exact K5|apply child_ok_0].
Qed.

Lemma ip_find_none d g B key : 0 < d_nb d -> all_linked d g B -> no_key g key (B (primary_hash key (d_nb d))) ->
  forall o r, live g o r -> r_key r <> key.
Proof.
  intros Hnb HA Hno o r Hl Hk. assert (Hi := HA o r Hl). rewrite Hk in Hi. exact (Hno o r Hi (proj1 Hl) Hk).
Qed.

(** A new record in front of the chain. *)
Lemma ip_push d g g' B m key v noff rn :
  0 < d_nb d -> chains d g B -> all_linked d g B -> uniq g -> set_types g -> store_map g m ->
  let b := primary_hash key (d_nb d) in
  no_key g key (B b) ->
  (forall x, g' x = if noff =? x then Some rn else g x) -> (forall rx, ~ live g noff rx) ->
  is_set_type (r_type rn) = true -> r_key rn = key -> r_val rn = v -> r_child rn = hd 0 (B b) ->
  let B' := bupd B b (noff :: B b) in
  chains d g' B' /\ all_linked d g' B' /\ uniq g' /\ set_types g' /\ store_map g' (aset m key v).
Proof.
  intros Hnb HC HA HU HT HM b Hno Hg' Hnl Ht Hk Hv Hch B'.
  assert (Hnk := ip_find_none d g B key Hnb HA Hno).
  assert (Hnv : r_type rn <> OpVoid) by (intros E; rewrite E in Ht; discriminate).
  assert (Hb : b < d_nb d) by (apply primary_hash_lt; exact Hnb).
  assert (Hin : forall b' x, b' < d_nb d -> In x (B b') -> x <> noff /\ g' x = g x).
  { intros b' x Hb' Hx. destruct (HC b' Hb') as (HL & _). destruct (linked_in _ _ _ HL Hx) as (rx & Ex & Hvx).
    assert (x <> noff) by (intros ->; exact (Hnl rx (conj Ex Hvx))).
    split; [assumption|]. rewrite Hg'. destruct (N.eqb_spec noff x); congruence. }
  assert (Hn' : g' noff = Some rn) by (rewrite Hg', N.eqb_refl; reflexivity).
  assert (Hlive : forall x rx, live g' x rx -> (x = noff /\ rx = rn) \/ (x <> noff /\ live g x rx)).
  { intros x rx [E Hvx]. rewrite Hg' in E. destruct (N.eqb_spec noff x) as [<-|Hne]; [left; split; congruence|right; split; [congruence|split; assumption]]. }
  assert (Hback : forall x rx, live g x rx -> live g' x rx).
  { intros x rx [E Hvx]. split; [|exact Hvx]. rewrite Hg'. destruct (N.eqb_spec noff x) as [<-|]; [destruct (Hnl rx (conj E Hvx))|exact E]. }
  split; [|split; [|split; [|split]]].
  - intros b' Hb'. unfold B', bupd. destruct (N.eqb_spec b' b) as [->|Hne].
    + destruct (HC b Hb) as (HL & HN & HH). split; [|split].
      * cbn [linked]. split; [exists rn; auto|]. apply (linked_ext g); [|exact HL]. intros x Hx. apply (Hin b x Hb Hx).
      * constructor; [|exact HN]. intros Hi. destruct (Hin b noff Hb Hi). congruence.
      * intros x rx [<-|Hx] E; [rewrite Hn' in E; injection E as <-; rewrite Hk; reflexivity|].
        destruct (Hin b x Hb Hx) as [_ Ex]. rewrite Ex in E. eauto.
    + destruct (HC b' Hb') as (HL & HN & HH). split; [|split; [exact HN|]].
      * apply (linked_ext g); [|exact HL]. intros x Hx. apply (Hin b' x Hb' Hx).
      * intros x rx Hx E. destruct (Hin b' x Hb' Hx) as [_ Ex]. rewrite Ex in E. eauto.
  - intros x rx Hl. unfold B', bupd. destruct (Hlive x rx Hl) as [[-> ->]|[Hne Hl0]].
    + rewrite Hk. fold b. rewrite N.eqb_refl. left; reflexivity.
    + assert (Hi := HA x rx Hl0). destruct (N.eqb_spec (primary_hash (r_key rx) (d_nb d)) b) as [E|]; [|exact Hi].
      right. rewrite <- E. exact Hi.
  - intros o1 r1 o2 r2 H1 H2 E12. destruct (Hlive o1 r1 H1) as [[-> ->]|[N1 L1]], (Hlive o2 r2 H2) as [[-> ->]|[N2 L2]].
    + reflexivity.
    + exfalso. apply (Hnk o2 r2 L2). congruence.
    + exfalso. apply (Hnk o1 r1 L1). congruence.
    + eapply HU; eauto.
  - intros x rx Hl. destruct (Hlive x rx Hl) as [[-> ->]|[_ Hl0]]; [exact Ht|eauto].
  - intros k w. unfold aset. destruct (beqb_spec key k) as [->|Hne].
    + split.
      * intros E. injection E as <-. exists noff, rn. repeat split; auto.
      * intros (x & rx & Hl & Hkx & Hw). destruct (Hlive x rx Hl) as [[-> ->]|[_ Hl0]]; [congruence|].
        destruct (Hnk x rx Hl0 Hkx).
    + rewrite (HM k w). split.
      * intros (x & rx & Hl & Hr). exists x, rx. auto.
      * intros (x & rx & Hl & Hkx & Hw). destruct (Hlive x rx Hl) as [[-> ->]|[_ Hl0]]; [congruence|]. exists x, rx. auto.
Qed.

(** Rewriting a record in place. *)
Lemma ip_overwrite d g g' B m key v o r rn :
  0 < d_nb d -> chains d g B -> all_linked d g B -> uniq g -> set_types g -> store_map g m ->
  live g o r -> r_key r = key ->
  (forall x, g' x = if o =? x then Some rn else g x) ->
  is_set_type (r_type rn) = true -> r_key rn = key -> r_val rn = v -> r_child rn = r_child r ->
  chains d g' B /\ all_linked d g' B /\ uniq g' /\ set_types g' /\ store_map g' (aset m key v).
Proof.
  intros Hnb HC HA HU HT HM [Eo Hvo] Hkr Hg' Ht Hk Hv Hch.
  assert (Hnv : r_type rn <> OpVoid) by (intros E; rewrite E in Ht; discriminate).
  assert (Ho' : g' o = Some rn) by (rewrite Hg', N.eqb_refl; reflexivity).
  assert (Hoth : forall x, x <> o -> g' x = g x) by (intros x Hx; rewrite Hg'; destruct (N.eqb_spec o x); congruence).
  assert (Hlk : forall l, linked g l -> linked g' l).
  { induction l as [|x l IH]; cbn [linked]; [trivial|]. intros [(rx & Ex & Hc & Hvx) H]. split; [|auto].
    destruct (N.eq_dec x o) as [->|Hne].
    - exists rn. rewrite Eo in Ex. injection Ex as <-. repeat split; congruence.
    - exists rx. rewrite Hoth; auto. }
  assert (Hlive : forall x rx, live g' x rx -> (x = o /\ rx = rn) \/ (x <> o /\ live g x rx)).
  { intros x rx [E Hvx]. destruct (N.eq_dec x o) as [->|Hne]; [left; split; congruence|right; split; [exact Hne|]].
    split; [rewrite <- Hoth; auto|exact Hvx]. }
  split; [|split; [|split; [|split]]].
  - intros b Hb. destruct (HC b Hb) as (HL & HN & HH). split; [auto|]. split; [exact HN|]. intros x rx Hx E.
    destruct (N.eq_dec x o) as [->|Hne].
    + rewrite Ho' in E. injection E as <-. rewrite Hk, <- Hkr. eauto.
    + rewrite Hoth in E by exact Hne. eauto.
  - intros x rx Hl. destruct (Hlive x rx Hl) as [[-> ->]|[Hne Hl0]]; [|auto].
    rewrite Hk, <- Hkr. apply (HA o r). split; assumption.
  - intros o1 r1 o2 r2 H1 H2 E12.
    assert (Hkey : forall x rx, live g' x rx -> exists r0, live g x r0 /\ r_key r0 = r_key rx).
    { intros x rx Hl. destruct (Hlive x rx Hl) as [[-> ->]|[Hne Hl0]]; [exists r; split; [split; assumption|congruence]|eauto]. }
    destruct (Hkey _ _ H1) as (ra & La & Ka), (Hkey _ _ H2) as (rb & Lb & Kb). apply (HU o1 ra o2 rb La Lb). congruence.
  - intros x rx Hl. destruct (Hlive x rx Hl) as [[-> ->]|[_ Hl0]]; [exact Ht|eauto].
  - intros k w. unfold aset. destruct (beqb_spec key k) as [->|Hne].
    + split.
      * intros E. injection E as <-. exists o, rn. repeat split; auto.
      * intros (x & rx & Hl & Hkx & Hw). destruct (Hlive x rx Hl) as [[-> ->]|[Hxo Hl0]]; [congruence|].
        exfalso. apply Hxo. apply (HU x rx o r Hl0); [split; assumption|congruence].
    + rewrite (HM k w). split.
      * intros (x & rx & [Ex Hvx] & Hkx & Hw). exists x, rx. repeat split; auto. rewrite Hoth; [exact Ex|].
        intros ->. congruence.
      * intros (x & rx & Hl & Hkx & Hw). destruct (Hlive x rx Hl) as [[-> ->]|[_ Hl0]]; [congruence|]. exists x, rx. auto.
Qed.

Lemma file_write_grows f off b : fsize f <= fsize (file_write f off b).
Proof. unfold file_write. cbn [fsize]. lia. Qed.

(** The effect of one operation in in-place mode. *)
Lemma ip_step d s L B m key proc readable writable :
  hdb_ok d -> d_inplace d = true -> ip_inv d s L B m -> key_ok key -> action_ok (proc (map_seen m key readable)) ->
  let res := h_process d s key proc readable writable in
  let seen := map_seen m key readable in
  fsize (s_file (h_st res)) <= capacity d ->
  h_status res = HOk /\ h_seen res = Some seen /\
  s_log (h_st res) = s_log s ++ match proc seen with
     | ANoop => [] | ARemove => if writable then match m key with Some _ => [LRemove key] | None => [] end else []
     | ASet v => if writable then [LSet key v] else [] end /\
  exists L' B', ip_inv d (h_st res) L' B' (map_apply m key (proc seen) writable).
Proof.
  intros Hd Hip Inv Hk Hproc res seen Hcap.
  assert (Inv' := Inv). destruct Inv' as [HR HB HC HA HU HT HM HP HV HS].
  assert (Hd' := Hd). destruct Hd' as (Hcfg & Hnb & Hmrs).
  set (b := primary_hash key (d_nb d)) in *.
  assert (Hb : b < d_nb d) by (apply primary_hash_lt; exact Hnb).
  destruct (HC b Hb) as (HL & HN & HH).
  assert (HRc := HR). destruct HRc as (Hcon & Hmod & Hr).
  assert (Hlen := chain_length d (s_file s) L B b HR HC Hb).
  subst res. unfold h_process in *. fold b in Hcap |- *. rewrite (HB b Hb) in *. change (bhd B b) with (hd 0 (B b)) in *.
  assert (Hm' : META_MIN_READ_SIZE <= (if readable then META_MIN_READ_SIZE else d_mrs d)) by (destruct readable; [lia|exact Hmrs]).
  destruct (walk_spec d (s_file s) L key _ (B b) _ 0 Hcfg HR HL Hm' Hlen)
    as [[Hno Hw]|(pre & o & post & r & mt & EB & Hno & Eo & Hkey & Hw & Hrm & M1 & M2 & M3 & M4 & M5 & M6)].
  - rewrite Hw in *.
    assert (Hnk := ip_find_none d _ B key Hnb HA Hno).
    assert (Hmk : m key = None).
    { destruct (m key) as [w|] eqn:Em; [|reflexivity]. apply HM in Em. destruct Em as (x & rx & Hl & Hkx & _). destruct (Hnk x rx Hl Hkx). }
    assert (Hseen : seen = None) by (unfold seen, map_seen; rewrite Hmk; reflexivity).
    rewrite Hseen, Hmk.
    assert (Hpa := Hproc). fold seen in Hpa. rewrite Hseen in Hpa.
    destruct (proc None) as [| |v] eqn:Ea.
    + cbn [h_status h_seen h_st] in *. rewrite app_nil_r. repeat split; auto.
      exists L, B. destruct writable; exact Inv.
    + cbn [h_status h_seen h_st] in *. replace (if writable then [] else []) with (@nil ulop) by (destruct writable; reflexivity).
      rewrite app_nil_r. repeat split; auto. exists L, B. destruct writable; [|exact Inv].
      constructor; auto; cbn [map_apply].
      * intros k w. rewrite (adel_none m key Hmk k). apply HM.
      * eapply msize_ext; [|exact HS]. intros k. symmetry. apply (adel_none m key Hmk k).
    + destruct writable.
      2:{ cbn [h_status h_seen h_st] in *. rewrite app_nil_r. repeat split; auto. exists L, B. exact Inv. }
      destruct (place d (s_file s) (s_fbp s) OpAdd OpAdd key v (hd 0 (B b))) as [[f1 p1] noff] eqn:Epl.
      cbn [count_update h_status h_seen h_st s_log s_fbp s_file] in *.
      repeat split; auto.
      assert (Hf1 : fsize f1 <= capacity d).
      { assert (G := file_write_grows f1 (METADATA_SIZE + b * N.of_nat (ow (d_c d))) (write_fix (ow (d_c d)) (N.shiftr noff (apow (d_c d))))).
        fold (set_bucket d f1 b noff) in G. lia. }
      assert (Hsz : fsize (s_file s) <= fsize f1).
      { unfold place in Epl. rewrite Hip in Epl. destruct (fbp_fetch (s_fbp s) _) as [[fb p']|]; [destruct (fb_off fb =? 0)|];
          unfold file_append in Epl; change (0 =? 0) with true in Epl; cbn iota in Epl; injection Epl as <- _ _; apply file_write_grows. }
      assert (Hchild : child_ok (d_c d) (hd 0 (B b))).
      { destruct (B b) as [|x l] eqn:EBb; [apply child_ok_0|]. cbn [hd].
        destruct (linked_in _ _ x HL) as (rx & Ex & _); [left; reflexivity|].
        apply (recs_child_ok d (s_file s) L x rx HR); [lia|exact Ex]. }
      destruct (place_ok d _ _ _ _ _ _ _ _ _ _ _ _ Hd Hip HR HB (proj1 HP) HV Hk Hpa Hchild Epl)
        as (L1 & rn & HR1 & HB1 & Hs1 & Hg1 & Ht1 & Hk1 & Hv1 & Hc1 & Hnl & Hp1 & Hcap1 & Hin1).
      assert (Hnoff : child_ok (d_c d) noff).
      { apply (recs_child_ok d f1 L1 noff rn HR1 Hf1). rewrite Hg1, N.eqb_refl. reflexivity. }
      destruct (set_bucket_ok d f1 L1 (bhd B) b noff HR1 HB1 Hb Hnoff) as (HR2 & HB2 & _).
      destruct (ip_push d (lget L) (lget L1) B m key v noff rn Hnb HC HA HU HT HM Hno Hg1 Hnl) as (K1 & K2 & K3 & K4 & K5); auto.
      { destruct Ht1 as [->| ->]; reflexivity. }
      exists L1, (bupd B b (noff :: B b)). constructor; cbn [s_file s_fbp s_num s_eff map_apply]; auto.
      * eapply buckets_ext; [|exact HB2]. intros b' _. unfold bhd, bupd. destruct (b' =? b); reflexivity.
      * split; [exact Hp1|rewrite Hcap1; apply HP].
      * intros fb Hfb. destruct (Hin1 fb Hfb) as [Hfb0 Hne]. destruct (HV fb Hfb0) as (rx & Ex & Hrest).
        exists rx. split; [|exact Hrest]. rewrite Hg1. destruct (N.eqb_spec noff (fb_off fb)); [congruence|exact Ex].
      * apply msize_add; assumption.
  - rewrite Hw in *. rewrite M1 in *.
    rewrite EB in HL. destruct (linked_hit _ _ _ _ _ HL Eo) as [Hchild Hty]. rewrite <- EB in HL.
    assert (Hlo : live (lget L) o r) by (split; assumption).
    assert (Hset : is_set_type (r_type r) = true) by (eapply HT; eauto).
    assert (Hmk : m key = Some (r_val r)) by (apply HM; exists o, r; auto).
    rewrite Hset in *.
    assert (Hold : (if readable then match meta_value (s_file s) o mt with Some v => Some (Some v) | None => None end
                    else Some (Some [])) = Some seen).
    { unfold seen, map_seen. rewrite Hmk, M6. destruct readable; reflexivity. }
    rewrite Hold in *. rewrite Hmk.
    assert (Hpa := Hproc). fold seen in Hpa.
    destruct (Hr o r Eo) as (Hato & Hoko & Halo).
    assert (Hpre : pre <> [] -> exists rp, lget L (last pre 0) = Some rp).
    { intros Hnn. rewrite EB in HL. destruct (linked_in _ _ (last pre 0) HL) as (rp & Ep & _); [|eauto].
      apply in_or_app. left. apply rw_last_in. exact Hnn. }
    assert (Hprene : pre <> [] -> last pre 0 <> o).
    { intros Hnn Elo. rewrite EB in HN. apply NoDup_remove_2 in HN. apply HN. apply in_or_app. left.
      rewrite <- Elo. apply rw_last_in. exact Hnn. }
    destruct (void_rec_ok (d_c d) (m_whole mt) r Hoko (eq_sym M4)) as (Vok & Vw & Vt).
    destruct (proc seen) as [| |v] eqn:Ea.
    + cbn [h_status h_seen h_st] in *. rewrite app_nil_r. repeat split; auto. exists L, B. destruct writable; exact Inv.
    + (* removal *)
      destruct writable.
      2:{ cbn [h_status h_seen h_st] in *. rewrite app_nil_r. repeat split; auto. exists L, B. exact Inv. }
      unfold update_found in *. rewrite Hip in *. cbn [andb] in *. rewrite Vw, N.eqb_refl in *.
      destruct (fbp_insert_defined (s_fbp s) (mkfb (m_whole mt) o) (proj1 HP) (proj2 HP)) as (p' & Ep').
      rewrite Ep' in *. cbn [count_update h_status h_seen h_st s_log s_fbp s_file] in *.
      repeat split; auto.
      set (f1 := relink d (s_file s) b (last pre 0) (m_child mt)) in *.
      assert (Hcapf : fsize (s_file s) <= capacity d).
      { assert (G := file_write_grows f1 o (rec_bytes (d_c d) (void_rec (d_c d) (m_whole mt)))).
        assert (G2 : fsize (s_file s) <= fsize f1).
        { unfold f1, relink. destruct (0 <? last pre 0); [unfold write_child|unfold set_bucket]; apply file_write_grows. }
        lia. }
      assert (Hchok : child_ok (d_c d) (m_child mt)).
      { rewrite M2. apply Hoko. }
      destruct (relink_ok d (s_file s) L B b pre (o :: post) (m_child mt) Hd HR HB Hb EB Hchok Hpre)
        as (L1 & HR1 & Hs1 & HB1 & Hsame1 & Hpar1). fold f1 in HR1, Hs1, HB1.
      assert (Eo1 : lget L1 o = Some r).
      { rewrite Hsame1; [exact Eo|]. destruct (list_snoc pre) as [Ex|(l0 & x & Ex)]; [left; exact Ex|right].
        intros Ex2. apply Hprene; [rewrite Ex; destruct l0; discriminate|congruence]. }
      assert (HB1' : buckets d f1 (bhd (bupd B b (pre ++ post)))).
      { destruct (HB1 post) as [H|H]; [exact H|]. rewrite M2 in H. congruence. }
      destruct (replace_ok d f1 L1 _ o r (void_rec (d_c d) (m_whole mt)) HR1 HB1' Eo1) as (HR2 & HB2 & Hs2); [congruence|exact Vok|].
      set (L2 := lupd L1 o (void_rec (d_c d) (m_whole mt))) in *.
      assert (Hg2 : forall x, lget L2 x = if o =? x then Some (void_rec (d_c d) (m_whole mt)) else lget L1 x).
      { intros x. unfold L2. rewrite lget_lupd, Eo1. reflexivity. }
      assert (Ho2 : lget L2 o = Some (void_rec (d_c d) (m_whole mt))) by (rewrite Hg2, N.eqb_refl; reflexivity).
      assert (Hsame : forall x, x <> o -> ~ In x (@nil N) -> (pre = [] \/ x <> last pre 0) -> lget L2 x = lget L x).
      { intros x Hx _ Hp. rewrite Hg2. destruct (N.eqb_spec o x); [congruence|]. apply Hsame1; exact Hp. }
      assert (Hpar : pre <> [] -> forall rp, lget L (last pre 0) = Some rp ->
         lget L2 (last pre 0) = Some (with_child rp (hd 0 ([] ++ post)))).
      { intros Hnn rp Erp. rewrite Hg2. destruct (N.eqb_spec o (last pre 0)) as [Ex|_]; [destruct (Hprene Hnn (eq_sym Ex))|].
        rewrite (Hpar1 Hnn rp Erp). rewrite M2, Hchild. reflexivity. }
      assert (Hmid' : forall n, In n (@nil N) -> exists rn, lget L2 n = Some rn /\ r_child rn = hd 0 post /\
         is_set_type (r_type rn) = true /\ r_key rn = key /\ (forall rx, ~ live (lget L) n rx)) by (intros n []).
      assert (Hmm : forall k, adel m key k = if beqb k key then match @nil N with [] => None | n :: _ => option_map r_val (lget L2 n) end else m k).
      { intros k. unfold adel. destruct (beqb_spec key k) as [->|Hne]; [rewrite beqb_refl; reflexivity|].
        destruct (beqb_spec k key); [congruence|reflexivity]. }
      assert (Hmidl : (length (@nil N) <= 1)%nat) by (cbn; lia).
      assert (F := rewire_fbp d (lget L) (lget L2) B key pre post [] o r _ Hnb HC EB Eo Vt Hpar Hsame (s_fbp s) HV (fun _ _ H => H)).
      destruct (fbp_insert_ok _ _ _ (proj1 HP) Ep') as [Hp'ok Hp'cap].
      destruct (fbp_insert_spec _ _ _ (proj1 HP) Ep') as [Hp'in _].
      exists L2, (bupd B b (pre ++ [] ++ post)). constructor; cbn [s_file s_fbp s_num s_eff map_apply].
      * exact HR2.
      * exact HB2.
      * exact (rewire_chains d (lget L) (lget L2) B m (adel m key) key pre post [] o r Hnb HC EB Hmidl Hmid' Hpar Hsame Hmm).
      * exact (rewire_all d (lget L) (lget L2) B key pre post [] o _ Hnb HC HA EB Ho2 Vt Hmid' Hpar Hsame).
      * exact (rewire_uniq d (lget L) (lget L2) B m (adel m key) key pre post [] o r _ Hnb HC HU EB Eo Hkey Ho2 Vt Hmidl Hmid' Hpar Hsame Hmm).
      * exact (rewire_types d (lget L) (lget L2) B key pre post [] o _ Hnb HC HT EB Ho2 Vt Hmid' Hpar Hsame).
      * exact (rewire_map d (lget L) (lget L2) B m (adel m key) key pre post [] o r _ Hnb HC HU HM EB Eo Hkey Ho2 Vt Hmidl Hmid' Hpar Hsame Hmm).
      * split; [exact Hp'ok|rewrite Hp'cap; apply HP].
      * intros fb Hfb. destruct (Hp'in fb Hfb) as [->|Hfb0]; [|exact (F fb Hfb0)].
        cbn [fb_off fb_size]. exists (void_rec (d_c d) (m_whole mt)). auto.
      * rewrite M5. apply msize_del; assumption.
    + (* update *)
      destruct writable.
      2:{ cbn [h_status h_seen h_st] in *. rewrite app_nil_r. repeat split; auto. exists L, B. exact Inv. }
      unfold update_found in *. rewrite Hip, M1, Hset in *. cbn [andb orb] in *.
      set (first := set_data (d_c d) OpSet (m_whole mt) key v (m_child mt)) in *.
      destruct (N.eqb_spec (r_whole first) (m_whole mt)) as [Ew|Nw].
      * cbn [count_update h_status h_seen h_st s_log s_fbp s_file] in *. repeat split; auto.
        assert (Hfok : rec_ok (d_c d) first).
        { destruct Hk as [Hk1 Hk2], Hpa as [Hv1 Hv2]. apply set_data_ok; auto.
          - fold first. rewrite Ew, M4. apply Hoko.
          - rewrite M2. apply Hoko. }
        destruct (replace_ok d (s_file s) L (bhd B) o r first HR HB Eo) as (HR1 & HB1 & Hs1); [congruence|exact Hfok|].
        assert (Hg1 : forall x, lget (lupd L o first) x = if o =? x then Some first else lget L x)
          by (intros x; rewrite lget_lupd, Eo; reflexivity).
        destruct (ip_overwrite d (lget L) (lget (lupd L o first)) B m key v o r first Hnb HC HA HU HT HM Hlo Hkey Hg1)
          as (K1 & K2 & K3 & K4 & K5); auto.
        exists (lupd L o first), B. constructor; cbn [s_file s_fbp s_num s_eff map_apply]; auto.
        -- intros fb Hfb. destruct (HV fb Hfb) as (rx & Ex & Hvx & Hsx). exists rx. split; [|auto].
           rewrite Hg1. destruct (N.eqb_spec o (fb_off fb)) as [Eq|]; [|exact Ex].
           rewrite <- Eq, Eo in Ex. congruence.
        -- rewrite M5. apply msize_replace; assumption.
      * destruct (place d (s_file s) (s_fbp s) OpSet OpSet key v (m_child mt)) as [[f1 p1] noff] eqn:Epl.
        assert (Hchok : child_ok (d_c d) (m_child mt)) by (rewrite M2; apply Hoko).
        destruct (place_ok d _ _ _ _ _ _ _ _ _ _ _ _ Hd Hip HR HB (proj1 HP) HV Hk Hpa Hchok Epl)
          as (L1 & rn & HR1 & HB1 & Hs1 & Hg1 & Ht1 & Hk1 & Hv1 & Hc1 & Hnl & Hp1 & Hcap1 & Hin1).
        assert (Htn : is_set_type (r_type rn) = true) by (destruct Ht1 as [->| ->]; reflexivity).
        assert (Hno_o : noff <> o) by (intros ->; exact (Hnl r Hlo)).
        assert (Hno_p : pre <> [] -> last pre 0 <> noff).
        { intros Hnn Ex. rewrite EB in HL. destruct (linked_in _ _ (last pre 0) HL) as (rp & Ep & Hvp).
          - apply in_or_app. left. apply rw_last_in. exact Hnn.
          - rewrite Ex in Ep. exact (Hnl rp (conj Ep Hvp)). }
        destruct (fbp_insert_defined p1 (mkfb (m_whole mt) o) Hp1 ltac:(rewrite Hcap1; apply HP)) as (p' & Ep').
        rewrite Ep' in *. cbn [count_update h_status h_seen h_st s_log s_fbp s_file] in *.
        repeat split; auto.
        set (f2 := relink d f1 b (last pre 0) noff) in *.
        assert (Hcap1' : fsize f1 <= capacity d).
        { assert (G := file_write_grows f2 o (rec_bytes (d_c d) (void_rec (d_c d) (m_whole mt)))).
          assert (G2 : fsize f1 <= fsize f2).
          { unfold f2, relink. destruct (0 <? last pre 0); [unfold write_child|unfold set_bucket]; apply file_write_grows. }
          lia. }
        assert (Hn1 : lget L1 noff = Some rn) by (rewrite Hg1, N.eqb_refl; reflexivity).
        assert (Hnoff : child_ok (d_c d) noff) by (apply (recs_child_ok d f1 L1 noff rn HR1 Hcap1' Hn1)).
        assert (Hold1 : forall x, x <> noff -> lget L1 x = lget L x).
        { intros x Hx. rewrite Hg1. destruct (N.eqb_spec noff x); [congruence|reflexivity]. }
        assert (Hpre1 : pre <> [] -> exists rp, lget L1 (last pre 0) = Some rp).
        { intros Hnn. destruct (Hpre Hnn) as (rp & Ep). exists rp. rewrite Hold1; auto. }
        destruct (relink_ok d f1 L1 B b pre (o :: post) noff Hd HR1 HB1 Hb EB Hnoff Hpre1)
          as (L2 & HR2 & Hs2 & HB2 & Hsame2 & Hpar2). fold f2 in HR2, Hs2, HB2.
        assert (Hnp_o : pre = [] \/ o <> last pre 0).
        { destruct (list_snoc pre) as [Ex|(l0 & x & Ex)]; [left; exact Ex|right].
          intros Ex2. apply Hprene; [rewrite Ex; destruct l0; discriminate|congruence]. }
        assert (Hnp_n : pre = [] \/ noff <> last pre 0).
        { destruct (list_snoc pre) as [Ex|(l0 & x & Ex)]; [left; exact Ex|right].
          intros Ex2. apply Hno_p; [rewrite Ex; destruct l0; discriminate|congruence]. }
        assert (Eo2 : lget L2 o = Some r) by (rewrite Hsame2 by exact Hnp_o; rewrite Hold1; auto).
        assert (HB2' : buckets d f2 (bhd (bupd B b (pre ++ noff :: post)))).
        { destruct (HB2 (noff :: post)) as [H|H]; [exact H|]. cbn [hd] in H. congruence. }
        destruct (replace_ok d f2 L2 _ o r (void_rec (d_c d) (m_whole mt)) HR2 HB2' Eo2) as (HR3 & HB3 & Hs3); [congruence|exact Vok|].
        set (L3 := lupd L2 o (void_rec (d_c d) (m_whole mt))) in *.
        assert (Hg3 : forall x, lget L3 x = if o =? x then Some (void_rec (d_c d) (m_whole mt)) else lget L2 x).
        { intros x. unfold L3. rewrite lget_lupd, Eo2. reflexivity. }
        assert (Ho3 : lget L3 o = Some (void_rec (d_c d) (m_whole mt))) by (rewrite Hg3, N.eqb_refl; reflexivity).
        assert (Hn3 : lget L3 noff = Some rn).
        { rewrite Hg3. destruct (N.eqb_spec o noff); [congruence|]. rewrite Hsame2 by exact Hnp_n. exact Hn1. }
        assert (Hsame : forall x, x <> o -> ~ In x [noff] -> (pre = [] \/ x <> last pre 0) -> lget L3 x = lget L x).
        { intros x Hx Hxn Hp. rewrite Hg3. destruct (N.eqb_spec o x); [congruence|]. rewrite Hsame2 by exact Hp.
          apply Hold1. intros ->. apply Hxn. left; reflexivity. }
        assert (Hpar : pre <> [] -> forall rp, lget L (last pre 0) = Some rp ->
           lget L3 (last pre 0) = Some (with_child rp (hd 0 ([noff] ++ post)))).
        { intros Hnn rp Erp. rewrite Hg3. destruct (N.eqb_spec o (last pre 0)) as [Ex|_]; [destruct (Hprene Hnn (eq_sym Ex))|].
          cbn [app hd]. apply Hpar2; [exact Hnn|]. rewrite Hold1; auto. }
        assert (Hmid' : forall n, In n [noff] -> exists rn, lget L3 n = Some rn /\ r_child rn = hd 0 post /\
           is_set_type (r_type rn) = true /\ r_key rn = key /\ (forall rx, ~ live (lget L) n rx)).
        { intros n [<-|[]]. exists rn. repeat split; auto. rewrite Hc1, M2. exact Hchild. }
        assert (Hmm : forall k, aset m key v k = if beqb k key then match [noff] with [] => None | n :: _ => option_map r_val (lget L3 n) end else m k).
        { intros k. rewrite Hn3. cbn [option_map]. rewrite Hv1. unfold aset. destruct (beqb_spec key k) as [->|Hne]; [rewrite beqb_refl; reflexivity|].
          destruct (beqb_spec k key); [congruence|reflexivity]. }
        assert (Hmidl : (length [noff] <= 1)%nat) by (cbn; lia).
        assert (HV1 : fbp_void (lget L) p1) by (intros fb Hfb; apply HV, Hin1, Hfb).
        assert (F := rewire_fbp d (lget L) (lget L3) B key pre post [noff] o r _ Hnb HC EB Eo Vt Hpar Hsame p1 HV1).
        assert (F' : fbp_void (lget L3) p1).
        { apply F. intros fb Hfb [Ex|[]]. destruct (Hin1 fb Hfb) as [_ Hne]. congruence. }
        destruct (fbp_insert_ok _ _ _ Hp1 Ep') as [Hp'ok Hp'cap].
        destruct (fbp_insert_spec _ _ _ Hp1 Ep') as [Hp'in _].
        exists L3, (bupd B b (pre ++ [noff] ++ post)). constructor; cbn [s_file s_fbp s_num s_eff map_apply].
        -- exact HR3.
        -- exact HB3.
        -- exact (rewire_chains d (lget L) (lget L3) B m (aset m key v) key pre post [noff] o r Hnb HC EB Hmidl Hmid' Hpar Hsame Hmm).
        -- exact (rewire_all d (lget L) (lget L3) B key pre post [noff] o _ Hnb HC HA EB Ho3 Vt Hmid' Hpar Hsame).
        -- exact (rewire_uniq d (lget L) (lget L3) B m (aset m key v) key pre post [noff] o r _ Hnb HC HU EB Eo Hkey Ho3 Vt Hmidl Hmid' Hpar Hsame Hmm).
        -- exact (rewire_types d (lget L) (lget L3) B key pre post [noff] o _ Hnb HC HT EB Ho3 Vt Hmid' Hpar Hsame).
        -- exact (rewire_map d (lget L) (lget L3) B m (aset m key v) key pre post [noff] o r _ Hnb HC HU HM EB Eo Hkey Ho3 Vt Hmidl Hmid' Hpar Hsame Hmm).
        -- split; [exact Hp'ok|rewrite Hp'cap, Hcap1; apply HP].
        -- intros fb Hfb. destruct (Hp'in fb Hfb) as [->|Hfb0]; [|exact (F' fb Hfb0)].
           cbn [fb_off fb_size]. exists (void_rec (d_c d) (m_whole mt)). auto.
        -- rewrite M5. apply msize_replace; assumption.
Qed.
