(** Lemmas on the slots of CacheDBM. *)
From Coq Require Import List NArith ZArith Bool Lia PeanoNat Permutation.
Import ListNotations.
From Verif Require Import Bytes CodecModel DbmModel LinkedModel LinkedProofs CacheModel.
Local Open Scope N_scope.

Section CacheProofs.
  Variable hash : bytes -> N.
  Variable buckets : N -> N.
  Hypothesis buckets_pos : forall c, buckets c <> 0.
  Notation h8 := (hash8 hash).
  Notation heap := (heap bytes bytes).
  Notation Rep := (rep bytes bytes h8).
  Notation sfind := (s_find bytes bytes beqb). Notation sdel := (s_del bytes bytes beqb).

  Lemma rep_local h h' m L l : Rep h m L l -> (hfresh h <= hfresh h')%nat ->
    (forall p, In p L -> hk h' p = hk h p /\ hc h' p = hc h p /\ hp h' p = hp h p /\ hn h' p = hn h p) -> Rep h' m L l.
  Proof.
    intros R F1 F. destruct R. constructor; auto.
    - rewrite <- r_kv. apply map_ext_in. intros p Hp. apply F, Hp.
    - intros p Hp. specialize (r_lt p Hp). lia.
    - eapply path_frame; [|exact r_next]. intros p Hp. symmetry. apply F, Hp.
    - eapply path_frame; [|exact r_prev]. intros p Hp. symmetry. apply F, in_rev, Hp.
    - intros i. destruct (r_chain i) as (C & P & N & E). exists C. split; [|split].
      + eapply path_frame; [|exact P]. intros p Hp. symmetry. apply F, E, Hp.
      + exact N.
      + intros p. rewrite E. unfold mods. split; intros [H1 H2]; (split; [exact H1|]); [rewrite (proj1 (F p H1))|rewrite <- (proj1 (F p H1))]; exact H2.
  Qed.
  Lemma rep_last h m L l : Rep h m L l -> mlast m = last_opt L.
  Proof. intros R. apply (path_hd _ _ _ (r_prev _ _ _ _ _ _ _ R)). Qed.
  Lemma rep_first h m L l : Rep h m L l -> mfirst m = hd_error L.
  Proof. intros R. apply (path_hd _ _ _ (r_next _ _ _ _ _ _ _ R)). Qed.

  (** * A hit record moves to the end *)
  Lemma touch_ok h m A p B la lb kv : Rep h m (A ++ p :: B) (la ++ kv :: lb) -> hk h p = Some kv -> map (hk h) A = map Some la -> map (hk h) B = map Some lb ->
    exists h' m', touch h m p (hp h p) (hn h p) = Some (h', m', last_opt (A ++ B), None) /\ Rep h' m' ((A ++ B) ++ [p]) ((la ++ lb) ++ [kv]) /\
      hk h' = hk h /\ hc h' = hc h /\ hfresh h' = hfresh h /\ mb m' = mb m /\ mnb m' = mnb m /\ mnum m' = mnum m.
  Proof.
    intros R E EA EB. assert (D := rep_dll _ _ _ _ _ _ _ R). assert (EPV := dll_prev _ _ _ _ _ _ _ D). assert (ENX := dll_next _ _ _ _ _ _ _ D). assert (DL := dll_last _ _ _ _ _ _ _ D).
    destruct (move_last_ok _ _ _ _ _ _ _ D) as (h2 & m2 & EM & D2 & (Ek & Ec & Ef & Eb & Enb & En) & _).
    assert (PL : Permutation (A ++ p :: B) ((A ++ B) ++ [p])) by (apply (placed_perm _ MOVE_LAST)). assert (Pl : Permutation (la ++ kv :: lb) ((la ++ lb) ++ [kv])) by (apply (placed_perm _ MOVE_LAST)).
    assert (KV : forall hh, hk hh = hk h -> map (hk hh) ((A ++ B) ++ [p]) = map Some ((la ++ lb) ++ [kv])) by (intros hh ->; rewrite !map_app; cbn [map]; rewrite E, EA, EB; reflexivity).
    unfold touch. unfold move_last in EM. destruct (peq_spec (mlast m) (Some p)) as [X|X].
    - apply DL in X. subst B. exists h, m. assert (lb = []) as -> by (destruct lb; [reflexivity|discriminate]). rewrite !app_nil_r in *. cbn in ENX. rewrite ENX, EPV. split; [reflexivity|]. auto 10.
    - assert (Ap : alive h p = true) by (eapply alive_some; exact E). unfold get_prev, get_next in EM. rewrite Ap in EM. cbn [obind] in EM.
      destruct (set_next_if h (hp h p) (hn h p)) as [h1|] eqn:E1; [|discriminate]. cbn [obind] in *. destruct (set_prev_if h1 (hn h p) (hp h p)) as [h3|] eqn:E3; [|discriminate]. cbn [obind] in *. cbv zeta in *.
      set (m1 := if peq (mfirst m) (Some p) then with_first m (hn h p) else m) in *. assert (L1 : mlast m1 = mlast m) by (unfold m1; destruct (peq _ _); reflexivity).
      assert (LL := rep_last _ _ _ _ R). assert (HB : B <> []) by (intros ->; apply X; apply DL; reflexivity).
      assert (LB : last_opt (A ++ p :: B) = last_opt (A ++ B)) by (rewrite !last_opt_app by congruence; change (p :: B) with ([p] ++ B); rewrite last_opt_app by exact HB; reflexivity).
      rewrite L1, LL, LB in *. destruct (@exists_last _ B HB) as (B' & b & EBB). assert (LO : last_opt (A ++ B) = Some b) by (rewrite EBB, app_assoc; apply last_opt_snoc).
      rewrite LO in *. unfold set_next_of, set_prev, set_next in *. destruct (alive h3 p) eqn:A3; [|discriminate]. cbn [obind] in *. unfold alive in EM at 1. cbn [hk] in EM. fold (alive h3 p) in EM. rewrite A3 in EM. cbn [obind] in *.
      unfold alive in EM at 1. cbn [hk] in EM. fold (alive h3 b) in EM. destruct (alive h3 b) eqn:A4; [|discriminate]. cbn [obind] in *. injection EM as <- <-.
      unfold alive at 1. cbn [hk]. fold (alive h3 p). rewrite A3. cbn [obind]. unfold alive at 1. cbn [hk]. fold (alive h3 p). rewrite A3. cbn [obind]. cbn [hk hc hp hn hfresh mb mnb mnum with_last] in *.
      eexists _, _. split; [reflexivity|]. split; [|auto 10].
      assert (NB : b <> p) by (intros ->; apply X; rewrite <- LO; congruence).
      apply (rep_perm _ _ _ _ _ _ _ _ _ _ _ R); [|repeat split; auto|exact PL|exact Pl|apply KV; exact Ek].
      destruct D2 as (D21 & D22 & D23 & D24). split; [exact D21|]. split; [intros q Hq; specialize (D22 q Hq); unfold alive in *; cbn [hk] in *; exact D22|]. cbn [hn hp mfirst mlast with_last] in *. split; [|exact D24].
      eapply path_frame; [|exact D23]. intros q _. unfold upd. destruct (Nat.eqb_spec q b), (Nat.eqb_spec q p); try reflexivity. congruence.
  Qed.

  Lemma peq_refl o : peq o o = true.
  Proof. destruct o; cbn; [apply Nat.eqb_refl|reflexivity]. Qed.

  (** * Removing the last record *)
  Lemma drop_last_ok h m A p la kv i C1 C2 : Rep h m (A ++ [p]) (la ++ [kv]) -> hk h p = Some kv -> map (hk h) A = map Some la ->
    path (hc h) (mb m i) (C1 ++ p :: C2) None -> NoDup (C1 ++ p :: C2) -> (forall q, In q (C1 ++ p :: C2) <-> In q (A ++ [p]) /\ mods bytes bytes h8 (mnb m) h q i) ->
    exists h3 m3, (h2 <- free h p ;; hm <- set_entry h2 m i (last_opt C1) (hc h p) ;;
      match last_opt A with
      | None => Some (fst hm, with_num (with_last (with_first (snd hm) None) None) (mnum (snd hm) - 1))
      | Some q => h3 <- set_next (fst hm) q None ;; Some (h3, with_num (with_last (snd hm) (last_opt A)) (mnum (snd hm) - 1))
      end) = Some (h3, m3) /\ Rep h3 m3 A la /\ mnb m3 = mnb m.
  Proof.
    intros R E EA PC NC IC. assert (ND := r_nd _ _ _ _ _ _ _ R). destruct (NoDup_app_remove _ _ _ ND) as [NA NI]. rewrite app_nil_r in NA, NI.
    assert (Ap := alive_some _ _ _ _ _ E). unfold free. rewrite Ap. cbn [obind].
    assert (NC' := NoDup_app_remove _ _ _ NC). destruct NC' as [_ NIC].
    rewrite set_entry_ok.
    2:{ intros a Ha. apply last_opt_in in Ha. unfold alive. cbn [hk]. rewrite upd_neq by (intros ->; apply NIC, in_or_app; auto). assert (X : In a (A ++ [p])) by (apply IC, in_or_app; auto). destruct (rep_alive _ _ _ _ _ _ _ _ R X) as (kv' & -> & _). reflexivity. }
    cbn [obind fst snd hk hc hp hn hfresh mb mnb mfirst mlast mnum].
    assert (XN := path_remove _ _ _ _ _ ND (r_next _ _ _ _ _ _ _ R)). rewrite app_nil_r in XN. cbn [hd_error] in XN.
    assert (XP : path (hp h) (last_opt A) (rev A) None). { assert (Y := r_prev _ _ _ _ _ _ _ R). rewrite rev_app_distr in Y. cbn [rev app path] in Y. destruct Y as [_ Y]. assert (Z := path_hd _ _ _ Y). rewrite Z in Y. exact Y. }
    assert (NUM : mnum m - 1 = N.of_nat (length A)) by (rewrite (r_num _ _ _ _ _ _ _ R), app_length; cbn [length]; lia).
    assert (KV : forall q, In q A -> upd (hk h) p None q = hk h q) by (intros q Hq; apply upd_neq; intros ->; auto).
    assert (CHR := ch_remove _ _ _ _ _ _ _ _ _ _ _ _ (rep_ch _ _ _ _ _ _ _ R) PC NC IC).
    assert (CHN : CH bytes bytes h8 (upd_if (hc h) (last_opt C1) (hc h p)) (bsel C1 (mb m) i (hc h p)) (upd (hk h) p None) (mnb m) (fun q => In q A)).
    { eapply ch_ext; [| |exact CHR].
      - intros q. cbn beta. rewrite in_app_iff. cbn [In]. split; [intros [[X|[X|[]]] Y]; [exact X|congruence]|intros X; split; [auto|intros ->; auto]].
      - intros q [X Y]. symmetry. apply upd_neq. exact Y. }
    assert (KK := r_keys _ _ _ _ _ _ _ R). rewrite map_app in KK. assert (KL : NoDup (map fst la)) by (clear - KK; induction la as [|x la IH]; cbn in *; [constructor|]; inversion KK; subst; constructor; [intros X; apply H1, in_or_app; auto|auto]).
    destruct (list_eq_dec Nat.eq_dec A []) as [->|HA].
    - cbn [last_opt rev hd_error] in *. change (last_opt []) with (@None ptr) in *. cbv iota. eexists _, _. split; [reflexivity|]. split; [|reflexivity]. constructor; cbn; auto; try (intros q []).
      all: first [exact EA|apply R].
    - destruct (@exists_last _ A HA) as (A' & a & EAA). assert (LO : last_opt A = Some a) by (rewrite EAA; apply last_opt_snoc). rewrite LO in *.
      unfold set_next, alive. cbn [hk]. rewrite KV by (apply last_opt_in, LO). assert (Ia : In a (A ++ [p])) by (apply in_or_app; left; apply last_opt_in, LO). destruct (rep_alive _ _ _ _ _ _ _ _ R Ia) as (kva & Eka & _). rewrite Eka. cbn [obind].
      eexists _, _. split; [reflexivity|]. split; [|reflexivity]. constructor; cbn [with_num with_last mb mnb mfirst mlast mnum hk hc hp hn hfresh]; auto.
      + apply R.
      + rewrite <- EA. apply map_ext_in, KV.
      + intros q Hq. apply (r_lt _ _ _ _ _ _ _ R), in_or_app. auto.
      + destruct A; [congruence|]. exact XN.
  Qed.

  (** * The least recently used record goes *)
  Lemma find_ptr_ok h p fuel : forall C1 C2 cur par, path (hc h) cur (C1 ++ p :: C2) None -> NoDup (C1 ++ p :: C2) -> (forall q, In q (C1 ++ p :: C2) -> alive h q = true) -> (length C1 < fuel)%nat ->
    find_ptr fuel h p cur par = Some (Some p, match last_opt C1 with Some q => Some q | None => par end).
  Proof.
    induction fuel as [|fu IH]; intros C1 C2 cur par P ND AL Hf; [lia|]. destruct C1 as [|c C1]; cbn [app path] in P; destruct P as [-> P]; cbn [find_ptr]; unfold get_child; rewrite AL by (cbn; auto); cbn [obind].
    - rewrite Nat.eqb_refl. reflexivity.
    - cbn [app] in ND. inversion ND as [|? ? N1 N2]; subst. destruct (Nat.eqb_spec c p) as [->|]; [exfalso; apply N1, in_or_app; cbn; auto|].
      rewrite (IH C1 C2 (hc h c) (Some c) P N2); [|intros q Hq; apply AL; right; exact Hq|cbn in Hf; lia]. f_equal. f_equal. destruct C1 as [|d C1] using rev_ind; [reflexivity|]. rewrite last_opt_snoc, last_opt_cons. reflexivity.
  Qed.
  Definition lens (l : list (bytes * bytes)) : Z := fold_right (fun kv z => (Z.of_N (blen (fst kv) + blen (snd kv)) + z)%Z) 0%Z l.
  Lemma lens_app a b : lens (a ++ b) = (lens a + lens b)%Z.
  Proof. unfold lens. induction a as [|x a IH]; cbn [app fold_right]; [lia|]. rewrite IH. lia. Qed.
  Lemma lens_cons x l : lens (x :: l) = (Z.of_N (blen (fst x) + blen (snd x)) + lens l)%Z.
  Proof. reflexivity. Qed.
  Lemma lens_nil : lens [] = 0%Z.
  Proof. reflexivity. Qed.
  Lemma chain_alive h m L l i C : Rep h m L l -> (forall q, In q C <-> In q L /\ mods bytes bytes h8 (mnb m) h q i) -> forall q, In q C -> alive h q = true.
  Proof. intros R IC q Hq. apply IC in Hq. eapply rep_alive'; [exact R|apply Hq]. Qed.
  Lemma remove_lru_ok h m cap mcap eff p B kv lb : Rep h m (p :: B) (kv :: lb) -> eff = lens (kv :: lb) ->
    exists h' m', remove_lru hash (mkSlot h m cap mcap eff) = Some (mkSlot h' m' cap mcap (lens lb)) /\ Rep h' m' B lb /\ mnb m' = mnb m.
  Proof.
    intros R EF. assert (EK := r_kv _ _ _ _ _ _ _ R). cbn [map] in EK. injection EK as Ep EB. unfold remove_lru. cbn [cs_h cs_m cs_cap cs_mcap cs_eff]. rewrite (rep_first _ _ _ _ R). cbn [hd_error obind]. unfold get_kv. rewrite Ep. cbn [obind].
    destruct (lookup_ok _ _ beqb h8 beqb_spec _ _ _ _ (fst kv) R) as (i & C & Eb & Ei & PC & NC & IC & _). rewrite Eb. cbn [obind].
    assert (IP : In p C) by (apply IC; split; [left; reflexivity|]; unfold mods; rewrite Ep; congruence).
    apply in_split in IP. destruct IP as (C1 & C2 & ->).
    rewrite (find_ptr_ok h p (S (hfresh h)) C1 C2 _ None PC NC); [|eapply chain_alive; [exact R|exact IC]|].
    2:{ assert (X : (length (C1 ++ p :: C2) <= hfresh h)%nat) by (apply nodup_lt; [exact NC|]; intros q Hq; apply IC in Hq; apply (r_lt _ _ _ _ _ _ _ R), Hq). rewrite app_length in X. lia. }
    replace (match last_opt C1 with Some q => Some q | None => None end) with (last_opt C1) by (destruct (last_opt C1); reflexivity). cbn [obind fst snd]. rewrite Ep. cbn [obind].
    assert (Ap := alive_some _ _ _ _ _ Ep). unfold get_child, get_next, free. rewrite Ap. cbn [obind].
    assert (ND := r_nd _ _ _ _ _ _ _ R). assert (NI : ~ In p B) by (inversion ND; assumption). assert (NB : NoDup B) by (inversion ND; assumption).
    assert (NIC := proj2 (NoDup_app_remove _ _ _ NC)).
    rewrite set_entry_ok.
    2:{ intros a Ha. apply last_opt_in in Ha. unfold alive. cbn [hk]. rewrite upd_neq by (intros ->; apply NIC, in_or_app; auto). assert (X : In a (p :: B)) by (apply IC, in_or_app; auto). destruct (rep_alive _ _ _ _ _ _ _ _ R X) as (kv' & -> & _). reflexivity. }
    cbn [obind fst snd]. assert (D := rep_dll _ _ _ _ _ _ _ R). assert (ENX : hn h p = hd_error B) by (apply (dll_next _ _ h m [] p B D)). rewrite ENX.
    assert (DL := dll_last _ _ h m [] p B D).
    rewrite set_prev_if_ok. 2:{ intros q Hq. apply hd_in in Hq. unfold alive. cbn [hk]. rewrite upd_neq by (intros ->; auto). destruct (rep_alive _ _ _ _ _ _ _ _ R (or_intror Hq)) as (kv' & -> & _). reflexivity. }
    cbn [obind]. cbn [with_first with_last with_num mb mnb mfirst mlast mnum hk hc hp hn hfresh].
    assert (NUM : mnum m - 1 = N.of_nat (length B)) by (rewrite (r_num _ _ _ _ _ _ _ R); cbn [length]; lia).
    assert (EFF : (eff - Z.of_N (blen (fst kv) + blen (snd kv)))%Z = lens lb) by (rewrite EF; rewrite ?lens_cons, ?lens_nil; lia). rewrite EFF.
    assert (MM : exists b n f w, (if peq (mlast m) (Some p) then with_last (with_first (mkM (bsel C1 (mb m) i (hc h p)) (mnb m) (mfirst m) (mlast m) (mnum m)) (hd_error B)) None else with_first (mkM (bsel C1 (mb m) i (hc h p)) (mnb m) (mfirst m) (mlast m) (mnum m)) (hd_error B))
        = mkM b n f w (mnum m) /\ b = bsel C1 (mb m) i (hc h p) /\ n = mnb m /\ f = hd_error B /\ w = last_opt B).
    { assert (LL := rep_last _ _ _ _ R). destruct (peq_spec (mlast m) (Some p)) as [X|X].
      - apply DL in X. subst B. eexists _, _, _, _. split; [reflexivity|]. auto.
      - eexists _, _, _, _. split; [reflexivity|]. repeat split; auto. rewrite LL. change (p :: B) with ([p] ++ B). apply last_opt_app. intros ->. apply X. apply DL. reflexivity. }
    destruct MM as (b & n & f & w & EM & -> & -> & -> & ->). unfold with_first, with_last in EM |- *. cbn [mb mnb mfirst mlast mnum] in *. rewrite EM. cbn [with_num mb mnb mfirst mlast mnum].
    eexists _, _. split; [reflexivity|]. split; [|reflexivity].
    constructor; cbn [mb mnb mfirst mlast mnum hk hc hp hn hfresh]; auto.
    - apply R.
    - rewrite <- EB. apply map_ext_in. intros q Hq. apply upd_neq. intros ->; auto.
    - assert (KK := r_keys _ _ _ _ _ _ _ R). inversion KK; assumption.
    - intros q Hq. apply (r_lt _ _ _ _ _ _ _ R). right. exact Hq.
    - assert (X := r_next _ _ _ _ _ _ _ R). cbn [path] in X. destruct X as [_ X]. rewrite ENX in X. exact X.
    - assert (X := r_prev _ _ _ _ _ _ _ R). cbn [rev] in X. assert (NR : NoDup (rev B ++ [p])) by (change (rev B ++ [p]) with (rev (p :: B)); apply NoDup_rev, ND).
      assert (Y := path_remove _ _ _ _ _ NR X). rewrite app_nil_r, last_opt_rev in Y. cbn [hd_error] in Y. destruct B as [|b B] using rev_ind; [exact Y|]. rewrite last_opt_snoc. rewrite rev_app_distr in *. cbn [rev app] in *.
      assert (LL := rep_last _ _ _ _ R). rewrite app_comm_cons, last_opt_snoc in LL. rewrite LL in Y. exact Y.
    - assert (CHR := ch_remove _ _ _ _ _ _ _ _ _ _ _ _ (rep_ch _ _ _ _ _ _ _ R) PC NC IC). change (CH bytes bytes h8 (upd_if (hc h) (last_opt C1) (hc h p)) (bsel C1 (mb m) i (hc h p)) (upd (hk h) p None) (mnb m) (fun q => In q B)).
      eapply ch_ext; [| |exact CHR].
      + intros q. cbn. split; [intros [[X|X] Y]; [congruence|exact X]|intros X; split; [auto|intros ->; auto]].
      + intros q [X Y]. symmetry. apply upd_neq. exact Y.
  Qed.

  (** * Insertion at the end *)
  Lemma append_ok h m L l key v i : Rep h m L l -> ~ In key (map fst l) -> i = h8 key mod mnb m ->
    exists h2 m3, (let '(q, h1) := serialize h (key, v) (mb m i) (mlast m) None in
      let m1 := with_bucket m i (Some q) in
      let m2 := match mfirst m1 with None => with_first m1 (Some q) | Some _ => m1 end in
      h2 <- set_next_if h1 (mlast m2) (Some q) ;; Some (h2, with_num (with_last m2 (Some q)) (mnum (with_last m2 (Some q)) + 1))) = Some (h2, m3) /\
    Rep h2 m3 (L ++ [hfresh h]) (l ++ [(key, v)]) /\ mnb m3 = mnb m.
  Proof.
    intros R NK Ei. assert (NI := rep_not_in _ _ _ _ _ _ _ R). set (p := hfresh h) in *. unfold serialize. fold p. cbv zeta.
    assert (FF := rep_first _ _ _ _ R). assert (LL := rep_last _ _ _ _ R).
    assert (MM : (match mfirst (with_bucket m i (Some p)) with None => with_first (with_bucket m i (Some p)) (Some p) | Some _ => with_bucket m i (Some p) end) =
      mkM (updN (mb m) i (Some p)) (mnb m) (match L with [] => Some p | _ => mfirst m end) (mlast m) (mnum m)).
    { cbn [mfirst with_bucket]. rewrite FF. destruct L as [|x L]; cbn [hd_error with_first with_bucket mb mnb mlast mnum]; [reflexivity|]. unfold with_bucket. rewrite FF. reflexivity. }
    rewrite MM. cbn [mlast]. rewrite LL. rewrite set_next_if_ok.
    2:{ intros a Ha. apply last_opt_in in Ha. unfold alive. cbn [hk]. rewrite upd_neq by (intros ->; auto). destruct (rep_alive _ _ _ _ _ _ _ _ R Ha) as (kv' & -> & _). reflexivity. }
    cbn [obind hk hc hp hn hfresh with_last with_num mb mnb mfirst mlast mnum]. eexists _, _. split; [reflexivity|]. split; [|reflexivity].
    constructor; cbn [mb mnb mfirst mlast mnum hk hc hp hn hfresh].
    - apply R.
    - apply NoDup_rev in NI as _ || idtac. rewrite <- (rev_involutive (L ++ [p])). apply NoDup_rev. rewrite rev_app_distr. cbn. constructor; [intros X; apply NI, in_rev, X|apply NoDup_rev, R].
    - rewrite !map_app. cbn [map]. rewrite upd_eq. f_equal. rewrite <- (r_kv _ _ _ _ _ _ _ R). apply map_ext_in. intros q Hq. apply upd_neq. intros ->; auto.
    - rewrite map_app. cbn [map fst]. eapply Permutation_NoDup; [apply Permutation_cons_append|]. constructor; [exact NK|apply R].
    - intros q Hq. apply in_app_or in Hq. destruct Hq as [Hq|[<-|[]]]; [assert (X := r_lt _ _ _ _ _ _ _ R q Hq); fold p in X; lia|lia].
    - apply (path_snoc (hn h) (mfirst m) L p (r_nd _ _ _ _ _ _ _ R) NI (r_next _ _ _ _ _ _ _ R)).
    - rewrite rev_app_distr. cbn [rev app]. rewrite <- LL. apply path_cons; [intros X; apply NI, in_rev, X|apply R].
    - change (CH bytes bytes h8 (upd (hc h) p (mb m i)) (updN (mb m) i (Some p)) (upd (hk h) p (Some (key, v))) (mnb m) (fun q => In q (L ++ [p]))).
      assert (X : CH bytes bytes h8 (hc h) (mb m) (upd (hk h) p (Some (key, v))) (mnb m) (fun q => In q L)). { eapply (ch_ext bytes bytes h8 _ _ (hk h) _ _ (fun q => In q L)); [reflexivity| |exact (rep_ch _ _ _ _ _ _ _ R)]. intros q Hq. symmetry. apply upd_neq. intros ->; auto. }
      eapply ch_ext; [|reflexivity|apply (ch_push _ _ _ _ _ _ _ _ p i X NI)].
      + intros q. cbn beta. rewrite in_app_iff. cbn [In]. split; [intros [Y|Y]; auto|intros [Y|[Y|[]]]; auto].
      + unfold kmod. rewrite upd_eq. symmetry. exact Ei.
    - cbn [mnum with_num]. rewrite app_length, (r_num _ _ _ _ _ _ _ R). cbn [length]. lia.
  Qed.

  (** * A last record that moves to another address *)
  Lemma moved_ok h m A p la kv i C1 C2 value : Rep h m (A ++ [p]) (la ++ [kv]) -> hk h p = Some kv -> map (hk h) A = map Some la ->
    path (hc h) (mb m i) (C1 ++ p :: C2) None -> NoDup (C1 ++ p :: C2) -> (forall q, In q (C1 ++ p :: C2) <-> In q (A ++ [p]) /\ mods bytes bytes h8 (mnb m) h q i) ->
    exists h3 m3, (h2 <- free (snd (serialize h (fst kv, value) (hc h p) (last_opt A) None)) p ;;
      hm <- set_entry h2 m i (last_opt C1) (Some (hfresh h)) ;;
      h3 <- set_next_if (fst hm) (last_opt A) (Some (hfresh h)) ;;
      let m2 := if peq (mfirst (snd hm)) (Some p) then with_first (snd hm) (Some (hfresh h)) else snd hm in
      Some (h3, with_last m2 (Some (hfresh h)))) = Some (h3, m3) /\
    Rep h3 m3 (A ++ [hfresh h]) (la ++ [(fst kv, value)]) /\ mnb m3 = mnb m.
  Proof.
    intros R E EA PC NC IC. assert (NI := rep_not_in _ _ _ _ _ _ _ R). set (q := hfresh h) in *. assert (ND := r_nd _ _ _ _ _ _ _ R).
    assert (NQP : q <> p) by (intros X; apply NI; rewrite X; apply in_or_app; cbn; auto). assert (NQA : ~ In q A) by (intros X; apply NI, in_or_app; auto).
    assert (NPA : ~ In p A) by (apply NoDup_remove_2 in ND; rewrite app_nil_r in ND; exact ND).
    unfold serialize. fold q. cbn [snd]. unfold free. assert (A1 : alive (mkH (upd (hk h) q (Some (fst kv, value))) (upd (hc h) q (hc h p)) (upd (hp h) q (last_opt A)) (upd (hn h) q None) (S q)) p = true). { unfold alive. cbn [hk]. rewrite upd_neq by congruence. rewrite E. reflexivity. }
    rewrite A1. cbn [obind]. assert (NIC := proj2 (NoDup_app_remove _ _ _ NC)).
    rewrite set_entry_ok.
    2:{ intros a Ha. apply last_opt_in in Ha. unfold alive. cbn [hk]. assert (X : In a (A ++ [p])) by (apply IC, in_or_app; auto).
        rewrite !upd_neq; [|intros ->; auto|intros ->; apply NIC, in_or_app; auto]. destruct (rep_alive _ _ _ _ _ _ _ _ R X) as (kv' & -> & _). reflexivity. }
    cbn [obind fst snd]. rewrite set_next_if_ok.
    2:{ intros a Ha. apply last_opt_in in Ha. unfold alive. cbn [hk]. assert (X : In a (A ++ [p])) by (apply in_or_app; auto).
        rewrite !upd_neq; [|intros ->; auto|intros ->; auto]. destruct (rep_alive _ _ _ _ _ _ _ _ R X) as (kv' & -> & _). reflexivity. }
    cbn [obind hk hc hp hn hfresh mfirst]. cbv zeta.
    assert (D := rep_dll _ _ _ _ _ _ _ R). assert (DF := dll_first _ _ _ _ _ _ _ D).
    assert (MM : with_last (if peq (mfirst m) (Some p) then with_first (mkM (bsel C1 (mb m) i (Some q)) (mnb m) (mfirst m) (mlast m) (mnum m)) (Some q) else mkM (bsel C1 (mb m) i (Some q)) (mnb m) (mfirst m) (mlast m) (mnum m)) (Some q)
       = mkM (bsel C1 (mb m) i (Some q)) (mnb m) (match A with [] => Some q | _ => mfirst m end) (Some q) (mnum m)).
    { destruct (peq_spec (mfirst m) (Some p)) as [X|X]; cbn [with_first with_last mb mnb mfirst mlast mnum]; [apply DF in X; subst A; reflexivity|]. destruct A; [|reflexivity]. exfalso. apply X, DF. reflexivity. }
    rewrite MM. eexists _, _. split; [reflexivity|]. split; [|reflexivity].
    assert (KA : forall x, In x A -> upd (upd (hk h) q (Some (fst kv, value))) p None x = hk h x) by (intros x Hx; rewrite !upd_neq; [reflexivity|intros ->; auto|intros ->; auto]).
    assert (KQ : upd (upd (hk h) q (Some (fst kv, value))) p None q = Some (fst kv, value)) by (rewrite upd_neq by exact NQP; apply upd_eq).
    constructor; cbn [mb mnb mfirst mlast mnum hk hc hp hn hfresh].
    - apply R.
    - rewrite <- (rev_involutive (A ++ [q])). apply NoDup_rev. rewrite rev_app_distr. cbn. constructor; [intros X; apply NQA, in_rev, X|]. apply NoDup_rev. apply NoDup_remove_1 in ND. rewrite app_nil_r in ND. exact ND.
    - rewrite !map_app. cbn [map]. rewrite KQ. f_equal. rewrite <- EA. apply map_ext_in, KA.
    - assert (X := r_keys _ _ _ _ _ _ _ R). rewrite map_app in *. exact X.
    - intros x Hx. apply in_app_or in Hx. destruct Hx as [Hx|[<-|[]]]; [|lia]. assert (X := r_lt _ _ _ _ _ _ _ R x ltac:(apply in_or_app; auto)). fold q in X. lia.
    - apply (path_replace (hn h) (mfirst m) A p [] q ND NI (r_next _ _ _ _ _ _ _ R)).
    - assert (X := r_prev _ _ _ _ _ _ _ R). rewrite rev_app_distr in *. cbn [rev app path] in *. split; [reflexivity|]. rewrite upd_eq. destruct X as [_ X]. assert (Y := path_hd _ _ _ X). fold (last_opt A) in Y. rewrite Y in X.
      eapply path_frame; [|exact X]. intros x Hx. symmetry. apply upd_neq. intros ->. apply NQA, in_rev, Hx.
    - change (CH bytes bytes h8 (upd_if (upd (hc h) q (hc h p)) (last_opt C1) (Some q)) (bsel C1 (mb m) i (Some q)) (upd (upd (hk h) q (Some (fst kv, value))) p None) (mnb m) (fun x => In x (A ++ [q]))).
      set (k1 := upd (hk h) q (Some (fst kv, value))).
      assert (X : CH bytes bytes h8 (hc h) (mb m) k1 (mnb m) (fun x => In x (A ++ [p]))). { eapply (ch_ext bytes bytes h8 _ _ (hk h) _ _ (fun q => In q (A ++ [p]))); [reflexivity| |exact (rep_ch _ _ _ _ _ _ _ R)]. intros x Hx. symmetry. apply upd_neq. intros ->; auto. }
      assert (IC' : forall x, In x (C1 ++ p :: C2) <-> In x (A ++ [p]) /\ kmod bytes bytes h8 k1 (mnb m) x i). { intros x. rewrite IC. unfold mods, kmod. split; intros [Y1 Y2]; (split; [exact Y1|]); [unfold k1; rewrite upd_neq by (intros ->; auto)|unfold k1 in Y2; rewrite upd_neq in Y2 by (intros ->; auto)]; exact Y2. }
      assert (KM : kmod bytes bytes h8 k1 (mnb m) q i). { unfold kmod, k1. rewrite upd_eq. cbn [fst]. assert (Y : In p (C1 ++ p :: C2)) by (apply in_or_app; cbn; auto). apply IC in Y. destruct Y as [_ Y]. unfold mods in Y. rewrite E in Y. exact Y. }
      assert (Y := ch_replace _ _ _ _ _ _ _ _ _ _ _ _ _ X PC NC IC' NI KM).
      eapply ch_ext; [| |exact Y].
      + intros x. cbn beta. rewrite !in_app_iff. cbn [In]. split; [intros [[[Z|[Z|[]]] W]|Z]; [auto|congruence|auto]|intros [Z|[Z|[]]]; [left; split; [auto|intros ->; auto]|auto]].
      + intros x [[Z W]|Z]; symmetry; apply upd_neq; [exact W|congruence].
    - rewrite (r_num _ _ _ _ _ _ _ R), !app_length. reflexivity.
  Qed.

  (** * Processing a record of a slot *)
  Definition srep (s : slot) (l : list (bytes * bytes)) : Prop := (exists L, Rep (cs_h s) (cs_m s) L l) /\ cs_eff s = lens l.
  Definition over (cap : N) (mcap : Z) (nb : N) (l : list (bytes * bytes)) : bool := (cap <? N.of_nat (length l)) || (mcap <? memory_usage nb (N.of_nat (length l)) (lens l))%Z.
  Definition l_insert (cap : N) (mcap : Z) (nb : N) (kv : bytes * bytes) (l : list (bytes * bytes)) : list (bytes * bytes) :=
    let l1 := l ++ [kv] in if over cap mcap nb l1 then tl l1 else l1.
  Definition l_step (cap : N) (mcap : Z) (nb : N) (key : bytes) (old : option bytes) (a : action) (l : list (bytes * bytes)) : list (bytes * bytes) :=
    match old, a with
    | Some v, ANoop => sdel key l ++ [(key, v)]
    | Some _, ARemove => sdel key l
    | Some _, ASet v' => sdel key l ++ [(key, v')]
    | None, ASet v' => l_insert cap mcap nb (key, v') l
    | None, _ => l
    end.
  Definition val_of (key : bytes) (l : list (bytes * bytes)) : option bytes := option_map snd (sfind key l).
  Lemma srep_num s l : srep s l -> mnum (cs_m s) = N.of_nat (length l).
  Proof. intros [[L R] _]. rewrite (r_num _ _ _ _ _ _ _ R). assert (X := r_kv _ _ _ _ _ _ _ R). apply (f_equal (@length _)) in X. rewrite !map_length in X. congruence. Qed.
  Lemma srep_nodup s l : srep s l -> NoDup (map fst l).
  Proof. intros [[L R] _]. apply R. Qed.
  Lemma srep_items s l : srep s l -> slot_items s = Some l.
  Proof. intros [[L R] _]. assert (X := rep_len _ _ _ _ _ _ _ R). unfold slot_items. apply (iterate_ok _ _ _ _ L); [apply R|apply R|lia]. Qed.
  Lemma step_ok {S} s l key (p : proc S) w mv st : srep s l ->
    exists s', slot_process hash s key p w mv st = Some (s', snd (match val_of key l with Some v => on_full p key v st | None => on_empty p key st end)) /\
      srep s' (l_step (cs_cap s) (cs_mcap s) (mnb (cs_m s)) key (val_of key l) (if w then fst (match val_of key l with Some v => on_full p key v st | None => on_empty p key st end) else ANoop) l) /\
      cs_cap s' = cs_cap s /\ cs_mcap s' = cs_mcap s /\ mnb (cs_m s') = mnb (cs_m s).
  Proof.
    intros [[L R] EF]. destruct s as [h m cap mcap eff]. cbn [cs_h cs_m cs_cap cs_mcap cs_eff] in *. unfold slot_process. cbn [cs_h cs_m cs_cap cs_mcap cs_eff].
    destruct (lookup_ok _ _ beqb h8 beqb_spec _ _ _ _ key R) as (i & C & Eb & Ei & PC & NC & IC & HW). rewrite Eb. cbn [obind]. unfold val_of.
    destruct HW as [[W NK]|(C1 & ptr & C2 & kv & EC & Ek & Kk & HIn & W)]; rewrite W; cbn [obind fst snd].
    - rewrite (s_find_none bytes bytes beqb beqb_spec) by exact NK. cbn [option_map l_step]. destruct (on_empty p key st) as [a st'] eqn:EO. cbn [fst snd].
      assert (SAME : exists s', Some (mkSlot h m cap mcap eff, st') = Some (s', st') /\ srep s' l /\ cs_cap s' = cap /\ cs_mcap s' = mcap /\ mnb (cs_m s') = mnb m). { eexists. split; [reflexivity|]. split; [split; [exists L; exact R|exact EF]|auto]. }
      destruct (if w then a else ANoop) as [| |v]; try exact SAME. clear SAME.
      destruct (append_ok h m L l key v i R NK Ei) as (h2 & m3 & EA & R2 & Enb). destruct (serialize h (key, v) (mb m i) (mlast m) None) as [q h1] eqn:ES. cbv zeta in *.
      destruct (set_next_if h1 _ (Some q)) as [h2'|] eqn:E2; [|discriminate]. cbn [obind] in EA |- *. injection EA as <- EM3.
      match goal with |- context [mkSlot h2' ?M cap mcap _] => replace M with m3 by (symmetry; exact EM3) end. cbn [cs_m].
      assert (EF2 : (eff + Z.of_N (blen key + blen v))%Z = lens (l ++ [(key, v)])) by (rewrite lens_app, EF; rewrite ?lens_cons, ?lens_nil; cbn [fst snd]; lia). rewrite EF2.
      assert (SR : srep (mkSlot h2' m3 cap mcap (lens (l ++ [(key, v)]))) (l ++ [(key, v)])) by (split; [eexists; exact R2|reflexivity]).
      assert (NUM := srep_num _ _ SR). cbn [cs_m] in NUM. unfold slot_usage. cbn [cs_m cs_eff]. rewrite NUM, Enb. unfold l_insert. fold (over cap mcap (mnb m) (l ++ [(key, v)])). cbv zeta. destruct (over cap mcap (mnb m) (l ++ [(key, v)])).
      + assert (XX : exists x B kv0 lb, L ++ [hfresh h] = x :: B /\ l ++ [(key, v)] = kv0 :: lb). { destruct L as [|x L'], l as [|kv0 l']; cbn [app]; try (assert (Z := r_kv _ _ _ _ _ _ _ R); discriminate); eexists _, _, _, _; split; reflexivity. }
        destruct XX as (x & B & kv0 & lb & E1 & E3). rewrite E1, E3 in R2. rewrite E3. destruct (remove_lru_ok _ _ cap mcap _ _ _ _ _ R2 eq_refl) as (h' & m' & ER & R3 & Enb3). rewrite ER. cbn [obind tl]. eexists. split; [reflexivity|]. cbn [cs_h cs_m cs_cap cs_mcap cs_eff]. split; [|split; [reflexivity|split; [reflexivity|congruence]]]. split; [exists B; exact R3|reflexivity].
      + eexists. split; [reflexivity|]. cbn [cs_h cs_m cs_cap cs_mcap cs_eff]. split; [exact SR|auto].
    - subst C. destruct (rep_split _ _ h8 _ _ _ _ _ _ R HIn Ek) as (A & B & la & lb & -> & -> & EA & EB & NKS). assert (NF : sfind key (la ++ kv :: lb) = Some kv).
      { assert (X := proj1 (s_split _ _ beqb beqb_spec la lb kv NKS (snd kv) MOVE_LAST)). rewrite Kk in X. exact X. }
      rewrite NF. cbn [option_map]. assert (KD : sdel key (la ++ kv :: lb) = la ++ lb). { assert (X := s_split _ _ beqb beqb_spec la lb kv NKS (snd kv) MOVE_LAST). rewrite Kk in X. decompose [and] X. assumption. }
      unfold get_kv, get_child, get_prev, get_next. rewrite Ek, (alive_some _ _ _ _ _ Ek). cbn [obind].
      destruct (touch_ok h m A ptr B la lb kv R Ek EA EB) as (h1 & m1 & ET & R1 & K1 & K2 & K3 & K4 & K5 & K6). rewrite ET. cbn [obind]. cbv beta iota.
      destruct (on_full p key (snd kv) st) as [a st'] eqn:EO. cbn [fst snd].
      assert (Ek1 : hk h1 ptr = Some kv) by (rewrite K1; exact Ek). assert (EAB : map (hk h1) (A ++ B) = map Some (la ++ lb)) by (rewrite K1, !map_app, EA, EB; reflexivity).
      assert (PC1 : path (hc h1) (mb m1 i) (C1 ++ ptr :: C2) None) by (rewrite K2, K4; exact PC).
      assert (IC1 : forall q, In q (C1 ++ ptr :: C2) <-> In q ((A ++ B) ++ [ptr]) /\ mods bytes bytes h8 (mnb m1) h1 q i). { intros q. rewrite IC. unfold mods. rewrite K1, K5. rewrite !in_app_iff. cbn [In]. tauto. }
      assert (EK : (key, snd kv) = kv) by (rewrite <- Kk; destruct kv; reflexivity).
      assert (LE : lens (la ++ kv :: lb) = (lens (la ++ lb) + Z.of_N (blen (fst kv) + blen (snd kv)))%Z) by (rewrite !lens_app; rewrite ?lens_cons, ?lens_nil; lia).
      destruct (if w then a else ANoop) as [| |v]; cbn [l_step]; rewrite KD.
      + eexists. split; [reflexivity|]. cbn [cs_h cs_m cs_cap cs_mcap cs_eff]. split; [|auto]. rewrite EK. split; [exists ((A ++ B) ++ [ptr]); exact R1|]. cbn [cs_eff]. rewrite EF, LE, !lens_app. rewrite ?lens_cons, ?lens_nil. lia.
      + destruct (drop_last_ok h1 m1 (A ++ B) ptr (la ++ lb) kv i C1 C2 R1 Ek1 EAB PC1 NC IC1) as (h3 & m3 & ED & R3 & Enb).
        rewrite K2 in ED. destruct (free h1 ptr) as [h2|] eqn:E2; [|discriminate]. cbn [obind] in ED |- *. destruct (set_entry h2 m1 i (last_opt C1) (hc h ptr)) as [[h4 m4]|]; [|discriminate]. cbn [obind fst snd] in ED |- *.
        destruct (last_opt (A ++ B)) as [q|].
        * destruct (set_next h4 q None) as [h5|]; [|discriminate]. cbn [obind] in ED |- *. injection ED as <- <-. eexists. split; [reflexivity|]. cbn [cs_h cs_m cs_cap cs_mcap cs_eff]. split; [|repeat split; congruence]. split; [eexists; exact R3|]. cbn [cs_eff]. rewrite EF, LE. lia.
        * injection ED as <- <-. eexists. split; [reflexivity|]. cbn [cs_h cs_m cs_cap cs_mcap cs_eff]. split; [|repeat split; congruence]. split; [eexists; exact R3|]. cbn [cs_eff]. rewrite EF, LE. lia.
      + assert (EFV : (eff + (Z.of_N (blen v) - Z.of_N (blen (snd kv))))%Z = lens ((la ++ lb) ++ [(key, v)])) by (rewrite EF, LE, !lens_app; rewrite ?lens_cons, ?lens_nil; cbn [fst snd]; rewrite Kk; lia). rewrite EFV.
        assert (INPL : forall h2, set_val h1 ptr v = Some h2 -> exists s', (if Nat.eqb ptr ptr then Some (mkSlot h2 m1 cap mcap (lens ((la ++ lb) ++ [(key, v)])), st') else None) = Some (s', st') /\ srep s' ((la ++ lb) ++ [(key, v)]) /\ cs_cap s' = cap /\ cs_mcap s' = mcap /\ mnb (cs_m s') = mnb m).
        { intros h2 E2. rewrite Nat.eqb_refl. eexists. split; [reflexivity|]. cbn [cs_h cs_m cs_cap cs_mcap cs_eff]. split; [|auto]. split; [|reflexivity]. cbn [cs_h cs_m].
          destruct (set_val_rep _ _ h8 h1 m1 (A ++ B) ptr [] (la ++ lb) [] kv v R1 Ek1 EAB eq_refl) as (h2' & E2' & R2 & _). rewrite E2 in E2'. injection E2' as <-. rewrite Kk in R2. exists ((A ++ B) ++ [ptr]). exact R2. }
        assert (SV : exists h2, set_val h1 ptr v = Some h2) by (destruct (set_val_rep _ _ h8 h1 m1 (A ++ B) ptr [] (la ++ lb) [] kv v R1 Ek1 EAB eq_refl) as (h2' & E2' & _); eauto).
        destruct (moved_ok h1 m1 (A ++ B) ptr (la ++ lb) kv i C1 C2 v R1 Ek1 EAB PC1 NC IC1) as (h3 & m3 & EM & R3 & Enb).
        assert (LTP : (ptr < hfresh h1)%nat) by (apply (r_lt _ _ _ _ _ _ _ R1), in_or_app; cbn; auto).
        assert (D := rep_dll _ _ _ _ _ _ _ R1). assert (EPV := dll_prev _ _ _ _ _ _ _ D). assert (ENX := dll_next _ _ _ _ _ _ _ D). cbn [hd_error] in ENX.
        assert (MOV : exists s', (h2 <- free (snd (serialize h1 (fst kv, v) (hc h ptr) (last_opt (A ++ B)) None)) ptr ;;
            let '(q, h2) := (hfresh h1, h2) in if Nat.eqb q ptr then Some (mkSlot h2 m1 cap mcap (lens ((la ++ lb) ++ [(key, v)])), st') else
            hm <- set_entry h2 m1 i (last_opt C1) (Some q) ;; h3 <- set_next_if (fst hm) (last_opt (A ++ B)) (Some q) ;;
            let m2 := if peq (mfirst (snd hm)) (Some ptr) then with_first (snd hm) (Some q) else snd hm in
            Some (mkSlot h3 (with_last m2 (Some q)) cap mcap (lens ((la ++ lb) ++ [(key, v)])), st')) = Some (s', st') /\ srep s' ((la ++ lb) ++ [(key, v)]) /\ cs_cap s' = cap /\ cs_mcap s' = mcap /\ mnb (cs_m s') = mnb m).
        { rewrite <- K2. destruct (free _ ptr) as [h2|]; [|discriminate]. cbn [obind] in EM |- *. destruct (Nat.eqb_spec (hfresh h1) ptr) as [X|_]; [lia|]. destruct (set_entry h2 m1 i (last_opt C1) (Some (hfresh h1))) as [[h4 m4]|]; [|discriminate]. cbn [obind fst snd] in EM |- *.
          destruct (set_next_if h4 (last_opt (A ++ B)) (Some (hfresh h1))) as [h5|]; [|discriminate]. cbn [obind] in EM |- *. cbv zeta in EM |- *. injection EM as <- <-. eexists. split; [reflexivity|]. cbn [cs_h cs_m cs_cap cs_mcap cs_eff]. split; [|repeat split; congruence]. split; [|reflexivity]. rewrite <- Kk. eexists. exact R3. }
        unfold reserialize. destruct (_ <? _).
        * destruct MOV as (s' & EQ & Hs). exists s'. split; [|exact Hs]. rewrite <- EQ. unfold serialize. cbn [snd]. cbv beta iota zeta. match goal with |- context [free ?X ptr] => destruct (free X ptr) end; reflexivity.
        * destruct (_ <? _); [|destruct SV as [h2 SV]; rewrite SV; cbn [obind]; rewrite Nat.eqb_refl; specialize (INPL h2 SV); rewrite Nat.eqb_refl in INPL; exact INPL].
          destruct mv; [|destruct SV as [h2 SV]; rewrite SV; cbn [obind]; rewrite Nat.eqb_refl; specialize (INPL h2 SV); rewrite Nat.eqb_refl in INPL; exact INPL].
          unfold get_child, get_prev, get_next. rewrite (alive_some _ _ _ _ _ Ek1). cbn [obind]. rewrite EPV, ENX, K2. destruct MOV as (s' & EQ & Hs). exists s'. split; [|exact Hs]. rewrite <- EQ. unfold serialize. cbn [snd]. cbv beta iota zeta. match goal with |- context [free ?X ptr] => destruct (free X ptr) end; reflexivity.
  Qed.

  (** * Rebuild: a prefix of the records remains *)
  Definition fits (cap : N) (mcap : Z) (nb : N) (l : list (bytes * bytes)) : bool := (N.of_nat (length l) <? cap) && (memory_usage nb (N.of_nat (length l)) (lens l) <? mcap)%Z.
  Fixpoint keep (cap : N) (mcap : Z) (nb : N) (acc l : list (bytes * bytes)) : list (bytes * bytes) :=
    match l with [] => acc | kv :: l' => if fits cap mcap nb acc then keep cap mcap nb (acc ++ [kv]) l' else acc end.
  Lemma free_rest fuel cap mcap eff m : (mnum m <? cap) && (memory_usage (mnb m) (mnum m) eff <? mcap)%Z = false ->
    forall T h x, NoDup T -> path (hn h) x T None -> (forall p, In p T -> alive h p = true) -> (length T < fuel)%nat ->
    exists h', rebuild_loop hash fuel h m cap mcap eff x = Some (h', m, eff) /\ hc h' = hc h /\ hp h' = hp h /\ hn h' = hn h /\ hfresh h' = hfresh h /\ forall q, ~ In q T -> hk h' q = hk h q.
  Proof.
    intros F. induction fuel as [|fu IH]; intros T h x ND P AL Hf; [lia|]. destruct T as [|p T]; cbn [path] in P.
    - subst x. exists h. cbn [rebuild_loop]. auto 10.
    - destruct P as [-> P]. inversion ND as [|? ? N1 N2]; subst. cbn [rebuild_loop]. unfold get_next. rewrite (AL p (or_introl eq_refl)). cbn [obind]. rewrite F. unfold free. rewrite (AL p (or_introl eq_refl)). cbn [obind].
      destruct (IH T (mkH (upd (hk h) p None) (hc h) (hp h) (hn h) (hfresh h)) (hn h p) N2 P) as (h' & E & X1 & X2 & X3 & X4 & X5).
      + intros q Hq. unfold alive. cbn [hk]. rewrite upd_neq; [apply (AL q); right; exact Hq|]. intros ->; auto.
      + cbn in Hf. lia.
      + exists h'. cbn [hk hc hp hn hfresh] in *. repeat split; auto. intros q Hq. rewrite X5 by (intros Y; apply Hq; right; exact Y). apply upd_neq. intros ->. apply Hq. left. reflexivity.
  Qed.
  Lemma rebuild_loop_ok cap mcap nb fuel : nb <> 0 -> forall T lt D ld h m x, NoDup (D ++ T) -> path (hn h) x T None -> map (hk h) T = map Some lt -> map (hk h) D = map Some ld ->
    CH bytes bytes h8 (hc h) (mb m) (hk h) nb (fun p => In p D) -> mnum m = N.of_nat (length D) -> mlast m = last_opt D -> mnb m = nb -> (length T < fuel)%nat ->
    exists h' m' T1 T2 l1 l2, T = T1 ++ T2 /\ lt = l1 ++ l2 /\ keep cap mcap nb ld lt = ld ++ l1 /\ rebuild_loop hash fuel h m cap mcap (lens ld) x = Some (h', m', lens (ld ++ l1)) /\
      hp h' = hp h /\ hn h' = hn h /\ hfresh h' = hfresh h /\ map (hk h') (D ++ T1) = map Some (ld ++ l1) /\ CH bytes bytes h8 (hc h') (mb m') (hk h') nb (fun p => In p (D ++ T1)) /\
      mnum m' = N.of_nat (length (D ++ T1)) /\ mlast m' = last_opt (D ++ T1) /\ mfirst m' = mfirst m /\ mnb m' = nb.
  Proof.
    intros NB. induction fuel as [|fu IH]; intros T lt D ld h m x ND P ET ED CC Em El Enb Hf; [lia|].
    assert (LD : length D = length ld) by (apply (f_equal (@length _)) in ED; rewrite !map_length in ED; exact ED).
    destruct T as [|p T]; cbn [path] in P.
    - destruct lt; [|discriminate]. subst x. exists h, m, [], [], [], []. cbn [rebuild_loop app keep]. rewrite !app_nil_r. auto 15.
    - destruct lt as [|kv lt]; [discriminate|]. cbn [map] in ET. injection ET as Ep ET. destruct P as [-> P].
      assert (FE : (mnum m <? cap) && (memory_usage (mnb m) (mnum m) (lens ld) <? mcap)%Z = fits cap mcap nb ld) by (unfold fits; rewrite Em, Enb, LD; reflexivity).
      cbn [keep]. destruct (fits cap mcap nb ld) eqn:EFI.
      + cbn [rebuild_loop]. unfold get_next. rewrite (alive_some _ _ _ _ _ Ep). cbn [obind]. rewrite FE. unfold get_kv. rewrite Ep. cbn [obind]. unfold bucket_of. rewrite Enb. destruct (N.eqb_spec nb 0) as [X|_]; [contradiction|]. cbn [obind].
        unfold set_child. rewrite (alive_some _ _ _ _ _ Ep). cbn [obind]. set (i := h8 (fst kv) mod nb).
        assert (NI : ~ In p (D ++ T)) by (apply NoDup_remove_2, ND).
        replace (lens ld + Z.of_N (blen (fst kv) + blen (snd kv)))%Z with (lens (ld ++ [kv])) by (rewrite lens_app, lens_cons, lens_nil; lia).
        destruct (IH T lt (D ++ [p]) (ld ++ [kv]) (mkH (hk h) (upd (hc h) p (mb m i)) (hp h) (hn h) (hfresh h)) (with_last (with_num (with_bucket m i (Some p)) (mnum m + 1)) (Some p)) (hn h p)) as (h' & m' & T1 & T2 & l1 & l2 & E1 & E2 & E3 & E4 & E5 & E6 & E7 & E8 & E9 & E10 & E11 & E12 & E13).
        * rewrite <- app_assoc. exact ND.
        * exact P.
        * exact ET.
        * cbn [hk]. rewrite !map_app, ED. cbn [map]. rewrite Ep. reflexivity.
        * cbn [hc hk mb with_last with_num with_bucket]. eapply (ch_ext bytes bytes h8 _ _ (hk h)); [|reflexivity|apply (ch_push _ _ _ _ _ _ _ _ p i CC)].
          -- intros q. cbn beta. rewrite in_app_iff. cbn [In]. split; [intros [Y|Y]; auto|intros [Y|[Y|[]]]; auto].
          -- intros Y. apply NI, in_or_app; auto.
          -- unfold kmod. rewrite Ep. reflexivity.
        * cbn [mnum with_last with_num with_bucket]. rewrite app_length. cbn [length]. lia.
        * cbn [mlast with_last]. rewrite last_opt_snoc. reflexivity.
        * exact Enb.
        * cbn in Hf. lia.
        * exists h', m', (p :: T1), T2, (kv :: l1), l2. rewrite <- !app_assoc in *. cbn [app] in *. cbn [hp hn hfresh mfirst with_last with_num with_bucket] in *. rewrite E1, E2. repeat split; auto. rewrite <- E2. exact E3.
      + destruct (free_rest (S fu) cap mcap (lens ld) m FE (p :: T) h (Some p)) as (h' & E & X1 & X2 & X3 & X4 & X5).
        * clear - ND. induction D; [exact ND|]. cbn in ND. inversion ND; auto.
        * cbn [path]. auto.
        * intros q Hq. assert (Y : In (hk h q) (map (hk h) (p :: T))) by (apply in_map, Hq). cbn [map] in Y. rewrite Ep, ET in Y. destruct Y as [Y|Y]; [|apply in_map_iff in Y; destruct Y as (z & Y & _)]; unfold alive; rewrite <- Y; reflexivity.
        * exact Hf.
        * exists h', m, [], (p :: T), [], (kv :: lt). rewrite !app_nil_r. assert (KD : forall q, In q D -> hk h' q = hk h q). { intros q Hq. apply X5. intros Y. apply in_split in Hq. destruct Hq as (D1 & D2 & ->). rewrite <- app_assoc in ND. cbn [app] in ND. apply NoDup_remove_2 in ND. apply ND. apply in_or_app. right. apply in_or_app. right. exact Y. }
          repeat split; auto.
          -- rewrite <- ED. apply map_ext_in, KD.
          -- rewrite X1. eapply (ch_ext bytes bytes h8 _ _ (hk h) _ _ (fun q => In q D)); [reflexivity| |exact CC]. intros q Hq. symmetry. apply KD, Hq.
  Qed.
  Lemma rebuild_ok s l cap mcap : srep s l -> exists s', slot_rebuild hash buckets s cap mcap = Some s' /\ srep s' (keep cap mcap (buckets cap) [] l) /\ cs_cap s' = cap /\ cs_mcap s' = mcap /\ mnb (cs_m s') = buckets cap.
  Proof.
    intros [[L R] EF]. unfold slot_rebuild. assert (LE := rep_len _ _ _ _ _ _ _ R). assert (ND := r_nd _ _ _ _ _ _ _ R).
    destruct (rebuild_loop_ok cap mcap (buckets cap) (S (hfresh (cs_h s))) (buckets_pos cap) L l [] [] (cs_h s) (mkM (fun _ => None) (buckets cap) (mfirst (cs_m s)) None 0) (mfirst (cs_m s)))
      as (h' & m' & T1 & T2 & l1 & l2 & E1 & E2 & E3 & E4 & E5 & E6 & E7 & E8 & E9 & E10 & E11 & E12 & E13); auto; try apply R.
    - intros i. exists []. split; [reflexivity|]. split; [constructor|]. intros p. cbn. tauto.
    - lia.
    - change 0%Z with (lens []). rewrite E4. cbn [obind app] in *. rewrite E3, E11. cbn [mfirst] in E12.
      assert (N1 : NoDup T1) by (rewrite E1 in ND; clear - ND; induction T1 as [|x T IH]; cbn in *; [constructor|]; inversion ND; subst; constructor; [intros X; apply H1, in_or_app; auto|auto]).
      assert (K1 : NoDup (map fst l1)) by (assert (KK := r_keys _ _ _ _ _ _ _ R); rewrite E2, map_app in KK; clear - KK; induction l1 as [|x T IH]; cbn in *; [constructor|]; inversion KK; subst; constructor; [intros X; apply H1, in_or_app; auto|auto]).
      assert (LT : forall p, In p T1 -> (p < hfresh h')%nat) by (intros p Hp; rewrite E7; apply (r_lt _ _ _ _ _ _ _ R); rewrite E1; apply in_or_app; auto).
      assert (PP : path (hp h') (last_opt T1) (rev T1) None). { assert (Y := r_prev _ _ _ _ _ _ _ R). rewrite E1, rev_app_distr in Y. apply path_app in Y. destruct Y as (z & _ & Y). rewrite E5. assert (Z := path_hd _ _ _ Y). fold (last_opt T1) in Z. rewrite Z in Y. exact Y. }
      assert (PN : path (upd_if (hn h') (last_opt T1) None) (match T1 with [] => None | _ => mfirst m' end) T1 None). { assert (Y := r_next _ _ _ _ _ _ _ R). rewrite E1 in Y. apply path_app in Y. destruct Y as (z & Y & _). rewrite E6, E12. apply (path_retarget _ _ _ z); assumption. }
      destruct (list_eq_dec Nat.eq_dec T1 []) as [->|HT].
      + change (last_opt []) with (@None ptr) in *. destruct l1; [|discriminate]. eexists. split; [reflexivity|]. cbn [cs_h cs_m cs_cap cs_mcap cs_eff with_first mnb]. split; [|auto]. split; [|reflexivity]. exists []. cbn [cs_h cs_m]. constructor; cbn [with_first mnb mb mfirst mlast mnum hk]; auto; try (constructor; fail); try (rewrite E13; auto).
      + destruct (@exists_last _ T1 HT) as (A' & a & EAA). assert (LO : last_opt T1 = Some a) by (rewrite EAA; apply last_opt_snoc). rewrite LO in *. unfold set_next.
        assert (AL : alive h' a = true). { assert (Y : In (hk h' a) (map (hk h') T1)) by (apply in_map, last_opt_in, LO). rewrite E8 in Y. apply in_map_iff in Y. destruct Y as (z & Y & _). unfold alive. rewrite <- Y. reflexivity. }
        rewrite AL. cbn [obind]. eexists. split; [reflexivity|]. cbn [cs_h cs_m cs_cap cs_mcap cs_eff]. split; [|auto]. split; [|reflexivity]. exists T1. cbn [cs_h cs_m]. constructor; cbn [hk hc hp hn hfresh]; auto; try (rewrite E13; auto).
        * destruct T1; [congruence|]. exact PN.
        * rewrite E11. exact PP.
  Qed.
  Lemma keep_prefix cap mcap nb l : forall acc, exists l1 l2, l = l1 ++ l2 /\ keep cap mcap nb acc l = acc ++ l1.
  Proof.
    induction l as [|kv l IH]; intros acc; cbn [keep]; [exists [], []; rewrite (app_nil_r acc); auto|]. destruct (fits cap mcap nb acc); [|exists [], (kv :: l); rewrite (app_nil_r acc); auto].
    destruct (IH (acc ++ [kv])) as (l1 & l2 & -> & E). exists (kv :: l1), l2. rewrite E, <- app_assoc. auto.
  Qed.
  Lemma keep_all cap mcap nb : forall l acc, (forall a b, acc ++ l = a ++ b -> b <> [] -> fits cap mcap nb a = true) -> keep cap mcap nb acc l = acc ++ l.
  Proof.
    induction l as [|kv l IH]; intros acc H; cbn [keep]; [rewrite app_nil_r; reflexivity|]. rewrite (H acc (kv :: l) eq_refl) by discriminate.
    rewrite IH; [rewrite <- app_assoc; reflexivity|]. intros a b E. apply H. rewrite <- E, <- app_assoc. reflexivity.
  Qed.
  Lemma keep_len cap mcap nb : forall l acc, (length acc <= N.to_nat cap)%nat -> (length (keep cap mcap nb acc l) <= N.to_nat cap)%nat.
  Proof.
    induction l as [|kv l IH]; intros acc H; cbn [keep]; [exact H|]. destruct (fits cap mcap nb acc) eqn:F; [|exact H]. apply IH. unfold fits in F. apply andb_prop in F. destruct F as [F _]. apply N.ltb_lt in F. rewrite app_length. cbn. lia.
  Qed.

  (** * Freeing all *)
  Lemma free_fwd_ok fuel : forall h L x, NoDup L -> path (hn h) x L None -> (forall p, In p L -> alive h p = true) -> (length L < fuel)%nat ->
    exists h', free_fwd fuel h x = Some h' /\ hfresh h' = hfresh h.
  Proof.
    induction fuel as [|fu IH]; intros h L x ND P AL Hf; [lia|]. destruct L as [|p L]; cbn [path] in P.
    - subst x. exists h. split; reflexivity.
    - destruct P as [-> P]. inversion ND as [|? ? N1 N2]; subst. cbn [free_fwd]. unfold get_next, free. rewrite (AL p (or_introl eq_refl)). cbn [obind].
      destruct (IH (mkH (upd (hk h) p None) (hc h) (hp h) (hn h) (hfresh h)) L (hn h p) N2 P) as (h' & E & Ef).
      + intros q Hq. unfold alive. cbn [hk]. rewrite upd_neq; [apply (AL q); right; exact Hq|]. intros ->; auto.
      + cbn in Hf. lia.
      + exists h'. split; [exact E|exact Ef].
  Qed.
  Lemma init_ok h cap mcap : srep (slot_init buckets h cap mcap) [].
  Proof.
    split; [|reflexivity]. exists []. unfold slot_init. cbn [cs_h cs_m]. constructor; cbn; auto; try (constructor; fail); try (intros q []).
    all: try (apply buckets_pos). intros i. exists []. split; [reflexivity|]. split; [constructor|]. intros p. cbn. tauto.
  Qed.
  Lemma clean_ok s l : srep s l -> exists h, slot_clean s = Some h.
  Proof.
    intros [[L R] _]. assert (LE := rep_len _ _ _ _ _ _ _ R). destruct (free_fwd_ok (S (hfresh (cs_h s))) (cs_h s) L (mfirst (cs_m s)) (r_nd _ _ _ _ _ _ _ R) (r_next _ _ _ _ _ _ _ R)) as (h' & E & _).
    - intros p Hp. eapply rep_alive'; eauto.
    - lia.
    - exists h'. exact E.
  Qed.
End CacheProofs.
