(** TinyDBM: lemmas. *)
From Coq Require Import List NArith ZArith Bool Lia Arith.
Import ListNotations.
From Verif Require Import Bytes CodecModel CodecProofs MqProofs FlatProofs DbmModel StatusModel TinyModel.
Local Open Scope N_scope.

(** * Records *)
Definition holds (h : heap) (q : ptr) (c : option ptr) (k v : bytes) : Prop :=
  exists slack, cell h q = Some (c, ser k v ++ slack) /\ fits (blen k) (blen v) = true.

Lemma fits_lt a b : fits a b = true -> 8 + size_var a + a + size_var b + b < 2^31.
Proof. unfold fits, tr_size. intros H. apply N.ltb_lt in H. exact H. Qed.
Lemma fits64 a b : fits a b = true -> a < two64 /\ b < two64.
Proof. intros H. apply fits_lt in H. change (2^31) with 2147483648 in H. change two64 with 18446744073709551616. lia. Qed.

Lemma ser_len k v : blen (ser k v) = size_var (blen k) + blen k + size_var (blen v) + blen v.
Proof. unfold ser. rewrite !blen_app, !write_var_length. lia. Qed.

Lemma updc_same f p b : updc f p b p = b.
Proof. unfold updc. rewrite Nat.eqb_refl. reflexivity. Qed.
Lemma updc_other f p b q : q <> p -> updc f p b q = f q.
Proof. intros H. unfold updc. apply Nat.eqb_neq in H. rewrite H. reflexivity. Qed.

Lemma des_ok h q c k v : holds h q c k v -> tr_deserialize h q = Some (c, k, v).
Proof.
  intros (sl & E & F). destruct (fits64 _ _ F) as [F1 F2]. unfold tr_deserialize. rewrite E. unfold ser. rewrite <- !app_assoc.
  rewrite get_write_var by exact F1.
  destruct (N.ltb_spec (blen (k ++ write_var (blen v) ++ v ++ sl)) (blen k)) as [X|_]; [rewrite blen_app in X; lia|].
  rewrite to_nat_blen, skipn_exact, firstn_exact by reflexivity. rewrite get_write_var by exact F2.
  destruct (N.ltb_spec (blen (v ++ sl)) (blen v)) as [X|_]; [rewrite blen_app in X; lia|].
  rewrite to_nat_blen, firstn_exact by reflexivity. reflexivity.
Qed.

Lemma put_ok a r d off : off = blen a -> blen d <= blen r -> put (a ++ r) off d = Some (a ++ d ++ skipn (length d) r).
Proof.
  intros -> H. unfold put. rewrite blen_app. destruct (N.leb_spec (blen a + blen d) (blen a + blen r)); [|lia].
  rewrite to_nat_blen, firstn_exact by reflexivity. rewrite skipn_app.
  replace (N.to_nat (blen a + blen d)) with (length a + length d)%nat by (unfold blen; lia).
  rewrite skipn_all2 by lia. replace (length a + length d - length a)%nat with (length d) by lia. reflexivity.
Qed.

Lemma resize_ok a r n : blen a <= n -> exists r', resize (a ++ r) n = a ++ r' /\ blen r' = n - blen a.
Proof.
  intros H. unfold resize. rewrite firstn_app_ge by (unfold blen in H; lia). rewrite <- app_assoc. eexists. split; [reflexivity|].
  rewrite blen_app. unfold blen in *. rewrite firstn_length, repeat_length, app_length. lia.
Qed.

Lemma size_var_mono a b : a <= b -> size_var a <= size_var b.
Proof. intros H. unfold size_var. repeat match goal with |- context [?a <? ?b] => destruct (N.ltb_spec a b) end; lia. Qed.

(** What a change of one record does to the memory. *)
Definition changed (h : heap) (q : ptr) (h' : heap) (q' : ptr) : Prop :=
  (forall p, (p < hnext h)%nat -> p <> q -> cell h' p = cell h p) /\
  (q' = q \/ q' = hnext h) /\ (hnext h <= hnext h')%nat /\ (q' < hnext h')%nat.

Lemma realloc_ok h q c b n moved h' q' : (q < hnext h)%nat -> cell h q = Some (c, b) -> h_realloc h q n moved = Some (h', q') ->
  cell h' q' = Some (c, resize b n) /\ changed h q h' q'.
Proof.
  intros Hq E. unfold h_realloc. rewrite E. destruct moved.
  - cbn [h_alloc]. unfold h_free. cbn [cell hnext]. rewrite updc_other by lia. rewrite E. intros X. inversion X; subst. cbn [cell hnext].
    rewrite updc_other by lia. rewrite updc_same. split; [reflexivity|]. unfold changed. cbn [cell hnext].
    split; [|lia]. intros p Hp Hn. rewrite !updc_other by lia. reflexivity.
  - unfold h_store. rewrite E. intros X. inversion X; subst. cbn [cell hnext]. rewrite updc_same. split; [reflexivity|].
    unfold changed. cbn [cell hnext]. split; [|lia]. intros p Hp Hn. rewrite updc_other by lia. reflexivity.
Qed.
Lemma realloc_some h q c b n moved : (q < hnext h)%nat -> cell h q = Some (c, b) -> exists h' q', h_realloc h q n moved = Some (h', q').
Proof.
  intros Hq E. unfold h_realloc. rewrite E. destruct moved; cbn [h_alloc].
  - unfold h_free. cbn [cell]. rewrite updc_other by lia. rewrite E. eauto.
  - unfold h_store. rewrite E. eauto.
Qed.
Lemma put_block h q c a r d off h0 q0 : cell h q = Some (c, a ++ r) -> off = blen a -> blen d <= blen r -> changed h0 q0 h q ->
  exists h', h_put h q off d = Some h' /\ cell h' q = Some (c, a ++ d ++ skipn (length d) r) /\ changed h0 q0 h' q.
Proof.
  intros E Ho Hd (C1 & C2 & C3 & C4). unfold h_put. rewrite E, (put_ok a r d off Ho Hd). unfold h_store. rewrite E. eexists. split; [reflexivity|].
  cbn [cell hnext]. rewrite updc_same. split; [reflexivity|]. unfold changed. cbn [cell hnext]. repeat split; auto.
  intros p Hp Hn. rewrite updc_other; [auto|]. destruct C2; lia.
Qed.
Lemma changed_refl h q : (q < hnext h)%nat -> changed h q h q.
Proof. unfold changed. intuition. Qed.

Lemma alloc_free_ok h q c c' k v b : holds h q c k v -> (q < hnext h)%nat ->
  exists h', h_free (fst (h_alloc h (c', b))) q = Some h' /\ cell h' (hnext h) = Some (c', b) /\ changed h q h' (hnext h).
Proof.
  intros (sl & E & _) Hq. unfold h_free, h_alloc. cbn [fst cell]. rewrite updc_other by lia. rewrite E. eexists. split; [reflexivity|].
  cbn [cell hnext]. rewrite updc_other by lia. rewrite updc_same. split; [reflexivity|]. unfold changed. cbn [cell hnext].
  split; [|lia]. intros p Hp Hn. rewrite !updc_other by lia. reflexivity.
Qed.

Lemma reser_ok h q c k v v' moved : holds h q c k v -> (q < hnext h)%nat -> fits (blen k) (blen v') = true ->
  exists h' q', tr_reserialize h q c k v' (blen v) moved = Some (h', q') /\ holds h' q' c k v' /\ changed h q h' q'.
Proof.
  intros H Hq F. assert (H' := H). destruct H' as (sl & E & F0). unfold tr_reserialize. rewrite F. cbn [negb].
  destruct (N.ltb_spec (size_var (blen v)) (size_var (blen v'))) as [L|L].
  - unfold tr_serialize. rewrite F. destruct (alloc_free_ok h q c c k v (ser k v') H Hq) as (h' & A & B & C).
    destruct (h_alloc h (c, ser k v')) as [h1 q1] eqn:EA. cbn [fst] in A. rewrite A.
    assert (q1 = hnext h) as -> by (unfold h_alloc in EA; inversion EA; reflexivity).
    exists h', (hnext h). split; [reflexivity|]. split; [|exact C]. exists []. rewrite app_nil_r. auto.
  - assert (exists h1 q1 r, (if blen v <? blen v' then h_realloc h q (tr_size (blen k) (blen v') - 8) moved else Some (h, q)) = Some (h1, q1) /\
       cell h1 q1 = Some (c, (write_var (blen k) ++ k) ++ r) /\ size_var (blen v') + blen v' <= blen r /\ changed h q h1 q1) as (h1 & q1 & r & R1 & R2 & R3 & R4).
    { destruct (N.ltb_spec (blen v) (blen v')) as [G|G].
      - destruct (realloc_some h q _ _ (tr_size (blen k) (blen v') - 8) moved Hq E) as (h1 & q1 & R1).
        destruct (realloc_ok _ _ _ _ _ _ _ _ Hq E R1) as [R2 R3].
        destruct (resize_ok (write_var (blen k) ++ k) ((write_var (blen v) ++ v) ++ sl) (tr_size (blen k) (blen v') - 8)) as (r & R4 & R5).
        { unfold tr_size. rewrite blen_app, write_var_length. lia. }
        exists h1, q1, r. split; [exact R1|]. split; [|split; [|exact R3]].
        + rewrite R2, <- R4. do 3 f_equal. unfold ser. rewrite <- !app_assoc. reflexivity.
        + rewrite R5. unfold tr_size. rewrite blen_app, write_var_length. lia.
      - exists h, q, ((write_var (blen v) ++ v) ++ sl). split; [reflexivity|]. split; [|split; [|apply changed_refl; exact Hq]].
        + rewrite E. do 2 f_equal. unfold ser. rewrite <- !app_assoc. reflexivity.
        + rewrite !blen_app, write_var_length. lia. }
    rewrite R1. destruct (put_block h1 q1 c _ r (write_var (blen v') ++ v') (size_var (blen k) + blen k) h q R2) as (h2 & P1 & P2 & P3).
    { rewrite blen_app, write_var_length. reflexivity. }
    { rewrite blen_app, write_var_length. exact R3. }
    { exact R4. }
    rewrite P1. exists h2, q1. split; [reflexivity|]. split; [|exact P3].
    eexists. split; [|exact F]. rewrite P2. do 2 f_equal. unfold ser. rewrite <- !app_assoc. reflexivity.
Qed.

Lemma cat_len (v delim cat : bytes) : blen (v ++ delim ++ cat) = blen v + blen delim + blen cat.
Proof. rewrite !blen_app. lia. Qed.

Lemma append_ok h q c (k v cat delim : bytes) moved : holds h q c k v -> (q < hnext h)%nat -> fits (blen k) (blen (v ++ delim ++ cat)) = true ->
  exists h' q', tr_append h q c k v cat delim moved = Some (h', q') /\ holds h' q' c k (v ++ delim ++ cat) /\ changed h q h' q'.
Proof.
  intros H Hq F. assert (H' := H). destruct H' as (sl & E & F0). unfold tr_append. cbv zeta. rewrite <- cat_len. rewrite F. cbn [negb].
  destruct (N.ltb_spec (size_var (blen v)) (size_var (blen (v ++ delim ++ cat)))) as [L|L].
  - destruct (alloc_free_ok h q c c k v (write_var (blen k) ++ k ++ write_var (blen (v ++ delim ++ cat)) ++ v ++ delim ++ cat) H Hq) as (h' & A & B & C).
    unfold h_alloc in A |- *. cbn [fst] in A.
    match type of A with ?l = _ => match goal with |- context [h_free ?a q] => change (h_free a q) with l end end. rewrite A. exists h', (hnext h). split; [reflexivity|]. split; [|exact C].
    exists []. rewrite app_nil_r. split; [exact B|exact F].
  - assert (size_var (blen (v ++ delim ++ cat)) = size_var (blen v)) as SE.
    { apply N.le_antisymm; [exact L|]. apply size_var_mono. rewrite !blen_app. lia. }
    set (n := tr_size (blen k) (blen (v ++ delim ++ cat)) - 8).
    destruct (realloc_some h q _ _ n moved Hq E) as (h1 & q1 & R1). rewrite R1.
    destruct (realloc_ok _ _ _ _ _ _ _ _ Hq E R1) as [R2 R3].
    destruct (resize_ok (ser k v) sl n) as (r & R4 & R5).
    { subst n. unfold tr_size. rewrite ser_len, SE, !blen_app. lia. }
    rewrite R4 in R2.
    assert (blen r = blen delim + blen cat) as R6.
    { rewrite R5. subst n. unfold tr_size. rewrite ser_len, SE, !blen_app. lia. }
    assert (ser k v ++ r = (write_var (blen k) ++ k) ++ (write_var (blen v) ++ v ++ r)) as Q1 by (unfold ser; rewrite <- !app_assoc; reflexivity).
    rewrite Q1 in R2.
    destruct (put_block h1 q1 c _ _ (write_var (blen (v ++ delim ++ cat))) (size_var (blen k) + blen k) h q R2) as (h2 & P1 & P2 & P3).
    { rewrite blen_app, write_var_length. reflexivity. }
    { rewrite write_var_length, SE, blen_app, write_var_length. lia. }
    { exact R3. }
    rewrite P1. rewrite skipn_exact in P2 by (rewrite !var_len, SE; reflexivity).
    set (wn := write_var (blen (v ++ delim ++ cat))) in *.
    assert ((write_var (blen k) ++ k) ++ wn ++ v ++ r = ((write_var (blen k) ++ k) ++ wn ++ v) ++ r) as Q2 by (rewrite <- !app_assoc; reflexivity).
    rewrite Q2 in P2.
    destruct (put_block h2 q1 c _ _ delim (size_var (blen k) + blen k + size_var (blen (v ++ delim ++ cat)) + blen v) h q P2) as (h3 & P4 & P5 & P6).
    { subst wn. rewrite !blen_app, !write_var_length. lia. }
    { lia. }
    { exact P3. }
    rewrite P4. rewrite app_assoc in P5.
    destruct (put_block h3 q1 c _ _ cat (size_var (blen k) + blen k + size_var (blen (v ++ delim ++ cat)) + blen v + blen delim) h q P5) as (h4 & P7 & P8 & P9).
    { subst wn. rewrite !blen_app, !write_var_length. lia. }
    { unfold blen in *. rewrite skipn_length. lia. }
    { exact P6. }
    rewrite P7. exists h4, q1. split; [reflexivity|]. split; [|exact P9]. eexists. split; [|exact F].
    rewrite P8. do 2 f_equal. unfold ser. fold wn. rewrite <- !app_assoc. reflexivity.
Qed.

(** * Chains *)
Definition node : Type := ptr * (bytes * bytes).
Fixpoint seg (h : heap) (p : option ptr) (l : list node) (e : option ptr) : Prop :=
  match l with
  | [] => p = e
  | (q, (k, v)) :: r => p = Some q /\ exists c, holds h q c k v /\ seg h c r e
  end.
Definition locs (l : list node) : list ptr := map fst l.
Definition keys (l : list node) : list bytes := map (fun n => fst (snd n)) l.

Lemma holds_frame h h' q c k v : cell h' q = cell h q -> holds h q c k v -> holds h' q c k v.
Proof. intros E (sl & A & B). exists sl. rewrite E. auto. Qed.
Lemma seg_frame l : forall h h' p e, (forall q, In q (locs l) -> cell h' q = cell h q) -> seg h p l e -> seg h' p l e.
Proof.
  induction l as [|[q [k v]] l IH]; cbn; intros h h' p e F H; [exact H|]. destruct H as (-> & c & A & B). split; [reflexivity|].
  exists c. split; [eapply holds_frame; [apply F; auto|exact A]|]. eapply IH; [|exact B]. intros; apply F; auto.
Qed.
Lemma seg_app l : forall h p r e, seg h p (l ++ r) e <-> exists m, seg h p l m /\ seg h m r e.
Proof.
  induction l as [|[q [k v]] l IH]; cbn; intros h p r e.
  - split; [eauto|]. intros (m & -> & H). exact H.
  - split.
    + intros (-> & c & A & B). apply IH in B. destruct B as (m & B1 & B2). eauto 8.
    + intros (m & (-> & c & A & B) & C). split; [reflexivity|]. exists c. split; [exact A|]. apply IH. eauto.
Qed.
Lemma link_ok h q c c' k v : holds h q c k v -> exists h', h_link h q c' = Some h' /\ holds h' q c' k v /\
  (forall p, p <> q -> cell h' p = cell h p) /\ hnext h' = hnext h.
Proof.
  intros (sl & E & F). unfold h_link, h_store. rewrite E. eexists. split; [reflexivity|]. split.
  - exists sl. cbn [cell]. rewrite updc_same. auto.
  - split; [|reflexivity]. intros p Hp. cbn [cell]. apply updc_other, Hp.
Qed.

Definition last_loc (l : list node) (d : option ptr) : option ptr := last (map Some (locs l)) d.

Lemma nodup_disj {A} (a b : list A) x : NoDup (a ++ b) -> In x a -> In x b -> False.
Proof.
  induction a as [|y a IH]; cbn; intros H I J; [easy|]. inversion H as [|? ? X Y]; subst. destruct I as [->|I]; [|auto].
  apply X. apply in_or_app. auto.
Qed.
Lemma nodup_left {A} (a b : list A) : NoDup (a ++ b) -> NoDup a.
Proof.
  induction a as [|y a IH]; cbn; intros H; constructor; inversion H as [|? ? X Y]; subst; [|auto].
  intros Z. apply X. apply in_or_app. auto.
Qed.
Lemma last_cons {A} (l : list A) : forall a d, last (a :: l) d = last l a.
Proof. induction l as [|b l IH]; intros a d; [reflexivity|]. change (last (b :: l) d = last (b :: l) a). rewrite !IH. reflexivity. Qed.

Lemma walk_ok key l : forall fuel h p par, seg h p l None -> (length l < fuel)%nat ->
  (~ In key (keys l) /\ walk fuel h key par p = Some None) \/
  exists l1 q v l2 c, l = l1 ++ (q, (key, v)) :: l2 /\ ~ In key (keys l1) /\ holds h q c key v /\ seg h c l2 None /\
    walk fuel h key par p = Some (Some (q, last_loc l1 par, c, v)).
Proof.
  induction l as [|[q [k v]] l IH]; intros fuel h p par H Hf; (destruct fuel as [|fu]; [cbn in Hf; lia|]); cbn in H.
  - subst p. left. split; [easy|reflexivity].
  - destruct H as (-> & c & A & B). cbn [walk]. rewrite (des_ok _ _ _ _ _ A). destruct (beqb_spec key k) as [<-|N].
    + right. exists [], q, v, l, c. split; [reflexivity|]. split; [easy|]. auto.
    + destruct (IH fu h c (Some q) B ltac:(cbn in Hf; lia)) as [(I1 & I2)|(l1 & q' & v' & l2 & c' & I1 & I2 & I3 & I4 & I5)].
      * left. split; [|exact I2]. cbn. intros [X|X]; [congruence|contradiction].
      * right. exists ((q, (k, v)) :: l1), q', v', l2, c'. split; [rewrite I1; reflexivity|]. split; [cbn; intros [X|X]; [congruence|contradiction]|].
        split; [exact I3|]. split; [exact I4|]. rewrite I5. unfold last_loc. cbn [locs map]. rewrite last_cons. reflexivity.
Qed.

Section Inv.
  Variable hash : bytes -> N -> N.
  Definition total (L : N -> list node) : nat -> nat := fix go n := match n with O => O | S m => (go m + length (L (N.of_nat m)))%nat end.

  Record tinv (t : tiny) (L : N -> list node) : Prop := {
    v_seg : forall i, i < t_nb t -> seg (t_h t) (t_b t i) (L i) None;
    v_out : forall i, t_nb t <= i -> L i = [];
    v_key : forall i q k v, In (q, (k, v)) (L i) -> hash k (t_nb t) = i /\ (q < hnext (t_h t))%nat;
    v_nodup : forall i, NoDup (keys (L i)) /\ NoDup (locs (L i));
    v_disj : forall i j q, In q (locs (L i)) -> In q (locs (L j)) -> i = j;
    v_num : t_num t = Z.of_nat (total L (N.to_nat (t_nb t))) }.

  Definition updL (L : N -> list node) (i : N) (l : list node) : N -> list node := fun j => if j =? i then l else L j.
  Lemma updL_same L i l : updL L i l i = l.
  Proof. unfold updL. rewrite N.eqb_refl. reflexivity. Qed.
  Lemma updL_other L i l j : j <> i -> updL L i l j = L j.
  Proof. intros H. unfold updL. apply N.eqb_neq in H. rewrite H. reflexivity. Qed.
  Lemma total_ext L L' n : (forall i, i < N.of_nat n -> L i = L' i) -> total L n = total L' n.
  Proof. induction n; intros H; [reflexivity|]. cbn. rewrite IHn by (intros; apply H; lia). rewrite H by lia. reflexivity. Qed.
  Lemma total_upd L i l n : (N.to_nat i < n)%nat -> (total (updL L i l) n + length (L i) = total L n + length l)%nat.
  Proof.
    induction n; intros H; [lia|]. cbn. destruct (Nat.eq_dec (N.to_nat i) n) as [E|E].
    - replace (N.of_nat n) with i by lia. rewrite updL_same.
      rewrite (total_ext (updL L i l) L n) by (intros; apply updL_other; lia). lia.
    - rewrite updL_other by lia. specialize (IHn ltac:(lia)). lia.
  Qed.

  Lemma in_loc (i : N) (L : N -> list node) q : In q (locs (L i)) -> exists k v, In (q, (k, v)) (L i).
  Proof. intros H. apply in_map_iff in H. destruct H as ([q' [k v]] & <- & H). eauto. Qed.

  (** One bucket replaced. *)
  Lemma bucket_upd t L i l' h' b' num' : tinv t L -> i < t_nb t ->
    seg h' (b' i) l' None -> (forall j, j <> i -> b' j = t_b t j) ->
    (forall q, (q < hnext (t_h t))%nat -> ~ In q (locs (L i)) -> cell h' q = cell (t_h t) q) ->
    (hnext (t_h t) <= hnext h')%nat ->
    (forall q, In q (locs l') -> (q < hnext h')%nat /\ (In q (locs (L i)) \/ (hnext (t_h t) <= q)%nat)) ->
    (forall k, In k (keys l') -> hash k (t_nb t) = i) -> NoDup (keys l') -> NoDup (locs l') ->
    num' = (t_num t + Z.of_nat (length l') - Z.of_nat (length (L i)))%Z ->
    tinv (mkTiny h' b' (t_nb t) num') (updL L i l').
  Proof.
    intros [S O K ND D N] Hi S' B' F HN LL KK N1 N2 EN.
    assert (forall j q, j <> i -> In q (locs (L j)) -> (q < hnext (t_h t))%nat /\ ~ In q (locs (L i))) as FR.
    { intros j q Hj I. split; [|intros X; apply Hj; eapply D; eauto]. destruct (in_loc _ _ _ I) as (k & v & I'). apply K in I'. tauto. }
    constructor; cbn [t_nb t_h t_b t_num].
    - intros j Hj. destruct (N.eq_dec j i) as [->|E]; [rewrite updL_same; exact S'|]. rewrite updL_other, B' by exact E.
      eapply seg_frame; [|apply S; exact Hj]. intros q I. destruct (FR j q E I). apply F; auto.
    - intros j Hj. rewrite updL_other by lia. apply O, Hj.
    - intros j q k v I. destruct (N.eq_dec j i) as [->|E].
      + rewrite updL_same in I. split; [apply KK; apply (in_map (fun n => fst (snd n))) in I; exact I|]. apply (in_map fst) in I. apply LL in I. tauto.
      + rewrite updL_other in I by exact E. apply K in I. destruct I. split; [assumption|lia].
    - intros j. destruct (N.eq_dec j i) as [->|E]; [rewrite updL_same; auto|]. rewrite updL_other by exact E. apply ND.
    - intros j1 j2 q I1 I2. destruct (N.eq_dec j1 i) as [->|E1], (N.eq_dec j2 i) as [->|E2]; auto.
      + rewrite updL_same in I1. rewrite updL_other in I2 by exact E2. destruct (FR _ _ E2 I2). apply LL in I1. destruct I1 as [_ [I1|I1]]; [contradiction|lia].
      + rewrite updL_same in I2. rewrite updL_other in I1 by exact E1. destruct (FR _ _ E1 I1). apply LL in I2. destruct I2 as [_ [I2|I2]]; [contradiction|lia].
      + rewrite updL_other in I1, I2 by assumption. eapply D; eauto.
    - rewrite EN, N. pose proof (total_upd L i l' (N.to_nat (t_nb t)) ltac:(lia)). lia.
  Qed.

  (** * Replacing or removing one record *)
  Lemma last_loc_snoc l q kv d : last_loc (l ++ [(q, kv)]) d = Some q.
  Proof. unfold last_loc, locs. rewrite !map_app. cbn. apply last_last. Qed.
  Lemma locs_app l l' : locs (l ++ l') = locs l ++ locs l'. Proof. apply map_app. Qed.
  Lemma keys_app l l' : keys (l ++ l') = keys l ++ keys l'. Proof. apply map_app. Qed.

  Lemma relink_ok h b i l1 np p :
    seg h (b i) l1 p -> NoDup (locs l1) ->
    exists h' b', relink h b i (last_loc l1 None) np = Some (h', b') /\ seg h' (b' i) l1 np /\ (forall j, j <> i -> b' j = b j) /\
      (forall q, ~ In q (locs l1) -> cell h' q = cell h q) /\ hnext h' = hnext h.
  Proof.
    intros S ND. destruct l1 as [|[q [k v]] l0 _] using rev_ind.
    - cbn. eexists _, _. split; [reflexivity|]. unfold updb. rewrite N.eqb_refl. repeat split; auto.
      intros j Hj. apply N.eqb_neq in Hj. rewrite Hj. reflexivity.
    - rewrite last_loc_snoc. unfold relink. apply seg_app in S. destruct S as (m & S1 & S2). cbn in S2. destruct S2 as (-> & c & A & ->).
      destruct (link_ok h q p np k v A) as (h' & E & A' & F & HN). rewrite E. eexists _, _. split; [reflexivity|].
      rewrite locs_app in ND. cbn in ND. apply NoDup_remove in ND. rewrite app_nil_r in ND. destruct ND as [_ ND].
      split; [|split; [auto|split; [|exact HN]]].
      + apply seg_app. exists (Some q). split.
        * eapply seg_frame; [|exact S1]. intros x Hx. apply F. intros ->. contradiction.
        * cbn. split; [reflexivity|]. exists np. auto.
      + intros x Hx. apply F. intros ->. apply Hx. rewrite locs_app. apply in_or_app. right. left. reflexivity.
  Qed.

  (** Looking up a key in a chain. *)
  Fixpoint find (k : bytes) (l : list node) : option bytes :=
    match l with [] => None | (_, (k', v)) :: r => if beqb k k' then Some v else find k r end.
  Lemma find_none k l : ~ In k (keys l) -> find k l = None.
  Proof.
    induction l as [|[q [k' v]] l IH]; cbn; intros H; [reflexivity|]. destruct (beqb_spec k k') as [<-|_]; [exfalso; apply H; auto|].
    apply IH. intros X. apply H. auto.
  Qed.
  Lemma find_app k l1 l2 : find k (l1 ++ l2) = match find k l1 with Some v => Some v | None => find k l2 end.
  Proof. induction l1 as [|[q [k' v]] l IH]; cbn; [reflexivity|]. destruct (beqb k k'); auto. Qed.
  Lemma find_some k l v : NoDup (keys l) -> (find k l = Some v <-> exists q, In (q, (k, v)) l).
  Proof.
    induction l as [|[q [k' v']] l IH]; cbn; intros ND.
    - split; [discriminate|]. intros (q & []).
    - inversion ND as [|? ? X Y]; subst. destruct (beqb_spec k k') as [<-|E].
      + split; [intros Z; injection Z as <-; eauto|]. intros (q' & [Z|Z]); [injection Z as -> ->; reflexivity|].
        exfalso. apply X. apply (in_map (fun n => fst (snd n))) in Z. exact Z.
      + rewrite (IH Y). split; [intros (q' & Z); eauto|]. intros (q' & [Z|Z]); [injection Z as ? ? ?; congruence|eauto].
  Qed.

  Lemma split_uniq key l1 q v l2 l1' q' v' l2' : NoDup (keys (l1 ++ (q, (key, v)) :: l2)) ->
    l1 ++ (q, (key, v)) :: l2 = l1' ++ (q', (key, v')) :: l2' -> l2' = l2.
  Proof.
    revert l1'. induction l1 as [|x l1 IH]; intros [|y l1'] ND E; cbn in *.
    - congruence.
    - exfalso. inversion ND as [|? ? NI _]; subst. apply NI. injection E as _ ->. rewrite keys_app. apply in_or_app. right. left. reflexivity.
    - exfalso. injection E as -> <-. inversion ND as [|? ? NI _]; subst. apply NI. rewrite keys_app. apply in_or_app. right. left. reflexivity.
    - injection E as _ E. inversion ND; subst. eauto.
  Qed.

  Definition view (nb : N) (L : N -> list node) : amap := fun k => find k (L (hash k nb)).

  Lemma view_upd nb L i l' k v : hash k nb = i -> (forall x, x <> k -> find x l' = find x (L i)) -> find k l' = v ->
    forall x, view nb (updL L i l') x = if beqb k x then v else view nb L x.
  Proof.
    intros Hi O E x. unfold view. destruct (beqb_spec k x) as [<-|N].
    - rewrite Hi, updL_same. exact E.
    - unfold updL. destruct (N.eqb_spec (hash x nb) i) as [X|X]; [rewrite X; apply O; congruence|reflexivity].
  Qed.

  Definition ok_act (k : bytes) (a : action) : Prop := match a with ASet v => fits (blen k) (blen v) = true | _ => True end.

  Lemma fuel_enough t L i : tinv t L -> (length (L i) < fuel_of (t_h t))%nat.
  Proof.
    intros [S O K ND D N]. unfold fuel_of. replace (length (L i)) with (length (locs (L i))) by apply map_length.
    assert (length (locs (L i)) <= length (seq 0 (hnext (t_h t))))%nat; [|rewrite seq_length in *; lia].
    apply NoDup_incl_length; [apply ND|]. intros q I. destruct (in_loc _ _ _ I) as (k & v & I'). apply K in I'. apply in_seq. lia.
  Qed.

  Section Op.
    Variables (t : tiny) (L : N -> list node) (key : bytes).
    Let i := hash key (t_nb t).
    Hypothesis I0 : tinv t L.
    Hypothesis Hi : i < t_nb t.

    Lemma push_ok value : ~ In key (keys (L i)) -> fits (blen key) (blen value) = true ->
      exists t', push t i key value = Some t' /\ t_nb t' = t_nb t /\ exists q, tinv t' (updL L i ((q, (key, value)) :: L i)).
    Proof.
      intros NI F. unfold push, tr_serialize. rewrite F. cbn [h_alloc]. eexists. split; [reflexivity|]. split; [reflexivity|].
      exists (hnext (t_h t)). assert (I1 := I0). destruct I1 as [S O K ND D N].
      assert (forall q, In q (locs (L i)) -> (q < hnext (t_h t))%nat) as LB.
      { intros q I. destruct (in_loc _ _ _ I) as (k & v & I'). apply K in I'. tauto. }
      apply bucket_upd; [exact I0|exact Hi|..]; cbn [cell hnext].
      - cbn. unfold updb. rewrite N.eqb_refl. split; [reflexivity|]. exists (t_b t i). split.
        + exists []. cbn [cell]. rewrite updc_same, app_nil_r. auto.
        + eapply seg_frame; [|apply S; exact Hi]. intros q I. cbn [cell]. apply updc_other. apply LB in I. lia.
      - intros j Hj. unfold updb. apply N.eqb_neq in Hj. rewrite Hj. reflexivity.
      - intros q Hq _. apply updc_other. lia.
      - lia.
      - cbn. intros q [<-|I]; [lia|]. apply LB in I as I'. split; [lia|auto].
      - cbn. intros k [<-|I]; [reflexivity|]. apply in_map_iff in I. destruct I as ([q [k' v]] & <- & I). apply K in I. tauto.
      - cbn. constructor; [exact NI|apply ND].
      - cbn. constructor; [|apply ND]. intros I. apply LB in I. lia.
      - cbn [length]. lia.
    Qed.

    (** The found record replaced by (q', (key, v')) in the memory h'. *)
    Lemma replace_ok l1 q v l2 c h' q' v' par :
      L i = l1 ++ (q, (key, v)) :: l2 -> seg (t_h t) c l2 None -> holds h' q' c key v' -> changed (t_h t) q h' q' ->
      par = last_loc l1 None -> ~ In key (keys l1) ->
      exists t', (if Nat.eqb q' q then Some (mkTiny h' (t_b t) (t_nb t) (t_num t))
         else '(h2, b2) <- relink h' (t_b t) i par (Some q') ;; Some (mkTiny h2 b2 (t_nb t) (t_num t))) = Some t' /\
        t_nb t' = t_nb t /\ tinv t' (updL L i (l1 ++ (q', (key, v')) :: l2)) /\
        (forall x, find x (l1 ++ (q', (key, v')) :: l2) = if beqb key x then Some v' else find x (L i)).
    Proof.
      intros EL S2 HH (C1 & C2 & C3 & C4) -> NK. assert (I1 := I0). destruct I1 as [S O K ND D N].
      assert (forall q, In q (locs (L i)) -> (q < hnext (t_h t))%nat) as LB.
      { intros x I. destruct (in_loc _ _ _ I) as (k & w & I'). apply K in I'. tauto. }
      destruct (ND i) as [NDk NDl]. rewrite EL in NDl, NDk. rewrite locs_app in NDl. rewrite keys_app in NDk. cbn in NDl, NDk.
      apply NoDup_remove in NDl as [NDl NIl]. apply NoDup_remove in NDk as [NDk NIk].
      pose proof (S i Hi) as Si. rewrite EL in Si. apply seg_app in Si. destruct Si as (m & S1 & S3). cbn in S3. destruct S3 as (-> & c' & HQ & S3).
      assert (forall x, In x (locs l1) \/ In x (locs l2) -> In x (locs (L i))) as IN.
      { intros x X. rewrite EL, locs_app. apply in_or_app. cbn. tauto. }
      assert (FI : forall x, find x (l1 ++ (q', (key, v')) :: l2) = if beqb key x then Some v' else find x (L i)).
      { intros x. rewrite EL, !find_app. cbn. destruct (beqb_spec key x) as [<-|NE].
        - rewrite find_none by exact NK. rewrite beqb_refl. reflexivity.
        - destruct (beqb_spec x key) as [X|_]; [congruence|]. reflexivity. }
      assert (UN : forall h2 b2, seg h2 (b2 i) l1 (Some q') -> (forall j, j <> i -> b2 j = t_b t j) ->
         (forall x, ~ In x (locs l1) -> cell h2 x = cell h' x) -> hnext h2 = hnext h' ->
         tinv (mkTiny h2 b2 (t_nb t) (t_num t)) (updL L i (l1 ++ (q', (key, v')) :: l2))).
      { intros h2 b2 G1 G2 G3 G4.
        assert (~ In q' (locs l1)) as NQ.
        { intros X. destruct C2 as [->| ->]; [apply NIl, in_or_app; auto|]. specialize (LB _ (IN _ (or_introl X))). lia. }
        assert (~ In q' (locs l2)) as NQ2.
        { intros X. destruct C2 as [->| ->]; [apply NIl, in_or_app; auto|]. specialize (LB _ (IN _ (or_intror X))). lia. }
        apply bucket_upd; [exact I0|exact Hi|..].
        - apply seg_app. exists (Some q'). split; [exact G1|]. cbn. split; [reflexivity|]. exists c. split; [eapply holds_frame; [apply G3, NQ|exact HH]|].
          eapply seg_frame; [|exact S2]. intros x X. rewrite G3.
          + apply C1; [apply LB, IN; auto|]. intros ->. apply NIl. apply in_or_app. auto.
          + intros Y. exact (nodup_disj _ _ x NDl Y X).
        - exact G2.
        - intros x Hx Nx. rewrite G3 by (intros X; apply Nx, IN; auto). apply C1; [exact Hx|]. intros ->. apply Nx. rewrite EL, locs_app. apply in_or_app. cbn. auto.
        - rewrite G4. exact C3.
        - intros x X. rewrite locs_app in X. apply in_app_or in X. cbn in X. rewrite G4.
          assert (In x (locs (L i)) \/ x = q') as [Y|Y] by (destruct X as [X|[X|X]]; auto).
          + specialize (LB _ Y). split; [lia|auto].
          + subst x. split; [exact C4|]. destruct C2 as [->| ->]; [left|right; lia]. rewrite EL, locs_app. apply in_or_app. cbn. auto.
        - intros k X. assert (In k (keys (L i))) as Y.
          { rewrite EL. rewrite keys_app in *. cbn in *. exact X. }
          apply in_map_iff in Y. destruct Y as ([z [k' w]] & <- & Y). apply K in Y. tauto.
        - rewrite keys_app. cbn. apply NoDup_Add with (a := key) (l := keys l1 ++ keys l2); [apply Add_app|auto].
        - rewrite locs_app. cbn. apply NoDup_Add with (a := q') (l := locs l1 ++ locs l2); [apply Add_app|]. split; [exact NDl|].
          intros X. apply in_app_or in X. tauto.
        - rewrite EL, !app_length. cbn [length]. lia. }
      assert (G0 : seg h' (t_b t i) l1 (Some q)).
      { eapply seg_frame; [|exact S1]. intros x X. apply C1; [apply LB, IN; auto|]. intros ->. apply NIl. apply in_or_app. auto. }
      destruct (Nat.eqb_spec q' q) as [EQ|NE].
      - eexists. split; [reflexivity|]. split; [reflexivity|]. split; [|exact FI]. apply UN; auto. congruence.
      - assert (NoDup (locs l1)) as ND1 by (exact (nodup_left _ _ NDl)).
        destruct (relink_ok h' (t_b t) i l1 (Some q') (Some q) G0 ND1) as (h2 & b2 & R1 & R2 & R3 & R4 & R5).
        rewrite R1. eexists. split; [reflexivity|]. split; [reflexivity|]. split; [|exact FI]. apply UN; auto.
    Qed.

    Lemma remove_ok l1 q v l2 c par :
      L i = l1 ++ (q, (key, v)) :: l2 -> seg (t_h t) c l2 None -> par = last_loc l1 None -> ~ In key (keys l1) ->
      exists t', (h1 <- h_free (t_h t) q ;; '(h2, b2) <- relink h1 (t_b t) i par c ;; Some (mkTiny h2 b2 (t_nb t) (t_num t - 1))) = Some t' /\
        t_nb t' = t_nb t /\ tinv t' (updL L i (l1 ++ l2)) /\
        (forall x, find x (l1 ++ l2) = if beqb key x then None else find x (L i)).
    Proof.
      intros EL S2 -> NK. assert (I1 := I0). destruct I1 as [S O K ND D N].
      assert (forall q, In q (locs (L i)) -> (q < hnext (t_h t))%nat) as LB.
      { intros x I. destruct (in_loc _ _ _ I) as (k & w & I'). apply K in I'. tauto. }
      destruct (ND i) as [NDk NDl]. rewrite EL in NDl, NDk. rewrite locs_app in NDl. rewrite keys_app in NDk. cbn in NDl, NDk.
      apply NoDup_remove in NDl as [NDl NIl]. apply NoDup_remove in NDk as [NDk NIk].
      pose proof (S i Hi) as Si. rewrite EL in Si. apply seg_app in Si. destruct Si as (m & S1 & S3). cbn in S3. destruct S3 as (-> & c' & HQ & S3).
      assert (forall x, In x (locs l1) \/ In x (locs l2) -> In x (locs (L i))) as IN.
      { intros x X. rewrite EL, locs_app. apply in_or_app. cbn. tauto. }
      destruct HQ as (sl & EC & _). unfold h_free. rewrite EC.
      set (h1 := mkHeap (updc (cell (t_h t)) q None) (hnext (t_h t))).
      assert (G0 : seg h1 (t_b t i) l1 (Some q)).
      { eapply seg_frame; [|exact S1]. intros x X. cbn [h1 cell]. apply updc_other. intros ->. apply NIl. apply in_or_app. auto. }
      assert (NoDup (locs l1)) as ND1 by (exact (nodup_left _ _ NDl)).
      destruct (relink_ok h1 (t_b t) i l1 c (Some q) G0 ND1) as (h2 & b2 & R1 & R2 & R3 & R4 & R5). rewrite R1.
      eexists. split; [reflexivity|]. split; [reflexivity|]. split.
      - apply bucket_upd; [exact I0|exact Hi|..].
        + apply seg_app. exists c. split; [exact R2|]. eapply seg_frame; [|exact S2]. intros x X. rewrite R4.
          * apply updc_other. intros ->. apply NIl. apply in_or_app. auto.
          * intros Y. exact (nodup_disj _ _ x NDl Y X).
        + exact R3.
        + intros x Hx Nx. rewrite R4 by (intros X; apply Nx, IN; auto). apply updc_other. intros ->. apply Nx. rewrite EL, locs_app. apply in_or_app. cbn. auto.
        + rewrite R5. apply le_n.
        + intros x X. rewrite locs_app in X. apply in_app_or in X. rewrite R5. cbn [h1 hnext]. split; [apply LB, IN; tauto|left; apply IN; tauto].
        + intros k X. assert (In k (keys (L i))) as Y.
          { rewrite EL. rewrite keys_app in *. cbn in *. apply in_app_or in X. apply in_or_app. cbn. tauto. }
          apply in_map_iff in Y. destruct Y as ([z [k' w]] & <- & Y). apply K in Y. tauto.
        + rewrite keys_app. exact NDk.
        + rewrite locs_app. exact NDl.
        + rewrite EL, !app_length. cbn [length]. lia.
      - intros x. rewrite EL, !find_app. cbn. destruct (beqb_spec key x) as [<-|NE].
        + rewrite find_none by exact NK. apply find_none. intros X. apply NIk. apply in_or_app. auto.
        + destruct (beqb_spec x key) as [X|_]; [congruence|]. reflexivity.
    Qed.

    (** ProcessImpl on the bucket of the key. *)
    Lemma impl_ok {S} (pr : proc S) w moved s : ok_act key (fst (call (view (t_nb t) L) key pr s)) ->
      exists t' L', t_impl t key i pr w moved s = Some (t', snd (call (view (t_nb t) L) key pr s)) /\ t_nb t' = t_nb t /\ tinv t' L' /\
        same_map (view (t_nb t) L') (fst (ref_process (view (t_nb t) L) key pr w s)) /\
        (forall j, j <> i -> L' j = L j) /\
        (forall l1 q v l2, L i = l1 ++ (q, (key, v)) :: l2 -> exists l1', L' i = l1' ++ l2).
    Proof.
      intros OK. assert (I1 := I0). destruct I1 as [Sg O K ND D N]. unfold t_impl, ref_process, call in *.
      change (view (t_nb t) L key) with (find key (L i)) in *.
      destruct (walk_ok key (L i) (fuel_of (t_h t)) (t_h t) (t_b t i) None (Sg i Hi) (fuel_enough t L i I0)) as [(W1 & W2)|(l1 & q & v & l2 & c & W1 & W2 & W3 & W4 & W5)].
      - rewrite W2. rewrite (find_none _ _ W1) in *. destruct (on_empty pr key s) as [a s'] eqn:EA. cbn [fst snd] in *.
        assert (NO : forall l1 q v l2, L i = l1 ++ (q, (key, v)) :: l2 -> False).
        { intros l1 q v l2 E. apply W1. rewrite E, keys_app. apply in_or_app. right. left. reflexivity. }
        destruct w; [destruct a|].
        + exists t, L. split; [reflexivity|]. split; [reflexivity|]. split; [exact I0|]. split; [intros x; reflexivity|]. split; [auto|]. intros ? ? ? ? E. destruct (NO _ _ _ _ E).
        + exists t, L. split; [reflexivity|]. split; [reflexivity|]. split; [exact I0|]. split; [|split; [auto|intros ? ? ? ? E; destruct (NO _ _ _ _ E)]]. intros x. cbn. unfold adel.
          destruct (beqb_spec key x) as [<-|_]; [|reflexivity]. unfold view. apply find_none, W1.
        + destruct (push_ok v W1 OK) as (t' & P1 & P2 & q & P3). rewrite P1. exists t', (updL L i ((q, (key, v)) :: L i)).
          split; [reflexivity|]. split; [exact P2|]. split; [exact P3|]. split; [|split].
          * intros x. cbn [act]. unfold aset. rewrite (view_upd (t_nb t) L i ((q, (key, v)) :: L i) key (Some v)); auto.
            -- intros y Hy. cbn. destruct (beqb_spec y key) as [X|_]; [congruence|reflexivity].
            -- cbn. rewrite beqb_refl. reflexivity.
          * intros j Hj. apply updL_other, Hj.
          * intros ? ? ? ? E. destruct (NO _ _ _ _ E).
        + exists t, L. split; [destruct a; reflexivity|]. split; [reflexivity|]. split; [exact I0|]. split; [intros x; reflexivity|]. split; [auto|]. intros ? ? ? ? E. destruct (NO _ _ _ _ E).
      - rewrite W5.
        assert (UQ : forall l1' q' v' l2', L i = l1' ++ (q', (key, v')) :: l2' -> l2' = l2).
        { intros l1' q' v' l2' E. destruct (ND i) as [NK _]. rewrite W1 in E, NK. eapply split_uniq; eauto. }
        assert (SA : forall l1' q' v' l2', L i = l1' ++ (q', (key, v')) :: l2' -> exists l0, L i = l0 ++ l2').
        { intros l1' q' v' l2' E. exists (l1' ++ [(q', (key, v'))]). rewrite <- app_assoc. exact E. }
        assert (find key (L i) = Some v) as FK by (rewrite W1, find_app, find_none by exact W2; cbn; rewrite beqb_refl; reflexivity).
        rewrite FK in *. destruct (on_full pr key v s) as [a s'] eqn:EA. cbn [fst snd] in *.
        assert (q < hnext (t_h t))%nat as Hq by (eapply K; rewrite W1; apply in_or_app; right; left; reflexivity).
        destruct w; [destruct a|].
        + exists t, L. split; [reflexivity|]. split; [reflexivity|]. split; [exact I0|]. split; [intros x; reflexivity|]. split; [auto|exact SA].
        + destruct (remove_ok l1 q v l2 c _ W1 W4 eq_refl W2) as (t' & P1 & P2 & P3 & P4).
          exists t', (updL L i (l1 ++ l2)). split.
          * destruct (h_free (t_h t) q) as [h1|]; [|discriminate]. destruct (relink h1 (t_b t) i (last_loc l1 None) c) as [[h2 b2]|]; [|discriminate].
            injection P1 as <-. reflexivity.
          * split; [exact P2|]. split; [exact P3|]. split; [|split].
            -- intros x. cbn [act]. unfold adel. apply (view_upd (t_nb t) L i (l1 ++ l2) key None); auto.
               ++ intros y Hy. rewrite P4. destruct (beqb_spec key y); [congruence|reflexivity].
               ++ rewrite P4, beqb_refl. reflexivity.
            -- intros j Hj. apply updL_other, Hj.
            -- intros ? ? ? ? E. rewrite updL_same, (UQ _ _ _ _ E). eauto.
        + destruct (reser_ok _ _ _ _ _ v0 moved W3 Hq OK) as (h' & q' & R1 & R2 & R3). rewrite R1.
          destruct (replace_ok l1 q v l2 c h' q' v0 _ W1 W4 R2 R3 eq_refl W2) as (t' & P1 & P2 & P3 & P4).
          exists t', (updL L i (l1 ++ (q', (key, v0)) :: l2)). split.
          * destruct (Nat.eqb q' q); [injection P1 as <-; reflexivity|]. destruct (relink h' (t_b t) i (last_loc l1 None) (Some q')) as [[h2 b2]|]; [|discriminate].
            injection P1 as <-. reflexivity.
          * split; [exact P2|]. split; [exact P3|]. split; [|split].
            -- intros x. cbn [act]. unfold aset. apply (view_upd (t_nb t) L i _ key (Some v0)); auto.
               ++ intros y Hy. rewrite P4. destruct (beqb_spec key y); [congruence|reflexivity].
               ++ rewrite P4, beqb_refl. reflexivity.
            -- intros j Hj. apply updL_other, Hj.
            -- intros ? ? ? ? E. rewrite updL_same, (UQ _ _ _ _ E). exists (l1 ++ [(q', (key, v0))]). rewrite <- app_assoc. reflexivity.
        + exists t, L. split; [destruct a; reflexivity|]. split; [reflexivity|]. split; [exact I0|]. split; [intros x; reflexivity|]. split; [auto|exact SA].
    Qed.
  End Op.
End Inv.
