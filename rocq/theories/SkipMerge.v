(** The record sorter and the merging loop of SkipDBM: the records come out in the order of their keys, those of one key in the order of the sources. *)
From Coq Require Import List NArith ZArith Bool Lia Arith Sorted Permutation.
Import ListNotations.
From Verif Require Import Bytes BytesOrder CodecModel CodecProofs StatusModel StrSerialModel StrSerialProofs FlatModel DbmModel MqProofs FlatProofs SkipModel SkipLayout SkipWrite SkipSearch SkipIter.
Open Scope N_scope.

(** * Lists in the order of keys *)
Definition kle (a b : krec) : Prop := bcmp (fst b) (fst a) <> Lt.
Definition ordered (l : list krec) : Prop := StronglySorted kle l.
Definition at_key (k : bytes) (l : list krec) : list krec := filter (fun r => beqb (fst r) k) l.
Definition vals (k : bytes) (l : list krec) : list bytes := map snd (at_key k l).
Lemma kle_trans a b c : kle a b -> kle b c -> kle a c.
Proof.
  unfold kle. intros A B C. destruct (bcmp (fst b) (fst a)) eqn:E.
  - apply bcmp_eq in E. rewrite E in B. contradiction.
  - contradiction.
  - apply bcmp_gt in E. apply B. eapply blt_trans; eassumption.
Qed.
Lemma kle_refl a : kle a a. Proof. unfold kle. rewrite bcmp_refl. discriminate. Qed.
Lemma kle_anti a b : kle a b -> kle b a -> fst a = fst b.
Proof.
  unfold kle. intros A B. destruct (bcmp (fst a) (fst b)) eqn:E; [apply bcmp_eq; exact E|contradiction|]. apply bcmp_gt in E. contradiction.
Qed.
Lemma kle_gt a b : ~ kle a b -> blt (fst b) (fst a).
Proof. unfold kle. intros H. destruct (bcmp (fst b) (fst a)) eqn:E; [exfalso; apply H; discriminate|exact E|exfalso; apply H; discriminate]. Qed.
Lemma kle_dec a b : {kle a b} + {~ kle a b}.
Proof. unfold kle. destruct (bcmp (fst b) (fst a)); [left; discriminate|right; auto|left; discriminate]. Qed.
Lemma kle_total a b : kle a b \/ kle b a.
Proof. destruct (kle_dec a b) as [H|H]; [auto|right]. apply kle_gt in H. unfold kle. intros X. eapply blt_irrefl. eapply blt_trans; eassumption. Qed.
Lemma ordered_ascending l : ordered l -> ascending l.
Proof.
  induction 1 as [|a l S IH F]; intros i j H; cbn [length] in H; [lia|]. rewrite Forall_forall in F. destruct i as [|i].
  - destruct j as [|j]; [lia|]. unfold keyat. cbn [nth]. apply (F (nth j l ([], []))). apply nth_In. lia.
  - destruct j as [|j]; [lia|]. apply (IH i j). lia.
Qed.
Lemma at_key_app k a b : at_key k (a ++ b) = at_key k a ++ at_key k b.
Proof. apply filter_app. Qed.
Lemma at_key_cons k x l : at_key k (x :: l) = if beqb (fst x) k then x :: at_key k l else at_key k l.
Proof. reflexivity. Qed.
Lemma at_key_concat k ls : at_key k (concat ls) = concat (map (at_key k) ls).
Proof. induction ls as [|a ls IH]; [reflexivity|]. cbn [concat map]. rewrite at_key_app, IH. reflexivity. Qed.
Lemma at_key_none k l : (forall r, In r l -> fst r <> k) -> at_key k l = [].
Proof.
  induction l as [|r l IH]; intros H; [reflexivity|]. cbn. destruct (beqb (fst r) k) eqn:E; [exfalso; apply (H r); [left; reflexivity|apply beqb_eq; exact E]|].
  apply IH. intros x X. apply H. right. exact X.
Qed.
Lemma at_key_in k l r : In r (at_key k l) <-> In r l /\ fst r = k.
Proof. unfold at_key. rewrite filter_In, beqb_eq. reflexivity. Qed.
Lemma at_key_vals k l : at_key k l = map (pair k) (vals k l).
Proof. unfold vals. rewrite map_map. rewrite <- (map_id (at_key k l)) at 1. apply map_ext_in. intros [x v] H. apply at_key_in in H as [_ E]. cbn in *. subst. reflexivity. Qed.
(** Such a list is known from its values at every key. *)
Lemma ordered_ext a b : ordered a -> ordered b -> (forall k, vals k a = vals k b) -> a = b.
Proof.
  intros OA OB H. assert (K : forall k, at_key k a = at_key k b) by (intros k; rewrite !at_key_vals, H; reflexivity). clear H.
  revert b OB K. induction OA as [|x a SA IH FA]; intros b OB K.
  - destruct b as [|y b]; [reflexivity|]. specialize (K (fst y)). cbn in K. rewrite beqb_refl in K. discriminate.
  - destruct OB as [|y b SB FB]; [specialize (K (fst x)); cbn in K; rewrite beqb_refl in K; discriminate|].
    assert (XY : x = y).
    { assert (A : In x (y :: b)). { assert (X : In x (at_key (fst x) (y :: b))) by (rewrite <- K; cbn; rewrite beqb_refl; left; reflexivity). apply at_key_in in X. apply X. }
      assert (B : In y (x :: a)). { assert (X : In y (at_key (fst y) (x :: a))) by (rewrite K; cbn; rewrite beqb_refl; left; reflexivity). apply at_key_in in X. apply X. }
      assert (E : fst x = fst y).
      { apply kle_anti.
        - destruct B as [->|B]; [apply kle_refl|]. rewrite Forall_forall in FA. apply FA. exact B.
        - destruct A as [->|A]; [apply kle_refl|]. rewrite Forall_forall in FB. apply FB. exact A. }
      specialize (K (fst x)). cbn in K. rewrite beqb_refl, <- E, beqb_refl in K. congruence. }
    subst y. f_equal. apply IH; [exact SB|]. intros k. specialize (K k). cbn in K. destruct (beqb (fst x) k); [injection K; auto|exact K].
Qed.

(** * Sorting *)
Fixpoint r_insert (x : krec) (l : list krec) : list krec :=
  match l with [] => [x] | y :: l' => match bcmp (fst y) (fst x) with Lt => y :: r_insert x l' | _ => x :: l end end.
Fixpoint r_sort (l : list krec) : list krec := match l with [] => [] | x :: l' => r_insert x (r_sort l') end.
Lemma r_insert_in x l y : In y (r_insert x l) <-> y = x \/ In y l.
Proof.
  induction l as [|z l IH]; cbn [r_insert]; [cbn; intuition|]. destruct (bcmp (fst z) (fst x)); cbn [In]; rewrite ?IH; intuition.
Qed.
Lemma r_sort_in l y : In y (r_sort l) <-> In y l.
Proof. induction l as [|x l IH]; cbn [r_sort]; [reflexivity|]. rewrite r_insert_in, IH. cbn. intuition. Qed.
Lemma r_sort_len l : length (r_sort l) = length l.
Proof.
  assert (X : forall x l, length (r_insert x l) = S (length l)). { intros x l0. induction l0 as [|z l0 IH]; cbn [r_insert]; [reflexivity|]. destruct (bcmp (fst z) (fst x)); cbn [length]; rewrite ?IH; reflexivity. }
  induction l as [|x l IH]; cbn [r_sort length]; [reflexivity|]. rewrite X, IH. reflexivity.
Qed.
Lemma r_insert_ordered x l : ordered l -> ordered (r_insert x l).
Proof.
  induction 1 as [|y l S IH F]; cbn [r_insert]; [constructor; constructor|]. destruct (bcmp (fst y) (fst x)) eqn:E.
  - constructor; [constructor; assumption|]. apply bcmp_eq in E. constructor; [unfold kle; rewrite E, bcmp_refl; discriminate|].
    eapply Forall_impl; [|exact F]. intros z Z. unfold kle in *. rewrite <- E. exact Z.
  - constructor; [exact IH|]. apply Forall_forall. intros z Z. apply r_insert_in in Z as [->|Z]; [|rewrite Forall_forall in F; apply F; exact Z].
    unfold kle. intros X. eapply blt_irrefl. eapply blt_trans; eassumption.
  - assert (XY : kle x y) by (unfold kle; rewrite E; discriminate). constructor; [constructor; assumption|]. constructor; [exact XY|].
    eapply Forall_impl; [|exact F]. intros z Z. eapply kle_trans; eassumption.
Qed.
Lemma r_sort_ordered l : ordered (r_sort l).
Proof. induction l as [|x l IH]; cbn [r_sort]; [constructor|]. apply r_insert_ordered. exact IH. Qed.
Lemma r_insert_key k x l : at_key k (r_insert x l) = at_key k (x :: l).
Proof.
  induction l as [|y l IH]; cbn [r_insert]; [reflexivity|]. destruct (bcmp (fst y) (fst x)) eqn:E; [reflexivity| |reflexivity].
  rewrite !at_key_cons, IH, at_key_cons. destruct (beqb (fst y) k) eqn:A, (beqb (fst x) k) eqn:B; try reflexivity.
  apply beqb_eq in A, B. rewrite A, B in E. rewrite bcmp_refl in E. discriminate.
Qed.
Lemma r_sort_key k l : at_key k (r_sort l) = at_key k l.
Proof. induction l as [|x l IH]; cbn [r_sort]; [reflexivity|]. rewrite r_insert_key, !at_key_cons, IH. reflexivity. Qed.

(** Sizes of records that go through the sorter: each part is below 2^47 bytes. *)
Definition tame (r : krec) : Prop := blen (fst r) < 2^47 /\ blen (snd r) < 2^47.
Definition ser (r : krec) : bytes := serialize_pair (fst r) (snd r).
Lemma size_var_10 x : size_var x <= 10.
Proof. unfold size_var. repeat match goal with |- context [?a <? ?b] => destruct (N.ltb_spec a b); [lia|] end. lia. Qed.
Lemma ser_len r : blen (ser r) = size_var (blen (fst r)) + blen (fst r) + size_var (blen (snd r)) + blen (snd r).
Proof. unfold ser, serialize_pair. rewrite !blen_app, !write_var_length. lia. Qed.
Lemma ser_small r : tame r -> small (false, ser r).
Proof.
  intros [A B]. unfold small. cbn [snd]. rewrite ser_len. assert (X := size_var_10 (blen (fst r))). assert (Y := size_var_10 (blen (snd r))).
  change (2^47) with 140737488355328 in *. change (2^49) with 562949953421312. lia.
Qed.
Lemma tame64 r : tame r -> blen (fst r) < two64 /\ blen (snd r) < two64.
Proof. intros [A B]. change (2^47) with 140737488355328 in *. change two64 with 18446744073709551616. lia. Qed.
Lemma ser_key r : tame r -> pair_key (ser r) = fst r.
Proof. intros T. apply tame64 in T as [A _]. unfold pair_key, ser. rewrite pair_first by exact A. reflexivity. Qed.
Lemma st_sort_ser l : Forall tame l -> st_sort (map ser l) = map ser (r_sort l).
Proof.
  induction 1 as [|x l T F IH]; [reflexivity|]. cbn [map st_sort r_sort]. rewrite IH. assert (FS : Forall tame (r_sort l)) by (apply Forall_forall; intros y Y; rewrite Forall_forall in F; apply F; apply r_sort_in; exact Y).
  clear IH F. induction FS as [|y m Ty F IH]; [reflexivity|]. cbn [map st_insert r_insert]. rewrite !ser_key by assumption. destruct (bcmp (fst y) (fst x)); cbn [map]; rewrite ?IH; reflexivity.
Qed.
Definition tmp_bytes (l : list krec) : bytes := flats (map (fun r => (false, ser r)) l).

(** * Sources *)
Definition source_holds (s : source) (l : list krec) : Prop :=
  match s with
  | SFlat f st => exists pre, f = pre ++ tmp_bytes l /\ fr_inv st pre (tmp_bytes l) /\ Forall tame l
  | SSkip p f off idx => exists all, sp_ok p /\ stored p f all /\ fits p all /\ (idx <= length all)%nat /\ off = off_of p all idx /\ l = skipn idx all
  end.
Definition slot_holds (sl : slot) (l : list krec) : Prop :=
  match fst sl with Some kv => exists l', l = kv :: l' /\ source_holds (snd sl) l' | None => l = [] end.
Lemma skipn_cons {A} (l : list A) i x : nth_error l i = Some x -> skipn i l = x :: skipn (S i) l.
Proof. revert i; induction l as [|y l IH]; intros [|i] H; try discriminate; cbn in *; [congruence|]. apply IH. exact H. Qed.
Lemma source_ok s l : source_holds s l -> exists sl, source_next s = SOk sl /\ slot_holds sl l.
Proof.
  destruct s as [f st|p f off idx]; cbn [source_holds source_next].
  - intros (pre & -> & I & T). unfold flat_next. destruct T as [|r l Tr T].
    + destruct (end_read (pre ++ tmp_bytes []) st pre (tmp_bytes []) eq_refl I ltac:(cbn; lia)) as (s' & ->). eexists. split; [reflexivity|]. reflexivity.
    + change (tmp_bytes (r :: l)) with (flat_write (false, ser r) ++ tmp_bytes l) in *.
      assert (L2 : (2 < length (flat_write (false, ser r) ++ tmp_bytes l))%nat).
      { rewrite app_length. assert (X := flat_len (false, ser r)). cbn [snd] in X. rewrite ser_len in X. assert (P1 := size_var_pos (blen (fst r))). assert (P2 := size_var_pos (blen (snd r))). assert (P3 := size_var_pos (blen (ser r))).
        rewrite ser_len in P3. unfold blen in X at 1. lia. }
      destruct (read_ok (false, ser r) (tmp_bytes l) pre st (ser_small r Tr) I L2) as (s' & -> & I'). unfold ser at 1. destruct (tame64 r Tr) as [A B]. rewrite pair_round by assumption.
      eexists. split; [reflexivity|]. unfold slot_holds. cbn [fst snd]. destruct r as [k v]. exists l. split; [reflexivity|]. cbn [source_holds]. exists (pre ++ flat_write (false, ser (k, v))). rewrite <- app_assoc. auto.
  - intros (all & PO & ST & FT & LE & -> & ->). unfold skip_next. rewrite (stored_len p f all ST). destruct (Nat.eq_dec idx (length all)) as [->|NE].
    + destruct (N.ltb_spec (off_of p all (length all)) (off_of p all (length all))); [lia|]. eexists. split; [reflexivity|]. cbn. apply skipn_all.
    + assert (L : (idx < length all)%nat) by lia. assert (O := off_lt p all idx (length all) L (le_n _)). destruct (N.ltb_spec (off_of p all idx) (off_of p all (length all))); [|lia].
      destruct (read_key_ok p f all idx PO ST FT L) as (r & -> & G). assert (G' := G). destruct G' as (k & v & N & _). cbn [sbind]. rewrite (get_value_ok p f all idx r k v ST G N). cbn [sbind].
      eexists. split; [reflexivity|]. cbn [slot_holds fst snd]. assert (K := good_key p all idx r G). unfold keyat in K. rewrite (nth_error_nth _ _ _ N) in K. cbn in K. rewrite K.
      exists (skipn (S idx) all). split; [apply skipn_cons; exact N|]. cbn [source_holds]. exists all. rewrite (good_next p all idx r G). repeat split; auto; try apply PO; try apply FT.
Qed.

(** * Choosing the next record *)
Definition heads_from (x : krec) (l : list krec) : Prop := match l with [] => True | y :: _ => kle x y end.
Definition heads_after (x : krec) (l : list krec) : Prop := match l with [] => True | y :: _ => blt (fst x) (fst y) end.
Lemma heap_top_ok sls ls : Forall2 slot_holds sls ls -> forall n0,
  match heap_top sls n0 with
  | None => Forall (fun l => l = []) ls
  | Some (k, v, n) => exists a rest b, ls = a ++ ((k, v) :: rest) :: b /\ n = (n0 + length a)%nat /\ Forall (heads_after (k, v)) a /\ Forall (heads_from (k, v)) b
  end.
Proof.
  induction 1 as [|[[[k v]|] s] l sls ls SH F IH]; intros n0; cbn [heap_top]; [constructor| |].
  - destruct SH as (l' & -> & _). specialize (IH (S n0)). destruct (heap_top sls (S n0)) as [[[k' v'] n']|].
    + destruct IH as (a & rest & b & E & EN & A & B). destruct (bcmp k' k) eqn:C.
      * exists [], l', ls. split; [reflexivity|]. split; [cbn; lia|]. split; [constructor|]. apply bcmp_eq in C. subst k'. subst ls. apply Forall_app. split.
        -- eapply Forall_impl; [|exact A]. intros [|y t]; cbn; auto. unfold kle, heads_after. cbn [fst]. intros X Y. eapply blt_irrefl. eapply blt_trans; eassumption.
        -- constructor; [exact (kle_refl (k, v))|]. eapply Forall_impl; [|exact B]. intros [|y t]; auto.
      * exists (((k, v) :: l') :: a), rest, b. subst ls. split; [reflexivity|]. split; [cbn [length]; lia|]. split; [constructor; [exact C|exact A]|exact B].
      * exists [], l', ls. split; [reflexivity|]. split; [cbn; lia|]. split; [constructor|]. apply bcmp_gt in C. subst ls. apply Forall_app. split.
        -- eapply Forall_impl; [|exact A]. intros [|y t]; cbn; auto. unfold kle, heads_after. cbn [fst]. intros X Y. eapply blt_irrefl. eapply blt_trans; [exact C|]. eapply blt_trans; eassumption.
        -- constructor; [cbn; unfold kle; cbn; intros X; eapply blt_irrefl; eapply blt_trans; eassumption|].
           eapply Forall_impl; [|exact B]. intros [|y t]; cbn; auto. intros X. eapply kle_trans; [|exact X]. unfold kle. cbn. intros Y. eapply blt_irrefl; eapply blt_trans; eassumption.
    + exists [], l', ls. split; [reflexivity|]. split; [cbn; lia|]. split; [constructor|]. eapply Forall_impl; [|exact IH]. intros x ->. exact I.
  - cbn in SH. subst l. specialize (IH (S n0)). destruct (heap_top sls (S n0)) as [[[k' v'] n']|].
    + destruct IH as (a & rest & b & E & EN & A & B). exists ([] :: a), rest, b. subst ls. split; [reflexivity|]. split; [cbn [length]; lia|]. split; [constructor; [exact I|exact A]|exact B].
    + constructor; [reflexivity|exact IH].
Qed.
Lemma Forall2_len {A B} (R : A -> B -> Prop) x y : Forall2 R x y -> length x = length y.
Proof. induction 1; cbn; congruence. Qed.
Lemma Forall2_split {A B} (R : A -> B -> Prop) x a y b : Forall2 R x (a ++ y :: b) -> exists x1 z x2, x = x1 ++ z :: x2 /\ length x1 = length a /\ Forall2 R x1 a /\ R z y /\ Forall2 R x2 b.
Proof.
  intros H. apply Forall2_app_inv_r in H as (x1 & x' & F1 & F2 & ->). inversion F2 as [|z ? x2 ? Rz F3]; subst. exists x1, z, x2. repeat split; auto. eapply Forall2_len. exact F1.
Qed.
Lemma so_get_ok sls ls : Forall2 slot_holds sls ls ->
  (so_get sls = SOk None /\ Forall (fun l => l = []) ls) \/
  (exists k v a rest b sls', so_get sls = SOk (Some (k, v, sls')) /\ ls = a ++ ((k, v) :: rest) :: b /\ Forall (heads_after (k, v)) a /\ Forall (heads_from (k, v)) b /\ Forall2 slot_holds sls' (a ++ rest :: b)).
Proof.
  intros F. assert (H := heap_top_ok sls ls F 0). unfold so_get. destruct (heap_top sls 0) as [[[k v] n]|]; [right|left; auto].
  destruct H as (a & rest & b & -> & EN & A & B). cbn in EN. apply Forall2_split in F as (x1 & [h s] & x2 & -> & L & F1 & SH & F2). subst n. rewrite <- L.
  rewrite nth_error_app2 by lia. rewrite Nat.sub_diag. cbn [nth_error]. unfold slot_holds in SH. cbn in SH. destruct h as [kv|]; [|discriminate]. destruct SH as (l' & E & SH). inversion E; subst.
  destruct (source_ok s l' SH) as (sl & -> & SS). cbn [sbind]. rewrite set_nth_app. exists k, v, a, l', b, (x1 ++ sl :: x2). repeat split; auto. apply Forall2_app; [exact F1|constructor; assumption].
Qed.

(** What comes out of a list of lists. *)
Inductive picks : list (list krec) -> list krec -> Prop :=
  | picks_nil ls : Forall (fun l => l = []) ls -> picks ls []
  | picks_cons a r rest b out : Forall (heads_after r) a -> Forall (heads_from r) b -> picks (a ++ rest :: b) out -> picks (a ++ (r :: rest) :: b) (r :: out).
Lemma head_from_all r l : ordered l -> heads_from r l -> Forall (kle r) l.
Proof. intros O H. destruct O as [|y l S F]; [constructor|]. constructor; [exact H|]. eapply Forall_impl; [|exact F]. intros z Z. eapply kle_trans; [exact H|exact Z]. Qed.
Lemma after_from r l : heads_after r l -> heads_from r l.
Proof. destruct l as [|y l]; cbn; auto. unfold kle. intros H X. eapply blt_irrefl; eapply blt_trans; eassumption. Qed.
Lemma after_key r l : ordered l -> heads_after r l -> at_key (fst r) l = [].
Proof.
  intros O H. apply at_key_none. intros x X E. destruct O as [|y l S F]; [contradiction|]. cbn in H. destruct X as [->|X]; [rewrite E in H; eapply blt_irrefl; exact H|].
  rewrite Forall_forall in F. specialize (F x X). apply F. rewrite E. exact H.
Qed.
Lemma picks_spec ls out : picks ls out -> Forall ordered ls -> ordered out /\ (forall k, at_key k out = concat (map (at_key k) ls)) /\ (forall x, In x out <-> In x (concat ls)).
Proof.
  induction 1 as [ls N|a r rest b out A B P IH]; intros O.
  - split; [constructor|]. split.
    + intros k. induction N as [|x ls X N IH]; [reflexivity|]. subst x. cbn. inversion O; subst. apply IH. assumption.
    + intros x. assert (E : concat ls = []) by (induction N as [|y ls Y N IH]; [reflexivity|]; subst y; cbn; inversion O; subst; apply IH; assumption). rewrite E. reflexivity.
  - apply Forall_app in O as [OA OB]. inversion OB as [|? ? Or OB']; subst. inversion Or as [|? ? Os Fr]; subst.
    destruct IH as (I1 & I2 & I3). { apply Forall_app. split; [exact OA|]. constructor; assumption. }
    split; [|split].
    + constructor; [exact I1|]. apply Forall_forall. intros x X. apply I3 in X. rewrite concat_app in X. cbn [concat] in X. rewrite !in_app_iff in X.
      assert (ALL : forall ls, Forall ordered ls -> Forall (heads_from r) ls -> In x (concat ls) -> kle r x).
      { intros ls O1 H1 X1. apply in_concat in X1 as (l & L1 & L2). rewrite Forall_forall in O1, H1. assert (Y := head_from_all r l (O1 l L1) (H1 l L1)). rewrite Forall_forall in Y. apply Y. exact L2. }
      destruct X as [X|[X|X]].
      * apply (ALL a OA); [|exact X]. eapply Forall_impl; [|exact A]. intros l. apply after_from.
      * rewrite Forall_forall in Fr. apply Fr. exact X.
      * apply (ALL b OB' B X).
    + intros k. rewrite map_app, concat_app. cbn [map concat]. specialize (I2 k). rewrite map_app, concat_app in I2. cbn [map concat] in I2. rewrite !at_key_cons, I2.
      destruct (beqb (fst r) k) eqn:E; [|reflexivity]. apply beqb_eq in E. subst k. assert (Z : concat (map (at_key (fst r)) a) = []).
      { clear - A OA. induction A as [|x a X A IH]; [reflexivity|]. inversion OA; subst. cbn [map concat]. rewrite (after_key r x), IH by assumption. reflexivity. }
      rewrite Z. reflexivity.
    + intros x. cbn [In]. rewrite I3, !concat_app, !in_app_iff. cbn [concat app In]. rewrite !in_app_iff. cbn [In]. intuition.
Qed.
