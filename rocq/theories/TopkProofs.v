(** Proofs about the top-k heap and the edit distance. *)
From Coq Require Import List ZArith NArith Bool Lia Permutation Sorted.
Import ListNotations.
From Verif Require Import Bytes BytesOrder TopkModel.
Local Open Scope nat_scope.

(* ---- the order of entries ---- *)
Definition ele (x y : entry) : Prop := ecmp x y <> Gt.
Lemma ecmp_opp x y : ecmp x y = CompOpp (ecmp y x).
Proof.
  unfold ecmp. rewrite (Z.compare_antisym (fst y) (fst x)). destruct (fst y ?= fst x)%Z; cbn; auto. apply bcmp_opp.
Qed.
Lemma ecmp_eq x y : ecmp x y = Eq <-> x = y.
Proof.
  destruct x as [c p], y as [d q]. unfold ecmp; cbn [fst snd]. destruct (Z.compare_spec c d) as [->|H|H].
  - rewrite bcmp_eq. split; congruence.
  - split; [discriminate|]. intros E; injection E as -> _. lia.
  - split; [discriminate|]. intros E; injection E as -> _. lia.
Qed.
Lemma ele_refl x : ele x x.
Proof. unfold ele. rewrite (proj2 (ecmp_eq x x) eq_refl). discriminate. Qed.
Lemma elt_trans x y z : ecmp x y = Lt -> ecmp y z = Lt -> ecmp x z = Lt.
Proof.
  destruct x as [c p], y as [d q], z as [e r]. unfold ecmp; cbn [fst snd].
  destruct (Z.compare_spec c d) as [->|H|H]; [| |discriminate].
  - destruct (Z.compare_spec d e) as [->|H'|H']; [apply blt_trans|reflexivity|discriminate].
  - intros _. destruct (Z.compare_spec d e) as [->|H'|H']; [|intros _|discriminate];
      destruct (Z.compare_spec c e); try lia; reflexivity.
Qed.
Lemma ele_trans x y z : ele x y -> ele y z -> ele x z.
Proof.
  unfold ele. destruct (ecmp x y) eqn:E1; [|destruct (ecmp y z) eqn:E2|congruence].
  - apply ecmp_eq in E1 as ->. auto.
  - apply ecmp_eq in E2 as ->. rewrite E1. auto.
  - rewrite (elt_trans _ _ _ E1 E2). discriminate.
  - congruence.
Qed.
Lemma ele_ge x y : ecmp x y <> Lt <-> ele y x.
Proof. unfold ele. rewrite (ecmp_opp x y). destruct (ecmp y x); cbn; split; congruence. Qed.
Lemma ele_lt x y : ecmp x y = Lt -> ele x y.
Proof. unfold ele. intros ->. discriminate. Qed.
Lemma ele_total x y : ele x y \/ ele y x.
Proof. unfold ele. rewrite (ecmp_opp y x). destruct (ecmp x y); cbn; (left; discriminate) || (right; discriminate). Qed.
Lemma ele_antisym x y : ele x y -> ele y x -> x = y.
Proof. unfold ele. rewrite (ecmp_opp y x). destruct (ecmp x y) eqn:E; cbn; intros H1 H2; try congruence. now apply ecmp_eq. Qed.
Lemma not_cheaper_spec x f : not_cheaper x f = true <-> ele f x.
Proof.
  rewrite <- ele_ge. unfold not_cheaper, ecmp. destruct (Z.compare_spec (fst x) (fst f)) as [E|H|H].
  - rewrite E, Z.ltb_irrefl, Z.eqb_refl. cbn. destruct (bcmp (snd x) (snd f)); split; congruence.
  - rewrite (proj2 (Z.ltb_ge (fst f) (fst x))) by lia. rewrite (proj2 (Z.eqb_neq (fst x) (fst f))) by lia.
    cbn. split; congruence.
  - rewrite (proj2 (Z.ltb_lt (fst f) (fst x))) by lia. cbn. split; congruence.
Qed.

(* ---- heaps ---- *)
Lemma front_max h m : is_heap h -> hd_error h = Some m -> forall y, In y h -> ele y m.
Proof.
  intros Hh Hm y Hy. apply In_nth_error in Hy as [i Hi]. revert y Hi.
  induction i as [i IH] using (well_founded_induction Wf_nat.lt_wf). intros y Hi.
  destruct i as [|i].
  - assert (y = m) as -> by (destruct h; cbn in *; congruence). apply ele_refl.
  - assert (Hlt : (S i - 1) / 2 < S i).
    { replace (S i - 1) with i by lia. apply Nat.lt_succ_r, Nat.div_le_upper_bound; lia. }
    destruct (nth_error h ((S i - 1) / 2)) as [p|] eqn:Ep.
    + apply ele_trans with p; [|apply (IH _ Hlt _ Ep)].
      apply ele_ge. apply (Hh (S i) y p); auto. lia.
    + exfalso. apply nth_error_None in Ep. assert (S i < length h) by (apply nth_error_Some; congruence). lia.
Qed.
Definition descending (l : list entry) : Prop := StronglySorted (fun x y => ele y x) l.
Lemma sorted_nth l : descending l -> forall i j x y, i <= j -> nth_error l i = Some x -> nth_error l j = Some y -> ele y x.
Proof.
  induction 1 as [|z l Hl IH Hz]; intros i j x y Hij Hi Hj; [destruct i; discriminate|].
  destruct i as [|i], j as [|j]; cbn in Hi, Hj; [| | lia |].
  - assert (x = y) as -> by congruence. apply ele_refl.
  - injection Hi as <-. rewrite Forall_forall in Hz. apply Hz. eapply nth_error_In, Hj.
  - apply (IH i j); auto. lia.
Qed.
Lemma descending_heap l : descending l -> is_heap l.
Proof.
  intros H i x p Hi Hx Hp. apply ele_ge. apply (sorted_nth l H ((i - 1) / 2) i); auto.
  apply Nat.div_le_upper_bound; lia.
Qed.
Fixpoint d_insert (x : entry) (l : list entry) : list entry :=
  match l with [] => [x] | y :: r => match ecmp x y with Lt => y :: d_insert x r | _ => x :: l end end.
Definition d_sort (l : list entry) : list entry := fold_right d_insert [] l.
Lemma d_insert_perm x l : Permutation (x :: l) (d_insert x l).
Proof.
  induction l as [|y r IH]; cbn; auto. destruct (ecmp x y); auto.
  rewrite perm_swap. now apply perm_skip.
Qed.
Lemma d_insert_sorted x l : descending l -> descending (d_insert x l).
Proof.
  induction 1 as [|y r Hr IH Hy]; cbn; [repeat constructor|].
  assert (Hxy : ecmp x y <> Lt -> descending (x :: y :: r)).
  { intros E. apply ele_ge in E. constructor; [constructor; auto|]. constructor; auto.
    eapply Forall_impl; [|exact Hy]. cbn. intros z Hz. eapply ele_trans; eauto. }
  destruct (ecmp x y) eqn:E; try (apply Hxy; congruence).
  constructor; auto. eapply Permutation_Forall; [apply d_insert_perm|]. constructor; auto. now apply ele_lt.
Qed.
Lemma d_sort_perm l : Permutation l (d_sort l).
Proof. induction l as [|x l IH]; cbn; auto. rewrite <- d_insert_perm. now apply perm_skip. Qed.
Lemma d_sort_sorted l : descending (d_sort l).
Proof. induction l; cbn; [constructor|now apply d_insert_sorted]. Qed.
Lemma push_some h x : exists h', push h x h'.
Proof. exists (d_sort (x :: h)). split; [apply d_sort_perm|apply descending_heap, d_sort_sorted]. Qed.
Lemma pop_some m h : exists h', pop (m :: h) m h'.
Proof.
  exists (d_sort h). split; [reflexivity|]. split; [apply perm_skip, d_sort_perm|apply descending_heap, d_sort_sorted].
Qed.

(* ---- adding ---- *)
Definition kept (k : nat) (l h : list entry) : Prop :=
  is_heap h /\ length h = Nat.min k (length l) /\
  exists rest, Permutation l (h ++ rest) /\ forall x y, In x h -> In y rest -> ele x y.
Lemma add_kept k l h x h' : kept k l h -> add k h x (Some h') -> kept k (l ++ [x]) h'.
Proof.
  intros (Hh & Hlen & rest & Hp & Hr) Ha.
  assert (Hpx : Permutation (l ++ [x]) (x :: h ++ rest)) by (rewrite <- Permutation_cons_append; now apply perm_skip).
  assert (Hl : length l = length h + length rest) by (rewrite (Permutation_length Hp), app_length; lia).
  inversion Ha as [h0 Hlt [Hp1 Hh1]|f Hk Hf Hc|f h1 h0 Hk Hf Hc [_ [Hp1 Hh1]] [Hp2 Hh2]|]; subst.
  - split; [exact Hh1|]. rewrite app_length, <- (Permutation_length Hp1). cbn [length]. split; [lia|].
    exists []. assert (rest = []) as -> by (destruct rest; auto; cbn in Hl; lia).
    rewrite app_nil_r. split; [|intros ? ? _ []]. rewrite Hpx, app_nil_r. exact Hp1.
  - split; [exact Hh|]. rewrite app_length. cbn [length]. split; [lia|].
    exists (x :: rest). split; [rewrite Hpx; apply Permutation_middle|].
    apply not_cheaper_spec in Hc. intros z y Hz [<-|Hy]; auto.
    eapply ele_trans; [eapply front_max; eauto|exact Hc].
  - assert (Hxf : ele x f).
    { apply ele_ge. intros E. assert (ele f x) by (apply ele_lt; exact E).
      apply not_cheaper_spec in H. congruence. }
    split; [exact Hh2|]. assert (L1 := Permutation_length Hp1). assert (L2 := Permutation_length Hp2). cbn [length] in L1, L2.
    split; [rewrite app_length; cbn [length]; lia|].
    assert (Hin : In f h) by (destruct h; cbn in Hf; [discriminate|injection Hf as ->; now left]).
    exists (f :: rest). split.
    + rewrite Hpx, <- Hp2, Hp1. cbn. apply perm_skip, Permutation_middle.
    + intros z y Hz Hy. apply (Permutation_in _ (Permutation_sym Hp2)) in Hz.
      destruct Hz as [<-|Hz].
      * destruct Hy as [<-|Hy]; auto. eapply ele_trans; [exact Hxf|auto].
      * assert (Hz' : In z h) by (apply (Permutation_in _ (Permutation_sym Hp1)); now right).
        destruct Hy as [<-|Hy]; auto. apply (front_max h f); auto.
Qed.
Lemma adds_kept k l : forall pre h h', kept k pre h -> adds k h l (Some h') -> kept k (pre ++ l) h'.
Proof.
  induction l as [|x l IH]; intros pre h h' Hk Ha; inversion Ha; subst.
  - now rewrite app_nil_r.
  - replace (pre ++ x :: l) with ((pre ++ [x]) ++ l) by (now rewrite <- app_assoc).
    eapply IH; [eapply add_kept; eauto|eauto].
Qed.
Lemma kept_nil k : kept k [] [].
Proof.
  split; [intros [|i] ? ? ? E; discriminate E|]. split; [cbn; lia|]. exists []. split; [constructor|intros ? ? []].
Qed.
Lemma add_total k h x : 0 < k -> ~ add k h x None /\ exists h', add k h x (Some h').
Proof.
  intros Hk. split.
  - intros H; inversion H; subst. destruct h; cbn in *; [lia|discriminate].
  - destruct (Nat.lt_ge_cases (length h) k) as [Hl|Hl].
    + destruct (push_some h x) as [h' Hp]. exists h'. now apply add_room.
    + destruct h as [|f h]; [cbn in Hl; lia|]. destruct (not_cheaper x f) eqn:E.
      * exists (f :: h). now apply add_skip with f.
      * destruct (pop_some f h) as [h1 H1]. destruct (push_some h1 x) as [h' H2]. exists h'. now apply add_swap with f h1.
Qed.
Lemma adds_total k l : 0 < k -> forall h, ~ adds k h l None /\ exists h', adds k h l (Some h').
Proof.
  intros Hk; induction l as [|x l IH]; intros h.
  - split; [intros H; inversion H|]. exists h. constructor.
  - split.
    + intros H; inversion H; subst; [now apply (proj1 (add_total k h x Hk))|]. now apply (proj1 (IH h')).
    + destruct (proj2 (add_total k h x Hk)) as [h1 H1]. destruct (proj2 (IH h1)) as [h2 H2].
      exists h2. econstructor; eauto.
Qed.

(* ---- finishing ---- *)
Lemma finish_sorts h tail out :
  finish h tail out -> is_heap h -> StronglySorted ele tail -> (forall x y, In x h -> In y tail -> ele x y) ->
  StronglySorted ele out /\ Permutation (h ++ tail) out.
Proof.
  induction 1 as [tail|h m h' tail out (Hm & Hp & Hh') _ IH]; intros Hh Hs Hb; [auto|].
  assert (Hin : In m h) by (destruct h; cbn in Hm; [discriminate|injection Hm as ->; now left]).
  destruct IH as [S1 P1]; auto.
  - constructor; auto. apply Forall_forall. auto.
  - intros x y Hx [<-|Hy].
    + apply (front_max h m); auto. apply (Permutation_in _ (Permutation_sym Hp)). now right.
    + apply Hb; auto. apply (Permutation_in _ (Permutation_sym Hp)). now right.
  - split; auto. rewrite <- P1, Hp. cbn. apply Permutation_middle.
Qed.
Lemma finish_total : forall n h tail, length h = n -> is_heap h -> exists out, finish h tail out.
Proof.
  induction n as [|n IH]; intros h tail Hl Hh; destruct h as [|m h]; cbn in Hl; try lia.
  - exists tail. constructor.
  - destruct (pop_some m h) as [h' (Hm & Hp & Hh')].
    assert (Hl' : length h' = n) by (apply Permutation_length in Hp; cbn in Hp; lia).
    destruct (IH h' (m :: tail) Hl' Hh') as [out Ho]. exists out. eapply finish_pop; [|exact Ho]. now repeat split.
Qed.

(* ---- edit distance: the recurrence on prefixes ---- *)
Definition ndiff (x y : option N) : nat := match x, y with Some c, Some d => if (c =? d)%N then 0 else 1 | _, _ => 1 end.
Fixpoint lev_row (a : option N) (b : list N) (up : nat -> nat) (i j : nat) : nat :=
  match j with
  | O => i
  | S j' => Nat.min (Nat.min (up j + 1) (lev_row a b up i j' + 1)) (up j' + ndiff a (nth_error b j'))
  end.
Fixpoint lev (a b : list N) (i : nat) : nat -> nat :=
  match i with O => fun j => j | S i' => lev_row (nth_error a i') b (lev a b i') (S i') end.
Lemma lev_step a b i j : lev a b (S i) (S j) =
  Nat.min (Nat.min (lev a b i (S j) + 1) (lev a b (S i) j + 1)) (lev a b i j + ndiff (nth_error a i) (nth_error b j)).
Proof. reflexivity. Qed.
Lemma lev_left a b i : lev a b i 0 = i.
Proof. destruct i; reflexivity. Qed.
Lemma lev_top a b j : lev a b 0 j = j.
Proof. reflexivity. Qed.

Lemma put_cell_some t i v : i < length t -> exists t', put_cell t i v = Some t' /\ length t' = length t.
Proof.
  revert i; induction t as [|x r IH]; intros [|i] H; cbn in H; try lia; cbn [put_cell].
  - eexists; split; reflexivity.
  - destruct (IH i) as (r' & -> & Hl); [lia|]. eexists; split; [reflexivity|]. cbn. now rewrite Hl.
Qed.
Lemma put_cell_get t i v t' : put_cell t i v = Some t' -> forall j, cell t' j = if j =? i then Some v else cell t j.
Proof.
  revert i t'; induction t as [|x r IH]; intros [|i] t' H j; cbn [put_cell] in H; try discriminate.
  - injection H as <-. destruct j; reflexivity.
  - destruct (put_cell r i v) as [r'|] eqn:E; [|discriminate]. injection H as <-.
    destruct j as [|j]; [reflexivity|]. exact (IH _ _ E j).
Qed.
Lemma init_cells_ok n step : 0 < step -> forall i t, (i + n - 1) * step < length t -> 0 < i ->
  exists t', init_cells n i step t = Some t' /\ length t' = length t /\
    (forall m, i <= m < i + n -> cell t' (m * step) = Some (N.of_nat m)) /\
    (forall q, (forall m, i <= m < i + n -> q <> m * step) -> cell t' q = cell t q).
Proof.
  intros Hstep. induction n as [|n IH]; intros i t Hlen Hi; cbn [init_cells].
  - exists t. repeat split; auto. intros m Hm; lia.
  - destruct (put_cell_some t (i * step) (N.of_nat i)) as (t1 & E & L1); [nia|].
    rewrite E; cbn [bind]. destruct (IH (S i) t1) as (t' & E' & L' & G & O); [rewrite L1; nia|lia|].
    exists t'. split; [exact E'|]. split; [congruence|]. split.
    + intros m Hm. destruct (Nat.eq_dec m i) as [->|Hne].
      * rewrite O; [|intros k Hk; nia]. rewrite (put_cell_get _ _ _ _ E), Nat.eqb_refl. reflexivity.
      * apply G. lia.
    + intros q Hq. rewrite O; [|intros k Hk; apply Hq; lia]. rewrite (put_cell_get _ _ _ _ E).
      destruct (Nat.eqb_spec q (i * step)); auto. exfalso. apply (Hq i); [lia|auto].
Qed.

Section Table.
  Variables a b : list N.
  Notation A := (length a).
  Notation B := (length b).
  Notation col := (length b + 1).
  (** Rows before i are done, and row i before column j; the first column and row always are. *)
  Definition done (i j : nat) (t : cells) : Prop :=
    length t = (A + 1) * col /\
    forall p q, p <= A -> q <= B -> (p = 0 \/ q = 0 \/ p < i \/ (p = i /\ q < j)) ->
      cell t (p * col + q) = Some (N.of_nat (lev a b p q)).
  Lemma row_ok n : forall i j t, 1 <= i <= A -> 1 <= j -> j + n = B + 1 -> done i j t ->
    exists t', row_loop n a b col i j t = Some t' /\ done (S i) 1 t'.
  Proof.
    induction n as [|n IH]; intros i j t Hi Hj Hn [Hl Hd]; cbn [row_loop].
    - exists t. split; auto. split; auto. intros p q Hp Hq H. apply Hd; auto. lia.
    - destruct i as [|i]; [lia|]. destruct j as [|j]; [lia|].
      replace (S i - 1) with i by lia. replace (S j - 1) with j by lia.
      rewrite (Hd i (S j)) by lia. cbn [bind].
      replace (S i * col + S j - 1) with (S i * col + j) by lia. rewrite (Hd (S i) j) by lia. cbn [bind].
      replace (i * col + S j - 1) with (i * col + j) by lia. rewrite (Hd i j) by lia. cbn [bind].
      destruct (nth_error a i) as [x|] eqn:Ex; [|apply nth_error_None in Ex; lia].
      destruct (nth_error b j) as [y|] eqn:Ey; [|apply nth_error_None in Ey; lia]. cbn [bind].
      match goal with |- context [put_cell t ?k ?v] => set (pos := k); set (val := v) end.
      assert (Hv : val = N.of_nat (lev a b (S i) (S j))).
      { unfold val. rewrite lev_step, Ex, Ey. cbn [ndiff]. destruct (x =? y)%N; lia. }
      destruct (put_cell_some t pos val) as (t1 & E & L1); [unfold pos; rewrite Hl; nia|].
      rewrite E. cbn [bind]. apply IH; [lia|lia|lia|].
      split; [congruence|]. intros p q Hp Hq H. rewrite (put_cell_get _ _ _ _ E). fold pos.
      destruct (Nat.eqb_spec (p * col + q) pos) as [Epos|Npos].
      + rewrite Hv. unfold pos in Epos. assert (p = S i) as -> by nia. assert (q = S j) as -> by lia. reflexivity.
      + apply Hd; auto. destruct H as [H|[H|[H|[-> H]]]]; auto. right; right; right. split; auto.
        destruct (Nat.eq_dec q (S j)) as [->|]; [|lia]. exfalso. apply Npos. reflexivity.
  Qed.
  Lemma table_ok n : forall i t, 1 <= i -> i + n = A + 1 -> done i 1 t ->
    exists t', table_loop n a b col i t = Some t' /\ done (A + 1) 1 t'.
  Proof.
    induction n as [|n IH]; intros i t Hi Hn Hd; cbn [table_loop].
    - exists t. split; auto. replace (A + 1) with i by lia. exact Hd.
    - destruct (row_ok (length b) i 1 t) as (t1 & -> & H1); [lia|lia|lia|exact Hd|]. cbn [bind]. apply IH; auto; lia.
  Qed.
  Lemma edit_distance_lev :
    (N.of_nat (A + 1) * N.of_nat (B + 1) < 2147483648)%N -> edit_distance a b = Some (N.of_nat (lev a b A B)).
  Proof.
    intros Hsize. unfold edit_distance. rewrite (proj2 (N.ltb_lt _ _) Hsize).
    destruct (put_cell_some (repeat None ((A + 1) * col)) 0 0%N) as (t0 & E0 & L0); [rewrite repeat_length; nia|].
    rewrite repeat_length in L0. rewrite E0. cbn [bind].
    destruct (init_cells_ok (length a) col ltac:(lia) 1 t0) as (t1 & E1 & L1 & G1 & O1); [rewrite L0; nia|lia|].
    rewrite E1. cbn [bind].
    destruct (init_cells_ok (length b) 1 ltac:(lia) 1 t1) as (t2 & E2 & L2 & G2 & O2); [rewrite L1, L0; nia|lia|].
    rewrite E2. cbn [bind].
    destruct (table_ok (length a) 1 t2) as (t3 & E3 & L3 & H3); [lia|lia| |].
    { split; [congruence|]. intros p q Hp Hq H. destruct p as [|p].
      - rewrite lev_top. destruct q as [|q].
        + rewrite O2 by (intros m Hm; nia). rewrite O1 by (intros m Hm; nia).
          rewrite (put_cell_get _ _ _ _ E0). reflexivity.
        + replace (0 * col + S q) with (S q * 1) by lia. apply G2. lia.
      - destruct q as [|q]; [|exfalso; lia]. rewrite lev_left, Nat.add_0_r.
        rewrite O2 by (intros m Hm; nia). apply G1. lia. }
    rewrite E3. cbn [bind]. apply H3; lia.
  Qed.
End Table.

(* ---- edit scripts ---- *)
Inductive edit1 : list N -> list N -> Prop :=
| ins1 l x r : edit1 (l ++ r) (l ++ x :: r)
| del1 l x r : edit1 (l ++ x :: r) (l ++ r)
| sub1 l x y r : edit1 (l ++ x :: r) (l ++ y :: r).
Inductive edits : nat -> list N -> list N -> Prop :=
| edits_0 a : edits 0 a a
| edits_S n a b c : edit1 a b -> edits n b c -> edits (S n) a c.
Definition distance (a b : list N) (d : nat) : Prop := edits d a b /\ forall n, edits n a b -> d <= n.

Definition df (x y : N) : nat := if (x =? y)%N then 0 else 1.
Lemma df_refl x : df x x = 0.
Proof. unfold df. now rewrite N.eqb_refl. Qed.
Lemma df_tri x y z : df x z <= df x y + df y z.
Proof. unfold df. destruct (N.eqb_spec x z), (N.eqb_spec x y), (N.eqb_spec y z); subst; try lia; congruence. Qed.
(** Alignments with a bound on their cost. *)
Inductive align : list N -> list N -> nat -> Prop :=
| al_nil n : align [] [] n
| al_del x a b n : align a b n -> align (x :: a) b (S n)
| al_ins y a b n : align a b n -> align a (y :: b) (S n)
| al_sub x y a b n m : align a b n -> m = df x y + n -> align (x :: a) (y :: b) m.
Lemma align_le a b n : align a b n -> forall m, n <= m -> align a b m.
Proof.
  induction 1; intros k Hk.
  - constructor.
  - destruct k; [lia|]. constructor. apply IHalign. lia.
  - destruct k; [lia|]. constructor. apply IHalign. lia.
  - apply al_sub with (k - df x y); [|lia]. apply IHalign. lia.
Qed.
Lemma align_refl a : align a a 0.
Proof. induction a as [|x a IH]; [constructor|]. eapply al_sub; [exact IH|]. rewrite df_refl. reflexivity. Qed.
Lemma align_trans a b n : align a b n -> forall c m, align b c m -> align a c (n + m).
Proof.
  induction 1 as [n|x a b n H IH|y a b n H IH|x y a b n k H IH Hk]; intros c m H2.
  - apply align_le with m; [exact H2|lia].
  - cbn. constructor. now apply IH.
  - remember (y :: b) as yb eqn:Eyb. induction H2 as [m|x' a' c m H2 IH2|z a' c m H2 IH2|x' z a' c m k H2 IH2 Hk]; subst.
    + discriminate.
    + injection Eyb as -> ->. apply align_le with (n + m); [now apply IH|lia].
    + replace (S n + S m) with (S (S n + m)) by lia. constructor. now apply IH2.
    + injection Eyb as -> ->. cbn. rewrite plus_n_Sm. 
      apply align_le with (S (n + m)); [|lia]. constructor. now apply IH.
  - remember (y :: b) as yb eqn:Eyb. induction H2 as [m|x' a' c m H2 IH2|z a' c m H2 IH2|x' z a' c m k' H2 IH2 Hk']; subst.
    + discriminate.
    + injection Eyb as -> ->. apply align_le with (S (n + m)); [constructor; now apply IH|lia].
    + replace (df x y + n + S m) with (S (df x y + n + m)) by lia. apply al_ins. now apply IH2.
    + injection Eyb as -> ->. pose proof (df_tri x y z). apply al_sub with (df x y + n + (df y z + m) - df x z); [|lia].
      apply align_le with (n + m); [now apply IH|lia].
Qed.
Lemma align_app p a b n : align a b n -> align (p ++ a) (p ++ b) n.
Proof. intros H; induction p as [|x p IH]; auto. cbn. eapply al_sub; [exact IH|]. now rewrite df_refl. Qed.
Lemma edit1_align a b : edit1 a b -> align a b 1.
Proof.
  intros []; apply align_app.
  - constructor. apply align_refl.
  - constructor. apply align_refl.
  - apply align_le with (df x y + 0); [eapply al_sub; [apply align_refl|reflexivity]|]. unfold df; destruct (_ =? _)%N; lia.
Qed.
Lemma edits_align n a b : edits n a b -> align a b n.
Proof. induction 1; [apply align_refl|]. apply (align_trans _ _ _ (edit1_align _ _ H) _ _ IHedits). Qed.
(** Alignments built from the end. *)
Lemma align_snoc_del a b n x : align a b n -> align (a ++ [x]) b (S n).
Proof.
  induction 1; cbn.
  - constructor. apply align_le with 0; [constructor|lia].
  - now constructor.
  - now constructor.
  - eapply al_sub; [exact IHalign|lia].
Qed.
Lemma align_snoc_ins a b n x : align a b n -> align a (b ++ [x]) (S n).
Proof.
  induction 1; cbn.
  - constructor. constructor.
  - now constructor.
  - now constructor.
  - eapply al_sub; [exact IHalign|lia].
Qed.
Lemma align_snoc_sub a b n x y : align a b n -> align (a ++ [x]) (b ++ [y]) (df x y + n).
Proof.
  induction 1; cbn.
  - eapply al_sub; [constructor|reflexivity].
  - rewrite Nat.add_succ_r. now constructor.
  - rewrite Nat.add_succ_r. now constructor.
  - eapply al_sub; [exact IHalign|lia].
Qed.
Inductive ralign : list N -> list N -> nat -> Prop :=
| ra_nil n : ralign [] [] n
| ra_del x a b n : ralign a b n -> ralign (a ++ [x]) b (S n)
| ra_ins y a b n : ralign a b n -> ralign a (b ++ [y]) (S n)
| ra_sub x y a b n m : ralign a b n -> m = df x y + n -> ralign (a ++ [x]) (b ++ [y]) m.
Lemma ralign_del a b n x : ralign a b n -> ralign (x :: a) b (S n).
Proof.
  induction 1.
  - apply (ra_del x [] []). constructor.
  - change (x :: a ++ [x0]) with ((x :: a) ++ [x0]). now constructor.
  - now constructor.
  - change (x :: a ++ [x0]) with ((x :: a) ++ [x0]). eapply ra_sub; [exact IHralign|lia].
Qed.
Lemma ralign_ins a b n x : ralign a b n -> ralign a (x :: b) (S n).
Proof.
  induction 1.
  - apply (ra_ins x [] []). constructor.
  - now constructor.
  - change (x :: b ++ [y]) with ((x :: b) ++ [y]). now constructor.
  - change (x :: b ++ [y]) with ((x :: b) ++ [y]). eapply ra_sub; [exact IHralign|lia].
Qed.
Lemma ralign_sub a b n x y : ralign a b n -> ralign (x :: a) (y :: b) (df x y + n).
Proof.
  induction 1.
  - apply (ra_sub x y [] [] n); [constructor|reflexivity].
  - rewrite Nat.add_succ_r. change (x :: a ++ [x0]) with ((x :: a) ++ [x0]). now constructor.
  - rewrite Nat.add_succ_r. change (y :: b ++ [y0]) with ((y :: b) ++ [y0]). now constructor.
  - change (x :: a ++ [x0]) with ((x :: a) ++ [x0]). change (y :: b ++ [y0]) with ((y :: b) ++ [y0]).
    eapply ra_sub; [exact IHralign|lia].
Qed.
Lemma align_ralign a b n : align a b n -> ralign a b n.
Proof.
  induction 1; [constructor|now apply ralign_del|now apply ralign_ins|]. subst. now apply ralign_sub.
Qed.

Lemma firstn_S {T} (l : list T) i x : nth_error l i = Some x -> firstn (S i) l = firstn i l ++ [x].
Proof. revert i; induction l as [|y l IH]; intros [|i] H; cbn in *; try discriminate; [congruence|]. now rewrite IH. Qed.
Lemma lev_align a b : forall i, i <= length a -> forall j, j <= length b -> align (firstn i a) (firstn j b) (lev a b i j).
Proof.
  induction i as [|i IHi]; intros Hi; induction j as [|j IHj]; intros Hj.
  - constructor.
  - destruct (nth_error b j) as [y|] eqn:Ey; [|apply nth_error_None in Ey; lia].
    rewrite (firstn_S _ _ _ Ey), lev_top. apply align_snoc_ins. apply IHj. lia.
  - destruct (nth_error a i) as [x|] eqn:Ex; [|apply nth_error_None in Ex; lia].
    rewrite (firstn_S _ _ _ Ex), lev_left. apply align_snoc_del.
    rewrite <- (lev_left a b i) at 2. apply IHi; lia.
  - destruct (nth_error a i) as [x|] eqn:Ex; [|apply nth_error_None in Ex; lia].
    destruct (nth_error b j) as [y|] eqn:Ey; [|apply nth_error_None in Ey; lia].
    rewrite lev_step, Ex, Ey. change (ndiff (Some x) (Some y)) with (df x y).
    destruct (Nat.min_dec (Nat.min (lev a b i (S j) + 1) (lev a b (S i) j + 1)) (lev a b i j + df x y)) as [-> | ->].
    + destruct (Nat.min_dec (lev a b i (S j) + 1) (lev a b (S i) j + 1)) as [-> | ->].
      * rewrite (firstn_S _ _ _ Ex), Nat.add_1_r. apply align_snoc_del. apply IHi; lia.
      * rewrite (firstn_S _ _ _ Ey), Nat.add_1_r. apply align_snoc_ins. apply IHj; lia.
    + rewrite (firstn_S _ _ _ Ex), (firstn_S _ _ _ Ey), Nat.add_comm. apply align_snoc_sub. apply IHi; lia.
Qed.
Lemma firstn_snoc_inv {T} (l : list T) i p x : i <= length l -> firstn i l = p ++ [x] ->
  exists i', i = S i' /\ firstn i' l = p /\ nth_error l i' = Some x.
Proof.
  intros Hi E. destruct i as [|i]; [destruct p; discriminate|]. exists i. split; auto.
  destruct (nth_error l i) as [z|] eqn:Ez; [|apply nth_error_None in Ez; lia].
  rewrite (firstn_S _ _ _ Ez) in E. apply app_inj_tail in E as [<- <-]. auto.
Qed.
Lemma lev_least a b p q n : ralign p q n -> forall i j, i <= length a -> j <= length b ->
  firstn i a = p -> firstn j b = q -> lev a b i j <= n.
Proof.
  induction 1 as [n|x p q n H IH|y p q n H IH|x y p q n m H IH Hm]; intros i j Hi Hj Ep Eq.
  - assert (i = 0) as -> by (apply (f_equal (@length N)) in Ep; rewrite firstn_length in Ep; cbn in Ep; lia).
    assert (j = 0) as -> by (apply (f_equal (@length N)) in Eq; rewrite firstn_length in Eq; cbn in Eq; lia).
    cbn. lia.
  - apply firstn_snoc_inv in Ep as (i' & -> & Ep & Ex); auto. specialize (IH i' j ltac:(lia) Hj Ep Eq).
    destruct j as [|j]; [rewrite lev_left in *; lia|]. rewrite lev_step. lia.
  - apply firstn_snoc_inv in Eq as (j' & -> & Eq & Ey); auto. specialize (IH i j' Hi ltac:(lia) Ep Eq).
    destruct i as [|i]; [rewrite lev_top in *; lia|]. rewrite lev_step. lia.
  - apply firstn_snoc_inv in Ep as (i' & -> & Ep & Ex); auto. apply firstn_snoc_inv in Eq as (j' & -> & Eq & Ey); auto.
    specialize (IH i' j' ltac:(lia) ltac:(lia) Ep Eq). rewrite lev_step, Ex, Ey. unfold ndiff. unfold df in Hm. lia.
Qed.

Lemma edit1_cons x a b : edit1 a b -> edit1 (x :: a) (x :: b).
Proof.
  intros [l z r|l z r|l z w r]; [apply (ins1 (x :: l))|apply (del1 (x :: l))|apply (sub1 (x :: l))].
Qed.
Lemma edits_cons x n a b : edits n a b -> edits n (x :: a) (x :: b).
Proof. induction 1; [constructor|]. econstructor; [apply edit1_cons; eauto|auto]. Qed.
(** An alignment can be carried out in at most so many edits. *)
Lemma align_edits a b n : align a b n -> exists m, m <= n /\ edits m a b.
Proof.
  induction 1 as [n|x a b n H (m & Hm & E)|y a b n H (m & Hm & E)|x y a b n k H (m & Hm & E) Hk].
  - exists 0. split; [lia|constructor].
  - exists (S m). split; [lia|]. econstructor; [apply (del1 [] x a)|exact E].
  - exists (S m). split; [lia|]. econstructor; [apply (ins1 [] y a)|]. now apply edits_cons.
  - unfold df in Hk. destruct (N.eqb_spec x y) as [->|Hne].
    + exists m. split; [lia|]. now apply edits_cons.
    + exists (S m). split; [lia|]. econstructor; [apply (sub1 [] x y a)|]. now apply edits_cons.
Qed.
Lemma lev_distance a b : distance a b (lev a b (length a) (length b)).
Proof.
  assert (Hmin : forall n, edits n a b -> lev a b (length a) (length b) <= n).
  { intros n H. eapply lev_least; [apply align_ralign, edits_align; exact H|lia|lia|apply firstn_all|apply firstn_all]. }
  pose proof (lev_align a b (length a) (le_n _) (length b) (le_n _)) as H. rewrite !firstn_all in H.
  destruct (align_edits _ _ _ H) as (m & Hm & E). split; [|exact Hmin].
  pose proof (Hmin m E). replace (lev a b (length a) (length b)) with m by lia. exact E.
Qed.
Lemma edit1_sym a b : edit1 a b -> edit1 b a.
Proof. intros []; constructor. Qed.
Lemma edits_app n m a b c : edits n a b -> edits m b c -> edits (n + m) a c.
Proof. induction 1; intros H2; cbn; auto. econstructor; eauto. Qed.
Lemma edits_sym n a b : edits n a b -> edits n b a.
Proof.
  induction 1; [constructor|]. replace (S n) with (n + 1) by lia. eapply edits_app; [eauto|].
  econstructor; [apply edit1_sym; eauto|constructor].
Qed.
Lemma distance_unique a b d d' : distance a b d -> distance a b d' -> d = d'.
Proof. intros [E L] [E' L']. apply L in E'. apply L' in E. lia. Qed.
