(** The tree behind the heap of nodes: shapes, leaf entries with their lower separators, paths. *)
From Coq Require Import List NArith ZArith Bool Lia Arith Permutation Sorting.Sorted.
Import ListNotations.
From Verif Require Import Bytes DbmModel BtreeModel.

(** * The order of keys *)
Section Order.
  Variable cmp : bytes -> bytes -> comparison.
  Hypothesis cmp_opp : forall a b, cmp b a = CompOpp (cmp a b).
  Hypothesis cmp_le_trans : forall a b c, cmp a b <> Gt -> cmp b c <> Gt -> cmp a c <> Gt.
  Definition klt (a b : bytes) : Prop := cmp a b = Lt.
  Definition kle (a b : bytes) : Prop := cmp a b <> Gt.
  Lemma kle_refl : forall a, kle a a.
  Proof. intros a H. pose proof (cmp_opp a a) as E. rewrite H in E. discriminate. Qed.
  Lemma klt_le : forall a b, klt a b -> kle a b.
  Proof. unfold klt, kle. intros a b H. rewrite H. discriminate. Qed.
  Lemma kle_not : forall a b, kle a b <-> ~ klt b a.
  Proof. unfold klt, kle. intros a b. rewrite (cmp_opp a b). destruct (cmp a b); cbn; split; congruence. Qed.
  Lemma klt_not : forall a b, klt a b <-> ~ kle b a.
  Proof. unfold klt, kle. intros a b. rewrite (cmp_opp a b). destruct (cmp a b); cbn; split; try congruence; intros H; exfalso; apply H; discriminate. Qed.
  Lemma kle_trans : forall a b c, kle a b -> kle b c -> kle a c.
  Proof. exact cmp_le_trans. Qed.
  Lemma klt_le_trans : forall a b c, klt a b -> kle b c -> klt a c.
  Proof. intros a b c H1 H2. apply klt_not. intros H3. apply klt_not in H1. apply H1. apply (kle_trans b c a); auto. Qed.
  Lemma kle_lt_trans : forall a b c, kle a b -> klt b c -> klt a c.
  Proof. intros a b c H1 H2. apply klt_not. intros H3. apply klt_not in H2. apply H2. apply (kle_trans c a b); auto. Qed.
  Lemma klt_trans : forall a b c, klt a b -> klt b c -> klt a c.
  Proof. intros a b c H1 H2. apply (klt_le_trans a b c); auto. apply klt_le; auto. Qed.
  Lemma klt_irrefl : forall a, ~ klt a a.
  Proof. intros a. apply kle_not. apply kle_refl. Qed.
  Lemma ltb_lt : forall a b, ltb cmp a b = true <-> klt a b.
  Proof. unfold ltb, klt. intros a b. destruct (cmp a b); split; congruence. Qed.
  Lemma ltb_ge : forall a b, ltb cmp a b = false <-> kle b a.
  Proof. intros a b. rewrite kle_not, <- ltb_lt. destruct (ltb cmp a b); split; congruence. Qed.
  Lemma cmp_eq_le : forall a b, cmp a b = Eq <-> kle a b /\ kle b a.
  Proof. unfold kle. intros a b. rewrite (cmp_opp a b). destruct (cmp a b); cbn; intuition congruence. Qed.
End Order.

(** * split_at *)
Lemma split_at_app : forall {A} p (l : list (bytes * A)), fst (split_at p l) ++ snd (split_at p l) = l.
Proof. intros A p l. induction l as [|[k a] r IH]; cbn; auto. destruct (p k); cbn; auto. destruct (split_at p r) as [x y] eqn:E; cbn in *. now rewrite IH. Qed.
Lemma split_at_left : forall {A} p (l : list (bytes * A)), Forall (fun e => p (fst e) = true) (fst (split_at p l)).
Proof. intros A p l. induction l as [|[k a] r IH]; cbn; auto. destruct (p k) eqn:E; cbn; auto. destruct (split_at p r) as [x y]; cbn in *. constructor; auto. Qed.
Lemma split_at_right : forall {A} p (l : list (bytes * A)) k a r, snd (split_at p l) = (k, a) :: r -> p k = false.
Proof. intros A p l k a r. induction l as [|[k1 a1] r1 IH]; cbn; [discriminate|]. destruct (p k1) eqn:E; cbn. - destruct (split_at p r1) as [x y]; cbn in *. auto. - intros H. inversion H; subst; auto. Qed.
Lemma split_at_eq : forall {A} p (l r : list (bytes * A)),
  Forall (fun e => p (fst e) = true) l -> match r with [] => True | (k, _) :: _ => p k = false end -> split_at p (l ++ r) = (l, r).
Proof. intros A p l r H1 H2. induction l as [|[k a] l IH]; cbn. - destruct r as [|[k a] r]; cbn; auto. now rewrite H2. - inversion H1; subst. cbn in *. rewrite H3, IH; auto. Qed.

(** * Trees *)
Inductive bt := TL (x : id) (rs : list rec) | TI (x : id) (t0 : bt) (l : list (bytes * bt)).
Definition rid (t : bt) : id := match t with TL x _ => x | TI x _ _ => x end.
Definition lnk (l : list (bytes * bt)) : list (bytes * id) := map (fun kt => (fst kt, rid (snd kt))) l.
(** A leaf with its lower separator. *)
Definition ent := (option bytes * id * list rec)%type.
Definition elo (e : ent) := fst (fst e).
Definition eid (e : ent) := snd (fst e).
Definition ers (e : ent) := snd e.
Fixpoint items (s : option bytes) (t : bt) : list ent :=
  match t with
  | TL x rs => [(s, x, rs)]
  | TI _ t0 l => items s t0 ++ flat_map (fun kt => items (Some (fst kt)) (snd kt)) l
  end.
Definition fitems (l : list (bytes * bt)) : list ent := flat_map (fun kt => items (Some (fst kt)) (snd kt)) l.
Fixpoint inners (t : bt) : list (id * node) :=
  match t with
  | TL _ _ => []
  | TI x t0 l => (x, Inner (rid t0) (lnk l)) :: inners t0 ++ flat_map (fun kt => inners (snd kt)) l
  end.
Definition finners (l : list (bytes * bt)) : list (id * node) := flat_map (fun kt => inners (snd kt)) l.
Inductive dep : nat -> bt -> Prop :=
| dep_leaf : forall x rs, dep 0 (TL x rs)
| dep_inner : forall n x t0 l, dep n t0 -> Forall (fun kt => dep n (snd kt)) l -> dep (S n) (TI x t0 l).

Lemma fitems_app : forall a b, fitems (a ++ b) = fitems a ++ fitems b.
Proof. intros. apply flat_map_app. Qed.
Lemma finners_app : forall a b, finners (a ++ b) = finners a ++ finners b.
Proof. intros. apply flat_map_app. Qed.
Lemma lnk_app : forall a b, lnk (a ++ b) = lnk a ++ lnk b.
Proof. intros. apply map_app. Qed.
Lemma items_hd : forall t s, exists x rs r, items s t = (s, x, rs) :: r.
Proof.
  fix IH 1. intros [x rs|x t0 l] s; cbn.
  - exists x, rs, []. auto.
  - destruct (IH t0 s) as (y & rs & r & E). rewrite E. exists y, rs, (r ++ fitems l). auto.
Qed.
Lemma bt_ind2 : forall P : bt -> Prop, (forall x rs, P (TL x rs)) -> (forall x t0 l, P t0 -> Forall (fun kt => P (snd kt)) l -> P (TI x t0 l)) -> forall t, P t.
Proof.
  intros P H1 H2. fix IH 1. intros [x rs|x t0 l]; [apply H1|]. apply H2; [apply IH|].
  induction l as [|[k t] l IHl]; constructor; [apply IH | exact IHl].
Qed.
Lemma items_some : forall t s, Forall (fun e => elo e <> None) (tl (items s t)).
Proof.
  induction t as [x rs|x t0 l IH0 IHl] using bt_ind2; intros s; cbn; auto.
  destruct (items_hd t0 s) as (y & rs & r & E). specialize (IH0 s). rewrite E in *. cbn in *. apply Forall_app. split; auto.
  clear - IHl. induction IHl as [|[k t] l H _ IH]; cbn; auto. apply Forall_app. split; auto.
  destruct (items_hd t (Some k)) as (y & rs & r & E). specialize (H (Some k)). cbn in *. rewrite E in *. cbn in *. constructor; auto. cbn. discriminate.
Qed.

Definition hm (h : heap) (l : list (id * node)) : Prop := Forall (fun xn => h (fst xn) = Some (snd xn)) l.
Lemma hm_app : forall h a b, hm h (a ++ b) <-> hm h a /\ hm h b.
Proof. intros. apply Forall_app. Qed.
Lemma hm_cons : forall h a b, hm h (a :: b) <-> h (fst a) = Some (snd a) /\ hm h b.
Proof. intros. unfold hm. apply Forall_cons_iff. Qed.
Lemma hm_perm : forall h a b, Permutation a b -> hm h a -> hm h b.
Proof. intros h a b P H. unfold hm in *. rewrite Forall_forall in *. intros x Hx. apply H. apply Permutation_sym in P. eapply Permutation_in; eauto. Qed.
Lemma hm_frame : forall h h' l, (forall y, In y (map fst l) -> h' y = h y) -> hm h l -> hm h' l.
Proof. intros h h' l E H. unfold hm in *. rewrite Forall_forall in *. intros x Hx. rewrite E; auto. apply in_map; auto. Qed.
Lemma updn_eq : forall h x n, updn h x n x = n.
Proof. intros. unfold updn. now rewrite Nat.eqb_refl. Qed.
Lemma updn_neq : forall h x n y, y <> x -> updn h x n y = h y.
Proof. intros. unfold updn. apply Nat.eqb_neq in H. now rewrite H. Qed.

(** * Paths *)
Inductive frame := FH (x : id) (l : list (bytes * bt)) | FL (x : id) (t0 : bt) (l1 : list (bytes * bt)) (k : bytes) (l2 : list (bytes * bt)).
Definition fid (f : frame) : id := match f with FH x _ => x | FL x _ _ _ _ => x end.
Definition plug (f : frame) (t : bt) : bt := match f with FH x l => TI x t l | FL x t0 l1 k l2 => TI x t0 (l1 ++ (k, t) :: l2) end.
Definition plug2 (f : frame) (t : bt) (k2 : bytes) (t2 : bt) : bt :=
  match f with FH x l => TI x t ((k2, t2) :: l) | FL x t0 l1 k l2 => TI x t0 (l1 ++ (k, t) :: (k2, t2) :: l2) end.
Fixpoint plugs (p : list frame) (t : bt) : bt := match p with [] => t | f :: r => plugs r (plug f t) end.
Definition fheir (f : frame) (h : id) : id := match f with FH _ _ => h | FL _ t0 _ _ _ => rid t0 end.
Definition fleft (f : frame) (h : id) : list (bytes * id) := match f with FH _ _ => [] | FL _ _ l1 k _ => lnk l1 ++ [(k, h)] end.
Definition frest (f : frame) : list (bytes * bt) := match f with FH _ l => l | FL _ _ _ _ l2 => l2 end.
Definition fright (f : frame) : list (bytes * id) := lnk (frest f).
Definition flinks (f : frame) (h : id) := fleft f h ++ fright f.
Definition flinks2 (f : frame) (h : id) (k : bytes) (h2 : id) := fleft f h ++ (k, h2) :: fright f.
Definition fsib (f : frame) : list (id * node) := match f with FH _ l => finners l | FL _ t0 l1 _ l2 => inners t0 ++ finners l1 ++ finners l2 end.
Definition flo (s : option bytes) (f : frame) : option bytes := match f with FH _ _ => s | FL _ _ _ k _ => Some k end.
Definition fpre (s : option bytes) (f : frame) : list ent := match f with FH _ _ => [] | FL _ t0 l1 _ _ => items s t0 ++ fitems l1 end.
Definition fpost (f : frame) : list ent := fitems (frest f).
Fixpoint plo (s : option bytes) (p : list frame) : option bytes := match p with [] => s | f :: r => flo (plo s r) f end.
Fixpoint ppre (s : option bytes) (p : list frame) : list ent := match p with [] => [] | f :: r => ppre s r ++ fpre (plo s r) f end.
Fixpoint ppost (p : list frame) : list ent := match p with [] => [] | f :: r => fpost f ++ ppost r end.
Fixpoint pinn (p : list frame) (h : id) : list (id * node) :=
  match p with [] => [] | f :: r => (fid f, Inner (fheir f h) (flinks f h)) :: fsib f ++ pinn r (fid f) end.
Definition fdep (n : nat) (f : frame) : Prop :=
  match f with FH _ l => Forall (fun kt => dep n (snd kt)) l | FL _ t0 l1 _ l2 => dep n t0 /\ Forall (fun kt => dep n (snd kt)) (l1 ++ l2) end.
Fixpoint pdep (n : nat) (p : list frame) : Prop := match p with [] => True | f :: r => fdep n f /\ pdep (S n) r end.

Lemma items_plug : forall s f t, items s (plug f t) = fpre s f ++ items (flo s f) t ++ fpost f.
Proof. intros s [x l|x t0 l1 k l2] t; cbn; auto. fold (fitems (l1 ++ (k, t) :: l2)). rewrite fitems_app. cbn. fold (fitems l2). now rewrite <- !app_assoc. Qed.
Lemma items_plug2 : forall s f t k t2, items s (plug2 f t k t2) = fpre s f ++ items (flo s f) t ++ items (Some k) t2 ++ fpost f.
Proof. intros s [x l|x t0 l1 k l2] t k2 t2; cbn; auto. fold (fitems (l1 ++ (k, t) :: (k2, t2) :: l2)). rewrite fitems_app. cbn. fold (fitems l2). now rewrite <- !app_assoc. Qed.
Lemma items_plugs : forall p s t, items s (plugs p t) = ppre s p ++ items (plo s p) t ++ ppost p.
Proof. induction p as [|f p IH]; intros s t; cbn. - now rewrite app_nil_r. - rewrite IH, items_plug. now rewrite <- !app_assoc. Qed.
Lemma rid_plug : forall f t, rid (plug f t) = fid f.
Proof. intros [] t; auto. Qed.
Lemma rid_plug2 : forall f t k t2, rid (plug2 f t k t2) = fid f.
Proof. intros [] t k2 t2; auto. Qed.
Lemma inners_plug : forall f t, Permutation (inners (plug f t)) ((fid f, Inner (fheir f (rid t)) (flinks f (rid t))) :: inners t ++ fsib f).
Proof.
  intros [x l|x t0 l1 k l2] t; cbn; auto. fold (finners (l1 ++ (k, t) :: l2)). unfold flinks, fleft, fright; cbn. rewrite lnk_app, finners_app, <- app_assoc. cbn. constructor.
  fold (finners l2). rewrite !app_assoc. rewrite <- (app_assoc (inners t)). apply Permutation_app_tail. rewrite (app_assoc (inners t)), <- app_assoc. rewrite <- app_assoc.
  rewrite app_assoc. apply Permutation_app_comm.
Qed.
Lemma inners_plug2 : forall f t k t2, Permutation (inners (plug2 f t k t2)) ((fid f, Inner (fheir f (rid t)) (flinks2 f (rid t) k (rid t2))) :: inners t ++ inners t2 ++ fsib f).
Proof.
  intros [x l|x t0 l1 k l2] t k2 t2; cbn; auto. fold (finners (l1 ++ (k, t) :: (k2, t2) :: l2)). unfold flinks2, fleft, fright; cbn. rewrite lnk_app, finners_app, <- app_assoc. cbn. constructor.
  fold (finners l2).
  transitivity ((inners t0 ++ finners l1) ++ (inners t ++ inners t2) ++ finners l2); [now rewrite <- !app_assoc|].
  transitivity ((inners t ++ inners t2) ++ (inners t0 ++ finners l1) ++ finners l2); [apply Permutation_app_swap_app | now rewrite <- !app_assoc].
Qed.
Lemma inners_plugs : forall p t, Permutation (inners (plugs p t)) (inners t ++ pinn p (rid t)).
Proof.
  induction p as [|f p IH]; intros t; cbn. - now rewrite app_nil_r.
  - rewrite IH, inners_plug, rid_plug. cbn. rewrite <- app_assoc. apply Permutation_middle.
Qed.
Lemma pinn_cons_mid : forall f p h (a : list (id * node)), Permutation (a ++ pinn (f :: p) h) ((fid f, Inner (fheir f h) (flinks f h)) :: a ++ fsib f ++ pinn p (fid f)).
Proof. intros. cbn. symmetry. apply Permutation_middle. Qed.
Lemma dep_plug : forall n f t, dep n t -> fdep n f -> dep (S n) (plug f t).
Proof. intros n [x l|x t0 l1 k l2] t H F; cbn in *; constructor; auto; try tauto. destruct F as [F1 F2]. apply Forall_app in F2. apply Forall_app. split; [tauto|]. constructor; tauto. Qed.
Lemma dep_plug2 : forall n f t k t2, dep n t -> dep n t2 -> fdep n f -> dep (S n) (plug2 f t k t2).
Proof. intros n [x l|x t0 l1 k l2] t k2 t2 H H2 F; cbn in *; constructor; auto; try tauto. destruct F as [F1 F2]. apply Forall_app in F2. apply Forall_app. split; [tauto|]. constructor; [tauto|]. constructor; tauto. Qed.
Lemma dep_plugs : forall p n t, dep n t -> pdep n p -> dep (n + length p) (plugs p t).
Proof. induction p as [|f p IH]; intros n t H P; cbn in *. - now rewrite Nat.add_0_r. - destruct P as [P1 P2]. rewrite Nat.add_succ_r. apply (IH (S n)); auto. apply dep_plug; auto. Qed.
Lemma dep_unplug : forall n f t, dep (S n) (plug f t) -> dep n t /\ fdep n f.
Proof. intros n [x l|x t0 l1 k l2] t H; cbn in *; inversion H; subst; auto. apply Forall_app in H5. destruct H5 as [A B]. inversion B; subst. repeat split; auto. apply Forall_app; auto. Qed.
Lemma dep_unplug2 : forall n f t k t2, dep (S n) (plug2 f t k t2) -> dep n t /\ dep n t2 /\ fdep n f.
Proof. intros n [x l|x t0 l1 k l2] t k2 t2 H; cbn in *; inversion H; subst; auto. - inversion H5; subst; auto. - apply Forall_app in H5. destruct H5 as [A B]. inversion B; subst. inversion H4; subst. repeat split; auto. apply Forall_app; auto. Qed.
(** The neighbours of a subtree under its parent. *)
Definition next_split (f : frame) : option (bytes * bt * frame) :=
  match f with
  | FH x ((k, t) :: l) => Some (k, t, FH x l)
  | FL x t0 l1 k0 ((k, t) :: l) => Some (k, t, FL x t0 l1 k0 l)
  | _ => None
  end.
Definition prev_split (f : frame) : option (frame * bt * bytes) :=
  match f with
  | FH _ _ => None
  | FL x t0 l1 k l2 => match rev l1 with [] => Some (FH x l2, t0, k) | (kq, q) :: l => Some (FL x t0 (rev l) kq l2, q, k) end
  end.
Lemma next_split_spec : forall f t, match next_split f with
  | Some (k, z, f') => plug f t = plug2 f' t k z /\ fid f' = fid f /\ frest f = (k, z) :: frest f' | None => frest f = [] end.
Proof. intros [x [|[k z] l]|x t0 l1 k0 [|[k z] l]] t; cbn; auto. Qed.
Lemma prev_split_spec : forall f t, match prev_split f with
  | Some (f', q, k) => plug f t = plug2 f' q k t /\ fid f' = fid f /\ frest f' = frest f | None => exists x l, f = FH x l end.
Proof.
  intros [x l|x t0 l1 k l2] t; cbn. - eauto.
  - destruct (rev l1) as [|[kq q] l] eqn:E; cbn.
    + assert (l1 = []) by (rewrite <- (rev_involutive l1), E; auto). subst. auto.
    + assert (l1 = rev l ++ [(kq, q)]) by (rewrite <- (rev_involutive l1), E; auto). subst. rewrite <- app_assoc. auto.
Qed.
