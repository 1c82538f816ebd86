(** TinyDBM called by several threads: the specification and the invariant. *)
From Coq Require Import List NArith ZArith Bool Lia Arith.
Import ListNotations.
From Verif Require Import Bytes CodecModel DbmModel StatusModel HashMutexModel TinyModel TinyProofs TinyOps TinyProps TinyConcModel.
Local Open Scope N_scope.

(** * Specification: a database whose calls take effect at one moment *)
Section Spec.
  Variable S : Type.
  (** One key of a call on a map. *)
  Definition ref_item (m : amap) (k : bytes) (it : item S) (w : bool) (s : S) : amap * S :=
    match it with
    | IProc p => ref_process m k p w s
    | IApp cat delim => (aset m k (match m k with Some old => old ++ delim ++ cat | None => cat end), s)
    end.
  Fixpoint ref_items (m : amap) (l : list (bytes * item S)) (w : bool) (s : S) : amap * S :=
    match l with
    | [] => (m, s)
    | (k, it) :: r => let '(m', s') := ref_item m k it w s in ref_items m' r w s'
    end.
  (** What one call may do to the map and return.  Nothing is said here of the number Count returns. *)
  Inductive does (m : amap) : ccall S -> amap -> result S -> Prop :=
  | D_items c m' : same_map m' (fst (ref_items m (ic_l c) (ic_w c) (ic_s c))) ->
      does m (CItems c) m' (RS (snd (ref_items m (ic_l c) (ic_w c) (ic_s c))))
  | D_excl o s m' s' : sstep m s o m' s' -> does m (CExcl o s) m' (RS s')
  | D_count z : does m CCount m (RN z).
  (** Threads which call, let the call take effect at one moment, and return. *)
  Inductive athr := AIdle | ACalled (c : ccall S) | ADone (r : result S).
  Record asys := mkA { a_m : amap; a_th : nat -> athr }.
  Definition aupd (f : nat -> athr) (t : nat) (x : athr) : nat -> athr := fun u => if Nat.eqb u t then x else f u.
  Inductive astep (a : asys) : ev S -> asys -> Prop :=
  | as_call t c : a_th a t = AIdle -> astep a (ECall t c) (mkA (a_m a) (aupd (a_th a) t (ACalled c)))
  | as_do t c m' r : a_th a t = ACalled c -> does (a_m a) c m' r -> astep a ETau (mkA m' (aupd (a_th a) t (ADone r)))
  | as_ret t r : a_th a t = ADone r -> astep a (ERet t r) (mkA (a_m a) (aupd (a_th a) t AIdle)).
  Inductive arun : asys -> list (ev S) -> asys -> Prop :=
  | arun_nil a : arun a [] a
  | arun_tau a a1 tr a2 : arun a tr a1 -> astep a1 ETau a2 -> arun a tr a2
  | arun_ev a a1 tr e a2 : arun a tr a1 -> e <> ETau -> astep a1 e a2 -> arun a (tr ++ [e]) a2.
  Definition ainit : asys := mkA aempty (fun _ => AIdle).
End Spec.
Arguments ref_item {S}. Arguments ref_items {S}. Arguments does {S}. Arguments AIdle {S}. Arguments ACalled {S}. Arguments ADone {S}.
Arguments mkA {S}. Arguments a_m {S}. Arguments a_th {S}. Arguments aupd {S}. Arguments astep {S}. Arguments arun {S}. Arguments ainit {S}.

(** * The map specification looks only at the keys of the call *)
Section Local.
  Context {S : Type}.
  Implicit Types (m : amap) (l : list (bytes * item S)) (s : S).
  Lemma ref_item_other m k it w s x : x <> k -> fst (ref_item m k it w s) x = m x.
  Proof.
    intros H. destruct it as [p|cat d]; cbn.
    - unfold ref_process. destruct (call m k p s) as [a s']. destruct w; [|reflexivity]. destruct a; cbn; unfold adel, aset; try reflexivity;
        (destruct (beqb_spec k x); [congruence|reflexivity]).
    - unfold aset. destruct (beqb_spec k x); [congruence|reflexivity].
  Qed.
  Lemma ref_item_local (P : bytes -> Prop) m m' k it w s : (forall x, P x -> m x = m' x) -> P k ->
    snd (ref_item m k it w s) = snd (ref_item m' k it w s) /\ forall x, P x -> fst (ref_item m k it w s) x = fst (ref_item m' k it w s) x.
  Proof.
    intros E Pk. destruct it as [p|cat d]; cbn.
    - unfold ref_process, call. rewrite (E k Pk). destruct (match m' k with Some v => on_full p k v s | None => on_empty p k s end) as [a s'].
      split; [reflexivity|]. cbn. intros x Px. destruct w; [|apply E, Px]. destruct a; cbn; unfold adel, aset; try apply E, Px; (destruct (beqb k x); [reflexivity|apply E, Px]).
    - split; [reflexivity|]. intros x Px. unfold aset. rewrite (E k Pk). destruct (beqb k x); [reflexivity|apply E, Px].
  Qed.
  Lemma ref_items_local (P : bytes -> Prop) w l : forall m m' s, (forall x, P x -> m x = m' x) -> (forall k it, In (k, it) l -> P k) ->
    snd (ref_items m l w s) = snd (ref_items m' l w s) /\ forall x, P x -> fst (ref_items m l w s) x = fst (ref_items m' l w s) x.
  Proof.
    induction l as [|[k it] l IH]; intros m m' s E Q; cbn.
    - split; [reflexivity|exact E].
    - destruct (ref_item_local P m m' k it w s E ltac:(eapply Q; left; reflexivity)) as [A B].
      destruct (ref_item m k it w s) as [m1 s1], (ref_item m' k it w s) as [m2 s2]. cbn in A, B. subst s2.
      apply IH; [exact B|]. intros. eapply Q. right. eassumption.
  Qed.
  Lemma ref_items_other w l x : forall m s, (forall k it, In (k, it) l -> k <> x) -> fst (ref_items m l w s) x = m x.
  Proof.
    induction l as [|[k it] l IH]; intros m s Q; cbn; [reflexivity|]. destruct (ref_item m k it w s) as [m1 s1] eqn:E.
    rewrite IH by (intros; eapply Q; right; eassumption). change m1 with (fst (m1, s1)). rewrite <- E. apply ref_item_other.
    intros ->. eapply Q; [left; reflexivity|reflexivity].
  Qed.
  Lemma ref_items_app w l l' : forall m s, ref_items m (l ++ l') w s = let '(m1, s1) := ref_items m l w s in ref_items m1 l' w s1.
  Proof. induction l as [|[k it] l IH]; intros m s; cbn; [reflexivity|]. destruct (ref_item m k it w s). apply IH. Qed.
  Lemma ref_items_ro l : (forall k it, In (k, it) l -> exists p, it = IProc p) -> forall m s, fst (ref_items m l false s) = m.
  Proof.
    induction l as [|[k it] l IH]; intros Q m s; cbn; [reflexivity|]. destruct (Q k it (or_introl eq_refl)) as [p ->]. cbn. unfold ref_process.
    destruct (call m k p s) as [a s']. apply IH. intros. eapply Q. right. eassumption.
  Qed.
End Local.

(** * The invariant *)
Section Inv.
  Variable hash : bytes -> N -> N.
  Variable bucket_size : N -> N.
  Hypothesis hash_lt : forall k nb, 0 < nb -> hash k nb < nb.
  Hypothesis size_pos : forall n, 0 < bucket_size n.
  Variable ns : N.
  Context {S : Type}.
  Variable n : nat.
  Notation cslots := (cslots hash ns).
  Notation slots_of := (slots_of hash ns).

  Definition slot (nb : N) (k : bytes) : N := hash k nb mod ns.
  Lemma in_set_ins x y l : In x (set_ins y l) <-> x = y \/ In x l.
  Proof.
    induction l as [|z l IH]; cbn; [intuition congruence|]. destruct (y <? z); [cbn; intuition congruence|].
    destruct (N.eqb_spec y z) as [->|_]; [cbn; intuition congruence|]. cbn. rewrite IH. intuition congruence.
  Qed.
  Lemma in_slotset x l : In x (slotset l) <-> In x l.
  Proof. induction l as [|y l IH]; cbn; [reflexivity|]. rewrite in_set_ins, IH. intuition congruence. Qed.
  Lemma in_cslots nb (c : icall S) j : In j (cslots nb c) <-> exists k it, In (k, it) (ic_l c) /\ slot nb k = j.
  Proof.
    unfold TinyConcModel.cslots. rewrite in_slotset, in_map_iff. split.
    - intros ([k it] & E & I). exists k, it. auto.
    - intros (k & it & I & E). exists (k, it). auto.
  Qed.

  Definition wfc (c : icall S) : Prop := ic_w c = true \/ (forall k it, In (k, it) (ic_l c) -> exists p, it = IProc p).
  (** The items before [r] have taken effect. *)
  Definition prog (nb : N) (L : N -> list node) (C : amap) (c : icall S) (r : list (bytes * item S)) (s : S) : Prop :=
    wfc c /\ exists dn, ic_l c = dn ++ r /\ s = snd (ref_items C dn (ic_w c) (ic_s c)) /\
      forall x, In (slot nb x) (cslots nb c) -> view hash nb L x = fst (ref_items C dn (ic_w c) (ic_s c)) x.
  (** The same, and the processor of the next item has been called and the record is to become [nv]. *)
  Definition prog1 (nb : N) (L : N -> list node) (C : amap) (c : icall S) (k : bytes) (r : list (bytes * item S)) (s : S) (nv : option bytes) : Prop :=
    wfc c /\ ic_w c = true /\ exists dn it, ic_l c = dn ++ (k, it) :: r /\
      s = snd (ref_items C (dn ++ [(k, it)]) (ic_w c) (ic_s c)) /\
      (forall x, fst (ref_items C (dn ++ [(k, it)]) (ic_w c) (ic_s c)) x = if beqb k x then nv else fst (ref_items C dn (ic_w c) (ic_s c)) x) /\
      forall x, In (slot nb x) (cslots nb c) -> view hash nb L x = fst (ref_items C dn (ic_w c) (ic_s c)) x.
  Definition at_node (m : tiny) (L : N -> list node) (k : bytes) (q : ptr) (parent child : option ptr) (old : bytes) : Prop :=
    let i := hash k (t_nb m) in
    exists l1 l2, L i = l1 ++ (q, (k, old)) :: l2 /\ seg (t_h m) (t_b m i) l1 (Some q) /\ holds (t_h m) q child k old /\
      seg (t_h m) child l2 None /\ parent = last_loc l1 None /\ ~ In k (keys l1).
  Definition thread_ok (m : tiny) (L : N -> list node) (C : amap) (p : pc S) : Prop :=
    let nb := t_nb m in
    match p with
    | PIdle | PRet _ | PCount | PUn _ _ _ => True
    | PExcl o s => wf_call (CExcl o s)
    | PMain c => wf_call c /\ match c with CFirst _ _ | CEach _ _ => False | _ => True end
    | PSlots c got todo => wfc c /\ cslots nb c = got ++ todo
    | PTop c r s => prog nb L C c r s
    | PWalk c k it r s top parent p =>
        prog nb L C c ((k, it) :: r) s /\
        let i := hash k nb in
        exists l1 l2, L i = l1 ++ l2 /\ seg (t_h m) (t_b m i) l1 p /\ seg (t_h m) p l2 None /\ parent = last_loc l1 None /\ ~ In k (keys l1) /\ top = t_b m i
    | PFree c k r s q parent child => prog1 nb L C c k r s None /\ exists old, at_node m L k q parent child old
    | PRes c k r s q parent child old value => prog1 nb L C c k r s (Some value) /\ at_node m L k q parent child old
    | PApp c k r s q parent child old cat delim => prog1 nb L C c k r s (Some (old ++ delim ++ cat)) /\ at_node m L k q parent child old
    | PNew c k r s top value =>
        prog1 nb L C c k r s (Some value) /\ let i := hash k nb in ~ In k (keys (L i)) /\ top = t_b m i /\ seg (t_h m) (t_b m i) (L i) None
    | PLink c k r s parent np d =>
        prog nb L C c r s /\ ic_w c = true /\ In (slot nb k) (cslots nb c) /\
        let i := hash k nb in
        exists l1 l2 e, L i = l1 ++ l2 /\ seg (t_h m) (t_b m i) l1 e /\ seg (t_h m) np l2 None /\ parent = last_loc l1 None
    | PNum c r s d => prog nb L C c r s
    | PFirst _ _ _ | PFirstAt _ _ _ | PEach _ _ _ | PEachAt _ _ _ _ => False
    end.
  Definition dirty (nb : N) (p : pc S) (k : bytes) : Prop :=
    match p with
    | PTop c _ _ | PWalk c _ _ _ _ _ _ _ | PFree c _ _ _ _ _ _ | PRes c _ _ _ _ _ _ _ _ | PApp c _ _ _ _ _ _ _ _ _
    | PNew c _ _ _ _ _ | PLink c _ _ _ _ _ _ | PNum c _ _ _ => ic_w c = true /\ In (slot nb k) (cslots nb c)
    | _ => False
    end.
  Definition linking (nb : N) (p : pc S) : option N := match p with PLink c k _ _ _ _ _ => Some (hash k nb) | _ => None end.
  Definition pendp (p : pc S) : Z := match p with PLink _ _ _ _ _ _ d | PNum _ _ _ d => d | _ => 0%Z end.
  Fixpoint pend (f : nat -> pc S) (k : nat) : Z := match k with O => 0%Z | Datatypes.S j => (pend f j + pendp (f j))%Z end.
  Definition matches (p : pc S) (x : athr S) : Prop :=
    match p with
    | PIdle => x = AIdle
    | PMain c => x = ACalled c
    | PSlots c _ _ | PTop c _ _ | PWalk c _ _ _ _ _ _ _ | PFree c _ _ _ _ _ _ | PRes c _ _ _ _ _ _ _ _ | PApp c _ _ _ _ _ _ _ _ _
    | PNew c _ _ _ _ _ | PLink c _ _ _ _ _ _ | PNum c _ _ _ => x = ACalled (CItems c)
    | PUn _ s _ => x = ADone (RS s)
    | PExcl o s => x = ACalled (CExcl o s)
    | PCount => x = ACalled CCount
    | PRet r => x = ADone r
    | _ => False
    end.
  Record linv (nb : N) (hn : ptr) (L : N -> list node) : Prop := {
    l_out : forall i, nb <= i -> L i = [];
    l_key : forall i q k v, In (q, (k, v)) (L i) -> hash k nb = i /\ (q < hn)%nat;
    l_nodup : forall i, NoDup (keys (L i)) /\ NoDup (locs (L i));
    l_disj : forall i j q, In q (locs (L i)) -> In q (locs (L j)) -> i = j }.
  Definition excl (nb : N) (f : nat -> pc S) : Prop :=
    forall t u, t <> u ->
      (forall a b, main_of (f t) = Some a -> main_of (f u) = Some b -> ~ clash a b) /\
      (forall j, In j (slots_of nb (f t)) -> In j (slots_of nb (f u)) -> ~ clash (mode_of (f t)) (mode_of (f u))).
  Record ginv (y : sys S) (a : asys S) (L : N -> list node) : Prop := {
    i_nb : 0 < t_nb (y_m y);
    i_fin : forall t, (n <= t)%nat -> y_pc y t = PIdle;
    i_shape : forall i, i < t_nb (y_m y) -> seg (t_h (y_m y)) (t_b (y_m y) i) (L i) None \/ exists t, linking (t_nb (y_m y)) (y_pc y t) = Some i;
    i_lin : linv (t_nb (y_m y)) (hnext (t_h (y_m y))) L;
    i_num : t_num (y_m y) = (Z.of_nat (total L (N.to_nat (t_nb (y_m y)))) - pend (y_pc y) n)%Z;
    i_excl : excl (t_nb (y_m y)) (y_pc y);
    i_thr : forall t, thread_ok (y_m y) L (a_m a) (y_pc y t);
    i_free : forall k, (forall t, ~ dirty (t_nb (y_m y)) (y_pc y t) k) -> view hash (t_nb (y_m y)) L k = a_m a k;
    i_abs : forall t, matches (y_pc y t) (a_th a t) }.

  Lemma upd_same (f : nat -> pc S) t p : upd f t p t = p.
  Proof. unfold upd. rewrite Nat.eqb_refl. reflexivity. Qed.
  Lemma upd_other (f : nat -> pc S) t p u : u <> t -> upd f t p u = f u.
  Proof. intros H. unfold upd. apply Nat.eqb_neq in H. rewrite H. reflexivity. Qed.
  Lemma aupd_same (f : nat -> athr S) t p : aupd f t p t = p.
  Proof. unfold aupd. rewrite Nat.eqb_refl. reflexivity. Qed.
  Lemma aupd_other (f : nat -> athr S) t p u : u <> t -> aupd f t p u = f u.
  Proof. intros H. unfold aupd. apply Nat.eqb_neq in H. rewrite H. reflexivity. Qed.
  Lemma pend_ext f g k : (forall j, (j < k)%nat -> f j = g j) -> pend f k = pend g k.
  Proof. induction k; intros H; cbn; [reflexivity|]. rewrite IHk by (intros; apply H; lia). rewrite H by lia. reflexivity. Qed.
  Lemma pend_upd f t p k : (t < k)%nat -> pend (upd f t p) k = (pend f k - pendp (f t) + pendp p)%Z.
  Proof.
    induction k; intros H; [lia|]. cbn. destruct (Nat.eq_dec t k) as [->|E].
    - rewrite upd_same. rewrite (pend_ext (upd f k p) f k) by (intros; apply upd_other; lia). lia.
    - rewrite upd_other by lia. rewrite IHk by lia. lia.
  Qed.
  Lemma dirty_slots nb p k : dirty nb p k -> In (slot nb k) (slots_of nb p) /\ mode_of p = MX.
  Proof. destruct p; cbn; try easy; intros [-> H]; auto. Qed.
  Lemma linking_slots m L C p i : thread_ok m L C p -> linking (t_nb m) p = Some i -> In (i mod ns) (slots_of (t_nb m) p) /\ mode_of p = MX.
  Proof. destruct p; cbn; try easy. intros (_ & W & I & _) E. injection E as <-. rewrite W. auto. Qed.

  (** What other threads do elsewhere does not matter to a thread. *)
  Lemma view_at nb L L' x : L' (hash x nb) = L (hash x nb) -> view hash nb L' x = view hash nb L x.
  Proof. intros E. unfold view. rewrite E. reflexivity. Qed.
  Lemma thread_frame m L C m' L' C' p : 0 < t_nb m -> t_nb m' = t_nb m ->
    (forall i, i < t_nb m -> In (i mod ns) (slots_of (t_nb m) p) -> L' i = L i /\ t_b m' i = t_b m i /\ forall q, In q (locs (L i)) -> cell (t_h m') q = cell (t_h m) q) ->
    (forall x, In (slot (t_nb m) x) (slots_of (t_nb m) p) -> C' x = C x) ->
    thread_ok m L C p -> thread_ok m' L' C' p.
  Proof.
    intros H0 EN F FC.
    assert (PR : forall c r s, slots_of (t_nb m) p = cslots (t_nb m) c -> prog (t_nb m) L C c r s -> prog (t_nb m) L' C' c r s).
    { intros c r s E (W & dn & D1 & D2 & D3). split; [exact W|]. exists dn. split; [exact D1|]. rewrite E in F, FC.
      destruct (ref_items_local (fun x => In (slot (t_nb m) x) (cslots (t_nb m) c)) (ic_w c) dn C' C (ic_s c) FC) as [A B].
      { intros k it I. apply in_cslots. exists k, it. split; [rewrite D1; apply in_or_app; auto|reflexivity]. }
      split; [congruence|]. intros x Hx. rewrite (B x Hx), <- (D3 x Hx). apply view_at. apply F; [apply hash_lt, H0|exact Hx]. }
    assert (P1 : forall c k r s v, slots_of (t_nb m) p = cslots (t_nb m) c -> prog1 (t_nb m) L C c k r s v -> prog1 (t_nb m) L' C' c k r s v).
    { intros c k r s v E (W & W1 & dn & it & D1 & D2 & D3 & D4). split; [exact W|]. split; [exact W1|]. exists dn, it. split; [exact D1|]. rewrite E in F, FC.
      assert (Q : forall d', (exists e, ic_l c = d' ++ e) -> forall k it, In (k, it) d' -> In (slot (t_nb m) k) (cslots (t_nb m) c)).
      { intros d' [e Ee] k' it' I. apply in_cslots. exists k', it'. split; [rewrite Ee; apply in_or_app; auto|reflexivity]. }
      destruct (ref_items_local _ (ic_w c) dn C' C (ic_s c) FC (Q dn ltac:(eauto))) as [A B].
      assert (QQ : exists e, ic_l c = (dn ++ [(k, it)]) ++ e) by (exists r; rewrite <- app_assoc; exact D1).
      destruct (ref_items_local _ (ic_w c) (dn ++ [(k, it)]) C' C (ic_s c) FC (Q _ QQ)) as [A' B'].
      split; [congruence|]. split; [|intros x Hx; rewrite (B x Hx), <- (D4 x Hx); apply view_at; apply F; [apply hash_lt, H0|exact Hx]].
      intros x. destruct (beqb_spec k x) as [<-|NE].
      - assert (In (slot (t_nb m) k) (cslots (t_nb m) c)) as Hk by (eapply (Q _ QQ); apply in_or_app; right; left; reflexivity).
        rewrite (B' k Hk), D3, beqb_refl. reflexivity.
      - rewrite ref_items_app. destruct (ref_items C' dn (ic_w c) (ic_s c)) as [m1 s1]. cbn [ref_items].
        destruct (ref_item m1 k it (ic_w c) s1) as [m2 s2] eqn:E2. cbn [fst]. change m2 with (fst (m2, s2)). rewrite <- E2. apply ref_item_other. congruence. }
    assert (IK : forall (c : icall S) k, slots_of (t_nb m) p = cslots (t_nb m) c -> In (slot (t_nb m) k) (cslots (t_nb m) c) ->
      L' (hash k (t_nb m)) = L (hash k (t_nb m)) /\ t_b m' (hash k (t_nb m)) = t_b m (hash k (t_nb m)) /\
      (forall l r e, L (hash k (t_nb m)) = l ++ r -> seg (t_h m) (t_b m (hash k (t_nb m))) l e -> seg (t_h m') (t_b m (hash k (t_nb m))) l e) /\
      (forall l r a e, L (hash k (t_nb m)) = r ++ l -> seg (t_h m) a l e -> seg (t_h m') a l e) /\
      (forall q, In q (locs (L (hash k (t_nb m)))) -> cell (t_h m') q = cell (t_h m) q)).
    { intros c k E Hk. rewrite E in F. destruct (F (hash k (t_nb m)) (hash_lt k _ H0) Hk) as (F1 & F2 & F3).
      split; [exact F1|]. split; [exact F2|]. split; [|split; [|exact F3]].
      - intros l r e EL. apply seg_frame. intros q I. apply F3. rewrite EL, locs_app. apply in_or_app. auto.
      - intros l r a0 e EL. apply seg_frame. intros q I. apply F3. rewrite EL, locs_app. apply in_or_app. auto. }
    assert (KP : forall c k r s v, prog1 (t_nb m) L C c k r s v -> In (slot (t_nb m) k) (cslots (t_nb m) c)).
    { intros c k r s v (_ & _ & dn & it & D1 & _). apply in_cslots. exists k, it. split; [rewrite D1; apply in_or_app; right; left; reflexivity|reflexivity]. }
    assert (AT : forall c k r s v q parent child old, slots_of (t_nb m) p = cslots (t_nb m) c -> prog1 (t_nb m) L C c k r s v ->
      at_node m L k q parent child old -> at_node m' L' k q parent child old).
    { intros c k r s v q parent child old E P (l1 & l2 & A1 & A2 & A3 & A4 & A5). destruct (IK c k E (KP _ _ _ _ _ P)) as (F1 & F2 & F3 & F4 & F5).
      unfold at_node. rewrite EN, F1, F2. exists l1, l2. split; [exact A1|]. split; [eapply F3; eauto|]. split; [|split; [|exact A5]].
      - eapply holds_frame; [|exact A3]. apply F5. rewrite A1, locs_app. apply in_or_app. right. left. reflexivity.
      - eapply F4; [|exact A4]. rewrite A1. change ((q, (k, old)) :: l2) with ([(q, (k, old))] ++ l2). rewrite app_assoc. reflexivity. }
    destruct p; cbn [thread_ok slots_of TinyConcModel.slots_of] in *; rewrite ?EN; auto.
    - intros (A & l1 & l2 & B1 & B2 & B3 & B4 & B5 & B6). split; [apply PR; auto|].
      assert (In (slot (t_nb m) k) (cslots (t_nb m) c)) as Hk.
      { destruct A as (_ & dn & D1 & _). apply in_cslots. exists k, it. split; [rewrite D1; apply in_or_app; right; left; reflexivity|reflexivity]. }
      destruct (IK c k eq_refl Hk) as (F1 & F2 & F3 & F4 & F5). exists l1, l2. rewrite F1, F2. split; [exact B1|]. split; [eapply F3; eauto|]. split; [eapply F4; eauto|auto].
    - intros (A & old & B). split; [apply P1; auto|]. exists old. eapply AT; eauto.
    - intros (A & B). split; [apply P1; auto|]. eapply AT; eauto.
    - intros (A & B). split; [apply P1; auto|]. eapply AT; eauto.
    - intros (A & B1 & B2 & B3). split; [apply P1; auto|]. destruct (IK c k eq_refl (KP _ _ _ _ _ A)) as (F1 & F2 & F3 & F4 & F5). rewrite F1, F2.
      split; [exact B1|]. split; [exact B2|]. eapply F3; [symmetry; apply app_nil_r|exact B3].
    - intros (A & B1 & B2 & l1 & l2 & e & B3 & B4 & B5 & B6). split; [apply PR; auto|]. split; [exact B1|]. split; [exact B2|].
      destruct (IK c k eq_refl B2) as (F1 & F2 & F3 & F4 & F5). rewrite F1, F2. exists l1, l2, e. split; [exact B3|]. split; [eapply F3; eauto|]. split; [eapply F4; eauto|exact B6].
  Qed.

  Lemma excl_sub nb f t p : excl nb f -> (forall md, main_of p = Some md -> main_of (f t) = Some md) ->
    (forall j, In j (slots_of nb p) -> In j (slots_of nb (f t)) /\ mode_of p = mode_of (f t)) -> excl nb (upd f t p).
  Proof.
    intros E M SL t1 u1 NE. assert (G : forall u, exists v, (u = t /\ upd f t p u = p /\ v = f t) \/ (u <> t /\ upd f t p u = f u /\ v = f u)).
    { intros u. destruct (Nat.eq_dec u t) as [->|X]; [exists (f t); left; rewrite upd_same; auto|exists (f u); right; rewrite upd_other; auto]. }
    destruct (E t1 u1 NE) as [E1 E2]. destruct (Nat.eq_dec t1 t) as [->|X1], (Nat.eq_dec u1 t) as [->|X2]; try congruence;
      rewrite ?upd_same; rewrite ?upd_other by assumption; split.
    - intros a b Ha Hb. apply E1; auto.
    - intros j Ha Hb. destruct (SL j Ha) as [Ha' ->]. eapply E2; eauto.
    - intros a b Ha Hb. apply E1; auto.
    - intros j Ha Hb. destruct (SL j Hb) as [Hb' ->]. eapply E2; eauto.
    - exact E1.
    - exact E2.
  Qed.

  (** A transition of thread t that touches only what its exclusive record locks protect. *)
  Lemma local_step y a L t m' p' L' a' : ginv y a L -> (t < n)%nat ->
    t_nb m' = t_nb (y_m y) ->
    (forall i, i < t_nb (y_m y) -> (In (i mod ns) (slots_of (t_nb (y_m y)) (y_pc y t)) /\ mode_of (y_pc y t) = MX) \/
       (L' i = L i /\ t_b m' i = t_b (y_m y) i /\ forall q, In q (locs (L i)) -> cell (t_h m') q = cell (t_h (y_m y)) q)) ->
    linv (t_nb (y_m y)) (hnext (t_h m')) L' ->
    (forall i, i < t_nb (y_m y) -> In (i mod ns) (slots_of (t_nb (y_m y)) (y_pc y t)) -> mode_of (y_pc y t) = MX ->
       seg (t_h (y_m y)) (t_b (y_m y) i) (L i) None \/ linking (t_nb (y_m y)) (y_pc y t) = Some i ->
       seg (t_h m') (t_b m' i) (L' i) None \/ linking (t_nb (y_m y)) p' = Some i) ->
    (t_num m' - t_num (y_m y) = Z.of_nat (total L' (N.to_nat (t_nb (y_m y)))) - Z.of_nat (total L (N.to_nat (t_nb (y_m y)))) - (pendp p' - pendp (y_pc y t)))%Z ->
    excl (t_nb (y_m y)) (upd (y_pc y) t p') ->
    thread_ok m' L' (a_m a') p' ->
    (forall x, (In (slot (t_nb (y_m y)) x) (slots_of (t_nb (y_m y)) (y_pc y t)) /\ mode_of (y_pc y t) = MX) \/ a_m a' x = a_m a x) ->
    (forall x, In (slot (t_nb (y_m y)) x) (slots_of (t_nb (y_m y)) (y_pc y t)) -> mode_of (y_pc y t) = MX -> ~ dirty (t_nb (y_m y)) p' x ->
       (dirty (t_nb (y_m y)) (y_pc y t) x \/ view hash (t_nb (y_m y)) L x = a_m a x) -> view hash (t_nb (y_m y)) L' x = a_m a' x) ->
    matches p' (a_th a' t) -> (forall u, u <> t -> a_th a' u = a_th a u) ->
    ginv (mkSys m' (upd (y_pc y) t p')) a' L'.
  Proof.
    intros [I1 I2 I3 I4 I5 I6 I7 I8 I9] Ht EN LOC LI SH NU EX TH CC FR MA AB.
    set (nb := t_nb (y_m y)) in *.
    assert (XT : forall u j, u <> t -> In j (slots_of nb (y_pc y u)) -> In j (slots_of nb (y_pc y t)) /\ mode_of (y_pc y t) = MX -> False).
    { intros u j NE A [B M]. destruct (I6 t u ltac:(congruence)) as [_ E]. apply (E j B A). left. exact M. }
    constructor; cbn [y_m y_pc]; rewrite ?EN; fold nb.
    - exact I1.
    - intros u Hu. rewrite upd_other by lia. apply I2, Hu.
    - intros i Hi. destruct (LOC i Hi) as [[O M]|(O1 & O2 & O3)].
      + assert (seg (t_h (y_m y)) (t_b (y_m y) i) (L i) None \/ linking nb (y_pc y t) = Some i) as X.
        { destruct (I3 i Hi) as [X|(u & X)]; [auto|]. destruct (Nat.eq_dec u t) as [->|NE]; [auto|].
          destruct (linking_slots _ _ _ _ _ (I7 u) X) as [Y _]. destruct (XT u _ NE Y (conj O M)). }
        destruct (SH i Hi O M X) as [Y|Y]; [auto|]. right. exists t. rewrite upd_same. exact Y.
      + destruct (I3 i Hi) as [X|(u & X)].
        * left. rewrite O1, O2. eapply seg_frame; [exact O3|exact X].
        * destruct (Nat.eq_dec u t) as [->|NE].
          -- destruct (linking_slots _ _ _ _ _ (I7 t) X) as [Y M]. destruct (SH i Hi Y M (or_intror X)) as [Z|Z]; [auto|]. right. exists t. rewrite upd_same. exact Z.
          -- right. exists u. rewrite upd_other by exact NE. exact X.
    - exact LI.
    - rewrite pend_upd by exact Ht. lia.
    - exact EX.
    - intros u. destruct (Nat.eq_dec u t) as [->|NE]; [rewrite upd_same; exact TH|]. rewrite upd_other by exact NE.
      eapply thread_frame; [exact I1|exact EN| | |apply I7].
      + intros i Hi A. destruct (LOC i Hi) as [O|O]; [destruct (XT u _ NE A O)|exact O].
      + intros x A. destruct (CC x) as [O|O]; [destruct (XT u _ NE A O)|exact O].
    - intros x ND.
      assert (NT : ~ dirty nb p' x) by (specialize (ND t); rewrite upd_same in ND; exact ND).
      assert (NO : forall u, u <> t -> ~ dirty nb (y_pc y u) x) by (intros u NE; specialize (ND u); rewrite upd_other in ND by exact NE; exact ND).
      assert (HX : hash x nb < nb) by (apply hash_lt, I1).
      assert (DD : dirty nb (y_pc y t) x \/ view hash nb L x = a_m a x).
      { assert (dirty nb (y_pc y t) x \/ ~ dirty nb (y_pc y t) x) as [X|X].
        { destruct (y_pc y t) as [| | |? ? ?|? ? ? ? ? ? ? ?|? ? ? ? ? ? ?|? ? ? ? ? ? ? ? ?|? ? ? ? ? ? ? ? ? ?|? ? ? ? ? ?|? ? ? ? ? ? ?|? ? ? ?| | | | | | | |]; cbn; try (right; tauto);
            (destruct (ic_w c); [|right; intros [? _]; discriminate]; destruct (in_dec N.eq_dec (slot nb x) (cslots nb c)); [left; auto|right; tauto]). }
        - auto.
        - right. apply I8. intros u. destruct (Nat.eq_dec u t) as [->|NE]; auto. }
      destruct (in_dec N.eq_dec (slot nb x) (slots_of nb (y_pc y t))) as [A|A].
      + destruct (mode_of (y_pc y t)) eqn:EM; [apply FR; auto|].
        destruct (LOC _ HX) as [[_ O]|(O1 & _ & _)]; [discriminate|]. destruct (CC x) as [[_ O]|O]; [discriminate|].
        rewrite (view_at nb L L' x O1), O. destruct DD as [DD|DD]; [|exact DD]. apply dirty_slots in DD. destruct DD. congruence.
      + destruct (LOC _ HX) as [[O _]|(O1 & _ & _)]; [contradiction|]. destruct (CC x) as [[O _]|O]; [contradiction|].
        rewrite (view_at nb L L' x O1), O. destruct DD as [DD|DD]; [|exact DD]. apply dirty_slots in DD. destruct DD. contradiction.
    - intros u. destruct (Nat.eq_dec u t) as [->|NE]; [rewrite upd_same; exact MA|]. rewrite upd_other, AB by exact NE. apply I9.
  Qed.
End Inv.
