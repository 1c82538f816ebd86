(** C34: the LRU caches.  Source: /repo/tkrzw_containers.h. *)
From Coq Require Import List ZArith NArith Bool Lia PeanoNat Permutation Sorted.
Import ListNotations.
From Verif Require Import LinkedModel LinkedProofs LruModel.
Local Open Scope N_scope.

Section C34.
  Variable V : Type.
  Variable hash : Z -> N.

  (** * Specification: entries with the time of their last use *)
  Definition ents := Z -> option (V * N).
  Definition e_none : ents := fun _ => None.
  Definition e_put (E : ents) (id : Z) (v : V) (t : N) : ents := fun x => if Z.eqb x id then Some (v, t) else E x.
  Definition e_del (E : ents) (id : Z) : ents := fun x => if Z.eqb x id then None else E x.
  (** id is the least recently used entry. *)
  Definition oldest (E : ents) (id : Z) (v : V) : Prop :=
    exists t, E id = Some (v, t) /\ forall id' v' t', E id' = Some (v', t') -> id' <> id -> t < t'.
  Definition e_empty (E : ents) : Prop := forall id, E id = None.
  Definition e_count (E : ents) (n : N) : Prop := exists ids, NoDup ids /\ (forall id, In id ids <-> E id <> None) /\ n = N.of_nat (length ids).

  (** Operations and results of a cache. *)
  Inductive cop := CAdd (id : Z) (v : V) | CGiveBack (id : Z) (v : V) | CGet (id : Z) | CRemove (id : Z) | CRemoveLRU | CClear.
  Inductive cres := CVal (v : V) | CMaybe (v : option V) | CRec (r : option (Z * V)) | CNone.
  (** One operation at time t. *)
  Definition c_step (E : ents) (t : N) (o : cop) (r : cres) (E' : ents) : Prop :=
    match o with
    | CAdd id v => match E id with Some (w, _) => r = CVal w /\ (forall x, E' x = E x) | None => r = CVal v /\ (forall x, E' x = e_put E id v t x) end
    | CGiveBack id v => r = CNone /\ match E id with Some _ => forall x, E' x = E x | None => forall x, E' x = e_put E id v t x end
    | CGet id => match E id with Some (w, _) => r = CMaybe (Some w) /\ (forall x, E' x = e_put E id w t x) | None => r = CMaybe None /\ (forall x, E' x = E x) end
    | CRemove id => r = CNone /\ forall x, E' x = e_del E id x
    | CRemoveLRU => (e_empty E /\ r = CRec None /\ e_empty E') \/ exists id v, oldest E id v /\ r = CRec (Some (id, v)) /\ forall x, E' x = e_del E id x
    | CClear => r = CNone /\ e_empty E'
    end.
  Inductive c_steps : ents -> N -> list cop -> list cres -> ents -> Prop :=
  | c_nil E t : c_steps E t [] [] E
  | c_cons E t o r E1 os rs E2 : c_step E t o r E1 -> c_steps E1 (t + 1) os rs E2 -> c_steps E t (o :: os) (r :: rs) E2.

  (** * Execution of LRUCache *)
  Definition c_exec (c : lru V) (o : cop) : option (cres * lru V) :=
    match o with
    | CAdd id v => r <- lru_add hash c id v ;; Some (CVal (fst r), snd r)
    | CGiveBack id v => r <- lru_give_back hash c id v ;; Some (CNone, r)
    | CGet id => r <- lru_get hash c id ;; Some (CMaybe (fst r), snd r)
    | CRemove id => r <- lru_remove hash c id ;; Some (CNone, r)
    | CRemoveLRU => r <- lru_remove_lru hash c ;; Some (CRec (fst r), snd r)
    | CClear => r <- lru_clear c ;; Some (CNone, r)
    end.
  Fixpoint c_run (c : lru V) (os : list cop) : option (list cres * lru V) :=
    match os with
    | [] => Some ([], c)
    | o :: os => r <- c_exec c o ;; q <- c_run (snd r) os ;; Some (fst r :: fst q, snd q)
    end.

  (** * Proof *)
  Lemma NoDup_app_intro A (a b : list A) : NoDup a -> NoDup b -> (forall x, In x a -> ~ In x b) -> NoDup (a ++ b).
  Proof. induction 1; cbn; intros Nb D; [exact Nb|]. constructor; [rewrite in_app_iff; intros [X|X]; [auto|eapply D; eauto]|apply IHNoDup; auto]. Qed.
  (** A list in order of the times of last use. *)
  Definition e_of (tl : list (Z * V * N)) : ents := fun id => match find (fun x => Z.eqb (fst (fst x)) id) tl with Some x => Some (snd (fst x), snd x) | None => None end.
  Definition trip (l : list (Z * V)) (E : ents) (c : N) : Prop :=
    exists tl, l = map fst tl /\ StronglySorted (fun a b => snd a < snd b) tl /\ Forall (fun a => snd a < c) tl /\ NoDup (map fst l) /\ forall id, E id = e_of tl id.
  Lemma trip_ext l E E' c : trip l E c -> (forall x, E' x = E x) -> trip l E' c.
  Proof. intros (tl & A & B & C & D & F) H. exists tl. repeat split; auto. intros id. rewrite H. apply F. Qed.
  Lemma trip_mono l E c c' : c <= c' -> trip l E c -> trip l E c'.
  Proof. intros H (tl & A & B & C & D & F). exists tl. repeat split; auto. eapply Forall_impl; [|exact C]. cbn. intros. lia. Qed.
  Notation sfind := (s_find Z V Z.eqb). Notation sdel := (s_del Z V Z.eqb).
  Lemma trip_find l E c id : trip l E c -> option_map snd (sfind id l) = option_map fst (E id).
  Proof.
    intros (tl & -> & _ & _ & _ & F). rewrite F. unfold e_of, s_find. clear F. induction tl as [|x tl IH]; cbn [map find]; [reflexivity|]. destruct (Z.eqb (fst (fst x)) id); [reflexivity|exact IH].
  Qed.
  Lemma trip_find_none l E c id : trip l E c -> sfind id l = None <-> E id = None.
  Proof. intros T. assert (X := trip_find _ _ _ id T). destruct (sfind id l), (E id); cbn in X; split; congruence. Qed.
  Lemma trip_find_some l E c id kv : trip l E c -> sfind id l = Some kv -> exists t, E id = Some (snd kv, t).
  Proof. intros T H. assert (X := trip_find _ _ _ id T). rewrite H in X. destruct (E id) as [[v t]|]; cbn in X; [|discriminate]. injection X as ->. eauto. Qed.
  Lemma e_of_app tl x id : e_of (tl ++ [x]) id = match e_of tl id with Some y => Some y | None => if Z.eqb (fst (fst x)) id then Some (snd (fst x), snd x) else None end.
  Proof.
    unfold e_of. induction tl as [|y tl IH]; cbn [app find]; [destruct (Z.eqb (fst (fst x)) id); reflexivity|]. destruct (Z.eqb (fst (fst y)) id); [reflexivity|exact IH].
  Qed.
  Lemma sorted_snoc (tl : list (Z * V * N)) x : StronglySorted (fun a b => snd a < snd b) tl -> Forall (fun a => snd a < snd x) tl -> StronglySorted (fun a b => snd a < snd b) (tl ++ [x]).
  Proof.
    induction 1 as [|y tl S IH F]; intros H; cbn; [constructor; constructor|]. inversion H; subst. constructor; [apply IH; assumption|]. apply Forall_app. split; [exact F|constructor; [assumption|constructor]].
  Qed.
  Lemma trip_push l E c id v : trip l E c -> E id = None -> trip (l ++ [(id, v)]) (e_put E id v c) (c + 1).
  Proof.
    intros T H. assert (N := proj2 (trip_find_none _ _ _ id T) H). destruct T as (tl & -> & B & C & D & F). exists (tl ++ [((id, v), c)]). split; [rewrite map_app; reflexivity|]. split; [apply sorted_snoc; auto|]. split.
    - apply Forall_app. split; [eapply Forall_impl; [|exact C]; cbn; intros; lia|constructor; [cbn; lia|constructor]].
    - split.
      + rewrite map_app. cbn. apply NoDup_Add with (a := id) (l := map fst (map fst tl)); [rewrite <- (app_nil_r (map fst (map fst tl))) at 1; apply Add_app|]. split; [exact D|].
        intros X. apply in_map_iff in X. destruct X as (kv & E1 & I). unfold s_find in N. apply (find_none _ _ N) in I. rewrite E1, Z.eqb_refl in I. discriminate.
      + intros x. rewrite e_of_app. unfold e_put. cbn [fst snd]. rewrite (Z.eqb_sym id x). destruct (Z.eqb_spec x id) as [->|]; [|rewrite F; destruct (e_of tl x); reflexivity]. rewrite <- F, H. reflexivity.
  Qed.
  Lemma trip_del l E c id : trip l E c -> trip (sdel id l) (e_del E id) c.
  Proof.
    intros (tl & -> & B & C & D & F). exists (filter (fun x => negb (Z.eqb (fst (fst x)) id)) tl). split; [|split; [|split; [|split]]].
    - unfold s_del. clear. induction tl as [|x tl IH]; cbn; [reflexivity|]. destruct (Z.eqb (fst (fst x)) id); cbn; rewrite IH; reflexivity.
    - clear -B. induction B as [|x tl S IH F]; cbn; [constructor|]. destruct (negb _); [|exact IH]. constructor; [exact IH|]. rewrite Forall_forall in *. intros y Hy. apply filter_In in Hy. apply F, Hy.
    - rewrite Forall_forall in *. intros y Hy. apply filter_In in Hy. apply C, Hy.
    - clear -D. revert D. unfold s_del. induction (map fst tl) as [|x l IH]; cbn; intros D; [constructor|]. inversion D; subst. destruct (negb _); cbn; auto. constructor; [|auto]. intros X. apply H1. apply in_map_iff in X. destruct X as (y & <- & Y). apply filter_In in Y. apply in_map, Y.
    - intros x. unfold e_del. rewrite F. unfold e_of. clear. induction tl as [|y tl IH]; cbn [filter find]; [destruct (Z.eqb x id); reflexivity|].
      destruct (Z.eqb_spec (fst (fst y)) id) as [E|E]; cbn [negb].
      + rewrite <- IH. destruct (Z.eqb_spec x id) as [X|X]; [reflexivity|]. destruct (Z.eqb_spec (fst (fst y)) x); [congruence|reflexivity].
      + cbn [find]. destruct (Z.eqb_spec (fst (fst y)) x) as [X|X]; [|exact IH]. destruct (Z.eqb_spec x id); [congruence|reflexivity].
  Qed.
  Lemma trip_touch l E c id v t : trip l E c -> E id = Some (v, t) -> trip (sdel id l ++ [(id, v)]) (e_put E id v c) (c + 1).
  Proof.
    intros T H. assert (X := trip_push _ _ _ id v (trip_del _ _ _ id T)). eapply trip_ext; [apply X; unfold e_del; rewrite Z.eqb_refl; reflexivity|].
    intros x. unfold e_put, e_del. destruct (Z.eqb x id); reflexivity.
  Qed.
  Lemma trip_front l E c id v : trip l E c -> hd_error l = Some (id, v) -> oldest E id v.
  Proof.
    intros (tl & -> & B & C & D & F) H. destruct tl as [|[[i w] t] tl]; cbn in H; [discriminate|]. injection H as -> ->. exists t. rewrite F. unfold e_of. cbn [find fst snd]. rewrite Z.eqb_refl. split; [reflexivity|].
    intros id' v' t' E' NE. rewrite F in E'. unfold e_of in E'. cbn [find fst snd] in E'. destruct (Z.eqb_spec id id') as [X|_]; [congruence|].
    destruct (find _ tl) as [x|] eqn:G; [|discriminate]. injection E' as <- <-. apply find_some in G. inversion B; subst. rewrite Forall_forall in *. apply (H2 x), G.
  Qed.
  Lemma trip_nil E c : trip [] E c <-> e_empty E.
  Proof.
    split; [intros (tl & A & _ & _ & _ & F) id; destruct tl; [|discriminate]; rewrite F; reflexivity|]. intros H. exists []. repeat split; try constructor. intros id. rewrite H. reflexivity.
  Qed.
  Lemma trip_count l E c : trip l E c -> e_count E (N.of_nat (length l)).
  Proof.
    intros T. exists (map fst l). assert (T' := T). destruct T' as (tl & _ & _ & _ & D & _). split; [exact D|]. rewrite map_length. split; [|reflexivity]. intros id. rewrite <- (trip_find_none _ _ _ _ T). split.
    - intros X N. apply in_map_iff in X. destruct X as (kv & E1 & I). apply (find_none _ _ N) in I. rewrite E1, Z.eqb_refl in I. discriminate.
    - intros X. destruct (sfind id l) as [kv|] eqn:G; [|congruence]. apply find_some in G. destruct G as [G1 G2]. apply Z.eqb_eq in G2. subst. apply in_map, G1.
  Qed.
  Lemma zspec : forall a b, reflect (a = b) (Z.eqb a b).
  Proof. exact Z.eqb_spec. Qed.
  Notation Rep := (rep Z V hash).

  Lemma find_key id l kv : sfind id l = Some kv -> kv = (id, snd kv).
  Proof. intros H. apply find_some in H. destruct H as [_ H]. apply Z.eqb_eq in H. destruct kv; cbn in *. congruence. Qed.
  Lemma c_exec_ok c L l E t o : Rep (lr_heap c) (lr_map c) L l -> trip l E t ->
    exists r c' L' l' E', c_exec c o = Some (r, c') /\ Rep (lr_heap c') (lr_map c') L' l' /\ c_step E t o r E' /\ trip l' E' (t + 1) /\ lr_cap c' = lr_cap c.
  Proof.
    intros R T. destruct o as [id v|id v|id|id| |]; cbn [c_exec c_step].
    - destruct (set_ok _ _ Z.eqb hash zspec _ _ L l id v false MOVE_LAST R) as (h' & m' & L' & E1 & R' & _). unfold lru_add. rewrite E1. cbn [obind fst snd].
      destruct (sfind id l) as [kv|] eqn:G.
      + destruct (trip_find_some _ _ _ _ _ T G) as [t0 EE]. rewrite EE. eexists _, _, L', l, E. split; [reflexivity|]. split; [exact R'|]. split; [|split; [eapply trip_mono; [|exact T]; lia|reflexivity]]. split; [reflexivity|auto].
      + apply (trip_find_none _ _ _ _ T) in G. rewrite G. eexists _, _, L', _, (e_put E id v t). split; [reflexivity|]. split; [exact R'|]. split; [|split; [apply trip_push; assumption|reflexivity]]. split; [reflexivity|auto].
    - destruct (set_ok _ _ Z.eqb hash zspec _ _ L l id v false MOVE_LAST R) as (h' & m' & L' & E1 & R' & _). unfold lru_give_back. rewrite E1. cbn [obind fst snd].
      destruct (sfind id l) as [kv|] eqn:G.
      + destruct (trip_find_some _ _ _ _ _ T G) as [t0 EE]. rewrite EE. eexists _, _, L', l, E. split; [reflexivity|]. split; [exact R'|]. split; [|split; [eapply trip_mono; [|exact T]; lia|reflexivity]]. split; [reflexivity|auto].
      + apply (trip_find_none _ _ _ _ T) in G. rewrite G. eexists _, _, L', _, (e_put E id v t). split; [reflexivity|]. split; [exact R'|]. split; [|split; [apply trip_push; assumption|reflexivity]]. split; [reflexivity|auto].
    - destruct (get_ok _ _ Z.eqb hash zspec _ _ L l id MOVE_LAST R) as (h' & m' & L' & E1 & R' & _). unfold lru_get. rewrite E1. cbn [obind fst snd].
      destruct (sfind id l) as [kv|] eqn:G.
      + destruct (trip_find_some _ _ _ _ _ T G) as [t0 EE]. rewrite EE. eexists _, _, L', _, (e_put E id (snd kv) t). split; [reflexivity|]. split; [exact R'|]. split; [split; [reflexivity|auto]|]. split; [|reflexivity].
        assert (X := find_key _ _ _ G). cbn [s_move]. rewrite X. cbn [fst snd]. eapply trip_touch; eauto.
      + apply (trip_find_none _ _ _ _ T) in G. rewrite G. eexists _, _, L', _, E. split; [reflexivity|]. split; [exact R'|]. split; [split; [reflexivity|auto]|]. split; [eapply trip_mono; [|exact T]; lia|reflexivity].
    - destruct (remove_ok _ _ Z.eqb hash zspec _ _ L l id R) as (h' & m' & L' & E1 & R' & _). unfold lru_remove. rewrite E1. cbn [obind fst snd].
      eexists _, _, L', _, (e_del E id). split; [reflexivity|]. split; [exact R'|]. split; [split; [reflexivity|auto]|]. split; [eapply trip_mono; [|apply trip_del; exact T]; lia|reflexivity].
    - destruct (items_ok _ _ Z.eqb hash zspec _ _ _ _ R) as (_ & _ & EZ & EF & _). unfold lru_remove_lru, lm_empty. unfold lm_size in EZ. rewrite EZ, EF. destruct l as [|[id v] l].
      + cbn. eexists _, c, L, [], E. split; [reflexivity|]. split; [exact R|]. split; [left; assert (X := proj1 (trip_nil _ _) T); auto|]. split; [eapply trip_mono; [|exact T]; lia|reflexivity].
      + cbn [length]. destruct (N.eqb_spec (N.of_nat (S (length l))) 0) as [X|_]; [lia|]. cbn [negb hd_error obind fst].
        destruct (remove_ok _ _ Z.eqb hash zspec _ _ L _ id R) as (h' & m' & L' & E1 & R' & _). rewrite E1. cbn [obind fst snd].
        eexists _, _, L', _, (e_del E id). split; [reflexivity|]. split; [exact R'|]. split; [right; exists id, v; split; [eapply trip_front; [exact T|reflexivity]|auto]|]. split; [eapply trip_mono; [|apply trip_del; exact T]; lia|reflexivity].
    - destruct (clear_ok _ _ hash _ _ L l R) as (h' & m' & E1 & R' & _). unfold lru_clear. rewrite E1. cbn [obind fst snd].
      eexists _, _, [], [], e_none. split; [reflexivity|]. split; [exact R'|]. split; [split; [reflexivity|intros x; reflexivity]|]. split; [|reflexivity]. apply trip_nil. intros x. reflexivity.
  Qed.

  (** Every history: what Add and Get return, and that RemoveLRU removes exactly the least
      recently used entry; the number of entries, and saturation. *)
  Theorem C34_lru capacity os :
    exists rs c E l, c_run (lru_new capacity) os = Some (rs, c) /\ c_steps e_none 0 os rs E /\
      e_count E (lru_size c) /\ lru_is_saturated c = (capacity <? lru_size c) /\
      lru_items c = Some l /\ (forall id v, In (id, v) l <-> exists t, E id = Some (v, t)) /\
      (forall a b id v id' v' t t', l = a ++ (id, v) :: b -> In (id', v') b -> E id = Some (v, t) -> E id' = Some (v', t') -> t < t').
  Proof.
    assert (G : forall os c L l E t, Rep (lr_heap c) (lr_map c) L l -> trip l E t ->
      exists rs c' L' l' E', c_run c os = Some (rs, c') /\ c_steps E t os rs E' /\ Rep (lr_heap c') (lr_map c') L' l' /\ trip l' E' (t + N.of_nat (length os)) /\ lr_cap c' = lr_cap c).
    { clear. induction os as [|o os IH]; intros c L l E t R T; cbn [c_run].
      - exists [], c, L, l, E. rewrite N.add_0_r. split; [reflexivity|]. split; [constructor|]. split; [exact R|]. split; [exact T|reflexivity].
      - destruct (c_exec_ok c L l E t o R T) as (r & c1 & L1 & l1 & E1 & X & R1 & S1 & T1 & C1). rewrite X. cbn [obind fst snd].
        destruct (IH c1 L1 l1 E1 (t + 1) R1 T1) as (rs & c2 & L2 & l2 & E2 & Y & S2 & R2 & T2 & C2). rewrite Y. cbn [obind fst snd]. exists (r :: rs), c2, L2, l2, E2. split; [reflexivity|]. split; [econstructor; eauto|]. split; [exact R2|].
        split; [|congruence]. replace (t + N.of_nat (length (o :: os))) with (t + 1 + N.of_nat (length os)) by (cbn [length]; lia). exact T2. }
    destruct (G os (lru_new capacity) [] [] e_none 0 (new_ok _ _ hash _ _) ltac:(apply trip_nil; intros x; reflexivity)) as (rs & c & L & l & E & X & S & R & T & C).
    destruct (items_ok _ _ Z.eqb hash zspec _ _ _ _ R) as (EI & _ & EZ & _). exists rs, c, E, l. split; [exact X|]. split; [exact S|]. split; [unfold lru_size; rewrite EZ; eapply trip_count; exact T|]. split; [unfold lru_is_saturated; rewrite C; reflexivity|]. split; [exact EI|].
    destruct T as (tl & -> & B & _ & D & F). assert (FI : forall x, In x tl -> E (fst (fst x)) = Some (snd (fst x), snd x)).
    { intros x Hx. rewrite F. unfold e_of. clear -Hx D. induction tl as [|y tl IH]; [destruct Hx|]. cbn [map] in D. inversion D; subst. cbn [find]. destruct (Z.eqb_spec (fst (fst y)) (fst (fst x))) as [Y|Y].
      - destruct Hx as [->|Hx]; [reflexivity|]. exfalso. apply H1. rewrite Y. apply in_map, in_map, Hx.
      - destruct Hx as [->|Hx]; [congruence|]. apply IH; assumption. }
    split.
    - intros id v. split.
      + intros I. apply in_map_iff in I. destruct I as ([kv t] & E1 & I). apply FI in I. cbn in *. subst kv. eauto.
      + intros [t E1]. rewrite F in E1. unfold e_of in E1. destruct (find _ tl) as [x|] eqn:Gf; [|discriminate]. injection E1 as <- <-. apply find_some in Gf. destruct Gf as [G1 G2]. apply Z.eqb_eq in G2. subst id. rewrite <- surjective_pairing. apply in_map, G1.
    - intros a b id v id' v' t t' EL I E1 E2. clear -FI B EL I E1 E2. revert a EL. induction tl as [|x tl IH]; intros a EL; [destruct a; discriminate|]. inversion B; subst. cbn [map] in EL. destruct a as [|y a].
      + injection EL as EL1 EL2. assert (X1 := FI x (or_introl eq_refl)). rewrite EL1 in X1. cbn [fst snd] in X1. rewrite E1 in X1. injection X1 as ->.
        rewrite <- EL2 in I. apply in_map_iff in I. destruct I as (z & Ez & Iz). assert (X2 := FI z (or_intror Iz)). rewrite Ez in X2. cbn [fst snd] in X2. rewrite E2 in X2. injection X2 as ->. rewrite Forall_forall in H2. apply H2, Iz.
      + injection EL as EL1 EL2. apply (IH H1 ltac:(intros z Hz; apply FI; right; exact Hz) a EL2).
  Qed.
  (** * DoubleLRUCache: hot and warm entries, each with the time of its last use *)
  Inductive dop := DAdd (id : Z) (v : V) | DGiveBack (id : Z) (v : V) | DGet (id : Z) (promotion : bool) | DRemove (id : Z) | DRemoveLRU | DClear.
  (** Before a promotion, the least recently used hot entry becomes a warm one if the hot ones are at the capacity. *)
  Definition d_demote (cap : N) (H W : ents) (t : N) (H' W' : ents) : Prop :=
    exists n, e_count H n /\
      ((n < cap /\ (forall x, H' x = H x) /\ (forall x, W' x = W x)) \/
       (cap <= n /\ exists id v, oldest H id v /\ (forall x, H' x = e_del H id x) /\ forall x, W' x = e_put W id v t x)).
  Definition d_step (cap : N) (H W : ents) (t : N) (o : dop) (r : cres) (H' W' : ents) : Prop :=
    match o with
    | DAdd id v => (forall x, H' x = H x) /\
        match H id, W id with
        | Some (w, _), _ | None, Some (w, _) => r = CVal w /\ forall x, W' x = W x
        | None, None => r = CVal v /\ forall x, W' x = e_put W id v t x
        end
    | DGiveBack id v => r = CNone /\ (forall x, H' x = H x) /\ match W id with Some _ => forall x, W' x = W x | None => forall x, W' x = e_put W id v t x end
    | DGet id false =>
        match H id, W id with
        | Some (w, _), _ => r = CMaybe (Some w) /\ (forall x, H' x = e_put H id w t x) /\ forall x, W' x = W x
        | None, Some (w, _) => r = CMaybe (Some w) /\ (forall x, H' x = H x) /\ forall x, W' x = e_put W id w t x
        | None, None => r = CMaybe None /\ (forall x, H' x = H x) /\ forall x, W' x = W x
        end
    | DGet id true =>
        match H id with
        | Some (w, _) => r = CMaybe (Some w) /\ (forall x, H' x = e_put H id w t x) /\ forall x, W' x = W x
        | None => exists H1 W1, d_demote cap H W t H1 W1 /\
            match W1 id with
            | Some (w, _) => r = CMaybe (Some w) /\ (forall x, H' x = e_put H1 id w t x) /\ forall x, W' x = e_del W1 id x
            | None => r = CMaybe None /\ (forall x, H' x = H1 x) /\ forall x, W' x = W1 x
            end
        end
    | DRemove id => r = CNone /\ match H id with
        | Some _ => (forall x, H' x = e_del H id x) /\ forall x, W' x = W x
        | None => (forall x, H' x = H x) /\ forall x, W' x = e_del W id x end
    | DRemoveLRU =>
        (exists id v, oldest W id v /\ r = CRec (Some (id, v)) /\ (forall x, H' x = H x) /\ forall x, W' x = e_del W id x) \/
        (e_empty W /\ e_empty W' /\
          ((exists id v, oldest H id v /\ r = CRec (Some (id, v)) /\ forall x, H' x = e_del H id x) \/ (e_empty H /\ e_empty H' /\ r = CRec None)))
    | DClear => r = CNone /\ e_empty H' /\ e_empty W'
    end.
  Inductive d_steps (cap : N) : ents -> ents -> N -> list dop -> list cres -> ents -> ents -> Prop :=
  | d_nil H W t : d_steps cap H W t [] [] H W
  | d_cons H W t o r H1 W1 os rs H2 W2 : d_step cap H W t o r H1 W1 -> d_steps cap H1 W1 (t + 1) os rs H2 W2 -> d_steps cap H W t (o :: os) (r :: rs) H2 W2.
  Definition d_exec (c : dlru V) (o : dop) : option (cres * dlru V) :=
    match o with
    | DAdd id v => r <- dlru_add hash c id v ;; Some (CVal (fst r), snd r)
    | DGiveBack id v => r <- dlru_give_back hash c id v ;; Some (CNone, r)
    | DGet id p => r <- dlru_get hash c id p ;; Some (CMaybe (fst r), snd r)
    | DRemove id => r <- dlru_remove hash c id ;; Some (CNone, r)
    | DRemoveLRU => r <- dlru_remove_lru hash c ;; Some (CRec (fst r), snd r)
    | DClear => r <- dlru_clear c ;; Some (CNone, r)
    end.
  Fixpoint d_run (c : dlru V) (os : list dop) : option (list cres * dlru V) :=
    match os with
    | [] => Some ([], c)
    | o :: os => r <- d_exec c o ;; q <- d_run (snd r) os ;; Some (fst r :: fst q, snd q)
    end.

  Lemma trip_put l E c id v : trip l E c -> trip (match sfind id l with Some _ => sdel id l ++ [(id, v)] | None => l ++ [(id, v)] end) (e_put E id v c) (c + 1).
  Proof.
    intros T. destruct (sfind id l) eqn:G; [|apply trip_push; [exact T|apply (trip_find_none _ _ _ _ T), G]].
    assert (X := trip_push _ _ _ id v (trip_del _ _ _ id T)). eapply trip_ext; [apply X; unfold e_del; rewrite Z.eqb_refl; reflexivity|].
    intros x. unfold e_put, e_del. destruct (Z.eqb x id); reflexivity.
  Qed.
  (** A cache represents two lists in disjoint memory. *)
  Definition drep (c : dlru V) (lh lw : list (Z * V)) : Prop :=
    exists L L2, Rep (d_heap c) (d_hot c) L lh /\ Rep (d_heap c) (d_warm c) L2 lw /\ disjoint L L2.
  Lemma lt_fresh h m L l : Rep h m L l -> ~ In (hfresh h) L.
  Proof. intros R X. apply (r_lt _ _ _ _ _ _ _ R) in X. lia. Qed.
  Lemma trip_len l E c : trip l E c -> forall n, e_count E n -> n = N.of_nat (length l).
  Proof.
    intros T n (ids & ND & I & ->). destruct (trip_count _ _ _ T) as (ids' & ND' & I' & ->). f_equal. apply Nat.le_antisymm; apply NoDup_incl_length; auto; intros x Hx; [apply I', I, Hx|apply I, I', Hx].
  Qed.
  Lemma e_put_len l (kv : Z * V) : (length (match sfind (fst kv) l with Some _ => s_move Z V Z.eqb MOVE_LAST kv l | None => linked MOVE_LAST l kv end) <= S (length l))%nat.
  Proof.
    assert (X : (length (sdel (fst kv) l) <= length l)%nat) by (unfold s_del; clear; induction l as [|x l IH]; cbn; [lia|]; destruct (negb _); cbn; lia).
    destruct (sfind _ _); cbn; rewrite app_length; cbn; lia.
  Qed.
  Lemma del_len l id : (length (sdel id l) <= length l)%nat.
  Proof. unfold s_del; induction l as [|x l IH]; cbn; [lia|]; destruct (negb _); cbn; lia. Qed.
  Lemma del_len_in l kv : In kv l -> (length (sdel (fst kv) l) < length l)%nat.
  Proof.
    intros I. induction l as [|x l IH]; [destruct I|]. unfold s_del in *. cbn [filter]. assert (X := del_len l (fst kv)). unfold s_del in X. destruct I as [->|I].
    - rewrite Z.eqb_refl. cbn. lia.
    - destruct (negb _); cbn; [apply IH in I|]; lia.
  Qed.

  Lemma d_exec_ok c lh lw H W t o : 0 < d_hcap c -> N.of_nat (length lh) <= d_hcap c -> drep c lh lw -> trip lh H t -> trip lw W t ->
    exists r c' lh' lw' H' W', d_exec c o = Some (r, c') /\ drep c' lh' lw' /\ d_step (d_hcap c) H W t o r H' W' /\ trip lh' H' (t + 1) /\ trip lw' W' (t + 1) /\
      d_hcap c' = d_hcap c /\ d_wcap c' = d_wcap c /\ N.of_nat (length lh') <= d_hcap c.
  Proof.
    intros HC HL (L & L2 & RH & RW & DJ) TH TW.
    assert (TH1 : trip lh H (t + 1)) by (eapply trip_mono; [|exact TH]; lia). assert (TW1 : trip lw W (t + 1)) by (eapply trip_mono; [|exact TW]; lia).
    assert (SetW : forall h id v, Rep h (d_hot c) L lh -> Rep h (d_warm c) L2 lw ->
      exists h' w' lw' W', lm_set Z.eqb hash h (d_warm c) id v false MOVE_LAST = Some (match sfind id lw with Some kv => kv | None => (id, v) end, h', w') /\
        (exists L2', Rep h' (d_hot c) L lh /\ Rep h' w' L2' lw' /\ disjoint L L2') /\ trip lw' W' (t + 1) /\
        match W id with Some _ => forall x, W' x = W x | None => forall x, W' x = e_put W id v t x end).
    { clear RH RW. intros h id v RH RW. destruct (set_ok _ _ Z.eqb hash zspec _ _ L2 lw id v false MOVE_LAST RW) as (h' & m' & L' & E1 & R' & F & I).
      exists h', m', (match sfind id lw with Some _ => lw | None => linked MOVE_LAST lw (id, v) end), (match W id with Some _ => W | None => e_put W id v t end). split; [rewrite E1; destruct (sfind id lw); reflexivity|]. split; [|split].
      - exists L'. split; [eapply rep_frame; [exact RH|exact F|exact DJ]|]. split; [exact R'|]. intros p Hp Hq. destruct (I p Hq) as [X|X]; [apply (DJ p); assumption|]. subst p. exact (lt_fresh _ _ _ _ RH Hp).
      - destruct (sfind id lw) eqn:G.
        + destruct (trip_find_some _ _ _ _ _ TW G) as [t0 ->]. exact TW1.
        + apply (trip_find_none _ _ _ _ TW) in G. rewrite G. apply trip_push; assumption.
      - destruct (W id); auto. }
    assert (GetH : forall id md, exists h' m' L', lm_get Z.eqb hash (d_heap c) (d_hot c) id md = Some (sfind id lh, h', m') /\
        Rep h' m' L' (match sfind id lh with Some kv => s_move Z V Z.eqb md kv lh | None => lh end) /\ Rep h' (d_warm c) L2 lw /\ disjoint L' L2 /\ (sfind id lh = None -> m' = d_hot c /\ h' = d_heap c /\ L' = L)).
    { intros id md. destruct (get_ok _ _ Z.eqb hash zspec _ _ L lh id md RH) as (h' & m' & L' & E1 & R' & F & P). destruct (sfind id lh) as [kv0|] eqn:G.
      - exists h', m', L'. split; [exact E1|]. split; [exact R'|]. split; [eapply rep_frame; [exact RW|exact F|intros p Hp Hq; apply (DJ p); assumption]|]. split; [|discriminate].
        intros p Hp. apply DJ. eapply Permutation_in; [apply Permutation_sym, P|exact Hp].
      - exists (d_heap c), (d_hot c), L. split; [|split; [exact RH|]; split; [exact RW|]; split; [exact DJ|auto]]. rewrite E1.
        unfold lm_get in E1. destruct (bucket_of hash (d_hot c) id) as [i|]; [|discriminate]. cbn [obind] in *. destruct (lm_walk Z.eqb (d_heap c) (d_hot c) i id) as [[[p|] e]|]; [| |discriminate]; cbn [obind fst snd] in *.
        + destruct (move _ _ _ _) as [[a b]|]; [|discriminate]. cbn [obind fst snd] in *. destruct (get_kv a p); [|discriminate]. cbn [obind] in *. discriminate.
        + injection E1 as -> ->. reflexivity. }
    destruct o as [id v|id v|id pr|id| |]; cbn [d_exec d_step].
    - destruct (GetH id MOVE_CURRENT) as (h' & m' & L' & E1 & R' & RW' & DJ' & NC). unfold dlru_add. rewrite E1. cbn [obind fst snd]. destruct (sfind id lh) as [kv|] eqn:G.
      + destruct (trip_find_some _ _ _ _ _ TH G) as [t0 EE]. rewrite EE. cbn [obind fst snd]. eexists _, _, lh, lw, H, W. split; [reflexivity|].
        assert (SM : s_move Z V Z.eqb MOVE_CURRENT kv lh = lh).
        { destruct TH as (tl & _ & _ & _ & D & _). clear -G D. cbn. assert (I := find_some _ _ G). destruct I as [I _]. transitivity (map (fun x => x) lh); [|apply map_id]. apply map_ext_in. intros x Hx. destruct (Z.eqb_spec (fst x) (fst kv)) as [E|]; [|reflexivity].
          clear G. revert D Hx I E. induction lh as [|y l IH]; [intros _ []|]; cbn; intros D [A|A] [B|B] E; try congruence; inversion D; subst; auto; exfalso; apply H1; [rewrite E|rewrite <- E]; apply in_map; assumption. }
        rewrite SM in R'. split; [exists L', L2; split; [exact R'|]; split; [exact RW'|exact DJ']|]. split; [auto|]. split; [exact TH1|]. split; [exact TW1|auto].
      + destruct (NC eq_refl) as (-> & -> & ->). apply (trip_find_none _ _ _ _ TH) in G. rewrite G. destruct (SetW _ id v RH RW) as (h2 & w2 & lw2 & W2 & E2 & (L3 & RR) & T2 & S2). rewrite E2. cbn [obind fst snd].
        eexists _, _, lh, lw2, H, W2. split; [reflexivity|]. split; [exists L, L3; exact RR|]. split; [|auto].
        split; [auto|]. destruct (sfind id lw) as [kv|] eqn:GW; [destruct (trip_find_some _ _ _ _ _ TW GW) as [t0 EE]; rewrite EE in *; auto|apply (trip_find_none _ _ _ _ TW) in GW; rewrite GW in *; auto].
    - unfold dlru_give_back. destruct (SetW _ id v RH RW) as (h2 & w2 & lw2 & W2 & E2 & (L3 & RR) & T2 & S2). rewrite E2. cbn [obind fst snd]. eexists _, _, lh, lw2, H, W2. split; [reflexivity|]. split; [exists L, L3; exact RR|]. split; [|auto]. auto.
    - destruct (GetH id MOVE_LAST) as (h' & m' & L' & E1 & R' & RW' & DJ' & NC). unfold dlru_get. rewrite E1. cbn [obind fst snd]. destruct (sfind id lh) as [kv|] eqn:G.
      + destruct (trip_find_some _ _ _ _ _ TH G) as [t0 EE]. rewrite EE. cbn [obind fst snd]. eexists _, _, _, lw, (e_put H id (snd kv) t), W. split; [reflexivity|]. split; [exists L', L2; split; [exact R'|]; split; [exact RW'|exact DJ']|]. split; [destruct pr; auto|].
        assert (X := find_key _ _ _ G). cbn [s_move]. split; [|split; [exact TW1|split; [reflexivity|split; [reflexivity|]]]].
        * rewrite X. cbn [fst snd]. eapply trip_touch; eauto.
        * rewrite app_length. assert (Y := del_len_in _ _ (proj1 (find_some _ _ G))). cbn [length]. cbn [d_hcap]. lia.
      + destruct (NC eq_refl) as (-> & -> & ->). clear NC R' RW' DJ' E1. apply (trip_find_none _ _ _ _ TH) in G. rewrite G. destruct pr.
        * (* promotion *)
          destruct (items_ok _ _ Z.eqb hash zspec _ _ _ _ RH) as (_ & _ & EZ & EF & _). rewrite EZ, EF.
          assert (DM : exists h1 hot1 warm1 lh1 lw1 L1 L3 H1 W1,
            (if d_hcap c <=? N.of_nat (length lh) then f <- hd_error lh ;; q <- lm_migrate Z.eqb hash (d_heap c) (d_hot c) (d_warm c) (fst f) MOVE_LAST ;; (let '(_, h', hot', warm') := q in Some (h', hot', warm')) else Some (d_heap c, d_hot c, d_warm c)) = Some (h1, hot1, warm1) /\
            Rep h1 hot1 L1 lh1 /\ Rep h1 warm1 L3 lw1 /\ disjoint L1 L3 /\ d_demote (d_hcap c) H W t H1 W1 /\ trip lh1 H1 t /\ trip lw1 W1 (t + 1) /\ N.of_nat (length lh1) < d_hcap c /\ H1 id = None).
          { destruct (N.leb_spec (d_hcap c) (N.of_nat (length lh))) as [X|X].
            - destruct lh as [|[i0 v0] lh]; [cbn in X; lia|]. cbn [hd_error obind fst].
              destruct (migrate_ok _ _ Z.eqb hash zspec _ _ _ L L2 _ lw i0 MOVE_LAST RH RW DJ) as (h1 & m1 & d1 & L1 & L3 & E1 & R1 & R3 & DJ1 & _). rewrite E1. cbn [obind].
              assert (SF : sfind i0 ((i0, v0) :: lh) = Some (i0, v0)) by (unfold s_find; cbn; rewrite Z.eqb_refl; reflexivity). rewrite SF in R3.
              eexists h1, m1, d1, _, _, L1, L3, (e_del H i0), (e_put W i0 v0 t). split; [reflexivity|]. split; [exact R1|]. split; [exact R3|]. split; [exact DJ1|]. split; [|split; [apply trip_del, TH|split; [|split]]].
              + exists (N.of_nat (length ((i0, v0) :: lh))). split; [eapply trip_count; exact TH|]. right. split; [exact X|]. exists i0, v0. split; [eapply trip_front; [exact TH|reflexivity]|auto].
              + exact (trip_put _ _ _ i0 v0 TW).
              + assert (Y := del_len_in ((i0, v0) :: lh) (i0, v0) (or_introl eq_refl)). cbn [fst] in Y. lia.
              + unfold e_del. rewrite G. destruct (Z.eqb id i0); reflexivity.
            - eexists _, _, _, lh, lw, L, L2, H, W. split; [reflexivity|]. split; [exact RH|]. split; [exact RW|]. split; [exact DJ|]. split; [|auto].
              exists (N.of_nat (length lh)). split; [eapply trip_count; exact TH|]. left. auto. }
          destruct DM as (h1 & hot1 & warm1 & lh1 & lw1 & L1 & L3 & H1 & W1 & EQ & RH1 & RW1 & DJ1 & DEM & TH' & TW' & LT & HN). rewrite EQ. cbn [obind].
          destruct (migrate_ok _ _ Z.eqb hash zspec _ _ _ L3 L1 _ _ id MOVE_LAST RW1 RH1 ltac:(intros p Hp Hq; apply (DJ1 p); assumption)) as (h2 & m2 & d2 & L4 & L5 & E2 & R4 & R5 & DJ2 & _). rewrite E2. cbn [obind].
          destruct (sfind id lw1) as [kv|] eqn:GW.
          -- destruct (trip_find_some _ _ _ _ _ TW' GW) as [t0 EE]. assert (X := find_key _ _ _ GW).
             eexists _, _, _, _, (e_put H1 id (snd kv) t), (e_del W1 id). split; [reflexivity|]. split; [exists L5, L4; split; [exact R5|]; split; [exact R4|]; intros p Hp Hq; apply (DJ2 p); assumption|]. split.
             ++ exists H1, W1. split; [exact DEM|]. rewrite EE. auto.
             ++ cbn [d_hcap d_wcap]. split; [|split; [apply trip_del, TW'|split; [reflexivity|split; [reflexivity|]]]].
                ** assert (Y := trip_put _ _ _ id (snd kv) TH'). rewrite X. cbn [s_move linked fst snd]. exact Y.
                ** assert (Y := e_put_len lh1 kv). rewrite X in Y. cbn [fst] in Y. rewrite X. lia.
          -- assert (EE := proj1 (trip_find_none _ _ _ _ TW') GW). eexists _, _, _, _, H1, W1. split; [reflexivity|]. split; [exists L5, L4; split; [exact R5|]; split; [exact R4|]; intros p Hp Hq; apply (DJ2 p); assumption|]. split.
             ++ exists H1, W1. split; [exact DEM|]. rewrite EE. auto.
             ++ cbn [d_hcap d_wcap]. split; [eapply trip_mono; [|exact TH']; lia|]. split; [|split; [reflexivity|split; [reflexivity|lia]]].
                eapply trip_ext; [apply trip_del, TW'|]. intros x. unfold e_del. destruct (Z.eqb_spec x id) as [->|]; auto.
        * destruct (get_ok _ _ Z.eqb hash zspec _ _ L2 lw id MOVE_LAST RW) as (h2 & m2 & L3 & E2 & R2 & F2 & P2). rewrite E2. cbn [obind fst snd].
          assert (RR : Rep h2 (d_hot c) L lh) by (eapply rep_frame; [exact RH|exact F2|exact DJ]).
          assert (DD : disjoint L L3) by (intros p Hp Hq; apply (DJ p Hp); eapply Permutation_in; [apply Permutation_sym, P2|exact Hq]).
          destruct (sfind id lw) as [kv|] eqn:GW.
          -- destruct (trip_find_some _ _ _ _ _ TW GW) as [t0 EE]. rewrite EE. eexists _, _, lh, _, H, (e_put W id (snd kv) t). split; [reflexivity|]. split; [exists L, L3; split; [exact RR|]; split; [exact R2|exact DD]|]. split; [auto|]. split; [exact TH1|].
             split; [|auto]. assert (X := find_key _ _ _ GW). cbn [s_move]. rewrite X. cbn [fst snd]. eapply trip_touch; eauto.
          -- apply (trip_find_none _ _ _ _ TW) in GW. rewrite GW. eexists _, _, lh, lw, H, W. split; [reflexivity|]. split; [exists L, L3; split; [exact RR|]; split; [exact R2|exact DD]|]. split; [auto|]. split; [exact TH1|]. split; [exact TW1|auto].
    - destruct (remove_ok _ _ Z.eqb hash zspec _ _ L lh id RH) as (h' & m' & L' & E1 & R' & F1 & I1 & _). unfold dlru_remove. rewrite E1. cbn [obind fst snd].
      assert (RW' : Rep h' (d_warm c) L2 lw) by (eapply rep_frame; [exact RW|exact F1|intros p Hp Hq; apply (DJ p); assumption]).
      assert (DJ' : disjoint L' L2) by (intros p Hp; apply DJ, I1, Hp). assert (Y := del_len lh id).
      destruct (sfind id lh) as [kv|] eqn:G.
      + destruct (trip_find_some _ _ _ _ _ TH G) as [t0 EE]. rewrite EE. cbn [obind]. eexists _, _, _, lw, (e_del H id), W. split; [reflexivity|]. split; [exists L', L2; split; [exact R'|]; split; [exact RW'|exact DJ']|]. split; [auto|]. split; [apply trip_del, TH1|]. split; [exact TW1|]. split; [reflexivity|]. split; [reflexivity|]. lia.
      + apply (trip_find_none _ _ _ _ TH) in G. rewrite G. destruct (remove_ok _ _ Z.eqb hash zspec _ _ L2 lw id RW') as (h2 & m2 & L3 & E2 & R2 & F2 & I2 & _). rewrite E2. cbn [obind fst snd].
        eexists _, _, _, _, H, (e_del W id). split; [reflexivity|]. split.
        * exists L', L3. split; [eapply rep_frame; [exact R'|exact F2|exact DJ']|]. split; [exact R2|]. intros p Hp Hq. apply (DJ' p); auto.
        * split; [auto|]. split; [|split; [apply trip_del, TW1|split; [reflexivity|split; [reflexivity|cbn [d_hcap]; lia]]]]. eapply trip_ext; [apply trip_del, TH1|]. intros x. unfold e_del. destruct (Z.eqb_spec x id) as [->|]; auto.
    - destruct (items_ok _ _ Z.eqb hash zspec _ _ _ _ RW) as (_ & _ & EZ & EF & _). destruct (items_ok _ _ Z.eqb hash zspec _ _ _ _ RH) as (_ & _ & EZ2 & EF2 & _). unfold dlru_remove_lru, lm_empty. unfold lm_size in EZ, EZ2. rewrite EZ, EZ2, EF, EF2.
      destruct lw as [|[i0 v0] lw].
      + cbn [length N.of_nat]. change (0 =? 0) with true. cbn [negb]. assert (EW := proj1 (trip_nil _ _) TW). destruct lh as [|[i0 v0] lh].
        * cbn [length N.of_nat]. change (0 =? 0) with true. cbn [negb obind fst snd]. assert (EH := proj1 (trip_nil _ _) TH). eexists _, c, [], [], H, W. split; [reflexivity|]. split; [exists L, L2; auto|]. split; [right; split; [exact EW|]; split; [exact EW|]; right; auto|]. split; [exact TH1|]. split; [exact TW1|auto].
        * destruct (N.eqb_spec (N.of_nat (length ((i0, v0) :: lh))) 0) as [X|_]; [cbn in X; lia|]. cbn [negb hd_error obind fst].
          destruct (remove_ok _ _ Z.eqb hash zspec _ _ L _ i0 RH) as (h' & m' & L' & E1 & R' & F1 & I1 & _). rewrite E1. cbn [obind fst snd]. assert (Y := del_len ((i0, v0) :: lh) i0).
          eexists _, _, _, [], (e_del H i0), W. split; [reflexivity|]. split; [exists L', L2; split; [exact R'|]; split; [eapply rep_frame; [exact RW|exact F1|intros p Hp Hq; apply (DJ p); assumption]|intros p Hp; apply DJ, I1, Hp]|].
          split; [right; split; [exact EW|]; split; [exact EW|]; left; exists i0, v0; split; [eapply trip_front; [exact TH|reflexivity]|auto]|]. split; [apply trip_del, TH1|]. split; [exact TW1|]. split; [reflexivity|]. split; [reflexivity|]. cbn [d_hcap]. lia.
      + destruct (N.eqb_spec (N.of_nat (length ((i0, v0) :: lw))) 0) as [X|_]; [cbn in X; lia|]. cbn [negb hd_error obind fst].
        destruct (remove_ok _ _ Z.eqb hash zspec _ _ L2 _ i0 RW) as (h' & m' & L' & E1 & R' & F1 & I1 & _). rewrite E1. cbn [obind fst snd].
        eexists _, _, lh, _, H, (e_del W i0). split; [reflexivity|]. split; [exists L, L'; split; [eapply rep_frame; [exact RH|exact F1|exact DJ]|]; split; [exact R'|intros p Hp Hq; apply (DJ p); auto]|].
        split; [left; exists i0, v0; split; [eapply trip_front; [exact TW|reflexivity]|auto]|]. split; [exact TH1|]. split; [apply trip_del, TW1|auto].
    - destruct (clear_ok _ _ hash _ _ L lh RH) as (h' & m' & E1 & R' & F1 & _). unfold dlru_clear. rewrite E1. cbn [obind fst snd].
      assert (RW' : Rep h' (d_warm c) L2 lw) by (eapply rep_frame; [exact RW|exact F1|intros p Hp Hq; apply (DJ p); assumption]).
      destruct (clear_ok _ _ hash _ _ L2 lw RW') as (h2 & m2 & E2 & R2 & F2 & _). rewrite E2. cbn [obind fst snd].
      eexists _, _, [], [], e_none, e_none. split; [reflexivity|]. split; [exists [], []; split; [eapply rep_frame; [exact R'|exact F2|intros p []]|]; split; [exact R2|intros p []]|].
      split; [repeat split; intros x; reflexivity|]. split; [apply trip_nil; intros x; reflexivity|]. split; [apply trip_nil; intros x; reflexivity|]. split; [reflexivity|]. split; [reflexivity|]. cbn. lia.
  Qed.

  (** Every history of a cache with a positive hot capacity. *)
  Theorem C34_double hcap wcap os : 0 < hcap ->
    exists rs c H W lh lw nh nw, d_run (dlru_new hcap wcap) os = Some (rs, c) /\ d_steps hcap e_none e_none 0 os rs H W /\
      e_count H nh /\ e_count W nw /\ dlru_size c = nh + nw /\ nh <= hcap /\ dlru_is_saturated c = (wcap <? nw) /\
      dlru_items c = Some (lh ++ lw) /\ NoDup (map fst lh) /\ NoDup (map fst lw) /\ nh = N.of_nat (length lh) /\ nw = N.of_nat (length lw) /\ (forall id v, In (id, v) lh <-> exists t, H id = Some (v, t)) /\ (forall id v, In (id, v) lw <-> exists t, W id = Some (v, t)).
  Proof.
    intros HC.
    assert (G : forall os c lh lw H W t, d_hcap c = hcap -> N.of_nat (length lh) <= hcap -> drep c lh lw -> trip lh H t -> trip lw W t ->
      exists rs c' lh' lw' H' W', d_run c os = Some (rs, c') /\ d_steps hcap H W t os rs H' W' /\ drep c' lh' lw' /\ (exists t', trip lh' H' t' /\ trip lw' W' t') /\ d_wcap c' = d_wcap c /\ N.of_nat (length lh') <= hcap).
    { clear os. induction os as [|o os IH]; intros c lh lw H W t EC LE R TH TW; cbn [d_run].
      - exists [], c, lh, lw, H, W. split; [reflexivity|]. split; [constructor|]. split; [exact R|]. split; [eauto|auto].
      - destruct (d_exec_ok c lh lw H W t o) as (r & c1 & lh1 & lw1 & H1 & W1 & X & R1 & S1 & TH1 & TW1 & C1 & C2 & LE1); rewrite ?EC in *; auto. rewrite X. cbn [obind fst snd].
        destruct (IH c1 lh1 lw1 H1 W1 (t + 1) C1 LE1 R1 TH1 TW1) as (rs & c2 & lh2 & lw2 & H2 & W2 & Y & S2 & R2 & T2 & C3 & LE2). rewrite Y. cbn [obind fst snd].
        exists (r :: rs), c2, lh2, lw2, H2, W2. split; [reflexivity|]. split; [econstructor; eauto|]. split; [exact R2|]. split; [exact T2|]. split; [congruence|exact LE2]. }
    destruct (G os (dlru_new hcap wcap) [] [] e_none e_none 0 eq_refl ltac:(cbn; lia)) as (rs & c & lh & lw & H & W & X & S & (L & L2 & RH & RW & DJ) & (t & TH & TW) & EC & LE).
    { exists [], []. split; [apply new_ok|]. split; [apply new_ok|]. intros p []. }
    { apply trip_nil; intros x; reflexivity. } { apply trip_nil; intros x; reflexivity. }
    destruct (items_ok _ _ Z.eqb hash zspec _ _ _ _ RH) as (EI & _ & EZ & _). destruct (items_ok _ _ Z.eqb hash zspec _ _ _ _ RW) as (EI2 & _ & EZ2 & _).
    exists rs, c, H, W, lh, lw, (N.of_nat (length lh)), (N.of_nat (length lw)). split; [exact X|]. split; [exact S|]. split; [eapply trip_count; exact TH|]. split; [eapply trip_count; exact TW|].
    split; [unfold dlru_size; rewrite EZ, EZ2; reflexivity|]. split; [exact LE|]. split; [unfold dlru_is_saturated; rewrite EZ2, EC; reflexivity|]. split; [unfold dlru_items; rewrite EI, EI2; reflexivity|].
    assert (TI : forall l E c, trip l E c -> forall id v, In (id, v) l <-> exists t, E id = Some (v, t)).
    { clear. intros l E c (tl & -> & B & _ & D & F). intros id v. split.
      - intros I. apply in_map_iff in I. destruct I as (x & E1 & I). exists (snd x). rewrite F. unfold e_of. assert (FE : find (fun y : Z * V * N => Z.eqb (fst (fst y)) id) tl = Some x).
        { clear -I D E1. induction tl as [|y tl IH]; [destruct I|]. cbn [map] in D. inversion D; subst. cbn [find]. destruct (Z.eqb_spec (fst (fst y)) id) as [Y|Y].
          - destruct I as [->|I]; [reflexivity|]. exfalso. apply H1. rewrite Y. apply in_map_iff. exists (fst x). split; [rewrite E1; reflexivity|apply in_map, I].
          - destruct I as [->|I]; [exfalso; apply Y; rewrite E1; reflexivity|]. auto. }
        rewrite FE, E1. reflexivity.
      - intros [t E1]. rewrite F in E1. unfold e_of in E1. destruct (find _ tl) as [x|] eqn:Gf; [|discriminate]. injection E1 as <- <-. apply find_some in Gf. destruct Gf as [G1 G2]. apply Z.eqb_eq in G2. subst id. rewrite <- surjective_pairing. apply in_map, G1. }
    split; [destruct TH as (? & _ & _ & _ & D & _); exact D|]. split; [destruct TW as (? & _ & _ & _ & D & _); exact D|]. split; [reflexivity|]. split; [reflexivity|]. split; eapply TI; eassumption.
  Qed.

  (** No entry is lost except by removal, as long as GiveBack is used for ids that are not in the
      cache (as after RemoveLRU): the results are those of a plain map. *)
  Definition contents := Z -> option V.
  Definition m_step (M : contents) (o : dop) (r : cres) (M' : contents) : Prop :=
    match o with
    | DAdd id v => match M id with Some w => r = CVal w /\ (forall x, M' x = M x) | None => r = CVal v /\ forall x, M' x = if Z.eqb x id then Some v else M x end
    | DGiveBack id v => r = CNone /\ forall x, M' x = if Z.eqb x id then Some v else M x
    | DGet id _ => r = CMaybe (M id) /\ forall x, M' x = M x
    | DRemove id => r = CNone /\ forall x, M' x = if Z.eqb x id then None else M x
    | DRemoveLRU => (r = CRec None /\ (forall x, M x = None) /\ forall x, M' x = None) \/
        exists id v, r = CRec (Some (id, v)) /\ M id = Some v /\ forall x, M' x = if Z.eqb x id then None else M x
    | DClear => r = CNone /\ forall x, M' x = None
    end.
  Inductive m_steps : contents -> list dop -> list cres -> contents -> Prop :=
  | m_nil M : m_steps M [] [] M
  | m_cons M o r M1 os rs M2 : m_step M o r M1 -> m_steps M1 os rs M2 -> m_steps M (o :: os) (r :: rs) M2.
  (** No id is given back while it is in the map. *)
  Inductive gives_absent : contents -> list dop -> list cres -> Prop :=
  | ga_nil M : gives_absent M [] []
  | ga_cons M o r os rs : (forall id v, o = DGiveBack id v -> M id = None) -> (forall M1, m_step M o r M1 -> gives_absent M1 os rs) -> gives_absent M (o :: os) (r :: rs).
  Definition joint (H W : ents) (M : contents) : Prop :=
    (forall id, H id = None \/ W id = None) /\ forall id, M id = option_map fst (match H id with Some x => Some x | None => W id end).
  Lemma d_m_step cap H W t o r H' W' M : joint H W M -> (forall id v, o = DGiveBack id v -> M id = None) -> d_step cap H W t o r H' W' ->
    exists M', m_step M o r M' /\ joint H' W' M'.
  Proof.
    intros (D & J) NG S. exists (fun id => option_map fst (match H' id with Some x => Some x | None => W' id end)).
    assert (OI : forall E id v, oldest E id v -> option_map fst (E id) = Some v) by (intros E id v (t0 & -> & _); reflexivity).
    enough (X : m_step M o r (fun id => option_map fst (match H' id with Some x => Some x | None => W' id end)) /\ (forall id, H' id = None \/ W' id = None)) by (split; [apply X|split; [apply X|reflexivity]]).
    destruct o as [id v|id v|id pr|id| |]; cbn [d_step m_step] in *.
    - destruct S as (SH & S). rewrite J. assert (Di := D id). destruct (H id) as [[w t0]|] eqn:EH; [|destruct (W id) as [[w t0]|] eqn:EW]; destruct S as (-> & SW); cbn [option_map fst];
        (split; [split; [reflexivity|]; intros x; rewrite SH, SW, ?J; unfold e_put; try reflexivity|intros x; rewrite SH, SW; unfold e_put; auto]);
        destruct (Z.eqb_spec x id) as [->|]; rewrite ?EH; auto.
    - destruct S as (-> & SH & S). assert (N := NG id v eq_refl). rewrite J in N. destruct (H id) as [?|] eqn:EH; [discriminate|]. destruct (W id) as [?|] eqn:EW; [discriminate|]. split; [split; [reflexivity|]|]; intros x; rewrite SH, S; unfold e_put; rewrite ?J; destruct (Z.eqb_spec x id) as [->|]; rewrite ?EH; auto.
    - assert (Hit : forall w t0, H id = Some (w, t0) -> r = CMaybe (Some w) /\ (forall x, H' x = e_put H id w t x) /\ (forall x, W' x = W x) ->
        (r = CMaybe (M id) /\ (forall x, option_map fst (match H' x with Some y => Some y | None => W' x end) = M x)) /\ (forall x, H' x = None \/ W' x = None)).
      { intros w t0 EH (-> & SH & SW). split; [split; [rewrite J, EH; reflexivity|]|]; intros x; rewrite ?SH, ?SW; unfold e_put; rewrite ?J; destruct (Z.eqb_spec x id) as [->|]; rewrite ?EH; auto. right. destruct (D id); congruence. }
      destruct pr.
      + destruct (H id) as [[w t0]|] eqn:EH; [eapply Hit; eauto|]. destruct S as (H1 & W1 & (n & _ & DM) & S).
        assert (J1 : (forall x, H1 x = None \/ W1 x = None) /\ H1 id = None /\ forall x, M x = option_map fst (match H1 x with Some y => Some y | None => W1 x end)).
        { destruct DM as [(_ & A & B)|(_ & i0 & v0 & O & A & B)].
          - split; [|split; [rewrite A; exact EH|]]; intros x; rewrite A, B; auto.
          - split; [|split; [rewrite A; unfold e_del; rewrite EH; destruct (Z.eqb id i0); reflexivity|]]; intros x; rewrite A, B; unfold e_del, e_put; rewrite ?J; destruct (Z.eqb_spec x i0) as [->|]; auto. cbn [option_map fst]. assert (Y := OI _ _ _ O). destruct (H i0); [exact Y|discriminate]. }
        destruct J1 as (D1 & N1 & J1). destruct (W1 id) as [[w t0]|] eqn:EW; destruct S as (-> & SH & SW).
        * split; [split; [rewrite J1, N1, EW; reflexivity|]|]; intros x; rewrite ?SH, ?SW; unfold e_put, e_del; rewrite ?J1; destruct (Z.eqb_spec x id) as [->|]; rewrite ?N1, ?EW; auto.
        * split; [split; [rewrite J1, N1, EW; reflexivity|]|]; intros x; rewrite ?SH, ?SW, ?J1; auto.
      + destruct (H id) as [[w t0]|] eqn:EH; [eapply Hit; eauto|]. destruct (W id) as [[w t0]|] eqn:EW; destruct S as (-> & SH & SW).
        * split; [split; [rewrite J, EH, EW; reflexivity|]|]; intros x; rewrite ?SH, ?SW; unfold e_put; rewrite ?J; destruct (Z.eqb_spec x id) as [->|]; rewrite ?EH, ?EW; auto.
        * split; [split; [rewrite J, EH, EW; reflexivity|]|]; intros x; rewrite ?SH, ?SW, ?J; auto.
    - destruct S as (-> & S). assert (Di := D id). destruct (H id) as [[w t0]|] eqn:EH; destruct S as (SH & SW); (split; [split; [reflexivity|]|]); intros x; rewrite SH, SW; unfold e_del; rewrite ?J; destruct (Z.eqb_spec x id) as [->|]; rewrite ?EH; auto.
      destruct Di as [Di|Di]; [congruence|]. rewrite Di. reflexivity.
    - destruct S as [(id & v & O & -> & SH & SW)|(EW & EW' & [(id & v & O & -> & SH)|(EH & EH' & ->)])].
      + assert (O' := OI _ _ _ O). assert (EH : H id = None) by (destruct (D id) as [Q|Q]; [exact Q|rewrite Q in O'; discriminate]). split; [right; exists id, v; split; [reflexivity|]; split; [rewrite J, EH; exact O'|]|]; intros x; rewrite SH, SW; unfold e_del; rewrite ?J; destruct (Z.eqb_spec x id) as [->|]; rewrite ?EH; auto.
      + assert (O' := OI _ _ _ O). split; [right; exists id, v; split; [reflexivity|]; split; [rewrite J; destruct (H id); [exact O'|discriminate]|]|]; intros x; rewrite ?EW', ?SH; unfold e_del; rewrite ?J, ?EW; destruct (Z.eqb_spec x id) as [->|]; auto.
      + split; [left; split; [reflexivity|]; split; intros x; rewrite ?J, ?EH, ?EW, ?EH', ?EW'; reflexivity|]. intros x. auto.
    - destruct S as (-> & EH & EW). split; [split; [reflexivity|]|]; intros x; rewrite EH, ?EW; auto.
  Qed.
  Theorem C34_double_contents hcap wcap os : 0 < hcap ->
    exists rs c, d_run (dlru_new hcap wcap) os = Some (rs, c) /\
      (gives_absent (fun _ => None) os rs ->
       exists M l, m_steps (fun _ => None) os rs M /\ dlru_items c = Some l /\ NoDup (map fst l) /\ (forall id v, In (id, v) l <-> M id = Some v) /\ dlru_size c = N.of_nat (length l)).
  Proof.
    intros HC. destruct (C34_double hcap wcap os HC) as (rs & c & H & W & lh & lw & nh & nw & E & S & CH & CW & SZ & _ & _ & IT & ND1 & ND2 & LH & LW & IH & IW). exists rs, c. split; [exact E|]. intros GA.
    assert (X : exists M, m_steps (fun _ => None) os rs M /\ joint H W M).
    { assert (J0 : joint e_none e_none (fun _ => None)) by (split; [auto|reflexivity]). revert S GA J0. clear. generalize (fun _ : Z => @None V) as M. generalize e_none at 1 3 as H0. generalize e_none as W0. generalize 0 as t. intros t W0 H0 M S. revert M.
      induction S as [|H0 W0 t o r H1 W1 os rs H2 W2 S1 S2 IH]; intros M GA J; [exists M; split; [constructor|exact J]|]. inversion GA as [|? ? ? ? ? GA1 GA2]; subst. destruct (d_m_step _ _ _ _ _ _ _ _ _ J GA1 S1) as (M1 & MS & J1). destruct (IH M1 (GA2 M1 MS) J1) as (M2 & MS2 & J2).
      exists M2. split; [econstructor; eauto|exact J2]. }
    destruct X as (M & MS & (D & J)). exists M, (lh ++ lw). split; [exact MS|]. split; [exact IT|].
    split; [|split].
    - rewrite map_app. apply NoDup_app_intro; [exact ND1|exact ND2|]. intros id A B. apply in_map_iff in A. apply in_map_iff in B. destruct A as ([i v] & A1 & A2), B as ([i' v'] & B1 & B2). cbn in A1, B1. subst i i'.
      apply IH in A2. apply IW in B2. destruct A2 as (? & A2), B2 as (? & B2). destruct (D id); congruence.
    - intros id v. rewrite in_app_iff, IH, IW, J. assert (Di := D id). split.
      + intros [(t & X)|(t & X)]; rewrite X in *; [reflexivity|]. destruct Di as [Y|Y]; [rewrite Y; reflexivity|discriminate].
      + destruct (H id) as [[w t]|]; cbn; [intros X; injection X as ->; eauto|]. destruct (W id) as [[w t]|]; cbn; [intros X; injection X as ->; eauto|discriminate].
    - rewrite SZ, app_length, LH, LW. lia.
  Qed.
  (** Findings.  A hot capacity of zero: any promotion of a missing id reads the front of an
      empty map. *)
  Theorem C34_zero_capacity_refuted wcap id : dlru_get hash (dlru_new (V := V) 0 wcap) id true = None.
  Proof.
    destruct (get_ok _ _ Z.eqb hash zspec (@heap0 Z V) (lm_new (0 * 2 + 1)) [] [] id MOVE_LAST (new_ok _ _ hash _ _)) as (h' & m' & L' & E & R & _).
    unfold dlru_get, dlru_new. cbn [d_heap d_hot d_hcap]. rewrite E. cbn [s_find find] in *. cbn [obind fst snd]. destruct (items_ok _ _ Z.eqb hash zspec _ _ _ _ R) as (_ & _ & EZ & EF & _). rewrite EZ, EF. reflexivity.
  Qed.
  (** Giving back an id that is hot keeps a second value, which comes out after Remove. *)
  Theorem C34_give_back_refuted hcap wcap id v w : 0 < hcap ->
    exists c, d_run (dlru_new hcap wcap) [DAdd id v; DGet id true; DGiveBack id w; DRemove id; DGet id false] = Some ([CVal v; CMaybe (Some v); CNone; CNone; CMaybe (Some w)], c).
  Proof.
    intros HC. destruct (C34_double hcap wcap [DAdd id v; DGet id true; DGiveBack id w; DRemove id; DGet id false] HC) as (rs & c & H & W & lh & lw & nh & nw & E & S & _). exists c. rewrite E. f_equal. f_equal.
    inversion S as [|? ? ? ? r1 H1 W1 ? rs1 ? ? A1 S1]; subst. cbn in A1. destruct A1 as (A1 & -> & A1'). f_equal.
    assert (ZI : Z.eqb id id = true) by apply Z.eqb_refl.
    inversion S1 as [|? ? ? ? r2 H2 W2 ? rs2 ? ? A2 S2]; subst. cbn [d_step] in A2. rewrite A1 in A2. unfold e_none in A2. destruct A2 as (Hm & Wm & (n & CN & DM) & A2).
    assert (n = 0). { destruct CN as (ids & _ & CI & ->). destruct ids as [|x ids]; [reflexivity|]. exfalso. apply (proj1 (CI x) (or_introl eq_refl)). apply A1. }
    destruct DM as [(_ & DH & DW)|(X & _)]; [|lia]. rewrite DW, A1' in A2. unfold e_put at 1 in A2. rewrite ZI in A2. destruct A2 as (-> & A2 & A2'). f_equal.
    inversion S2 as [|? ? ? ? r3 H3 W3 ? rs3 ? ? A3 S3]; subst. cbn [d_step] in A3. destruct A3 as (-> & A3 & A3'). rewrite A2' in A3'. unfold e_del at 1 in A3'. rewrite ZI in A3'. f_equal.
    inversion S3 as [|? ? ? ? r4 H4 W4 ? rs4 ? ? A4 S4]; subst. cbn [d_step] in A4. destruct A4 as (-> & A4). rewrite A3, A2 in A4. unfold e_put at 1 in A4. rewrite ZI in A4. destruct A4 as (A4 & A4'). f_equal.
    inversion S4 as [|? ? ? ? r5 H5 W5 ? rs5 ? ? A5 S5]; subst. cbn [d_step] in A5. rewrite A4, A4', A3' in A5. unfold e_del, e_put in A5. rewrite ZI in A5. destruct A5 as (-> & _). f_equal. inversion S5. reflexivity.
  Qed.
End C34.
Print Assumptions C34_lru.
Print Assumptions C34_double.
Print Assumptions C34_double_contents.
Print Assumptions C34_zero_capacity_refuted.
Print Assumptions C34_give_back_refuted.

Local Open Scope Z_scope.
(** Refreshed by Get, kept by Add, removed in order of use. *)
Example C34_ex_lru : option_map fst (c_run Z (fun _ => 0%N) (lru_new 2) [CAdd _ 1 10; CAdd _ 2 20; CAdd _ 3 30; CGet _ 1; CAdd _ 2 99; CRemoveLRU _; CRemove _ 3; CGiveBack _ 2 20; CRemoveLRU _; CRemoveLRU _; CRemoveLRU _]) =
  Some [CVal _ 10; CVal _ 20; CVal _ 30; CMaybe _ (Some 10); CVal _ 20; CRec _ (Some (2, 20)); CNone _; CNone _; CRec _ (Some (1, 10)); CRec _ (Some (2, 20)); CRec _ None].
Proof. vm_compute. reflexivity. Qed.
(** Promotion, demotion and removal. *)
Example C34_ex_double : option_map fst (d_run Z (fun _ => 0%N) (dlru_new 1 2) [DAdd _ 1 10; DAdd _ 2 20; DGet _ 1 true; DGet _ 2 true; DGet _ 7 false; DRemoveLRU _; DGiveBack _ 1 10; DGet _ 1 false; DRemoveLRU _; DRemoveLRU _; DRemoveLRU _]) =
  Some [CVal _ 10; CVal _ 20; CMaybe _ (Some 10); CMaybe _ (Some 20); CMaybe _ None; CRec _ (Some (1, 10)); CNone _; CMaybe _ (Some 10); CRec _ (Some (1, 10)); CRec _ (Some (2, 20)); CRec _ None].
Proof. vm_compute. reflexivity. Qed.
(** A history that gives back only an id that is not in the cache. *)
Example C34_ex_absent : gives_absent Z (fun _ => None) [DAdd _ 1 10; DRemoveLRU _; DGiveBack _ 1 11; DGet _ 1 true] [CVal _ 10; CRec _ (Some (1, 10)); CNone _; CMaybe _ (Some 11)].
Proof.
  constructor; [discriminate|]. intros M1 (_ & H1). constructor; [discriminate|]. intros M2 [(E & _)|(id & v & E & _ & H2)]; [discriminate|]. injection E as <- <-.
  constructor; [intros id v E; injection E as <- <-; rewrite H2; reflexivity|]. intros M3 _. constructor; [discriminate|]. intros. constructor.
Qed.
