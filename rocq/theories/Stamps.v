(** Entries of a cache with the times of their last use, and lists in that order
    (the specification and lemmas of LruProps.v for keys of any type). *)
From Coq Require Import List ZArith NArith Bool Lia PeanoNat Permutation Sorted.
Import ListNotations.
From Verif Require Import LinkedModel LinkedProofs.
Local Open Scope N_scope.

Section Stamps.
  Variables K V : Type.
  Variable keq : K -> K -> bool.
  Hypothesis keq_spec : forall a b, reflect (a = b) (keq a b).
  Lemma keq_refl a : keq a a = true.
  Proof. destruct (keq_spec a a); congruence. Qed.
  Lemma keq_sym a b : keq a b = keq b a.
  Proof. destruct (keq_spec a b), (keq_spec b a); congruence. Qed.
  Lemma keq_true a b : keq a b = true -> a = b.
  Proof. destruct (keq_spec a b); congruence. Qed.

  (** * Specification: entries with the time of their last use *)
  Definition ents := K -> option (V * N).
  Definition e_none : ents := fun _ => None.
  Definition e_put (E : ents) (id : K) (v : V) (t : N) : ents := fun x => if keq x id then Some (v, t) else E x.
  Definition e_del (E : ents) (id : K) : ents := fun x => if keq x id then None else E x.
  (** id is the least recently used entry. *)
  Definition oldest (E : ents) (id : K) (v : V) : Prop :=
    exists t, E id = Some (v, t) /\ forall id' v' t', E id' = Some (v', t') -> id' <> id -> t < t'.
  Definition e_empty (E : ents) : Prop := forall id, E id = None.
  Definition e_count (E : ents) (n : N) : Prop := exists ids, NoDup ids /\ (forall id, In id ids <-> E id <> None) /\ n = N.of_nat (length ids).

  (** * Proof *)
  Lemma NoDup_app_intro A (a b : list A) : NoDup a -> NoDup b -> (forall x, In x a -> ~ In x b) -> NoDup (a ++ b).
  Proof. induction 1; cbn; intros Nb D; [exact Nb|]. constructor; [rewrite in_app_iff; intros [X|X]; [auto|eapply D; eauto]|apply IHNoDup; auto]. Qed.
  (** A list in order of the times of last use. *)
  Definition e_of (tl : list (K * V * N)) : ents := fun id => match find (fun x => keq (fst (fst x)) id) tl with Some x => Some (snd (fst x), snd x) | None => None end.
  Definition trip (l : list (K * V)) (E : ents) (c : N) : Prop :=
    exists tl, l = map fst tl /\ StronglySorted (fun a b => snd a < snd b) tl /\ Forall (fun a => snd a < c) tl /\ NoDup (map fst l) /\ forall id, E id = e_of tl id.
  Lemma trip_ext l E E' c : trip l E c -> (forall x, E' x = E x) -> trip l E' c.
  Proof. intros (tl & A & B & C & D & F) H. exists tl. repeat split; auto. intros id. rewrite H. apply F. Qed.
  Lemma trip_mono l E c c' : c <= c' -> trip l E c -> trip l E c'.
  Proof. intros H (tl & A & B & C & D & F). exists tl. repeat split; auto. eapply Forall_impl; [|exact C]. cbn. intros. lia. Qed.
  Notation sfind := (s_find K V keq). Notation sdel := (s_del K V keq).
  Lemma trip_find l E c id : trip l E c -> option_map snd (sfind id l) = option_map fst (E id).
  Proof.
    intros (tl & -> & _ & _ & _ & F). rewrite F. unfold e_of, s_find. clear F. induction tl as [|x tl IH]; cbn [map find]; [reflexivity|]. destruct (keq (fst (fst x)) id); [reflexivity|exact IH].
  Qed.
  Lemma trip_find_none l E c id : trip l E c -> sfind id l = None <-> E id = None.
  Proof. intros T. assert (X := trip_find _ _ _ id T). destruct (sfind id l), (E id); cbn in X; split; congruence. Qed.
  Lemma trip_find_some l E c id kv : trip l E c -> sfind id l = Some kv -> exists t, E id = Some (snd kv, t).
  Proof. intros T H. assert (X := trip_find _ _ _ id T). rewrite H in X. destruct (E id) as [[v t]|]; cbn in X; [|discriminate]. injection X as ->. eauto. Qed.
  Lemma e_of_app tl x id : e_of (tl ++ [x]) id = match e_of tl id with Some y => Some y | None => if keq (fst (fst x)) id then Some (snd (fst x), snd x) else None end.
  Proof.
    unfold e_of. induction tl as [|y tl IH]; cbn [app find]; [destruct (keq (fst (fst x)) id); reflexivity|]. destruct (keq (fst (fst y)) id); [reflexivity|exact IH].
  Qed.
  Lemma sorted_snoc (tl : list (K * V * N)) x : StronglySorted (fun a b => snd a < snd b) tl -> Forall (fun a => snd a < snd x) tl -> StronglySorted (fun a b => snd a < snd b) (tl ++ [x]).
  Proof.
    induction 1 as [|y tl S IH F]; intros H; cbn; [constructor; constructor|]. inversion H; subst. constructor; [apply IH; assumption|]. apply Forall_app. split; [exact F|constructor; [assumption|constructor]].
  Qed.
  Lemma trip_push l E c id v : trip l E c -> E id = None -> trip (l ++ [(id, v)]) (e_put E id v c) (c + 1).
  Proof.
    intros T H. assert (N := proj2 (trip_find_none _ _ _ id T) H). destruct T as (tl & -> & B & C & D & F). exists (tl ++ [((id, v), c)]). split; [rewrite map_app; reflexivity|]. split; [apply sorted_snoc; auto|]. split.
    - apply Forall_app. split; [eapply Forall_impl; [|exact C]; cbn; intros; lia|constructor; [cbn; lia|constructor]].
    - split.
      + rewrite map_app. cbn. apply NoDup_Add with (a := id) (l := map fst (map fst tl)); [rewrite <- (app_nil_r (map fst (map fst tl))) at 1; apply Add_app|]. split; [exact D|].
        intros X. apply in_map_iff in X. destruct X as (kv & E1 & I). unfold s_find in N. apply (find_none _ _ N) in I. rewrite E1, keq_refl in I. discriminate.
      + intros x. rewrite e_of_app. unfold e_put. cbn [fst snd]. rewrite (keq_sym id x). destruct (keq_spec x id) as [->|]; [|rewrite F; destruct (e_of tl x); reflexivity]. rewrite <- F, H. reflexivity.
  Qed.
  Lemma trip_del l E c id : trip l E c -> trip (sdel id l) (e_del E id) c.
  Proof.
    intros (tl & -> & B & C & D & F). exists (filter (fun x => negb (keq (fst (fst x)) id)) tl). split; [|split; [|split; [|split]]].
    - unfold s_del. clear. induction tl as [|x tl IH]; cbn; [reflexivity|]. destruct (keq (fst (fst x)) id); cbn; rewrite IH; reflexivity.
    - clear -B. induction B as [|x tl S IH F]; cbn; [constructor|]. destruct (negb _); [|exact IH]. constructor; [exact IH|]. rewrite Forall_forall in *. intros y Hy. apply filter_In in Hy. apply F, Hy.
    - rewrite Forall_forall in *. intros y Hy. apply filter_In in Hy. apply C, Hy.
    - clear -D. revert D. unfold s_del. induction (map fst tl) as [|x l IH]; cbn; intros D; [constructor|]. inversion D; subst. destruct (negb _); cbn; auto. constructor; [|auto]. intros X. apply H1. apply in_map_iff in X. destruct X as (y & <- & Y). apply filter_In in Y. apply in_map, Y.
    - intros x. unfold e_del. rewrite F. unfold e_of. clear - keq_spec. induction tl as [|y tl IH]; cbn [filter find]; [destruct (keq x id); reflexivity|].
      destruct (keq_spec (fst (fst y)) id) as [E|E]; cbn [negb].
      + rewrite <- IH. destruct (keq_spec x id) as [X|X]; [reflexivity|]. destruct (keq_spec (fst (fst y)) x); [congruence|reflexivity].
      + cbn [find]. destruct (keq_spec (fst (fst y)) x) as [X|X]; [|exact IH]. destruct (keq_spec x id); [congruence|reflexivity].
  Qed.
  Lemma trip_touch l E c id v t : trip l E c -> E id = Some (v, t) -> trip (sdel id l ++ [(id, v)]) (e_put E id v c) (c + 1).
  Proof.
    intros T H. assert (X := trip_push _ _ _ id v (trip_del _ _ _ id T)). eapply trip_ext; [apply X; unfold e_del; rewrite keq_refl; reflexivity|].
    intros x. unfold e_put, e_del. destruct (keq x id); reflexivity.
  Qed.
  Lemma trip_front l E c id v : trip l E c -> hd_error l = Some (id, v) -> oldest E id v.
  Proof.
    intros (tl & -> & B & C & D & F) H. destruct tl as [|[[i w] t] tl]; cbn in H; [discriminate|]. injection H as -> ->. exists t. rewrite F. unfold e_of. cbn [find fst snd]. rewrite keq_refl. split; [reflexivity|].
    intros id' v' t' E' NE. rewrite F in E'. unfold e_of in E'. cbn [find fst snd] in E'. destruct (keq_spec id id') as [X|_]; [congruence|].
    destruct (find _ tl) as [x|] eqn:G; [|discriminate]. injection E' as <- <-. apply find_some in G. inversion B; subst. rewrite Forall_forall in *. apply (H2 x), G.
  Qed.
  Lemma trip_nil E c : trip [] E c <-> e_empty E.
  Proof.
    split; [intros (tl & A & _ & _ & _ & F) id; destruct tl; [|discriminate]; rewrite F; reflexivity|]. intros H. exists []. repeat split; try constructor. intros id. rewrite H. reflexivity.
  Qed.
  Lemma trip_count l E c : trip l E c -> e_count E (N.of_nat (length l)).
  Proof.
    intros T. exists (map fst l). assert (T' := T). destruct T' as (tl & _ & _ & _ & D & _). split; [exact D|]. rewrite map_length. split; [|reflexivity]. intros id. rewrite <- (trip_find_none _ _ _ _ T). split.
    - intros X N. apply in_map_iff in X. destruct X as (kv & E1 & I). apply (find_none _ _ N) in I. rewrite E1, keq_refl in I. discriminate.
    - intros X. destruct (sfind id l) as [kv|] eqn:G; [|congruence]. apply find_some in G. destruct G as [G1 G2]. apply keq_true in G2. subst. apply in_map, G1.
  Qed.
  Lemma find_key id l kv : sfind id l = Some kv -> kv = (id, snd kv).
  Proof. intros H. apply find_some in H. destruct H as [_ H]. apply keq_true in H. destruct kv; cbn in *. congruence. Qed.
End Stamps.
