(** Specification of keyed databases: a finite map with a count and a total
    data size, and the effect of record operations on it. *)
From Coq Require Import Permutation.
From Verif Require Import Bytes.

(** What a record processor answers and sees; the same type serves the models. *)
Inductive action := ANoop | ARemove | ASet (v : bytes).
Definition processor := option bytes -> action.

(** [dsum m ks]: the total size of the keys [ks] and their values. *)
Fixpoint dsum (m : amap) (ks : list bytes) : Z :=
  match ks with
  | [] => 0
  | k :: ks' => Z.of_N (blen k) + Z.of_N (match m k with Some v => blen v | None => 0%N end) + dsum m ks'
  end%Z.

(** [msize m n e]: the map has exactly [n] keys and data of [e] bytes. *)
Definition msize (m : amap) (n e : Z) : Prop :=
  exists ks, NoDup ks /\ (forall k, In k ks <-> m k <> None) /\ n = Z.of_nat (length ks) /\ e = dsum m ks.

(** The map after a record operation on [key] answered by [a]. *)
Definition map_apply (m : amap) (key : bytes) (a : action) (writable : bool) : amap :=
  if writable then match a with ANoop => m | ARemove => adel m key | ASet v => aset m key v end else m.

(** What the processor of [key] sees: nothing, or the value (an empty string
    when the operation is declared not to read). *)
Definition map_seen (m : amap) (key : bytes) (readable : bool) : option bytes :=
  match m key with None => None | Some v => Some (if readable then v else []) end.

(** A record operation, and the run of a history on a map: the final map and
    what each processor saw. *)
Record hop := mkhop { o_key : bytes; o_proc : processor; o_readable : bool; o_writable : bool }.
Fixpoint map_run (m : amap) (ops : list hop) : amap * list (option bytes) :=
  match ops with
  | [] => (m, [])
  | o :: ops' =>
      let seen := map_seen m (o_key o) (o_readable o) in
      let '(m', out) := map_run (map_apply m (o_key o) (o_proc o seen) (o_writable o)) ops' in
      (m', seen :: out)
  end.

(** * Facts *)
Definition meq (m m' : amap) : Prop := forall k, m k = m' k.

Lemma dsum_ext m m' ks : (forall k, In k ks -> m k = m' k) -> dsum m ks = dsum m' ks.
Proof.
  induction ks as [|k ks IH]; intros H; cbn [dsum]; [reflexivity|].
  rewrite (H k (or_introl eq_refl)), IH; [reflexivity|]. intros k' Hk. apply H. right; exact Hk.
Qed.
Lemma dsum_app m l1 l2 : dsum m (l1 ++ l2) = (dsum m l1 + dsum m l2)%Z.
Proof. induction l1 as [|k l1 IH]; cbn [app dsum]; [lia|]. rewrite IH. lia. Qed.

Lemma msize_ext m m' n e : meq m m' -> msize m n e -> msize m' n e.
Proof.
  intros H (ks & H1 & H2 & H3 & H4). exists ks. split; [exact H1|]. split; [intros k; rewrite <- H; apply H2|].
  split; [exact H3|]. rewrite H4. apply dsum_ext. intros k _. apply H.
Qed.

Lemma msize_empty : msize aempty 0 0.
Proof. exists []. repeat split; [constructor|intros []|unfold aempty; congruence]. Qed.

Lemma msize_add m k v n e : msize m n e -> m k = None ->
  msize (aset m k v) (n + 1) (e + Z.of_N (blen k + blen v)).
Proof.
  intros (ks & H1 & H2 & -> & ->) Hn. exists (k :: ks).
  assert (Hk : ~ In k ks) by (rewrite H2; congruence).
  split; [constructor; assumption|]. split.
  - intros k'. cbn [In]. unfold aset. destruct (beqb_spec k k') as [->|Hne]; [split; [congruence|auto]|].
    rewrite H2. intuition congruence.
  - split; [cbn [length]; lia|]. cbn [dsum]. rewrite aset_eq.
    rewrite (dsum_ext (aset m k v) m); [lia|]. intros k' Hk'. apply aset_neq. congruence.
Qed.

Lemma msize_replace m k v v0 n e : msize m n e -> m k = Some v0 ->
  msize (aset m k v) n (e + (Z.of_N (blen v) - Z.of_N (blen v0))).
Proof.
  intros (ks & H1 & H2 & -> & ->) Hs. exists ks.
  split; [exact H1|]. split.
  - intros k'. rewrite H2. unfold aset. destruct (beqb_spec k k') as [->|Hne]; [split; congruence|reflexivity].
  - split; [reflexivity|]. assert (Hk : In k ks) by (apply H2; congruence).
    destruct (in_split _ _ Hk) as (l1 & l2 & ->). apply NoDup_remove_2 in H1. rewrite in_app_iff in H1.
    rewrite !dsum_app. cbn [dsum]. rewrite aset_eq, Hs.
    rewrite (dsum_ext (aset m k v) m l1), (dsum_ext (aset m k v) m l2); [lia| |];
      intros k' Hk'; apply aset_neq; intros ->; tauto.
Qed.

Lemma msize_del m k v0 n e : msize m n e -> m k = Some v0 ->
  msize (adel m k) (n - 1) (e - Z.of_N (blen k + blen v0)).
Proof.
  intros (ks & H1 & H2 & -> & ->) Hs.
  assert (Hk : In k ks) by (apply H2; congruence).
  destruct (in_split _ _ Hk) as (l1 & l2 & ->). exists (l1 ++ l2).
  assert (H1' := NoDup_remove_2 _ _ _ H1). split; [exact (NoDup_remove_1 _ _ _ H1)|]. split.
  - intros k'. unfold adel. destruct (beqb_spec k k') as [->|Hne]; [split; [tauto|congruence]|].
    rewrite <- H2. rewrite !in_app_iff. cbn [In]. intuition congruence.
  - split; [rewrite !app_length; cbn [length]; lia|].
    rewrite in_app_iff in H1'.
    rewrite !dsum_app. cbn [dsum]. rewrite Hs.
    rewrite (dsum_ext (adel m k) m l1), (dsum_ext (adel m k) m l2); [lia| |];
      intros k' Hk'; apply adel_neq; intros ->; tauto.
Qed.

Lemma adel_none m k : m k = None -> meq (adel m k) m.
Proof. intros H k'. unfold adel. destruct (beqb_spec k k') as [->|]; congruence. Qed.

Lemma msize_fun m n e n' e' : msize m n e -> msize m n' e' -> n = n' /\ e = e'.
Proof.
  intros (ks & H1 & H2 & -> & ->) (ks' & H1' & H2' & -> & ->).
  assert (P : Permutation ks ks').
  { apply NoDup_Permutation; auto. intros k. rewrite H2, H2'. reflexivity. }
  split; [rewrite (Permutation_length P); reflexivity|].
  clear -P. induction P; cbn [dsum]; lia.
Qed.

Lemma map_run_app m l1 l2 :
  map_run m (l1 ++ l2) = (fst (map_run (fst (map_run m l1)) l2), snd (map_run m l1) ++ snd (map_run (fst (map_run m l1)) l2)).
Proof.
  revert m; induction l1 as [|o l1 IH]; intros m; cbn [app map_run].
  - cbn [fst snd app]. apply surjective_pairing.
  - rewrite IH. destruct (map_run (map_apply m (o_key o) _ _) l1) as [m1 out1]. reflexivity.
Qed.
