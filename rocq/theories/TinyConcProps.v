(** C53: TinyDBM called by several threads.  Source: /repo/tkrzw_dbm_tiny.cc. *)
From Coq Require Import List NArith ZArith Bool Lia Arith Sorting.Sorted.
Import ListNotations.
From Verif Require Import Bytes CodecModel DbmModel StatusModel HashUtilModel PrimeModel PrimeProps HashDbLayout HashMutexModel HashMutexProps TinyModel TinyProofs TinyOps TinyProps TinyConcModel TinyConcProofs TinyConcSteps.
Local Open Scope N_scope.

(** ProcessFirst and ProcessEach as reader are left out: they take no record locks, see the refutations below. *)
Definition locked {S} (e : ev S) : Prop := match e with ECall _ (CFirst _ _) | ECall _ (CEach _ _) => False | _ => True end.

(** * What a transition accesses
    The race theorem is about the places listed by [access]: nothing else is written, and nothing else decides what a thread does next. *)
Section Accesses.
  Variable hash : bytes -> N -> N.
  Variable bucket_size : N -> N.
  Variable ns : N.
  Context {S : Type}.
  Lemma free_else h p h' : h_free h p = Some h' -> forall q, q <> p -> cell h' q = cell h q.
  Proof. unfold h_free. destruct (cell h p); [|discriminate]. intros E q NE. injection E as <-. cbn. unfold updc. apply Nat.eqb_neq in NE. rewrite NE. reflexivity. Qed.
  Lemma store_else h p b h' : h_store h p b = Some h' -> forall q, q <> p -> cell h' q = cell h q.
  Proof. unfold h_store. destruct (cell h p); [|discriminate]. intros E q NE. injection E as <-. cbn. unfold updc. apply Nat.eqb_neq in NE. rewrite NE. reflexivity. Qed.
  Lemma put_else h p o d h' : h_put h p o d = Some h' -> forall q, q <> p -> cell h' q = cell h q.
  Proof. unfold h_put. destruct (cell h p) as [[c b]|]; [|discriminate]. destruct (put b o d); [|discriminate]. apply store_else. Qed.
  Lemma alloc_else h b h' p : h_alloc h b = (h', p) -> p = hnext h /\ forall q, q <> p -> cell h' q = cell h q.
  Proof. unfold h_alloc. intros E. injection E as <- <-. split; [reflexivity|]. intros q NE. cbn. unfold updc. apply Nat.eqb_neq in NE. rewrite NE. reflexivity. Qed.
  Lemma realloc_else h p n mv h' p' : h_realloc h p n mv = Some (h', p') -> (p' = p \/ p' = hnext h) /\ forall q, q <> p -> q <> p' -> cell h' q = cell h q.
  Proof.
    unfold h_realloc. destruct (cell h p) as [[c b]|]; [|discriminate]. destruct mv.
    - destruct (h_alloc h _) as [h1 q1] eqn:E1. apply alloc_else in E1. destruct E1 as [-> E1]. destruct (h_free h1 p) as [h2|] eqn:E2; [|discriminate]. intros E. injection E as <- <-.
      split; [auto|]. intros q N1 N2. rewrite (free_else _ _ _ E2 _ N1). apply E1, N2.
    - destruct (h_store h p _) as [h1|] eqn:E1; [|discriminate]. intros E. injection E as <- <-. split; [auto|]. intros q N1 _. apply (store_else _ _ _ _ E1 _ N1).
  Qed.
  Lemma res_else h p c k v o mv h' p' : tr_reserialize h p c k v o mv = Some (h', p') -> (p' = p \/ p' = hnext h) /\ forall q, q <> p -> q <> p' -> cell h' q = cell h q.
  Proof.
    unfold tr_reserialize. destruct (negb _); [discriminate|]. destruct (size_var o <? _).
    - unfold tr_serialize. destruct (fits _ _); [|discriminate]. destruct (h_alloc h _) as [h1 q1] eqn:E1. apply alloc_else in E1. destruct E1 as [-> E1].
      destruct (h_free h1 p) as [h2|] eqn:E2; [|discriminate]. intros E. injection E as <- <-. split; [auto|]. intros q N1 N2. rewrite (free_else _ _ _ E2 _ N1). apply E1, N2.
    - destruct (o <? blen v).
      + destruct (h_realloc h p _ mv) as [[h1 q1]|] eqn:E1; [|discriminate]. apply realloc_else in E1. destruct E1 as [D E1]. destruct (h_put h1 q1 _ _) as [h2|] eqn:E2; [|discriminate].
        intros E. injection E as <- <-. split; [exact D|]. intros q N1 N2. rewrite (put_else _ _ _ _ _ E2 _ N2). apply E1; assumption.
      + destruct (h_put h p _ _) as [h2|] eqn:E2; [|discriminate]. intros E. injection E as <- <-. split; [auto|]. intros q N1 _. apply (put_else _ _ _ _ _ E2 _ N1).
  Qed.
  Lemma app_else h p c k v cat d mv h' p' : tr_append h p c k v cat d mv = Some (h', p') -> (p' = p \/ p' = hnext h) /\ forall q, q <> p -> q <> p' -> cell h' q = cell h q.
  Proof.
    unfold tr_append. cbv zeta. destruct (negb _); [discriminate|]. destruct (size_var (blen v) <? _).
    - destruct (h_alloc h _) as [h1 q1] eqn:E1. apply alloc_else in E1. destruct E1 as [-> E1].
      destruct (h_free h1 p) as [h2|] eqn:E2; [|discriminate]. intros E. injection E as <- <-. split; [auto|]. intros q N1 N2. rewrite (free_else _ _ _ E2 _ N1). apply E1, N2.
    - destruct (h_realloc h p _ mv) as [[h1 q1]|] eqn:E1; [|discriminate]. apply realloc_else in E1. destruct E1 as [D E1].
      destruct (h_put h1 q1 _ _) as [h2|] eqn:E2; [|discriminate]. destruct (h_put h2 q1 _ _) as [h3|] eqn:E3; [|discriminate]. destruct (h_put h3 q1 _ _) as [h4|] eqn:E4; [|discriminate].
      intros E. injection E as <- <-. split; [exact D|]. intros q N1 N2.
      rewrite (put_else _ _ _ _ _ E4 _ N2), (put_else _ _ _ _ _ E3 _ N2), (put_else _ _ _ _ _ E2 _ N2). apply E1; assumption.
  Qed.

  Theorem C53_writes moved m (p : pc S) m' p' : tact hash bucket_size ns moved m p = Next m' p' ->
    (forall i, t_b m' i <> t_b m i -> access hash m p (LB i) true) /\
    (forall q, (q < hnext (t_h m))%nat -> cell (t_h m') q <> cell (t_h m) q -> access hash m p (LC q) true).
  Proof.
    intros H.
    assert (D : forall q r : ptr, (q < hnext (t_h m))%nat -> (r = hnext (t_h m) -> q <> r)%nat) by (intros; lia).
    destruct p; cbn [tact] in H;
      repeat match goal with
      | H : (match ?x with _ => _ end) = Next _ _ |- _ => let E := fresh "E" in destruct x eqn:E; try discriminate
      end; try discriminate; try (injection H as <- <-; split; intros; exfalso; congruence).
    all: try (injection H as <- <-); cbn [set_h t_h t_b]; subst.
    - (* PFree *) split; [congruence|]. intros q' L N. destruct (Nat.eq_dec q' q) as [->|NE]; [constructor|]. rewrite (free_else _ _ _ E _ NE) in N. congruence.
    - (* PRes *) split; [congruence|]. intros q' L N. destruct (Nat.eq_dec q' q) as [->|NE]; [constructor|]. apply res_else in E0. destruct E0 as [[->|P] E0]; rewrite E0 in N by (auto; lia); congruence.
    - (* PApp *) split; [congruence|]. intros q' L N. destruct (Nat.eq_dec q' q) as [->|NE]; [constructor|]. apply app_else in E0. destruct E0 as [[->|P] E0]; rewrite E0 in N by (auto; lia); congruence.
    - (* PNew *) split; [congruence|]. intros q' L N. exfalso. unfold tr_serialize in E0. rewrite E in E0. unfold h_alloc in E0. injection E0 as <- <-.
      cbn [cell] in N. unfold updc in N. destruct (Nat.eqb_spec q' (hnext (t_h m))); [lia|congruence].
    - (* PLink *) unfold relink in E. destruct parent as [pq|].
      + destruct (h_link (t_h m) pq np) as [h1|] eqn:E1; [|discriminate]. injection E as <- <-. split; [congruence|]. intros q' L N.
        destruct (Nat.eq_dec q' pq) as [->|NE]; [constructor|]. unfold h_link in E1. destruct (cell (t_h m) pq) as [[c1 b1]|]; [|discriminate]. rewrite (store_else _ _ _ _ E1 _ NE) in N. congruence.
      + injection E as <- <-. split; [|congruence]. intros i Hi. unfold updb in Hi. destruct (N.eqb_spec i (hash k (t_nb m))) as [EQ|NE]; [rewrite EQ; constructor|congruence].
    - (* PNum *) split; congruence.
    - (* PExcl *) split; intros; constructor.
  Qed.

  (** Two memories with equal cells at a pointer: the same result there. *)
  Definition same_at (h h2 : heap) (p : ptr) : Prop := cell h p = cell h2 p /\ hnext h = hnext h2.
  Lemma put_same h h2 p o d h' : same_at h h2 p -> h_put h p o d = Some h' -> exists h2', h_put h2 p o d = Some h2' /\ same_at h' h2' p.
  Proof.
    intros [A B] E. unfold h_put, h_store in *. rewrite <- A. destruct (cell h p) as [[c b]|]; [|discriminate]. destruct (put b o d); [|discriminate]. injection E as <-.
    eexists. split; [reflexivity|]. split; cbn; [|exact B]. unfold updc. rewrite Nat.eqb_refl. reflexivity.
  Qed.
  Lemma free_same h h2 p h' : same_at h h2 p -> h_free h p = Some h' -> exists h2', h_free h2 p = Some h2' /\ same_at h' h2' p.
  Proof.
    intros [A B] E. unfold h_free in *. rewrite <- A. destruct (cell h p) as [[c b]|]; [|discriminate]. injection E as <-.
    eexists. split; [reflexivity|]. split; cbn; [|exact B]. unfold updc. rewrite Nat.eqb_refl. reflexivity.
  Qed.
  Lemma move_same h h2 p b h1 q h' : same_at h h2 p -> h_alloc h b = (h1, q) -> h_free h1 p = Some h' ->
    exists h3 h2', h_alloc h2 b = (h3, q) /\ h_free h3 p = Some h2' /\ same_at h' h2' q.
  Proof.
    intros [A B] E F. unfold h_alloc in *. injection E as <- <-. rewrite <- B. eexists. unfold h_free in *. cbn [cell hnext] in *.
    assert (C : updc (cell h) (hnext h) (Some b) p = updc (cell h2) (hnext h) (Some b) p) by (unfold updc; destruct (p =? hnext h)%nat; [reflexivity|exact A]).
    rewrite C in F. destruct (updc (cell h2) (hnext h) (Some b) p) eqn:X; [|discriminate]. injection F as <-.
    eexists. split; [reflexivity|]. cbn [cell]. rewrite X. split; [reflexivity|]. split; [|reflexivity]. cbn. unfold updc. rewrite Nat.eqb_refl. destruct (hnext h =? p)%nat; reflexivity.
  Qed.
  Lemma realloc_same h h2 p n mv h' q : same_at h h2 p -> h_realloc h p n mv = Some (h', q) -> exists h2', h_realloc h2 p n mv = Some (h2', q) /\ same_at h' h2' q.
  Proof.
    intros AB E. unfold h_realloc in *. pose proof AB as [A B]. rewrite <- A. destruct (cell h p) as [[c b]|] eqn:EC; [|discriminate]. destruct mv.
    - destruct (h_alloc h _) as [h1 q1] eqn:E1. destruct (h_free h1 p) as [h3|] eqn:E2; [|discriminate]. injection E as <- <-.
      destruct (move_same _ _ _ _ _ _ _ AB E1 E2) as (h4 & h5 & -> & X & Y). rewrite X. eauto.
    - unfold h_store in *. rewrite <- A. rewrite EC in *. injection E as <- <-. eexists. split; [reflexivity|]. split; cbn; [|exact B]. unfold updc. rewrite Nat.eqb_refl. reflexivity.
  Qed.
  Lemma res_same h h2 p c k v o mv h' q : same_at h h2 p -> tr_reserialize h p c k v o mv = Some (h', q) -> exists h2', tr_reserialize h2 p c k v o mv = Some (h2', q).
  Proof.
    intros AB E. unfold tr_reserialize in *. destruct (negb _); [discriminate|]. destruct (size_var o <? _).
    - unfold tr_serialize in *. destruct (fits _ _); [|discriminate]. destruct (h_alloc h _) as [h1 q1] eqn:E1. destruct (h_free h1 p) as [h3|] eqn:E2; [|discriminate]. injection E as <- <-.
      destruct (move_same _ _ _ _ _ _ _ AB E1 E2) as (h4 & h5 & -> & X & Y). rewrite X. eauto.
    - destruct (o <? blen v).
      + destruct (h_realloc h p _ mv) as [[h1 q1]|] eqn:E1; [|discriminate]. destruct (realloc_same _ _ _ _ _ _ _ AB E1) as (h3 & -> & X).
        destruct (h_put h1 q1 _ _) as [h4|] eqn:E2; [|discriminate]. destruct (put_same _ _ _ _ _ _ X E2) as (h5 & -> & Y). injection E as <- <-. eauto.
      + destruct (h_put h p _ _) as [h4|] eqn:E2; [|discriminate]. destruct (put_same _ _ _ _ _ _ AB E2) as (h5 & -> & Y). injection E as <- <-. eauto.
  Qed.
  Lemma app_same h h2 p c k v cat d mv h' q : same_at h h2 p -> tr_append h p c k v cat d mv = Some (h', q) -> exists h2', tr_append h2 p c k v cat d mv = Some (h2', q).
  Proof.
    intros AB E. unfold tr_append in *. cbv zeta in *. destruct (negb _); [discriminate|]. destruct (size_var (blen v) <? _).
    - destruct (h_alloc h _) as [h1 q1] eqn:E1. destruct (h_free h1 p) as [h3|] eqn:E2; [|discriminate]. injection E as <- <-.
      destruct (move_same _ _ _ _ _ _ _ AB E1 E2) as (h4 & h5 & -> & X & Y). rewrite X. eauto.
    - destruct (h_realloc h p _ mv) as [[h1 q1]|] eqn:E1; [|discriminate]. destruct (realloc_same _ _ _ _ _ _ _ AB E1) as (h3 & -> & X).
      destruct (h_put h1 q1 _ _) as [h4|] eqn:E2; [|discriminate]. destruct (put_same _ _ _ _ _ _ X E2) as (h5 & -> & Y).
      destruct (h_put h4 q1 _ _) as [h6|] eqn:E3; [|discriminate]. destruct (put_same _ _ _ _ _ _ Y E3) as (h7 & -> & Z).
      destruct (h_put h6 q1 _ _) as [h8|] eqn:E4; [|discriminate]. destruct (put_same _ _ _ _ _ _ Z E4) as (h9 & -> & W). injection E as <- <-. eauto.
  Qed.

  (** The number of buckets changes only under the exclusive lock; num_records_ is atomic; the allocator is thread-safe. *)
  Theorem C53_reads moved m m2 (p : pc S) m' p' : (forall o s, p <> PExcl o s) -> t_nb m = t_nb m2 -> t_num m = t_num m2 -> hnext (t_h m) = hnext (t_h m2) ->
    (forall i b, access hash m p (LB i) b -> t_b m i = t_b m2 i) -> (forall q b, access hash m p (LC q) b -> cell (t_h m) q = cell (t_h m2) q) ->
    tact hash bucket_size ns moved m p = Next m' p' -> exists m2', tact hash bucket_size ns moved m2 p = Next m2' p'.
  Proof.
    intros NX NB NN HN AB AC H.
    assert (DS : forall q b, access hash m p (LC q) b -> tr_deserialize (t_h m) q = tr_deserialize (t_h m2) q) by (intros q b A; unfold tr_deserialize; rewrite (AC q b A); reflexivity).
    assert (SA : forall q b, access hash m p (LC q) b -> same_at (t_h m) (t_h m2) q) by (intros q b A; split; [apply (AC q b A)|exact HN]).
    destruct p as [|c|c got todo|c r s|c k it r s top parent [q|]|c k r s q parent child|c k r s q parent child old v|c k r s q parent child old cat delim|c k r s top v|c k r s parent np d
                  |c r s d|c s todo|o s| |p s i|p s q|p s i|p s i [q|]|r]; cbn [tact] in H |- *; try discriminate.
    - destruct todo; [|discriminate]. injection H as <- <-. eauto.
    - destruct r as [|[k it] r]; injection H as <- <-; [rewrite NB; eauto|]. rewrite <- NB. erewrite <- AB by constructor. eauto.
    - erewrite <- DS by constructor. destruct (tr_deserialize (t_h m) q) as [[[ch k'] v]|]; [|discriminate]. destruct (beqb k k'); [|injection H as <- <-; eauto].
      destruct it as [pr|cat delim]; [|injection H as <- <-; eauto]. destruct (on_full pr k v s) as [a s']. destruct (if ic_w c then a else ANoop); injection H as <- <-; eauto.
    - destruct it as [pr|cat delim]; [|injection H as <- <-; eauto]. destruct (on_empty pr k s) as [a s']. destruct (if ic_w c then a else ANoop); injection H as <- <-; eauto.
    - destruct (h_free (t_h m) q) as [h|] eqn:E; [|discriminate]. injection H as <- <-.
      destruct (free_same _ _ _ _ (SA q true ltac:(constructor)) E) as (h2 & -> & _). eauto.
    - destruct (fits _ _); [|discriminate]. destruct (tr_reserialize (t_h m) q _ _ _ _ _) as [[h q']|] eqn:E; [|discriminate]. injection H as <- <-.
      destruct (res_same _ _ _ _ _ _ _ _ _ _ (SA q true ltac:(constructor)) E) as (h2 & ->). eauto.
    - destruct (fits _ _); [|discriminate]. destruct (tr_append (t_h m) q _ _ _ _ _ _) as [[h q']|] eqn:E; [|discriminate]. injection H as <- <-.
      destruct (app_same _ _ _ _ _ _ _ _ _ _ _ (SA q true ltac:(constructor)) E) as (h2 & ->). eauto.
    - destruct (fits _ _) eqn:F; [|discriminate]. unfold tr_serialize in *. rewrite F in *. unfold h_alloc in *. injection H as <- <-. rewrite HN. eauto.
    - unfold relink in *. destruct parent as [pq|].
      + unfold h_link, h_store in *. erewrite <- (AC pq) by constructor. destruct (cell (t_h m) pq) as [[c1 b1]|]; [|discriminate]. injection H as <- <-. eauto.
      + injection H as <- <-. eauto.
    - injection H as <- <-. eauto.
    - destruct todo; injection H as <- <-; eauto.
    - destruct (NX o s eq_refl).
    - injection H as <- <-. rewrite NN. eauto.
    - rewrite <- NB. destruct (i <? t_nb m); [|injection H as <- <-; eauto]. erewrite <- AB by constructor. destruct (t_b m i); injection H as <- <-; eauto.
    - erewrite <- DS by constructor. destruct (tr_deserialize (t_h m) q) as [[[ch k'] v]|]; [|discriminate]. injection H as <- <-. eauto.
    - rewrite <- NB. destruct (i <? t_nb m); [|injection H as <- <-; eauto]. injection H as <- <-. erewrite <- AB by constructor. eauto.
    - erewrite <- DS by constructor. destruct (tr_deserialize (t_h m) q) as [[[ch k'] v]|]; [|discriminate]. injection H as <- <-. eauto.
    - injection H as <- <-. eauto.
  Qed.
End Accesses.
(** Linking a new record to its bucket. *)
Example writes_case : access (S := unit) primary_hash (t_new (fun n => n) 5) (PLink (c_process [1] (mkProc (fun _ _ s => (ANoop, s)) (fun _ s => (ANoop, s))) true tt) [1] [] tt None (Some 7%nat) 1) (LB (primary_hash [1] 5)) true.
Proof.
  destruct (C53_writes primary_hash (fun n => n) 128 false (t_new (fun n => n) 5) (PLink (c_process [1] (mkProc (fun _ _ s => (ANoop, s)) (fun _ s => (ANoop, s))) true tt) [1] [] tt None (Some 7%nat) 1) _ _ eq_refl) as [X _].
  apply X. vm_compute. discriminate.
Qed.

Section C53.
  Variable hash : bytes -> N -> N.
  Variable bucket_size : N -> N.
  Hypothesis hash_lt : forall k nb, 0 < nb -> hash k nb < nb.
  Hypothesis size_pos : forall n, 0 < bucket_size n.
  Variable ns : N.
  Context {S : Type}.
  Variable n : nat.
  Notation ginv := (ginv hash ns n).
  Notation tact := (tact hash bucket_size ns).
  Notation run := (run hash bucket_size ns n).
  Notation step := (step hash bucket_size ns n).
  Notation slots_of := (slots_of hash ns).

  Lemma inv_init nb : ginv (init bucket_size S nb) ainit (fun _ => []).
  Proof.
    assert (TI : tinv hash (t_new bucket_size nb) (fun _ => [])) by apply (tinv_empty hash).
    constructor; cbn [init y_m y_pc ainit a_m a_th]; auto.
    - unfold t_new. cbn. destruct (0 <? nb); [apply size_pos|lia].
    - intros i Hi. left. apply (v_seg _ _ _ TI i Hi).
    - destruct TI. constructor; auto.
    - rewrite (v_num _ _ _ TI). assert (forall k, pend (S := S) (fun _ => PIdle) k = 0%Z) as X; [|rewrite X; lia]. induction k as [|k IHk]; [reflexivity|]. cbn. rewrite IHk. reflexivity.
    - intros t u NE. cbn. split; [discriminate|intros j []].
    - intros t. cbn. exact I.
    - intros t. reflexivity.
  Qed.

  (** Changes of the program point only. *)
  Lemma pc_step (y : sys S) (a : asys S) L t p' (a' : asys S) : ginv y a L -> (t < n)%nat -> a_m a' = a_m a ->
    (forall nb, linking hash nb (y_pc y t) = None) -> (forall nb x, ~ dirty hash ns nb (y_pc y t) x) -> pendp (y_pc y t) = 0%Z -> pendp p' = 0%Z ->
    excl hash ns (t_nb (y_m y)) (upd (y_pc y) t p') -> thread_ok hash ns (y_m y) L (a_m a') p' ->
    matches p' (a_th a' t) -> (forall u, u <> t -> a_th a' u = a_th a u) -> ginv (mkSys (y_m y) (upd (y_pc y) t p')) a' L.
  Proof.
    intros G Ht EM NL ND P0 P1 EX TH MA AB.
    eapply (local_step hash bucket_size hash_lt size_pos ns n y a L t); eauto.
    - apply (i_lin _ _ _ _ _ _ G).
    - intros i Hi A _ [X|X]; [auto|]. rewrite NL in X. discriminate.
    - rewrite P0, P1. lia.
    - intros x. rewrite EM. auto.
    - intros x _ _ _ [X|X]; [destruct (ND _ _ X)|rewrite EM; exact X].
  Qed.

  Lemma step_ok (y : sys S) (a : asys S) L e y' : ginv y a L -> locked e -> step y e y' ->
    exists a' L', ginv y' a' L' /\ ((e = ETau /\ a' = a) \/ astep a e a').
  Proof.
    intros G LK ST. inversion ST as [t c Ht EP WF EE EY|t c EP FM EE EY|t c got j todo EP FS EE EY|t moved m' p' EA EE EY|t r EP EE EY]; subst.
    - pose proof (i_abs _ _ _ _ _ _ G t) as AB. rewrite EP in AB. cbn in AB.
      exists (mkA (a_m a) (aupd (a_th a) t (ACalled c))), L. split; [|right; apply as_call; exact AB].
      eapply pc_step; eauto; cbn [a_m a_th]; try (intros; rewrite EP; auto; fail); try reflexivity.
      + apply excl_sub; [apply (i_excl _ _ _ _ _ _ G)|cbn; discriminate|intros j []].
      + cbn. split; [exact WF|]. destruct c; auto.
      + cbn. apply aupd_same.
      + intros u NE. apply aupd_other, NE.
    - assert (Ht : (t < n)%nat) by (destruct (Nat.lt_ge_cases t n) as [X|X]; [exact X|rewrite (i_fin _ _ _ _ _ _ G t X) in EP; discriminate]).
      pose proof (i_abs _ _ _ _ _ _ G t) as AB. rewrite EP in AB. cbn in AB.
      pose proof (i_thr _ _ _ _ _ _ G t) as T. rewrite EP in T. cbn in T. destruct T as [WF NR].
      exists a, L. split; [|auto].
      assert (SL : slots_of (t_nb (y_m y)) (start hash ns (t_nb (y_m y)) c) = []) by (destruct c; reflexivity).
      assert (MM : forall md, main_of (start hash ns (t_nb (y_m y)) c) = Some md -> md = mstart c) by (destruct c; cbn; congruence).
      eapply pc_step; eauto; try (intros; rewrite EP; auto; fail).
      + destruct c; reflexivity.
      + intros t1 u1 NE. destruct (i_excl _ _ _ _ _ _ G t1 u1 NE) as [E1 E2].
        destruct (Nat.eq_dec t1 t) as [->|X1], (Nat.eq_dec u1 t) as [->|X2]; try congruence; rewrite ?upd_same; rewrite ?upd_other by assumption; rewrite ?SL; split; auto; try (intros ? []; fail).
        * intros md b A B. rewrite (MM _ A). eapply FM; eauto.
        * intros md b A B CL. rewrite (MM _ B) in CL. eapply (FM t1 md); eauto. destruct CL; [right|left]; assumption.
      + destruct c; cbn in *; auto; try contradiction.
      + destruct c; cbn; auto; contradiction.
    - assert (Ht : (t < n)%nat) by (destruct (Nat.lt_ge_cases t n) as [X|X]; [exact X|rewrite (i_fin _ _ _ _ _ _ G t X) in EP; discriminate]).
      pose proof (i_abs _ _ _ _ _ _ G t) as AB. rewrite EP in AB. cbn in AB.
      pose proof (i_thr _ _ _ _ _ _ G t) as T. rewrite EP in T. cbn in T. destruct T as [WF NR].
      exists a, L. split; [|auto]. eapply pc_step; eauto; try (intros; rewrite EP; auto; fail); try reflexivity.
      + intros t1 u1 NE. destruct (i_excl _ _ _ _ _ _ G t1 u1 NE) as [E1 E2].
        destruct (Nat.eq_dec t1 t) as [->|X1], (Nat.eq_dec u1 t) as [->|X2]; try congruence; rewrite ?upd_same; rewrite ?upd_other by assumption; split; auto.
        * rewrite EP in E1. exact E1.
        * cbn. intros j' A B. apply in_app_or in A. destruct A as [A|[<-|[]]]; [rewrite EP in E2; apply (E2 j' A B)|]. apply FS; auto.
        * rewrite EP in E1. exact E1.
        * cbn. intros j' A B CL. apply in_app_or in B. destruct B as [B|[<-|[]]]; [rewrite EP in E2; apply (E2 j' A B CL)|]. apply (FS t1 NE A).
          destruct CL; [right|left]; assumption.
      + cbn. split; [exact WF|]. rewrite <- app_assoc. exact NR.
    - pose proof (act_ok hash bucket_size hash_lt size_pos ns n y a L t moved G) as F. rewrite EA in F. cbn in F. destruct F as (a' & L' & X & G').
      exists a', L'. split; [exact G'|]. destruct X; auto.
    - assert (Ht : (t < n)%nat) by (destruct (Nat.lt_ge_cases t n) as [X|X]; [exact X|rewrite (i_fin _ _ _ _ _ _ G t X) in EP; discriminate]).
      pose proof (i_abs _ _ _ _ _ _ G t) as AB. rewrite EP in AB. cbn in AB.
      exists (mkA (a_m a) (aupd (a_th a) t AIdle)), L. split; [|right; apply as_ret; exact AB].
      eapply pc_step; eauto; cbn [a_m a_th]; try (intros; rewrite EP; auto; fail); try reflexivity.
      + apply excl_sub; [apply (i_excl _ _ _ _ _ _ G)|cbn; discriminate|intros j []].
      + cbn. apply aupd_same.
      + intros u NE. apply aupd_other, NE.
  Qed.

  Lemma run_ok nb tr (y : sys S) : run (init bucket_size S nb) tr y -> Forall locked tr -> exists a L, arun ainit tr a /\ ginv y a L.
  Proof.
    remember (init bucket_size S nb) as y0 eqn:E0. induction 1 as [y|y y1 tr y2 R IH ST|y y1 tr e y2 R IH NE ST]; intros FA; subst.
    - exists ainit, (fun _ => []). split; [constructor|apply inv_init].
    - destruct (IH eq_refl FA) as (a & L & A & G). destruct (step_ok _ _ _ ETau _ G I ST) as (a' & L' & G' & [[_ ->]|X]).
      + exists a, L'. auto.
      + exists a', L'. split; [eapply arun_tau; eauto|exact G'].
    - apply Forall_app in FA. destruct FA as [FA FE]. destruct (IH eq_refl FA) as (a & L & A & G). inversion FE as [|? ? LE _]; subst.
      destruct (step_ok _ _ _ _ _ G LE ST) as (a' & L' & G' & [[X _]|X]); [congruence|].
      exists a', L'. split; [eapply arun_ev; eauto|exact G'].
  Qed.

  Definition resting (y : sys S) : Prop := forall t, main_of (y_pc y t) = None.
  Lemma rest_rep (y : sys S) a L : ginv y a L -> resting y -> reps hash (y_m y) (a_m a).
  Proof.
    intros G RE. destruct (i_lin _ _ _ _ _ _ G) as [LO LK LN LD].
    assert (QU : forall p : pc S, main_of p = None -> pendp p = 0%Z /\ (forall nb, linking hash nb p = None) /\ (forall nb x, ~ dirty hash ns nb p x)).
    { intros p; destruct p; cbn; try easy; intros _; repeat split; auto. }
    exists L. split; [apply (i_nb _ _ _ _ _ _ G)|]. split.
    - constructor; auto.
      + intros i Hi. destruct (i_shape _ _ _ _ _ _ G i Hi) as [X|(u & X)]; [exact X|]. destruct (QU _ (RE u)) as (_ & Y & _). rewrite Y in X. discriminate.
      + rewrite (i_num _ _ _ _ _ _ G). assert (forall k, pend (y_pc y) k = 0%Z) as X; [|rewrite X; lia]. induction k as [|k IHk]; [reflexivity|]. cbn. rewrite IHk.
        destruct (QU _ (RE k)) as [-> _]. reflexivity.
    - intros x. symmetry. apply (i_free _ _ _ _ _ _ G). intros u. apply (QU _ (RE u)).
  Qed.

  (** Whatever the threads do, what they observe is what they could observe of a database whose calls take effect one at a time,
      each at one moment between its call and its return.  Whenever no call holds a lock, the memory holds exactly the records of
      that database, the number of records being right. *)
  Theorem C53_linearizable nb tr y : run (init bucket_size S nb) tr y -> Forall locked tr ->
    exists a, arun ainit tr a /\ (resting y -> reps hash (y_m y) (a_m a) /\ acount (a_m a) (Z.to_nat (t_num (y_m y)))).
  Proof.
    intros R FA. destruct (run_ok _ _ _ R FA) as (a & L & A & G). exists a. split; [exact A|]. intros RE.
    pose proof (rest_rep _ _ _ G RE) as RP. split; [exact RP|]. exact (proj2 (C11_count hash bucket_size hash_lt size_pos _ _ RP)).
  Qed.

  (** No thread ever uses a null or freed pointer or leaves a block. *)
  Theorem C53_defined nb tr y t moved : run (init bucket_size S nb) tr y -> Forall locked tr -> tact moved (y_m y) (y_pc y t) <> UB.
  Proof.
    intros R FA E. destruct (run_ok _ _ _ R FA) as (a & L & _ & G). pose proof (act_ok hash bucket_size hash_lt size_pos ns n y a L t moved G) as F. rewrite E in F. exact F.
  Qed.

  (** Two threads are about to access the same place, one of them writing. *)
  Definition race (y : sys S) : Prop := exists t u l b, t <> u /\ access hash (y_m y) (y_pc y t) l true /\ access hash (y_m y) (y_pc y u) l b.

  (** What a thread accesses is protected by a record lock it holds. *)
  Lemma access_slot (y : sys S) a L t l b : ginv y a L -> access hash (y_m y) (y_pc y t) l b -> (forall o s, y_pc y t <> PExcl o s) ->
    exists i, i < t_nb (y_m y) /\ In (i mod ns) (slots_of (t_nb (y_m y)) (y_pc y t)) /\ (b = true -> mode_of (y_pc y t) = MX) /\
      match l with LB j => j = i | LC q => In q (locs (L i)) end.
  Proof.
    intros G AC NX. pose proof (i_thr _ _ _ _ _ _ G t) as T. pose proof (i_nb _ _ _ _ _ _ G) as H0.
    remember (y_pc y t) as p eqn:EP. destruct AC; cbn [thread_ok slots_of TinyConcModel.slots_of mode_of] in *; try contradiction.
    - exists (hash k (t_nb (y_m y))). destruct (prog_next _ _ _ _ _ _ _ _ _ _ T) as (_ & _ & _ & _ & IK & _). split; [apply hash_lt, H0|]. split; [exact IK|]. split; [discriminate|reflexivity].
    - destruct T as (T & l1 & l2 & T1 & T2 & T3 & _). exists (hash k (t_nb (y_m y))). destruct (prog_next _ _ _ _ _ _ _ _ _ _ T) as (_ & _ & _ & _ & IK & _). split; [apply hash_lt, H0|]. split; [exact IK|].
      split; [discriminate|]. destruct l2 as [|[q' [k' v']] l2]; [discriminate T3|]. cbn in T3. destruct T3 as [X _]. injection X as <-. rewrite T1, locs_app. apply in_or_app. right. left. reflexivity.
    - destruct T as (T & old & l1 & l2 & T1 & _). destruct (prog1_facts _ _ _ _ _ _ _ _ _ _ T) as [W IK]. exists (hash k (t_nb (y_m y))). split; [apply hash_lt, H0|]. split; [exact IK|]. rewrite W. split; [auto|].
      rewrite T1, locs_app. apply in_or_app. right. left. reflexivity.
    - destruct T as (T & l1 & l2 & T1 & _). destruct (prog1_facts _ _ _ _ _ _ _ _ _ _ T) as [W IK]. exists (hash k (t_nb (y_m y))). split; [apply hash_lt, H0|]. split; [exact IK|]. rewrite W. split; [auto|].
      rewrite T1, locs_app. apply in_or_app. right. left. reflexivity.
    - destruct T as (T & l1 & l2 & T1 & _). destruct (prog1_facts _ _ _ _ _ _ _ _ _ _ T) as [W IK]. exists (hash k (t_nb (y_m y))). split; [apply hash_lt, H0|]. split; [exact IK|]. rewrite W. split; [auto|].
      rewrite T1, locs_app. apply in_or_app. right. left. reflexivity.
    - destruct T as (T & W & IK & _). exists (hash k (t_nb (y_m y))). split; [apply hash_lt, H0|]. split; [exact IK|]. rewrite W. auto.
    - destruct T as (T & W & IK & l1 & l2 & e & T1 & T2 & T3 & T4). exists (hash k (t_nb (y_m y))). split; [apply hash_lt, H0|]. split; [exact IK|]. rewrite W. split; [auto|].
      rewrite T1, locs_app. apply in_or_app. left. destruct l1 as [|[q' kv] l1 _] using rev_ind; [discriminate T4|]. rewrite last_loc_snoc in T4. injection T4 as ->.
      rewrite locs_app. apply in_or_app. right. left. reflexivity.
    - exfalso. eapply NX. reflexivity.
  Qed.
  Theorem C53_no_race nb tr y : run (init bucket_size S nb) tr y -> Forall locked tr -> ~ race y.
  Proof.
    intros R FA (t & u & l & b & NE & A1 & A2). destruct (run_ok _ _ _ R FA) as (a & L & _ & G).
    assert (MN : forall v l b, access hash (y_m y) (y_pc y v) l b -> main_of (y_pc y v) <> None) by (intros v l' b' [] X; discriminate X).
    assert (XX : forall v w o s, v <> w -> y_pc y v = PExcl o s -> main_of (y_pc y w) <> None -> False).
    { intros v w o s NE' E M. destruct (main_of (y_pc y w)) as [md|] eqn:EM; [|congruence]. destruct (i_excl _ _ _ _ _ _ G v w NE') as [X _]. rewrite E in X.
      apply (X MX md eq_refl EM). left. reflexivity. }
    assert (N1 : forall o s, y_pc y t <> PExcl o s) by (intros o s E; eapply (XX t u); eauto).
    assert (N2 : forall o s, y_pc y u <> PExcl o s) by (intros o s E; eapply (XX u t); eauto).
    destruct (access_slot _ _ _ _ _ _ G A1 N1) as (i & I1 & I2 & I3 & I4). destruct (access_slot _ _ _ _ _ _ G A2 N2) as (j & J1 & J2 & J3 & J4).
    assert (i = j) as ->. { destruct l as [x|q]; [congruence|]. eapply (l_disj _ _ _ _ (i_lin _ _ _ _ _ _ G)); eauto. }
    destruct (i_excl _ _ _ _ _ _ G t u NE) as [_ X]. apply (X _ I2 J2). left. auto.
  Qed.

  (** Count is exact when no other call holds a lock. *)
  Theorem C53_count nb tr y t : run (init bucket_size S nb) tr y -> Forall locked tr -> y_pc y t = PCount -> (forall u, u <> t -> main_of (y_pc y u) = None) ->
    exists a z, arun ainit tr a /\ (forall moved, tact moved (y_m y) (y_pc y t) = Next (y_m y) (PRet (RN z))) /\ acount (a_m a) (Z.to_nat z).
  Proof.
    intros R FA EP RE. destruct (run_ok _ _ _ R FA) as (a & L & A & G). exists a, (t_num (y_m y)). split; [exact A|]. split; [rewrite EP; reflexivity|].
    destruct (i_lin _ _ _ _ _ _ G) as [LO LK LN LD].
    assert (QU : forall u, pendp (y_pc y u) = 0%Z /\ (forall nb, linking hash nb (y_pc y u) = None) /\ (forall nb x, ~ dirty hash ns nb (y_pc y u) x)).
    { intros u. destruct (Nat.eq_dec u t) as [->|NE]; [rewrite EP; repeat split; auto|]. specialize (RE u NE). destruct (y_pc y u); cbn in RE; try discriminate; repeat split; auto. }
    assert (reps hash (y_m y) (a_m a)) as RP; [|exact (proj2 (C11_count hash bucket_size hash_lt size_pos _ _ RP))].
    exists L. split; [apply (i_nb _ _ _ _ _ _ G)|]. split.
    - constructor; auto.
      + intros i Hi. destruct (i_shape _ _ _ _ _ _ G i Hi) as [X|(u & X)]; [exact X|]. destruct (QU u) as (_ & Y & _). rewrite Y in X. discriminate.
      + rewrite (i_num _ _ _ _ _ _ G). assert (forall k, pend (y_pc y) k = 0%Z) as X; [|rewrite X; lia]. induction k as [|k IHk]; [reflexivity|]. cbn. rewrite IHk.
        destruct (QU k) as [-> _]. reflexivity.
    - intros x. symmetry. apply (i_free _ _ _ _ _ _ G). intros u. apply (QU u).
  Qed.

  (** Nobody waits for ever for the others: whenever a call is running, some thread can take a step (or is about to make a record of
      2^31 bytes). *)
  Theorem C53_no_deadlock nb tr y t : run (init bucket_size S nb) tr y -> Forall locked tr -> y_pc y t <> PIdle ->
    (exists e y', (forall u c, e <> ECall u c) /\ step y e y') \/ exists u, tact false (y_m y) (y_pc y u) = Big.
  Proof.
    intros R FA NI. destruct (run_ok _ _ _ R FA) as (a & L & _ & G).
    assert (AC : forall u, match y_pc y u with PIdle | PMain _ | PSlots _ _ (_ :: _) => False | _ => True end ->
      (exists e y', (forall u c, e <> ECall u c) /\ step y e y') \/ exists u, tact false (y_m y) (y_pc y u) = Big).
    { intros u H. pose proof (act_ok hash bucket_size hash_lt size_pos ns n y a L u false G) as F. destruct (tact false (y_m y) (y_pc y u)) as [| | |m' p'] eqn:E.
      - destruct (y_pc y u) as [|c|c got [|j todo]|c [|[k it] r] s|c k it r s top parent [q|]| | | | | | |c s [|j l]| | | | | |p s i [q|]|r] eqn:EP; try contradiction.
        all: try (left; do 2 eexists; split; [|eapply st_ret; exact EP]; discriminate).
        all: exfalso; cbn in E; pose proof (i_thr _ _ _ _ _ _ G u) as T; rewrite EP in T; cbn in T; try contradiction; try discriminate E.
        + destruct (tr_deserialize (t_h (y_m y)) q) as [[[? ?] ?]|]; [|discriminate]. destruct (beqb k b); [|discriminate]. destruct it as [pr|]; [|discriminate].
          destruct (on_full pr k b0 s). destruct (if ic_w c then a0 else ANoop); discriminate.
        + destruct it as [pr|]; [|discriminate]. destruct (on_empty pr k s). destruct (if ic_w c then a0 else ANoop); discriminate.
        + destruct (h_free _ _); discriminate.
        + destruct (fits _ _); [|discriminate]. destruct (tr_reserialize _ _ _ _ _ _ _) as [[? ?]|]; discriminate.
        + destruct (fits _ _); [|discriminate]. destruct (tr_append _ _ _ _ _ _ _ _) as [[? ?]|]; discriminate.
        + destruct (fits _ _); [|discriminate]. destruct (tr_serialize _ _ _ _) as [[? ?]|]; discriminate.
        + destruct (relink _ _ _ _ _) as [[? ?]|]; discriminate.
        + destruct (t_call _ _ _ _ _) as [[? ?]|]; discriminate.
      - destruct F.
      - eauto.
      - left. do 2 eexists. split; [|eapply st_act; exact E]. discriminate. }
    assert (DEC : forall u, match y_pc y u with PIdle | PMain _ | PSlots _ _ (_ :: _) => False | _ => True end \/
      (y_pc y u = PIdle \/ exists c, y_pc y u = PMain c) \/ exists c got j todo, y_pc y u = PSlots c got (j :: todo)).
    { intros u. destruct (y_pc y u) as [|c|c got [|j todo]| | | | | | | | | | | | | | | |]; eauto 10. }
    assert (ALL : forall k, (exists u, (u < k)%nat /\ match y_pc y u with PIdle | PMain _ | PSlots _ _ (_ :: _) => False | _ => True end) \/
      ((forall u, (u < k)%nat -> y_pc y u = PIdle \/ exists c, y_pc y u = PMain c) \/
       exists u c got j todo, (u < k)%nat /\ y_pc y u = PSlots c got (j :: todo) /\
         forall u' c' got' j' todo', (u' < k)%nat -> y_pc y u' = PSlots c' got' (j' :: todo') -> j' <= j) \/ False).
    { induction k as [|k IH]; [right; left; left; intros u Hu; lia|].
      destruct IH as [(u & U1 & U2)|[IH|[]]]; [left; exists u; split; [lia|exact U2]|].
      destruct (DEC k) as [X|[X|(c & got & j & todo & X)]].
      - left. exists k. split; [lia|exact X].
      - right. left. destruct IH as [IH|(u & c & got & j & todo & U1 & U2 & U3)].
        + left. intros u Hu. destruct (Nat.eq_dec u k) as [->|NE]; [exact X|apply IH; lia].
        + right. exists u, c, got, j, todo. split; [lia|]. split; [exact U2|]. intros u' c' got' j' todo' Hu' EP.
          destruct (Nat.eq_dec u' k) as [->|NE]; [destruct X as [X|[c0 X]]; congruence|]. eapply (U3 u'); eauto. lia.
      - right. left. right. destruct IH as [IH|(u & c1 & got1 & j1 & todo1 & U1 & U2 & U3)].
        + exists k, c, got, j, todo. split; [lia|]. split; [exact X|]. intros u' c' got' j' todo' Hu' EP.
          destruct (Nat.eq_dec u' k) as [->|NE]; [assert (j' = j) as -> by congruence; lia|]. destruct (IH u' ltac:(lia)) as [Y|[c0 Y]]; congruence.
        + destruct (N.le_gt_cases j j1) as [LE|LT].
          * exists u, c1, got1, j1, todo1. split; [lia|]. split; [exact U2|]. intros u' c' got' j' todo' Hu' EP.
            destruct (Nat.eq_dec u' k) as [->|NE]; [assert (j' = j) as -> by congruence; exact LE|]. eapply (U3 u'); eauto. lia.
          * exists k, c, got, j, todo. split; [lia|]. split; [exact X|]. intros u' c' got' j' todo' Hu' EP.
            destruct (Nat.eq_dec u' k) as [->|NE]; [assert (j' = j) as -> by congruence; lia|].
            assert (j' <= j1) by (eapply (U3 u'); eauto; lia). lia. }
    destruct (ALL n) as [(u & _ & U)|[[NO|(u & c & got & j & todo & U1 & U2 & U3)]|[]]].
    - eapply AC, U.
    - assert (forall u, y_pc y u = PIdle \/ exists c, y_pc y u = PMain c) as NO'.
      { intros u. destruct (Nat.lt_ge_cases u n) as [X|X]; [apply NO, X|left; apply (i_fin _ _ _ _ _ _ G u X)]. }
      destruct (NO' t) as [X|[c X]]; [congruence|]. left. do 2 eexists. split; [|eapply st_main; [exact X|]]; [discriminate|].
      intros u b _ M. destruct (NO' u) as [Y|[c' Y]]; rewrite Y in M; discriminate M.
    - destruct (existsb (fun v => negb (Nat.eqb v u) && existsb (N.eqb j) (slots_of (t_nb (y_m y)) (y_pc y v))) (seq 0 n)) eqn:EX.
      + apply existsb_exists in EX. destruct EX as (v & V1 & V2). apply andb_true_iff in V2. destruct V2 as [V2 V3]. apply existsb_exists in V3. destruct V3 as (j' & V3 & V4).
        apply N.eqb_eq in V4. subst j'. apply in_seq in V1.
        destruct (DEC v) as [X|[X|(c' & got' & j' & todo' & X)]].
        * eapply AC, X.
        * exfalso. destruct X as [X|[c0 X]]; rewrite X in V3; destruct V3.
        * exfalso. rewrite X in V3. cbn in V3. pose proof (i_thr _ _ _ _ _ _ G v) as T. rewrite X in T. cbn in T. destruct T as [_ T].
          assert (j' <= j) by (eapply (U3 v); eauto; lia).
          assert (AS : asc (cslots hash ns (t_nb (y_m y)) c')) by apply slotset_asc. rewrite T in AS.
          assert (j < j') as LT; [|lia]. clear -V3 AS. induction got' as [|x g IH]; [destruct V3|]. inversion AS as [|? ? AS' F]; subst. destruct V3 as [->|V3].
          -- rewrite Forall_forall in F. apply F. apply in_or_app. right. left. reflexivity.
          -- apply IH; assumption.
      + left. do 2 eexists. split; [|eapply st_slot; [exact U2|]]; [discriminate|].
        intros v NV IN _. assert (existsb (fun v => negb (Nat.eqb v u) && existsb (N.eqb j) (slots_of (t_nb (y_m y)) (y_pc y v))) (seq 0 n) = true) as Y; [|congruence].
        apply existsb_exists. exists v. split.
        * apply in_seq. destruct (Nat.lt_ge_cases v n) as [X|X]; [lia|]. rewrite (i_fin _ _ _ _ _ _ G v X) in IN. destruct IN.
        * apply andb_true_iff. split; [apply Nat.eqb_neq in NV; rewrite NV; reflexivity|]. apply existsb_exists. exists j. split; [exact IN|apply N.eqb_refl].
  Qed.
End C53.

(** With the hash function of the library, its rounding of the number of buckets and its 128 record locks. *)
Theorem C53_library {S} fsqrt (F : forall n, 2 < n -> N.sqrt n <= fsqrt n < n) n nb tr (y : sys S) :
  run primary_hash (hash_bucket_size fsqrt) 128 n (init (hash_bucket_size fsqrt) S nb) tr y -> Forall locked tr ->
  (exists a, arun ainit tr a /\ (resting y -> reps primary_hash (y_m y) (a_m a) /\ acount (a_m a) (Z.to_nat (t_num (y_m y))))) /\
  (forall t moved, tact primary_hash (hash_bucket_size fsqrt) 128 moved (y_m y) (y_pc y t) <> UB) /\ ~ race primary_hash y.
Proof.
  intros R FA. assert (P : forall n, 0 < hash_bucket_size fsqrt n) by (intros x; destruct (C30_bucket_size fsqrt F x) as [X _]; exact X).
  split; [exact (C53_linearizable _ _ primary_hash_lt P _ _ _ _ _ R FA)|]. split; [intros t moved; exact (C53_defined _ _ primary_hash_lt P _ _ _ _ _ _ _ R FA)|].
  exact (C53_no_race _ _ primary_hash_lt P _ _ _ _ _ R FA).
Qed.

(** * Executions by computation *)
Inductive move (S : Type) := MCall (t : nat) (c : ccall S) | MMain (t : nat) | MSlot (t : nat) | MAct (t : nat) (moved : bool) | MRet (t : nat).
Arguments MCall {S}. Arguments MMain {S}. Arguments MSlot {S}. Arguments MAct {S}. Arguments MRet {S}.
Section Play.
  Variable hash : bytes -> N -> N.
  Variable bucket_size : N -> N.
  Variable ns : N.
  Variable n : nat.
  Context {S : Type}.
  Definition isx (md : mode) : bool := match md with MX => true | MS => false end.
  Definition main_free (y : sys S) (t : nat) (md : mode) : bool :=
    forallb (fun u => Nat.eqb u t || match main_of (y_pc y u) with None => true | Some b => negb (isx md || isx b) end) (seq 0 n).
  Definition slot_free (y : sys S) (t : nat) (md : mode) (j : N) : bool :=
    forallb (fun u => Nat.eqb u t || negb (existsb (N.eqb j) (slots_of hash ns (t_nb (y_m y)) (y_pc y u))) || negb (isx md || isx (mode_of (y_pc y u)))) (seq 0 n).
  Definition play1 (y : sys S) (mv : move S) : option (ev S * sys S) :=
    match mv with
    | MCall t c => match y_pc y t with PIdle => if (t <? n)%nat then Some (ECall t c, mkSys (y_m y) (upd (y_pc y) t (PMain c))) else None | _ => None end
    | MMain t => match y_pc y t with PMain c => if main_free y t (mstart c) then Some (ETau, mkSys (y_m y) (upd (y_pc y) t (start hash ns (t_nb (y_m y)) c))) else None | _ => None end
    | MSlot t => match y_pc y t with PSlots c got (j :: todo) => if slot_free y t (if ic_w c then MX else MS) j then Some (ETau, mkSys (y_m y) (upd (y_pc y) t (PSlots c (got ++ [j]) todo))) else None | _ => None end
    | MAct t b => match tact hash bucket_size ns b (y_m y) (y_pc y t) with Next m' p' => Some (ETau, mkSys m' (upd (y_pc y) t p')) | _ => None end
    | MRet t => match y_pc y t with PRet r => Some (ERet t r, mkSys (y_m y) (upd (y_pc y) t PIdle)) | _ => None end
    end.
  Fixpoint play (y : sys S) (l : list (move S)) : option (list (ev S) * sys S) :=
    match l with
    | [] => Some ([], y)
    | mv :: l => match play1 y mv with
                 | None => None
                 | Some (e, y') => match play y' l with None => None | Some (tr, y2) => Some (match e with ETau => tr | _ => e :: tr end, y2) end
                 end
    end.
  Definition calls_wf (l : list (move S)) : Prop := Forall (fun mv => match mv with MCall _ c => wf_call c | _ => True end) l.

  Lemma clash_b a b : isx a || isx b = false -> ~ clash a b.
  Proof. unfold clash. destruct a, b; cbn; intros H [X|X]; discriminate. Qed.
  Lemma play1_ok y mv e y' : (forall t, (n <= t)%nat -> y_pc y t = PIdle) -> calls_wf [mv] -> play1 y mv = Some (e, y') ->
    step hash bucket_size ns n y e y' /\ (forall t, (n <= t)%nat -> y_pc y' t = PIdle).
  Proof.
    intros FI WF H. inversion WF as [|? ? W _]; subst.
    assert (UP : forall t p, (t < n)%nat -> forall u, (n <= u)%nat -> upd (y_pc y) t p u = PIdle).
    { intros t p Ht u Hu. rewrite upd_other by lia. auto. }
    assert (LT : forall t, y_pc y t <> PIdle -> (t < n)%nat) by (intros t X; destruct (Nat.lt_ge_cases t n); [assumption|destruct X; auto]).
    assert (FO : forall (f : nat -> bool), forallb f (seq 0 n) = true -> forall u, (u < n)%nat -> f u = true).
    { intros f X u Hu. rewrite forallb_forall in X. apply X. apply in_seq. lia. }
    destruct mv as [t c|t|t|t b|t]; cbn [play1] in H.
    - destruct (y_pc y t) eqn:E; try discriminate. destruct (t <? n)%nat eqn:T; [|discriminate]. apply Nat.ltb_lt in T. injection H as <- <-.
      split; [constructor; auto|]. cbn. apply UP, T.
    - destruct (y_pc y t) eqn:E; try discriminate. destruct (main_free y t (mstart c)) eqn:T; [|discriminate]. injection H as <- <-.
      split; [eapply st_main; [exact E|]|cbn; apply UP, LT; congruence]. intros u b NE M.
      assert (Hu : (u < n)%nat) by (apply LT; intros X; rewrite X in M; discriminate M).
      pose proof (FO _ T u Hu) as X. cbn in X. rewrite M in X. apply Nat.eqb_neq in NE. rewrite NE in X. cbn in X. apply clash_b. apply negb_true_iff, X.
    - destruct (y_pc y t) as [| |c got [|j todo]| | | | | | | | | | | | | | | |] eqn:E; try discriminate. destruct (slot_free y t _ j) eqn:T; [|discriminate]. injection H as <- <-.
      split; [eapply st_slot; [exact E|]|cbn; apply UP, LT; congruence]. intros u NE M.
      assert (Hu : (u < n)%nat) by (apply LT; intros X; rewrite X in M; destruct M).
      pose proof (FO _ T u Hu) as X. cbn in X. apply Nat.eqb_neq in NE. rewrite NE in X. cbn in X. apply orb_true_iff in X. destruct X as [X|X].
      + apply negb_true_iff in X. assert (existsb (N.eqb j) (slots_of hash ns (t_nb (y_m y)) (y_pc y u)) = true) as Y; [|congruence].
        apply existsb_exists. exists j. split; [exact M|apply N.eqb_refl].
      + apply clash_b. apply negb_true_iff, X.
    - destruct (tact hash bucket_size ns b (y_m y) (y_pc y t)) as [| | |m' p'] eqn:E; try discriminate. injection H as <- <-.
      split; [eapply st_act; exact E|]. cbn. apply UP, LT. intros X. rewrite X in E. discriminate E.
    - destruct (y_pc y t) eqn:E; try discriminate. injection H as <- <-. split; [constructor; exact E|]. cbn. apply UP, LT. congruence.
  Qed.
  Lemma run_app (y : sys S) tr y1 tr2 y2 : run hash bucket_size ns n y1 tr2 y2 -> run hash bucket_size ns n y tr y1 -> run hash bucket_size ns n y (tr ++ tr2) y2.
  Proof.
    intros R2 R1. induction R2 as [y0|y0 y1 tr2 y2 R IH ST|y0 y1 tr2 e y2 R IH NE ST].
    - rewrite app_nil_r. exact R1.
    - eapply run_tau; eauto.
    - rewrite app_assoc. eapply run_ev; eauto.
  Qed.
  Lemma play_ok l : forall y tr y', (forall t, (n <= t)%nat -> y_pc y t = PIdle) -> calls_wf l -> play y l = Some (tr, y') -> run hash bucket_size ns n y tr y'.
  Proof.
    induction l as [|mv l IH]; intros y tr y' FI WF H; cbn in H; [injection H as <- <-; constructor|].
    destruct (play1 y mv) as [[e y1]|] eqn:E; [|discriminate]. destruct (play y1 l) as [[tr2 y2]|] eqn:E2; [|discriminate]. injection H as <- <-.
    inversion WF as [|? ? W1 W2]; subst. destruct (play1_ok _ _ _ _ FI (Forall_cons _ W1 (Forall_nil _)) E) as [ST FI2]. specialize (IH _ _ _ FI2 W2 E2).
    destruct e.
    - apply (run_app y [ECall t c] y1 tr2 y2 IH). apply (run_ev _ _ _ _ _ y y [] _ y1); [constructor|discriminate|exact ST].
    - apply (run_app y [ERet t r] y1 tr2 y2 IH). apply (run_ev _ _ _ _ _ y y [] _ y1); [constructor|discriminate|exact ST].
    - apply (run_app y [] y1 tr2 y2 IH). eapply run_tau; [constructor|exact ST].
  Qed.
End Play.

Definition bs1 (n : N) : N := N.max 1 n.
Notation hist := (list (bytes * bytes)).
Notation play2 l := (play primary_hash bs1 128 2 (init bs1 hist 1) l).
Notation reach tr y := (run primary_hash bs1 128 2 (init bs1 hist 1) tr y).
Definition acts (t k : nat) : list (move hist) := repeat (MAct t false) k.
Lemma reach_ok l tr y : calls_wf l -> play2 l = Some (tr, y) -> reach tr y.
Proof. intros W H. eapply play_ok; eauto. Qed.

(** Whole calls of one thread: taking the locks, the transitions, the return. *)
Definition whole (t : nat) (c : ccall hist) (slots k : nat) : list (move hist) := [MCall t c; MMain t] ++ repeat (MSlot t) slots ++ acts t k ++ [MRet t].
Definition two : ccall hist := CItems (c_multi [([1], ex_set [10]); ([2], ex_set [20])] true []).
Definition del1 : ccall hist := CItems (c_process [1] ex_del true []).
Definition get2 : ccall hist := CItems (c_process [2] note false []).
Definition del2 : ccall hist := CItems (c_process [2] ex_del true []).
Ltac wfs := repeat (constructor; [cbn; first [exact I | left; reflexivity | right; intros ? ? [X|[]]; injection X as <- <-; eauto]|]); try constructor.

(** ProcessEach as reader does not take the record locks, while Process holds mutex_ in shared mode too: while it is
    about to visit a record, Remove may free it.  The two accesses race, and the visit is then a use of freed memory. *)
Definition each_race : list (move hist) :=
  whole 0 two 1 15 ++ [MCall 1 (CEach note []); MMain 1] ++ acts 1 2 ++ [MCall 0 del1; MMain 0; MSlot 0] ++ acts 0 4.
Theorem C53_each_refuted : exists tr y, reach tr y /\ race primary_hash y /\
  exists tr' y', reach tr' y' /\ tact primary_hash bs1 128 false (y_m y') (y_pc y' 1%nat) = UB.
Proof.
  destruct (play2 each_race) as [[tr y]|] eqn:E; [|exfalso; vm_compute in E; discriminate E].
  exists tr, y. split; [eapply reach_ok; [|exact E]; wfs|].
  assert (P : match play2 each_race with Some (_, y) => match y_pc y 0%nat, y_pc y 1%nat with PFree _ _ _ _ q _ _, PEachAt _ _ _ (Some q') => q = q' | _, _ => False end | None => False end)
    by (vm_compute; reflexivity).
  rewrite E in P. split.
  - destruct (y_pc y 0%nat) eqn:E0; try contradiction. destruct (y_pc y 1%nat) as [| | | | | | | | | | | | | | | | |p' s' i' [q'|]|] eqn:E1; try contradiction. subst q'.
    exists 0%nat, 1%nat, (LC q), false. split; [discriminate|]. rewrite E0, E1. split; constructor.
  - destruct (play2 (each_race ++ acts 0 1)) as [[tr' y']|] eqn:E'; [|exfalso; vm_compute in E'; discriminate E'].
    exists tr', y'. split; [eapply reach_ok; [|exact E']; wfs|].
    assert (P' : match play2 (each_race ++ acts 0 1) with Some (_, y) => tact primary_hash bs1 128 false (y_m y) (y_pc y 1%nat) = UB | None => False end) by (vm_compute; reflexivity).
    rewrite E' in P'. exact P'.
Qed.
(** So does ProcessFirst as reader. *)
Definition first_race : list (move hist) :=
  whole 0 two 1 15 ++ [MCall 1 (CFirst note []); MMain 1] ++ acts 1 1 ++ [MCall 0 del2; MMain 0; MSlot 0] ++ acts 0 3.
Theorem C53_first_refuted : exists tr y, reach tr y /\ race primary_hash y /\
  exists tr' y', reach tr' y' /\ tact primary_hash bs1 128 false (y_m y') (y_pc y' 1%nat) = UB.
Proof.
  destruct (play2 first_race) as [[tr y]|] eqn:E; [|exfalso; vm_compute in E; discriminate E].
  exists tr, y. split; [eapply reach_ok; [|exact E]; wfs|].
  assert (P : match play2 first_race with Some (_, y) => match y_pc y 0%nat, y_pc y 1%nat with PFree _ _ _ _ q _ _, PFirstAt _ _ q' => q = q' | _, _ => False end | None => False end)
    by (vm_compute; reflexivity).
  rewrite E in P. split.
  - destruct (y_pc y 0%nat) eqn:E0; try contradiction. destruct (y_pc y 1%nat) as [| | | | | | | | | | | | | | |p' s' q'| | |] eqn:E1; try contradiction. subst q'.
    exists 0%nat, 1%nat, (LC q), false. split; [discriminate|]. rewrite E0, E1. split; constructor.
  - destruct (play2 (first_race ++ acts 0 1)) as [[tr' y']|] eqn:E'; [|exfalso; vm_compute in E'; discriminate E'].
    exists tr', y'. split; [eapply reach_ok; [|exact E']; wfs|].
    assert (P' : match play2 (first_race ++ acts 0 1) with Some (_, y) => tact primary_hash bs1 128 false (y_m y) (y_pc y 1%nat) = UB | None => False end) by (vm_compute; reflexivity).
    rewrite E' in P'. exact P'.
Qed.

(** Count while another thread sets two records by one call: it returns 1, which no moment of a database doing its calls one at a
    time gives. *)
Definition count_half : list (move hist) :=
  [MCall 0 two; MMain 0; MSlot 0] ++ acts 0 8 ++ [MCall 1 CCount; MMain 1] ++ acts 1 1 ++ [MRet 1].
Theorem C53_count_refuted : exists tr y, reach tr y /\ tr = [ECall 0 two; ECall 1 CCount; ERet 1 (RN 1)] /\
  forall tr' rest a, tr' ++ rest = tr -> arun ainit tr' a -> ~ acount (a_m a) 1.
Proof.
  destruct (play2 count_half) as [[tr y]|] eqn:E; [|exfalso; vm_compute in E; discriminate E].
  assert (P : match play2 count_half with Some (tr, _) => tr = [ECall 0 two; ECall 1 CCount; ERet 1 (RN 1)] | None => False end) by (vm_compute; reflexivity).
  rewrite E in P. exists tr, y. split; [eapply reach_ok; [|exact E]; wfs|]. split; [exact P|]. subst tr. clear E.
  intros tr' rest a ET AR.
  assert (INV : same_map (a_m a) aempty \/ same_map (a_m a) (aset (aset aempty [1] [10]) [2] [20])).
  { assert (FA : Forall (fun e => match e with ECall _ c => c = two \/ c = CCount | _ => True end) tr').
    { assert (X : Forall (fun e : ev hist => match e with ECall _ c => c = two \/ c = CCount | _ => True end) (tr' ++ rest)) by (rewrite ET; repeat constructor; auto).
      apply Forall_app in X. apply X. }
    clear ET.
    enough ((forall t c, a_th a t = ACalled c -> c = two \/ c = CCount) /\
      (same_map (a_m a) aempty \/ same_map (a_m a) (aset (aset aempty [1] [10]) [2] [20]))) by tauto.
    remember ainit as a0 eqn:E0. induction AR as [a|a a1 tr a2 R IH ST|a a1 tr e a2 R IH NE ST]; subst.
    - split; [discriminate|]. left. intros x. reflexivity.
    - destruct (IH eq_refl FA) as [I1 I2]. inversion ST as [|t c m' r ET D EE EA|]; subst. split.
      + cbn. intros u c' X. unfold aupd in X. destruct (Nat.eqb u t); [discriminate|eauto].
      + cbn. destruct (I1 _ _ ET) as [E1|E1]; subst c.
        * inversion D as [c m2 SM EC EM| |]; subst. right.
          assert (CS : forall m k v (l : hist), call m k (ex_set v) l = (ASet v, l)) by (intros m k v l; unfold call; destruct (m k); reflexivity).
          intros x. rewrite SM. cbn. unfold ref_process. rewrite CS. cbn. rewrite CS. cbn. unfold aset.
          destruct (beqb [2] x) eqn:X2; try reflexivity; destruct (beqb [1] x) eqn:X1; try reflexivity; destruct I2 as [I2|I2]; rewrite I2; unfold aset; rewrite ?X2, ?X1; reflexivity.
        * inversion D; subst. exact I2.
    - apply Forall_app in FA. destruct FA as [FA FE]. inversion FE as [|? ? LE _]; subst. destruct (IH eq_refl FA) as [I1 I2].
      inversion ST as [t c EI EE EA|t c m' r ET D EE EA|t r ED EE EA]; subst; [|congruence|].
      + cbn. split; [|exact I2]. intros u c' X. unfold aupd in X. destruct (Nat.eqb u t); [injection X as <-; exact LE|eauto].
      + cbn. split; [|exact I2]. intros u c' X. unfold aupd in X. destruct (Nat.eqb u t); [discriminate|eauto]. }
  intros (ks & ND & LEN & IN). destruct ks as [|k0 [|? ?]]; try discriminate LEN.
  destruct INV as [SM|SM].
  - apply (proj1 (IN k0)); [left; reflexivity|]. rewrite SM. reflexivity.
  - assert (I1 : In [1] [k0]) by (apply IN; rewrite SM; vm_compute; discriminate). assert (I2 : In [2] [k0]) by (apply IN; rewrite SM; vm_compute; discriminate).
    destruct I1 as [->|[]]. destruct I2 as [I2|[]]. discriminate I2.
Qed.

(** Two threads inside the database at once, with keys under different locks: both set a record, transition by transition in turn;
    then one reads the other's.  All hypotheses of the theorems hold of this execution. *)
Definition put (k v : bytes) : ccall hist := CItems (c_process k (ex_set v) true []).
Fixpoint turns (k : nat) : list (move hist) := match k with O => [] | Datatypes.S k => [MAct 0 false; MAct 1 false] ++ turns k end.
Definition both : list (move hist) :=
  [MCall 0 (put [1] [10]); MCall 1 (put [2] [20]); MMain 0; MMain 1; MSlot 1; MSlot 0] ++ turns 9 ++ [MRet 1; MRet 0] ++ whole 0 get2 1 6.
Example C53_ex : calls_wf both /\ match play primary_hash bs1 128 2 (init bs1 hist 100) both with
  | Some (tr, y) => t_num (y_m y) = 2%Z /\ y_pc y 0%nat = PIdle /\ y_pc y 1%nat = PIdle /\
      tr = [ECall 0 (put [1] [10]); ECall 1 (put [2] [20]); ERet 1 (RS []); ERet 0 (RS []); ECall 0 get2; ERet 0 (RS [([2], [20])])]
  | None => False
  end.
Proof. split; [wfs|]. vm_compute. auto. Qed.
(** A thread waiting for a record lock another one holds. *)
Example C53_wait_ex : match play2 [MCall 0 del1; MCall 1 del1; MMain 0; MMain 1; MSlot 0] with
  | Some (_, y) => play1 primary_hash bs1 128 2 y (MSlot 1) = None
  | None => False
  end.
Proof. vm_compute. reflexivity. Qed.

Print Assumptions C53_linearizable.
Print Assumptions C53_defined.
Print Assumptions C53_no_race.
Print Assumptions C53_writes.
Print Assumptions C53_reads.
Print Assumptions C53_count.
Print Assumptions C53_no_deadlock.
Print Assumptions C53_library.
Print Assumptions C53_each_refuted.
Print Assumptions C53_first_refuted.
Print Assumptions C53_count_refuted.
