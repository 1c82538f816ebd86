(** Lemmas on LinkedHashMap. *)
From Coq Require Import List NArith Bool Lia PeanoNat Permutation.
Import ListNotations.
From Verif Require Import LinkedModel.
Local Open Scope N_scope.

Lemma upd_eq A (f : nat -> A) p x : upd f p x p = x.
Proof. unfold upd. rewrite Nat.eqb_refl. reflexivity. Qed.
Lemma upd_neq A (f : nat -> A) p x q : q <> p -> upd f p x q = f q.
Proof. unfold upd. destruct (Nat.eqb_spec q p); congruence. Qed.
Definition upd_if {A} (f : nat -> A) (o : option nat) (x : A) : nat -> A := match o with Some a => upd f a x | None => f end.
Definition last_opt (L : list ptr) : option ptr := hd_error (rev L).
Lemma last_opt_snoc L p : last_opt (L ++ [p]) = Some p.
Proof. unfold last_opt. rewrite rev_app_distr. reflexivity. Qed.
Lemma last_opt_rev L : last_opt (rev L) = hd_error L.
Proof. unfold last_opt. rewrite rev_involutive. reflexivity. Qed.
Lemma last_opt_in L p : last_opt L = Some p -> In p L.
Proof. unfold last_opt. intros H. apply in_rev. destruct (rev L); [discriminate|]. inversion H; subst. left. reflexivity. Qed.
Lemma hd_in (L : list ptr) p : hd_error L = Some p -> In p L.
Proof. destruct L; [discriminate|]. intros H; inversion H; subst. left. reflexivity. Qed.
Lemma last_opt_cons L x p : last_opt (x :: L ++ [p]) = Some p.
Proof. change (x :: L ++ [p]) with ((x :: L) ++ [p]). apply last_opt_snoc. Qed.
Lemma last_opt_app A B : B <> [] -> last_opt (A ++ B) = last_opt B.
Proof. intros H. destruct (@exists_last _ B H) as (B' & b & ->). rewrite app_assoc, !last_opt_snoc. reflexivity. Qed.
Lemma peq_spec a b : reflect (a = b) (peq a b).
Proof.
  destruct a as [x|], b as [y|]; cbn; try (constructor; congruence).
  destruct (Nat.eqb_spec x y); constructor; congruence.
Qed.

(** * Paths *)
Fixpoint path (f : ptr -> option ptr) (x : option ptr) (L : list ptr) (y : option ptr) : Prop :=
  match L with [] => x = y | p :: L' => x = Some p /\ path f (f p) L' y end.
Lemma path_app f A : forall x B y, path f x (A ++ B) y <-> exists z, path f x A z /\ path f z B y.
Proof.
  induction A as [|a A IH]; intros x B y; cbn [app path].
  - split; [intros H; exists x; auto|intros (z & -> & H); exact H].
  - rewrite IH. split; [intros [E (z & H1 & H2)]; exists z; auto|intros (z & [E H1] & H2); split; [exact E|exists z; auto]].
Qed.
Lemma path_frame f g L : (forall p, In p L -> f p = g p) -> forall x y, path f x L y -> path g x L y.
Proof.
  induction L as [|p L IH]; intros H x y; cbn [path]; [auto|]. intros [E P]. split; [exact E|]. rewrite <- (H p (or_introl eq_refl)). apply IH; auto. intros q Hq. apply H. right. exact Hq.
Qed.
Lemma path_hd f L x : path f x L None -> x = hd_error L.
Proof. destruct L; cbn; [auto|]. intros [-> _]. reflexivity. Qed.
Lemma path_hd' f L x y : path f x L y -> x = match L with p :: _ => Some p | [] => y end.
Proof. destruct L; cbn; [auto|]. intros [-> _]. reflexivity. Qed.
Lemma path_at f x A p B : path f x (A ++ p :: B) None -> f p = hd_error B.
Proof. intros H. apply path_app in H. destruct H as (z & _ & [_ H]). apply path_hd in H. exact H. Qed.
(** Retargeting the last link. *)
Lemma path_retarget f x A y y' : NoDup A -> path f x A y -> path (upd_if f (last_opt A) y') (match A with [] => y' | _ => x end) A y'.
Proof.
  intros ND P. destruct (list_eq_dec Nat.eq_dec A []) as [->|HA]; [reflexivity|].
  destruct (@exists_last _ A HA) as (A' & a & ->). rewrite last_opt_snoc. cbn [upd_if].
  apply path_app in P. destruct P as (z & P1 & [-> P2]). assert (E : match A' ++ [a] with [] => y' | _ => x end = x) by (destruct A'; reflexivity). rewrite E.
  apply path_app. exists (Some a). split.
  - eapply path_frame; [|exact P1]. intros q Hq. rewrite upd_neq; [reflexivity|]. intros ->. apply NoDup_remove_2 in ND. rewrite app_nil_r in ND. auto.
  - cbn. rewrite upd_eq. auto.
Qed.
Lemma path_remove f x A p B : NoDup (A ++ p :: B) -> path f x (A ++ p :: B) None ->
  path (upd_if f (last_opt A) (hd_error B)) (match A with [] => hd_error B | _ => x end) (A ++ B) None.
Proof.
  intros ND P. assert (E := path_at _ _ _ _ _ P). apply path_app in P. destruct P as (z & P1 & [-> P2]). rewrite E in P2.
  assert (NA : NoDup A). { clear -ND. induction A; [constructor|]. cbn in ND. inversion ND; subst. constructor; [intros X; apply H1, in_or_app; auto|auto]. }
  assert (R := path_retarget f x A _ (hd_error B) NA P1). apply path_app. exists (hd_error B). split; [exact R|].
  eapply path_frame; [|exact P2]. intros q Hq. destruct (last_opt A) as [a|] eqn:EA; [|reflexivity]. cbn. rewrite upd_neq; [reflexivity|]. intros ->.
  apply last_opt_in in EA. apply in_split in EA. destruct EA as (A1 & A2 & ->). rewrite <- app_assoc in ND. cbn in ND. apply NoDup_remove_2 in ND. apply ND. apply in_or_app; right. apply in_or_app; right. right. exact Hq.
Qed.
Lemma path_snoc f x L p : NoDup L -> ~ In p L -> path f x L None ->
  path (upd_if (upd f p None) (last_opt L) (Some p)) (match L with [] => Some p | _ => x end) (L ++ [p]) None.
Proof.
  intros ND N P. assert (P' : path (upd f p None) x L None). { eapply path_frame; [|exact P]. intros q Hq. rewrite upd_neq; [reflexivity|]. intros ->; auto. }
  apply path_app. exists (Some p). split; [apply (path_retarget _ _ _ None); assumption|]. cbn. split; [reflexivity|].
  destruct (last_opt L) as [a|] eqn:E; cbn; [rewrite upd_neq|]; try apply upd_eq. intros ->. apply last_opt_in in E. auto.
Qed.
Lemma path_cons f x L p : ~ In p L -> path f x L None -> path (upd f p x) (Some p) (p :: L) None.
Proof. intros N P. split; [reflexivity|]. rewrite upd_eq. eapply path_frame; [|exact P]. intros q Hq. rewrite upd_neq; [reflexivity|]. intros ->; auto. Qed.
Lemma path_replace f x A old B p : NoDup (A ++ old :: B) -> ~ In p (A ++ old :: B) -> path f x (A ++ old :: B) None ->
  path (upd_if (upd f p (hd_error B)) (last_opt A) (Some p)) (match A with [] => Some p | _ => x end) (A ++ p :: B) None.
Proof.
  intros ND N P. assert (E := path_at _ _ _ _ _ P). apply path_app in P. destruct P as (z & P1 & [-> P2]). rewrite E in P2.
  assert (NA : NoDup A). { clear -ND. induction A; [constructor|]. cbn in ND. inversion ND; subst. constructor; [intros X; apply H1, in_or_app; auto|auto]. }
  assert (P1' : path (upd f p (hd_error B)) x A (Some old)). { eapply path_frame; [|exact P1]. intros q Hq. rewrite upd_neq; [reflexivity|]. intros ->. apply N, in_or_app; auto. }
  apply path_app. exists (Some p). split; [apply (path_retarget _ _ _ (Some old)); assumption|]. cbn. split; [reflexivity|].
  assert (EP : upd_if (upd f p (hd_error B)) (last_opt A) (Some p) p = hd_error B).
  { destruct (last_opt A) as [a|] eqn:EA; cbn; [|apply upd_eq]. rewrite upd_neq; [apply upd_eq|]. intros ->. apply N, in_or_app. left. apply last_opt_in, EA. }
  rewrite EP. eapply path_frame; [|exact P2]. intros q Hq. destruct (last_opt A) as [a|] eqn:EA; cbn.
  - rewrite upd_neq; [rewrite upd_neq; [reflexivity|]|].
    + intros ->. apply N, in_or_app. right. right. exact Hq.
    + intros ->. apply last_opt_in in EA. apply in_split in EA. destruct EA as (A1 & A2 & ->). rewrite <- app_assoc in ND. cbn in ND. apply NoDup_remove_2 in ND. apply ND. apply in_or_app; right. apply in_or_app; right. right. exact Hq.
  - rewrite upd_neq; [reflexivity|]. intros ->. apply N, in_or_app. right. right. exact Hq.
Qed.
Lemma NoDup_app_remove (A : list ptr) p B : NoDup (A ++ p :: B) -> NoDup (A ++ B) /\ ~ In p (A ++ B).
Proof. intros H. split; [eapply NoDup_remove_1; eauto|eapply NoDup_remove_2; eauto]. Qed.
Lemma nd_rev (L : list ptr) : NoDup L -> NoDup (rev L).
Proof. apply NoDup_rev. Qed.

Section Linked.
  Variables K V : Type.
  Variable keq : K -> K -> bool.
  Variable hash : K -> N.
  Hypothesis keq_spec : forall a b, reflect (a = b) (keq a b).
  Notation heap := (heap K V).
  Implicit Types (h : heap) (m d : lmap).

  (** * Invariant *)
  Definition mods nb (h : heap) p i : Prop := match hk h p with Some kv => hash (fst kv) mod nb = i | None => False end.
  Record rep h m (L : list ptr) (l : list (K * V)) : Prop := mkRep {
    r_nb : mnb m <> 0;
    r_nd : NoDup L;
    r_kv : map (hk h) L = map Some l;
    r_keys : NoDup (map fst l);
    r_lt : forall p, In p L -> (p < hfresh h)%nat;
    r_next : path (hn h) (mfirst m) L None;
    r_prev : path (hp h) (mlast m) (rev L) None;
    r_chain : forall i, exists C, path (hc h) (mb m i) C None /\ NoDup C /\ forall p, In p C <-> In p L /\ mods (mnb m) h p i;
    r_num : mnum m = N.of_nat (length L)
  }.
  (** What an operation on a map does not touch. *)
  Definition frame h h' (L : list ptr) : Prop :=
    (hfresh h <= hfresh h')%nat /\ forall q, ~ In q L -> q <> hfresh h -> hk h' q = hk h q /\ hc h' q = hc h q /\ hp h' q = hp h q /\ hn h' q = hn h q.
  Lemma frame_refl h L : frame h h L.
  Proof. split; auto. Qed.
  Lemma rep_frame h h' m L l L0 : rep h m L l -> frame h h' L0 -> (forall p, In p L -> ~ In p L0) -> rep h' m L l.
  Proof.
    intros R [F1 F2] D.
    assert (F : forall p, In p L -> hk h' p = hk h p /\ hc h' p = hc h p /\ hp h' p = hp h p /\ hn h' p = hn h p).
    { intros p Hp. apply F2; auto. assert (X := r_lt _ _ _ _ R p Hp). lia. }
    destruct R. constructor; auto.
    - rewrite <- r_kv0. apply map_ext_in. intros p Hp. apply F, Hp.
    - intros p Hp. specialize (r_lt0 p Hp). lia.
    - eapply path_frame; [|exact r_next0]. intros p Hp. symmetry. apply F, Hp.
    - eapply path_frame; [|exact r_prev0]. intros p Hp. symmetry. apply F, in_rev, Hp.
    - intros i. destruct (r_chain0 i) as (C & P & N & E). exists C. split; [|split].
      + eapply path_frame; [|exact P]. intros p Hp. symmetry. apply F, E, Hp.
      + exact N.
      + intros p. rewrite E. unfold mods. split; intros [H1 H2]; (split; [exact H1|]); [rewrite (proj1 (F p H1))|rewrite <- (proj1 (F p H1))]; exact H2.
  Qed.

  Lemma rep_alive h m L l p : rep h m L l -> In p L -> exists kv, hk h p = Some kv /\ In kv l.
  Proof.
    intros R H. destruct R. apply (in_map (hk h)) in H. rewrite r_kv0 in H. apply in_map_iff in H. destruct H as (kv & E & I). eauto.
  Qed.
  Lemma alive_some h p kv : hk h p = Some kv -> alive h p = true.
  Proof. unfold alive. intros ->. reflexivity. Qed.
  Lemma rep_alive' h m L l p : rep h m L l -> In p L -> alive h p = true.
  Proof. intros R H. destruct (rep_alive _ _ _ _ _ R H) as (kv & E & _). eapply alive_some; eauto. Qed.
  Lemma rep_key_inj h m L l p q kv kv' : rep h m L l -> In p L -> In q L -> hk h p = Some kv -> hk h q = Some kv' -> fst kv = fst kv' -> p = q.
  Proof.
    intros R Hp Hq E1 E2 E. destruct R. clear -Hp Hq E1 E2 E r_kv0 r_keys0 r_nd0. revert l r_kv0 r_keys0.
    induction L as [|x L IH]; intros l Hl Hk; [destruct Hp|]. destruct l as [|y l]; [discriminate|]. cbn [map] in *. injection Hl as H0 Hl. inversion Hk as [|? ? NK1 NK2]; subst. inversion r_nd0; subst.
    assert (B : forall z kz, In z L -> hk h z = Some kz -> In (fst kz) (map fst l)). { intros z kz Hz Ez. apply (in_map (hk h)) in Hz. rewrite Hl, Ez in Hz. apply in_map_iff in Hz. destruct Hz as (k0 & X & I). inversion X; subst. apply in_map, I. }
    destruct Hp as [->|Hp], Hq as [->|Hq]; auto.
    - exfalso. apply NK1. rewrite H0 in E1. inversion E1; subst. rewrite E. eapply B; eauto.
    - exfalso. apply NK1. rewrite H0 in E2. inversion E2; subst. rewrite <- E. eapply B; eauto.
    - eapply IH; eauto.
  Qed.
  (** Splitting at a record. *)
  Lemma rep_split h m L l p kv : rep h m L l -> In p L -> hk h p = Some kv ->
    exists A B la lb, L = A ++ p :: B /\ l = la ++ kv :: lb /\ map (hk h) A = map Some la /\ map (hk h) B = map Some lb /\
      (forall x, In x (la ++ lb) -> fst x <> fst kv).
  Proof.
    intros R Hp E. destruct R. apply in_split in Hp. destruct Hp as (A & B & ->). exists A, B.
    rewrite map_app in r_kv0. cbn [map] in r_kv0.
    assert (X : exists la lb, l = la ++ kv :: lb /\ map (hk h) A = map Some la /\ map (hk h) B = map Some lb).
    { clear -r_kv0 E. revert l r_kv0. induction A as [|a A IH]; intros l H; (destruct l as [|y l]; [discriminate|]); cbn [map app] in *.
      - injection H as H1 H2. rewrite E in H1. inversion H1; subst. exists [], l. auto.
      - injection H as H1 H2. destruct (IH _ H2) as (la & lb & -> & EA & EB). exists (y :: la), lb. cbn. rewrite H1, EA. auto. }
    destruct X as (la & lb & -> & EA & EB). exists la, lb. split; [reflexivity|]. split; [reflexivity|]. split; [exact EA|]. split; [exact EB|].
    intros x Hx EX. rewrite map_app in r_keys0. cbn [map] in r_keys0. apply NoDup_remove_2 in r_keys0. apply r_keys0. rewrite <- map_app. rewrite <- EX. apply in_map, Hx.
  Qed.

  (** * Primitive steps *)
  Lemma set_next_if_ok h o x : (forall q, o = Some q -> alive h q = true) ->
    set_next_if h o x = Some (mkH (hk h) (hc h) (hp h) (upd_if (hn h) o x) (hfresh h)).
  Proof. destruct o as [q|]; intros H; cbn; [unfold set_next; rewrite (H q eq_refl); reflexivity|destruct h; reflexivity]. Qed.
  Lemma set_prev_if_ok h o x : (forall q, o = Some q -> alive h q = true) ->
    set_prev_if h o x = Some (mkH (hk h) (hc h) (upd_if (hp h) o x) (hn h) (hfresh h)).
  Proof. destruct o as [q|]; intros H; cbn; [unfold set_prev; rewrite (H q eq_refl); reflexivity|destruct h; reflexivity]. Qed.

  (** The doubly linked list of a map. *)
  Definition dll h m L : Prop := NoDup L /\ (forall p, In p L -> alive h p = true) /\ path (hn h) (mfirst m) L None /\ path (hp h) (mlast m) (rev L) None.
  Lemma rep_dll h m L l : rep h m L l -> dll h m L.
  Proof. intros R. repeat split; try apply R. intros p Hp. eapply rep_alive'; eauto. Qed.
  Lemma dll_prev h m A p B : dll h m (A ++ p :: B) -> hp h p = last_opt A.
  Proof. intros (_ & _ & _ & P). rewrite rev_app_distr in P. cbn [rev] in P. rewrite <- app_assoc in P. cbn [app] in P. apply path_at in P. exact P. Qed.
  Lemma dll_next h m A p B : dll h m (A ++ p :: B) -> hn h p = hd_error B.
  Proof. intros (_ & _ & P & _). apply path_at in P. exact P. Qed.
  Lemma rev_mid (A B : list ptr) p : rev (A ++ p :: B) = rev B ++ p :: rev A.
  Proof. rewrite rev_app_distr. cbn [rev]. rewrite <- app_assoc. reflexivity. Qed.
  Lemma dll_first h m A p B : dll h m (A ++ p :: B) -> mfirst m = Some p <-> A = [].
  Proof.
    intros (ND & _ & P & _). apply path_hd in P. rewrite P. destruct A as [|a A]; cbn; split; auto; [|discriminate].
    intros X; inversion X; subst. exfalso. cbn in ND. inversion ND; subst. apply H1. apply in_or_app. right. left. reflexivity.
  Qed.
  Lemma dll_last h m A p B : dll h m (A ++ p :: B) -> mlast m = Some p <-> B = [].
  Proof.
    intros (ND & _ & _ & P). apply path_hd in P. rewrite P. rewrite rev_mid. apply NoDup_rev in ND. rewrite rev_mid in ND. destruct B as [|b B] using rev_ind; cbn; [split; auto|].
    rewrite rev_app_distr in *. cbn in *. split; [|destruct B; discriminate]. intros X; inversion X; subst. exfalso. inversion ND; subst. apply H1. apply in_or_app. right. left. reflexivity.
  Qed.
  (** Taking p out. *)
  Definition out_heap h pv nx : heap := mkH (hk h) (hc h) (upd_if (hp h) nx pv) (upd_if (hn h) pv nx) (hfresh h).
  Lemma dll_out h m A p B : dll h m (A ++ p :: B) ->
    exists h2, (pv <- get_prev h p ;; nx <- get_next h p ;; h1 <- set_next_if h pv nx ;; set_prev_if h1 nx pv) = Some h2 /\
      h2 = out_heap h (last_opt A) (hd_error B) /\
      path (hn h2) (match A with [] => hd_error B | _ => mfirst m end) (A ++ B) None /\
      path (hp h2) (match B with [] => last_opt A | _ => mlast m end) (rev (A ++ B)) None.
  Proof.
    intros D. assert (EP := dll_prev _ _ _ _ _ D). assert (EN := dll_next _ _ _ _ _ D). destruct D as (ND & AL & PN & PP).
    exists (out_heap h (last_opt A) (hd_error B)). split; [|split; [reflexivity|split]].
    - unfold get_prev, get_next. rewrite (AL p) by (apply in_or_app; right; left; reflexivity). cbn [obind]. rewrite EP, EN.
      rewrite set_next_if_ok. 2:{ intros q Hq. apply AL, in_or_app. left. apply last_opt_in, Hq. }
      cbn [obind]. rewrite set_prev_if_ok. 2:{ intros q Hq. cbn. apply (AL q), in_or_app. right. right. apply hd_in, Hq. }
      reflexivity.
    - cbn [hn out_heap]. apply path_remove with (p := p); assumption.
    - cbn [hp out_heap]. rewrite rev_mid in PP. apply NoDup_rev in ND. rewrite rev_mid in ND. rewrite rev_app_distr.
      assert (X := path_remove _ _ _ _ _ ND PP). rewrite last_opt_rev in X. change (hd_error (rev A)) with (last_opt A) in X.
      destruct B as [|b B]; [exact X|]. cbn [rev] in *. destruct (rev B ++ [b]) eqn:Eb; [destruct (rev B); discriminate|]. exact X.
  Qed.
  Definition same_rest h h' m m' : Prop := hk h' = hk h /\ hc h' = hc h /\ hfresh h' = hfresh h /\ mb m' = mb m /\ mnb m' = mnb m /\ mnum m' = mnum m.
  Definition dll_frame h h' L : Prop := forall q, ~ In q L -> hn h' q = hn h q /\ hp h' q = hp h q.
  Lemma upd_if_out (f : nat -> option nat) o x L q : (forall a, o = Some a -> In a L) -> ~ In q L -> upd_if f o x q = f q.
  Proof. intros H N. destruct o as [a|]; [|reflexivity]. cbn. apply upd_neq. intros ->. apply N, H. reflexivity. Qed.

  Lemma move_first_ok h m A p B : dll h m (A ++ p :: B) ->
    exists h' m', move_first h m p = Some (h', m') /\ dll h' m' (p :: A ++ B) /\ same_rest h h' m m' /\ dll_frame h h' (A ++ p :: B).
  Proof.
    intros D. assert (DF := dll_first _ _ _ _ _ D). assert (DL := dll_last _ _ _ _ _ D). unfold move_first. destruct (peq_spec (mfirst m) (Some p)) as [E|E].
    - apply DF in E. subst A. exists h, m. cbn [app] in *. repeat split; auto; apply D.
    - destruct (dll_out _ _ _ _ _ D) as (h2 & E2 & Eh & P1 & P2). destruct D as (ND & AL & PN & PP).
      assert (Ep : alive h p = true) by (apply AL, in_or_app; right; left; reflexivity).
      unfold get_prev, get_next in E2 |- *. rewrite Ep in E2 |- *. cbn [obind] in E2 |- *.
      destruct (set_next_if h (hp h p) (hn h p)) as [h1|]; [|discriminate]. cbn [obind] in E2 |- *. rewrite E2. cbn [obind].
      destruct (list_eq_dec Nat.eq_dec A []) as [->|HA]; [exfalso; apply E; apply DF; reflexivity|]. assert (PF := path_hd _ _ _ PN). destruct A as [|a A]; [contradiction|]. cbn [app hd_error] in PF.
      destruct (NoDup_app_remove _ _ _ ND) as [ND' NI].
      assert (AL2 : forall q, alive h2 q = alive h q) by (intros; subst h2; reflexivity).
      assert (EPV : hp h p = last_opt (a :: A)). { rewrite rev_mid in PP. exact (path_at _ _ _ _ _ PP). }
      set (m1 := if peq (mlast m) (Some p) then with_last m (hp h p) else m).
      assert (F1 : mfirst m1 = mfirst m) by (unfold m1; destruct (peq _ _); reflexivity).
      assert (L1 : mlast m1 = match B with [] => last_opt (a :: A) | _ => mlast m end).
      { unfold m1. destruct (peq_spec (mlast m) (Some p)) as [X|X]; [apply DL in X; subst B; exact EPV|]. destruct B; [exfalso; apply X, DL; reflexivity|reflexivity]. }
      unfold set_prev. rewrite AL2, Ep. cbn [obind]. unfold set_next. unfold alive at 1. cbn [hk]. change (match hk h2 p with Some _ => true | None => false end) with (alive h2 p). rewrite AL2, Ep. cbn [obind].
      rewrite F1, PF. cbn [set_prev_of]. unfold set_prev, alive. cbn [hk]. change (match hk h2 a with Some _ => true | None => false end) with (alive h2 a). rewrite AL2, (AL a) by (left; reflexivity). cbn [obind].
      eexists _, _. split; [reflexivity|]. split; [|split].
      + split; [|split; [|split]].
        * constructor; assumption.
        * intros q Hq. unfold alive. cbn [hk]. change (alive h2 q = true). rewrite AL2. apply AL. destruct Hq as [<-|Hq]; [apply in_or_app; right; left; reflexivity|]. apply in_app_or in Hq. apply in_or_app. cbn. tauto.
        * cbn [hn mfirst with_first]. apply path_cons; [exact NI|]. rewrite <- PF. exact P1.
        * cbn [hp mlast with_first]. rewrite L1. cbn [rev]. 
          assert (X := path_snoc (hp h2) _ (rev ((a :: A) ++ B)) p (NoDup_rev ND') (fun H => NI (proj2 (in_rev _ _) H)) P2).
          rewrite last_opt_rev in X. cbn [app hd_error upd_if] in X. destruct (rev (a :: A ++ B)) eqn:ER; [apply (f_equal (@length _)) in ER; rewrite rev_length in ER; discriminate|]. cbn [app rev] in *. rewrite ER. exact X.
      + repeat split; subst h2; cbn; unfold m1; destruct (peq _ _); reflexivity.
      + intros q Hq. cbn [hn hp]. assert (q <> p) by (intros ->; apply Hq, in_or_app; right; left; reflexivity). assert (q <> a) by (intros ->; apply Hq; left; reflexivity).
        rewrite !upd_neq by assumption. subst h2. cbn [out_heap hn hp]. split; eapply upd_if_out; try exact Hq.
        * intros b Hb. apply last_opt_in in Hb. apply in_or_app. left. exact Hb.
        * intros b Hb. apply hd_in in Hb. apply in_or_app. right. right. exact Hb.
  Qed.

  Lemma move_last_ok h m A p B : dll h m (A ++ p :: B) ->
    exists h' m', move_last h m p = Some (h', m') /\ dll h' m' ((A ++ B) ++ [p]) /\ same_rest h h' m m' /\ dll_frame h h' (A ++ p :: B).
  Proof.
    intros D. assert (DF := dll_first _ _ _ _ _ D). assert (DL := dll_last _ _ _ _ _ D). unfold move_last. destruct (peq_spec (mlast m) (Some p)) as [E|E].
    - apply DL in E. subst B. exists h, m. rewrite app_nil_r. repeat split; auto; apply D.
    - destruct (dll_out _ _ _ _ _ D) as (h2 & E2 & Eh & P1 & P2). assert (ENX := dll_next _ _ _ _ _ D). destruct D as (ND & AL & PN & PP).
      assert (Ep : alive h p = true) by (apply AL, in_or_app; right; left; reflexivity).
      unfold get_prev, get_next in E2 |- *. rewrite Ep in E2 |- *. cbn [obind] in E2 |- *.
      destruct (set_next_if h (hp h p) (hn h p)) as [h1|]; [|discriminate]. cbn [obind] in E2 |- *. rewrite E2. cbn [obind].
      assert (HB : B <> []) by (intros ->; apply E; apply DL; reflexivity). destruct (@exists_last _ B HB) as (B' & b & EB).
      assert (PL := path_hd _ _ _ PP). rewrite rev_mid in PL. rewrite EB in PL. rewrite rev_app_distr in PL. cbn [rev app hd_error] in PL.
      destruct (NoDup_app_remove _ _ _ ND) as [ND' NI].
      assert (AL2 : forall q, alive h2 q = alive h q) by (intros; subst h2; reflexivity).
      assert (IB : In b (A ++ p :: B)) by (apply in_or_app; right; right; rewrite EB; apply in_or_app; right; left; reflexivity).
      set (m1 := if peq (mfirst m) (Some p) then with_first m (hn h p) else m).
      assert (L1 : mlast m1 = mlast m) by (unfold m1; destruct (peq _ _); reflexivity).
      assert (F1 : mfirst m1 = match A with [] => hd_error B | _ => mfirst m end).
      { unfold m1. destruct (peq_spec (mfirst m) (Some p)) as [X|X]; [apply DF in X; subst A; exact ENX|]. destruct A; [exfalso; apply X, DF; reflexivity|reflexivity]. }
      unfold set_prev. rewrite AL2, Ep. cbn [obind]. unfold set_next. unfold alive at 1. cbn [hk]. change (match hk h2 p with Some _ => true | None => false end) with (alive h2 p). rewrite AL2, Ep. cbn [obind].
      rewrite L1, PL. cbn [set_next_of]. unfold set_next, alive. cbn [hk]. change (match hk h2 b with Some _ => true | None => false end) with (alive h2 b). rewrite AL2, (AL b IB). cbn [obind].
      eexists _, _. split; [reflexivity|]. split; [|split].
      + split; [|split; [|split]].
        * apply NoDup_Add with (a := p) (l := A ++ B); [|auto]. assert (X := Add_app p (A ++ B) []). rewrite !app_nil_r in X. exact X.
        * intros q Hq. unfold alive. cbn [hk]. change (alive h2 q = true). rewrite AL2. apply AL. apply in_app_or in Hq. destruct Hq as [Hq|[<-|[]]]; [|apply in_or_app; right; left; reflexivity]. apply in_app_or in Hq. apply in_or_app. cbn. tauto.
        * cbn [hn mfirst with_last]. rewrite F1. assert (X := path_snoc (hn h2) _ (A ++ B) p ND' NI P1).
          rewrite last_opt_app in X by exact HB. rewrite EB in X at 1. rewrite last_opt_snoc in X. cbn [upd_if] in X.
          destruct (A ++ B) eqn:EAB; [destruct A; [|discriminate]; cbn in EAB; contradiction|]. exact X.
        * cbn [hp mlast with_last]. rewrite rev_app_distr. cbn [rev app]. apply path_cons; [intros H; apply NI, in_rev, H|]. rewrite <- PL.
          replace (mlast m) with (match B with [] => last_opt A | _ => mlast m end) by (destruct B; [contradiction|reflexivity]). exact P2.
      + repeat split; subst h2; cbn; unfold m1; destruct (peq _ _); reflexivity.
      + intros q Hq. cbn [hn hp]. assert (q <> p) by (intros ->; apply Hq, in_or_app; right; left; reflexivity). assert (q <> b) by (intros ->; apply Hq; exact IB).
        rewrite !upd_neq by assumption. subst h2. cbn [out_heap hn hp]. split; eapply upd_if_out; try exact Hq.
        * intros x Hx. apply last_opt_in in Hx. apply in_or_app. left. exact Hx.
        * intros x Hx. apply hd_in in Hx. apply in_or_app. right. right. exact Hx.
  Qed.
  Definition placed {X} (md : mode) (A : list X) (p : X) (B : list X) : list X :=
    match md with MOVE_CURRENT => A ++ p :: B | MOVE_FIRST => p :: A ++ B | MOVE_LAST => (A ++ B) ++ [p] end.
  Lemma placed_perm X md (A : list X) p B : Permutation (A ++ p :: B) (placed md A p B).
  Proof.
    destruct md; cbn; [reflexivity|symmetry; apply Permutation_middle|]. rewrite <- app_assoc. apply Permutation_app_head.
    change (p :: B) with ([p] ++ B). apply Permutation_app_comm.
  Qed.
  Lemma placed_map X Y (f : X -> Y) md A p B : map f (placed md A p B) = placed md (map f A) (f p) (map f B).
  Proof. destruct md; cbn; rewrite ?map_app; cbn; rewrite ?map_app; reflexivity. Qed.
  Lemma move_ok md h m A p B : dll h m (A ++ p :: B) ->
    exists h' m', move md h m p = Some (h', m') /\ dll h' m' (placed md A p B) /\ same_rest h h' m m' /\ dll_frame h h' (A ++ p :: B).
  Proof.
    intros D. destruct md; cbn [move placed].
    - exists h, m. repeat split; auto; apply D.
    - apply move_first_ok, D.
    - apply move_last_ok, D.
  Qed.
  Lemma rep_perm h m L l h' m' L' l' : rep h m L l -> dll h' m' L' -> same_rest h h' m m' -> Permutation L L' -> Permutation l l' -> map (hk h') L' = map Some l' -> rep h' m' L' l'.
  Proof.
    intros R D (Ek & Ec & Ef & Eb & Enb & En) P Pl E. destruct R, D as (ND & AL & PN & PP). constructor; auto.
    - congruence.
    - eapply Permutation_NoDup; [|exact r_keys0]. apply Permutation_map, Pl.
    - intros p Hp. rewrite Ef. apply r_lt0. eapply Permutation_in; [symmetry; exact P|exact Hp].
    - intros i. destruct (r_chain0 i) as (C & PC & NC & IC). exists C. rewrite Ec, Eb, Enb. split; [exact PC|]. split; [exact NC|]. intros p. rewrite IC. unfold mods. rewrite Ek.
      split; intros [H1 H2]; (split; [|exact H2]); eapply Permutation_in; try exact H1; [exact P|symmetry; exact P].
    - rewrite En, r_num0. f_equal. apply Permutation_length, P.
  Qed.

  (** * Looking up *)
  Lemma walk_ok h key fuel : forall C cur entry, path (hc h) cur C None -> (forall p, In p C -> exists kv, hk h p = Some kv) -> (length C < fuel)%nat ->
    (walk keq fuel h key cur entry = Some (None, match last_opt C with Some q => Some q | None => entry end) /\ forall p kv, In p C -> hk h p = Some kv -> fst kv <> key) \/
    exists C1 p C2 kv, C = C1 ++ p :: C2 /\ hk h p = Some kv /\ fst kv = key /\
      walk keq fuel h key cur entry = Some (Some p, match last_opt C1 with Some q => Some q | None => entry end).
  Proof.
    induction fuel as [|fu IH]; intros C cur entry P AL Hf; [lia|]. destruct C as [|p C]; cbn [path] in P.
    - subst cur. left. split; [reflexivity|intros p kv []].
    - destruct P as [-> P]. destruct (AL p (or_introl eq_refl)) as [kv E]. cbn [walk]. unfold get_kv. rewrite E. cbn [obind].
      destruct (keq_spec (fst kv) key) as [Ek|Ek].
      + right. exists [], p, C, kv. auto.
      + unfold get_child. rewrite (alive_some _ _ _ E). cbn [obind]. destruct (IH C (hc h p) (Some p) P) as [[W N]|(C1 & p' & C2 & kv' & -> & E' & Ek' & W)].
        * intros q Hq. apply AL. right. exact Hq.
        * cbn in Hf. lia.
        * left. rewrite W. split; [|intros q kv' [<-|Hq] Eq; [congruence|eapply N; eauto]]. f_equal. f_equal. destruct C as [|c C] using rev_ind; [reflexivity|]. rewrite last_opt_snoc, last_opt_cons. reflexivity.
        * right. exists (p :: C1), p', C2, kv'. repeat split; auto. rewrite W. f_equal. f_equal. destruct C1 as [|c C1] using rev_ind; [reflexivity|]. rewrite last_opt_snoc, last_opt_cons. reflexivity.
  Qed.
  Lemma nodup_lt (C : list nat) n : NoDup C -> (forall p, In p C -> (p < n)%nat) -> (length C <= n)%nat.
  Proof. intros N H. rewrite <- (seq_length n 0). apply NoDup_incl_length; [exact N|]. intros p Hp. apply in_seq. specialize (H p Hp). lia. Qed.
  (** The record of a key, if any, with its place in the chain. *)
  Lemma lookup_ok h m L l key : rep h m L l ->
    exists i C, bucket_of hash m key = Some i /\ i = hash key mod mnb m /\ path (hc h) (mb m i) C None /\ NoDup C /\ (forall p, In p C <-> In p L /\ mods (mnb m) h p i) /\
    ((lm_walk keq h m i key = Some (None, last_opt C) /\ ~ In key (map fst l)) \/
     exists C1 p C2 kv, C = C1 ++ p :: C2 /\ hk h p = Some kv /\ fst kv = key /\ In p L /\ lm_walk keq h m i key = Some (Some p, last_opt C1)).
  Proof.
    intros R. set (i := hash key mod mnb m). destruct (r_chain _ _ _ _ R i) as (C & P & N & IC). exists i, C.
    split; [|split; [reflexivity|split; [exact P|split; [exact N|split; [exact IC|]]]]].
    { unfold bucket_of. destruct (N.eqb_spec (mnb m) 0) as [X|X]; [apply (r_nb _ _ _ _ R) in X; destruct X|reflexivity]. }
    destruct (walk_ok h key (S (hfresh h)) C (mb m i) None P) as [[W NI]|(C1 & p & C2 & kv & -> & E & Ek & W)].
    - intros p Hp. apply IC in Hp. destruct (rep_alive _ _ _ _ _ R (proj1 Hp)) as (kv & E & _). eauto.
    - assert (X : (length C <= hfresh h)%nat). { apply nodup_lt; [exact N|]. intros p Hp. apply IC in Hp. apply (r_lt _ _ _ _ R), Hp. } lia.
    - left. unfold lm_walk. rewrite W. split; [destruct (last_opt C); reflexivity|]. intros H. apply in_map_iff in H. destruct H as (kv & Ek & H).
      apply (in_map Some) in H. rewrite <- (r_kv _ _ _ _ R) in H. apply in_map_iff in H. destruct H as (p & E & Hp).
      apply (NI p kv); auto. apply IC. split; [exact Hp|]. unfold mods. rewrite E, Ek. reflexivity.
    - right. exists C1, p, C2, kv. repeat split; auto; [apply IC, in_or_app; right; left; reflexivity|]. unfold lm_walk. rewrite W. destruct (last_opt C1); reflexivity.
  Qed.

  (** * Specification: records in order *)
  Definition s_find (key : K) (l : list (K * V)) : option (K * V) := find (fun kv => keq (fst kv) key) l.
  Definition s_del (key : K) (l : list (K * V)) : list (K * V) := filter (fun kv => negb (keq (fst kv) key)) l.
  Definition s_move (md : mode) (kv : K * V) (l : list (K * V)) : list (K * V) :=
    match md with MOVE_CURRENT => map (fun x => if keq (fst x) (fst kv) then kv else x) l | MOVE_FIRST => kv :: s_del (fst kv) l | MOVE_LAST => s_del (fst kv) l ++ [kv] end.
  Lemma s_del_none key l : ~ In key (map fst l) -> s_del key l = l.
  Proof.
    unfold s_del. induction l as [|x l IH]; cbn; [auto|]. intros H. destruct (keq_spec (fst x) key); [exfalso; auto|]. cbn. rewrite IH; auto.
  Qed.
  Lemma s_find_none key l : ~ In key (map fst l) -> s_find key l = None.
  Proof.
    unfold s_find. induction l as [|x l IH]; cbn; [auto|]. intros H. destruct (keq_spec (fst x) key); [exfalso; auto|]. apply IH; auto.
  Qed.
  Lemma not_in_keys (l : list (K * V)) key : (forall x, In x l -> fst x <> key) -> ~ In key (map fst l).
  Proof. intros H X. apply in_map_iff in X. destruct X as (x & E & I). apply (H x); auto. Qed.
  Lemma s_split la lb (kv : K * V) : (forall x, In x (la ++ lb) -> fst x <> fst kv) -> forall v md,
    s_find (fst kv) (la ++ kv :: lb) = Some kv /\ s_del (fst kv) (la ++ kv :: lb) = la ++ lb /\ s_move md (fst kv, v) (la ++ kv :: lb) = placed md la (fst kv, v) lb.
  Proof.
    intros H v md. assert (D : s_del (fst kv) (la ++ kv :: lb) = la ++ lb).
    { unfold s_del. rewrite filter_app. cbn [filter]. destruct (keq_spec (fst kv) (fst kv)) as [_|X]; [|destruct X; reflexivity]. cbn [negb].
      rewrite <- filter_app. apply (s_del_none (fst kv)), not_in_keys, H. }
    split; [|split; [exact D|]].
    - unfold s_find. induction la as [|x la IH]; cbn [app find].
      + destruct (keq_spec (fst kv) (fst kv)) as [_|X]; [reflexivity|destruct X; reflexivity].
      + destruct (keq_spec (fst x) (fst kv)) as [X|_]; [exfalso; apply (H x); [left; reflexivity|exact X]|]. apply IH.
        * intros y Hy. apply H. right. exact Hy.
        * unfold s_del in *. cbn [app filter] in D. destruct (keq_spec (fst x) (fst kv)) as [X|_]; [exfalso; apply (H x); [left; reflexivity|exact X]|]. cbn [negb] in D. inversion D. reflexivity.
    - destruct md; cbn [s_move placed fst]; try (rewrite D; reflexivity). rewrite map_app. cbn [map].
      destruct (keq_spec (fst kv) (fst kv)) as [_|X]; [|destruct X; reflexivity].
      assert (Y : forall q, (forall x, In x q -> fst x <> fst kv) -> map (fun x => if keq (fst x) (fst kv) then (fst kv, v) else x) q = q).
      { induction q as [|x q IH]; intros Hq; [reflexivity|]. cbn. destruct (keq_spec (fst x) (fst kv)) as [X|_]; [exfalso; apply (Hq x); [left; reflexivity|exact X]|]. rewrite IH; [reflexivity|]. intros y Hy. apply Hq. right. exact Hy. }
      rewrite !Y; [reflexivity| |]; intros x Hx; apply H, in_or_app; auto.
  Qed.
  Lemma fr_of h h' m m' L : same_rest h h' m m' -> dll_frame h h' L -> frame h h' L.
  Proof. intros (Ek & Ec & Ef & _) D. split; [rewrite Ef; apply le_n|]. intros q Hq _. rewrite Ek, Ec. destruct (D q Hq). auto. Qed.

  Lemma get_ok h m L l key md : rep h m L l ->
    exists h' m' L', lm_get keq hash h m key md = Some (s_find key l, h', m') /\
      rep h' m' L' (match s_find key l with Some kv => s_move md kv l | None => l end) /\ frame h h' L /\ Permutation L L'.
  Proof.
    intros R. destruct (lookup_ok h m L l key R) as (i & C & Eb & Ei & PC & NC & IC & [[W N]|(C1 & p & C2 & kv & EC & E & Ek & Hp & W)]).
    - exists h, m, L. unfold lm_get. rewrite Eb. cbn [obind]. rewrite W. cbn [obind fst]. rewrite s_find_none by exact N. split; [reflexivity|]. split; [exact R|]. split; [apply frame_refl|apply Permutation_refl].
    - unfold lm_get. rewrite Eb. cbn [obind]. rewrite W. cbn [obind fst].
      destruct (rep_split _ _ _ _ _ _ R Hp E) as (A & B & la & lb & -> & -> & EA & EB & NK). destruct (move_ok md h m A p B (rep_dll _ _ _ _ R)) as (h' & m' & EM & D' & SR & DF).
      rewrite EM. cbn [obind fst snd]. unfold get_kv. assert (Ek' : hk h' p = Some kv) by (destruct SR as (-> & _); exact E). rewrite Ek'. cbn [obind].
      destruct (s_split la lb kv NK (snd kv) md) as (S1 & S2 & S3). rewrite <- surjective_pairing in S3. subst key. rewrite S1, S3. exists h', m', (placed md A p B). split; [reflexivity|]. split; [|split; [eapply fr_of; eauto|apply placed_perm]].
      eapply rep_perm; eauto using placed_perm. rewrite !placed_map. destruct SR as (-> & _). rewrite E, EA, EB. reflexivity.
  Qed.

  (** * Chains *)
  Definition kmod (kvf : ptr -> option (K * V)) nb p i : Prop := match kvf p with Some kv => hash (fst kv) mod nb = i | None => False end.
  Definition CH (f : ptr -> option ptr) (b : N -> option ptr) kvf nb (P : ptr -> Prop) : Prop :=
    forall i, exists C, path f (b i) C None /\ NoDup C /\ forall p, In p C <-> P p /\ kmod kvf nb p i.
  Lemma kmod_inj kvf nb p i j : kmod kvf nb p i -> kmod kvf nb p j -> i = j.
  Proof. unfold kmod. destruct (kvf p); [congruence|tauto]. Qed.
  Lemma updN_eq A (f : N -> A) p x : updN f p x p = x.
  Proof. unfold updN. rewrite N.eqb_refl. reflexivity. Qed.
  Lemma updN_neq A (f : N -> A) p x q : q <> p -> updN f p x q = f q.
  Proof. unfold updN. destruct (N.eqb_spec q p); congruence. Qed.
  Definition bsel (C1 : list ptr) (b : N -> option ptr) i x : N -> option ptr := match last_opt C1 with Some _ => b | None => updN b i x end.
  Lemma bsel_at C1 b i x : bsel C1 b i x i = match C1 with [] => x | _ => b i end.
  Proof. unfold bsel. destruct C1 as [|c C1] using rev_ind; [apply updN_eq|]. rewrite last_opt_snoc. destruct C1; reflexivity. Qed.
  Lemma bsel_other C1 b i x j : j <> i -> bsel C1 b i x j = b j.
  Proof. intros H. unfold bsel. destruct (last_opt C1); [reflexivity|apply updN_neq, H]. Qed.

  Lemma ch_ext f b kvf kvf' nb P P' : (forall p, P p <-> P' p) -> (forall p, P p -> kvf p = kvf' p) -> CH f b kvf nb P -> CH f b kvf' nb P'.
  Proof.
    intros HP HK H i. destruct (H i) as (C & P1 & N & E). exists C. split; [exact P1|]. split; [exact N|]. intros p. rewrite E. unfold kmod.
    split; intros [X Y]; [rewrite <- (HK p X); split; [apply HP, X|exact Y]|apply HP in X; rewrite (HK p X); auto].
  Qed.
  (** In front of a chain. *)
  Lemma ch_push f b kvf nb P p i : CH f b kvf nb P -> ~ P p -> kmod kvf nb p i -> CH (upd f p (b i)) (updN b i (Some p)) kvf nb (fun q => P q \/ q = p).
  Proof.
    intros H NP KM j. destruct (H j) as (C & P1 & N & E). assert (NC : ~ In p C) by (intros X; apply E in X; tauto).
    destruct (N.eq_dec j i) as [->|HJ].
    - exists (p :: C). rewrite updN_eq. split; [apply path_cons; assumption|]. split; [constructor; assumption|]. intros q. cbn. rewrite E. split.
      + intros [<-|[X Y]]; auto.
      + intros [[X|X] Y]; [right; auto|left; auto].
    - exists C. rewrite updN_neq by exact HJ. split; [|split; [exact N|]].
      + eapply path_frame; [|exact P1]. intros q Hq. rewrite upd_neq; [reflexivity|]. intros ->; auto.
      + intros q. rewrite E. split; [tauto|]. intros [[X|X] Y]; [auto|]. subst q. exfalso. apply HJ. eapply kmod_inj; eauto.
  Qed.
  (** Links of a chain are written only at records of that chain. *)
  Lemma ch_other f b kvf nb P C i : path f (b i) C None -> (forall p, In p C <-> P p /\ kmod kvf nb p i) -> CH f b kvf nb P ->
    forall j, j <> i -> forall o x g, (forall a, o = Some a -> In a C) -> (forall q, P q -> upd_if f o x q = g q) ->
    exists C', path g (b j) C' None /\ NoDup C' /\ forall p, In p C' <-> P p /\ kmod kvf nb p j.
  Proof.
    intros P1 E H j HJ o x g Ho Hg. destruct (H j) as (C' & P' & N' & E'). exists C'. split; [|split; assumption].
    eapply path_frame; [|exact P']. intros q Hq. rewrite <- Hg by (apply E' in Hq; tauto). destruct o as [a|]; [|reflexivity]. cbn. rewrite upd_neq; [reflexivity|]. intros ->.
    apply HJ. eapply kmod_inj; [apply E', Hq|]. apply E, Ho. reflexivity.
  Qed.
  Lemma ch_remove f b kvf nb P p i C1 C2 : CH f b kvf nb P -> path f (b i) (C1 ++ p :: C2) None -> NoDup (C1 ++ p :: C2) ->
    (forall q, In q (C1 ++ p :: C2) <-> P q /\ kmod kvf nb q i) ->
    CH (upd_if f (last_opt C1) (f p)) (bsel C1 b i (f p)) kvf nb (fun q => P q /\ q <> p).
  Proof.
    intros H P1 N E j. destruct (NoDup_app_remove _ _ _ N) as [N' NI]. destruct (N.eq_dec j i) as [->|HJ].
    - exists (C1 ++ C2). split; [|split; [exact N'|]].
      + rewrite bsel_at, (path_at _ _ _ _ _ P1). apply path_remove with (p := p); assumption.
      + intros q. split.
        * intros X. assert (Y : In q (C1 ++ p :: C2)) by (apply in_app_or in X; apply in_or_app; cbn; tauto). apply E in Y. split; [split; [tauto|]|tauto]. intros ->; auto.
        * intros [[X Y] Z]. assert (W : In q (C1 ++ p :: C2)) by (apply E; auto). apply in_app_or in W. apply in_or_app. cbn in W. destruct W as [W|[W|W]]; auto. congruence.
    - destruct (ch_other f b kvf nb P (C1 ++ p :: C2) i P1 E H j HJ (last_opt C1) (f p) _ ltac:(intros a Ha; apply last_opt_in in Ha; apply in_or_app; auto) (fun q _ => eq_refl)) as (C' & P' & N2 & E').
      exists C'. rewrite bsel_other by exact HJ. split; [exact P'|]. split; [exact N2|]. intros q. rewrite E'. split; [|tauto]. intros [X Y]. split; [split; [exact X|]|exact Y]. intros ->.
      apply HJ. eapply kmod_inj; [exact Y|]. apply E, in_or_app. right. left. reflexivity.
  Qed.
  Lemma ch_append f b kvf nb P p i C : CH f b kvf nb P -> path f (b i) C None -> NoDup C -> (forall q, In q C <-> P q /\ kmod kvf nb q i) ->
    ~ P p -> f p = None -> kmod kvf nb p i -> CH (upd_if f (last_opt C) (Some p)) (bsel C b i (Some p)) kvf nb (fun q => P q \/ q = p).
  Proof.
    intros H P1 N E NP Fp KM j. assert (NC : ~ In p C) by (intros X; apply E in X; tauto).
    destruct (N.eq_dec j i) as [->|HJ].
    - exists (C ++ [p]). split; [|split].
      + rewrite bsel_at. assert (X := path_snoc f _ C p N NC P1).
        assert (Y : forall q, upd f p None q = f q) by (intros q; unfold upd; destruct (Nat.eqb_spec q p); congruence).
        eapply path_frame; [|exact X]. intros q _. destruct (last_opt C) as [a|]; cbn; [|apply Y]. unfold upd at 1 3. destruct (Nat.eqb q a); [reflexivity|apply Y].
      + apply NoDup_Add with (a := p) (l := C); [|auto]. assert (X := Add_app p C []). rewrite app_nil_r in X. exact X.
      + intros q. rewrite in_app_iff, E. cbn. split.
        * intros [[X Y]|[<-|[]]]; auto.
        * intros [[X|X] Y]; auto.
    - destruct (ch_other f b kvf nb P C i P1 E H j HJ (last_opt C) (Some p) _ ltac:(intros a Ha; apply last_opt_in in Ha; exact Ha) (fun q _ => eq_refl)) as (C' & P' & N2 & E').
      exists C'. rewrite bsel_other by exact HJ. split; [exact P'|]. split; [exact N2|]. intros q. rewrite E'. split; [tauto|]. intros [[X|X] Y]; [auto|]. subst q. exfalso. apply HJ. eapply kmod_inj; eauto.
  Qed.
  Lemma ch_replace f b kvf nb P old p i C1 C2 : CH f b kvf nb P -> path f (b i) (C1 ++ old :: C2) None -> NoDup (C1 ++ old :: C2) ->
    (forall q, In q (C1 ++ old :: C2) <-> P q /\ kmod kvf nb q i) -> ~ P p -> kmod kvf nb p i ->
    CH (upd_if (upd f p (f old)) (last_opt C1) (Some p)) (bsel C1 b i (Some p)) kvf nb (fun q => P q /\ q <> old \/ q = p).
  Proof.
    intros H P1 N E NP KM j. assert (NC : ~ In p (C1 ++ old :: C2)) by (intros X; apply E in X; tauto).
    destruct (NoDup_app_remove _ _ _ N) as [N' NI].
    destruct (N.eq_dec j i) as [->|HJ].
    - exists (C1 ++ p :: C2). split; [|split].
      + rewrite bsel_at, (path_at _ _ _ _ _ P1). apply path_replace with (old := old); assumption.
      + apply NoDup_Add with (a := p) (l := C1 ++ C2); [apply Add_app|]. split; [exact N'|]. intros X. apply NC. apply in_app_or in X. apply in_or_app. cbn. tauto.
      + intros q. split.
        * intros X. apply in_app_or in X. destruct X as [X|[<-|X]]; [|split; [right; reflexivity|exact KM]|];
            (assert (Y : In q (C1 ++ C2)) by (apply in_or_app; auto)); (assert (Z : In q (C1 ++ old :: C2)) by (apply in_or_app; cbn; tauto)); apply E in Z; (split; [left; split; [tauto|intros ->; auto]|tauto]).
        * intros [[[X Y]|X] Z]; [|subst q; apply in_or_app; right; left; reflexivity].
          assert (W : In q (C1 ++ old :: C2)) by (apply E; auto). apply in_app_or in W. apply in_or_app. cbn in *. destruct W as [W|[W|W]]; auto. congruence.
    - destruct (ch_other f b kvf nb P (C1 ++ old :: C2) i P1 E H j HJ (last_opt C1) (Some p) (upd_if (upd f p (f old)) (last_opt C1) (Some p)) ltac:(intros a Ha; apply last_opt_in in Ha; apply in_or_app; auto)) as (C' & P' & N2 & E').
      { intros q Hq. assert (q <> p) by congruence. destruct (last_opt C1) as [a|]; cbn; [unfold upd at 1 2; destruct (Nat.eqb q a); [reflexivity|]|]; rewrite upd_neq by assumption; reflexivity. }
      exists C'. rewrite bsel_other by exact HJ. split; [exact P'|]. split; [exact N2|]. intros q. rewrite E'. split.
      + intros [X Y]. split; [left; split; [exact X|]|exact Y]. intros ->. apply HJ. eapply kmod_inj; [exact Y|]. apply E, in_or_app. right. left. reflexivity.
      + intros [[[X _]|X] Y]; [auto|]. subst q. exfalso. apply HJ. eapply kmod_inj; eauto.
  Qed.
  Lemma rep_ch h m L l : rep h m L l -> CH (hc h) (mb m) (hk h) (mnb m) (fun p => In p L).
  Proof. intros R i. apply (r_chain _ _ _ _ R). Qed.
  Lemma set_entry_ok h m i C1 x : (forall a, last_opt C1 = Some a -> alive h a = true) ->
    set_entry h m i (last_opt C1) x = Some (mkH (hk h) (upd_if (hc h) (last_opt C1) x) (hp h) (hn h) (hfresh h), mkM (bsel C1 (mb m) i x) (mnb m) (mfirst m) (mlast m) (mnum m)).
  Proof.
    unfold bsel. intros H. destruct (last_opt C1) as [a|] eqn:EA; cbn.
    - unfold set_child. rewrite (H a eq_refl). cbn. destruct m; reflexivity.
    - destruct h; reflexivity.
  Qed.

  (** * Linking a new record *)
  Definition linked {X} (md : mode) (L : list X) (p : X) : list X := match md with MOVE_FIRST => p :: L | _ => L ++ [p] end.
  Lemma linked_map X Y (f : X -> Y) md L p : map f (linked md L p) = linked md (map f L) (f p).
  Proof. destruct md; cbn; rewrite ?map_app; reflexivity. Qed.
  Lemma linked_perm X md (L : list X) p : Permutation (p :: L) (linked md L p).
  Proof. destruct md; cbn; try reflexivity; apply Permutation_cons_append. Qed.
  Lemma link_ok md h m L p : dll h m L -> ~ In p L -> alive h p = true -> hn h p = None -> hp h p = None ->
    exists h' m', link md h m p = Some (h', m') /\ dll h' m' (linked md L p) /\ same_rest h h' m m' /\ dll_frame h h' (p :: L).
  Proof.
    intros (ND & AL & PN & PP) NI Ep EN EP.
    assert (DF := path_hd _ _ _ PN). assert (DL := path_hd _ _ _ PP).
    assert (LastCase : exists h' m', (h1 <- set_prev h p (mlast m) ;; let m1 := match mfirst m with None => with_first m (Some p) | Some _ => m end in
      h2 <- set_next_if h1 (mlast m1) (Some p) ;; Some (h2, with_last m1 (Some p))) = Some (h', m') /\ dll h' m' (L ++ [p]) /\ same_rest h h' m m' /\ dll_frame h h' (p :: L)).
    { unfold set_prev. rewrite Ep. cbn [obind]. cbv zeta. set (m1 := match mfirst m with None => with_first m (Some p) | Some _ => m end).
      assert (L1 : mlast m1 = mlast m) by (unfold m1; destruct (mfirst m); reflexivity). rewrite L1.
      rewrite set_next_if_ok. 2:{ intros q Hq. apply (AL q). rewrite DL in Hq. apply hd_in in Hq. apply in_rev, Hq. }
      cbn [obind]. eexists _, _. split; [reflexivity|]. split; [|split].
      - split; [|split; [|split]].
        + apply NoDup_Add with (a := p) (l := L); [|auto]. assert (X := Add_app p L []). rewrite app_nil_r in X. exact X.
        + intros q Hq. apply in_app_or in Hq. destruct Hq as [Hq|[<-|[]]]; [apply (AL q Hq)|exact Ep].
        + cbn [hn mfirst with_last]. assert (X := path_snoc (hn h) _ L p ND NI PN).
          assert (Y : forall q, upd (hn h) p None q = hn h q) by (intros q; unfold upd; destruct (Nat.eqb_spec q p); congruence).
          change (last_opt L) with (hd_error (rev L)) in X. rewrite <- DL in X.
          replace (mfirst m1) with (match L with [] => Some p | _ => mfirst m end).
          * eapply path_frame; [|exact X]. intros q _. destruct (mlast m) as [a|]; cbn; [|apply Y]. unfold upd at 1 3. destruct (Nat.eqb q a); [reflexivity|apply Y].
          * unfold m1. rewrite DF. destruct L; cbn; [reflexivity|]. rewrite DF. reflexivity.
        + cbn [hp mlast with_last]. rewrite rev_app_distr. cbn [rev app]. apply path_cons; [intros X; apply NI, in_rev, X|exact PP].
      - repeat split; unfold m1; destruct (mfirst m); reflexivity.
      - intros q Hq. cbn [hn hp]. rewrite upd_neq by (intros ->; apply Hq; left; reflexivity). split; [|reflexivity]. eapply upd_if_out; [|exact Hq].
        intros a Ha. right. rewrite DL in Ha. apply hd_in in Ha. apply in_rev, Ha. }
    destruct md; try exact LastCase. cbn [link linked]. unfold set_next. rewrite Ep. cbn [obind]. cbv zeta. set (m1 := match mlast m with None => with_last m (Some p) | Some _ => m end).
    assert (F1 : mfirst m1 = mfirst m) by (unfold m1; destruct (mlast m); reflexivity). rewrite F1.
    rewrite set_prev_if_ok. 2:{ intros q Hq. apply (AL q). rewrite DF in Hq. apply hd_in in Hq. exact Hq. }
    cbn [obind]. eexists _, _. split; [reflexivity|]. split; [|split].
    - split; [|split; [|split]].
      + constructor; assumption.
      + intros q [<-|Hq]; [exact Ep|apply (AL q Hq)].
      + cbn [hn mfirst with_first]. apply path_cons; assumption.
      + cbn [hp mlast with_first rev]. assert (X := path_snoc (hp h) _ (rev L) p (NoDup_rev ND) (fun X => NI (proj2 (in_rev _ _) X)) PP).
        assert (Y : forall q, upd (hp h) p None q = hp h q) by (intros q; unfold upd; destruct (Nat.eqb_spec q p); congruence).
        rewrite last_opt_rev, <- DF in X.
        replace (mlast m1) with (match rev L with [] => Some p | _ => mlast m end).
        * eapply path_frame; [|exact X]. intros q _. destruct (mfirst m) as [a|]; cbn; [|apply Y]. unfold upd at 1 3. destruct (Nat.eqb q a); [reflexivity|apply Y].
        * unfold m1. rewrite DL. destruct (rev L); cbn; [reflexivity|]. rewrite DL. reflexivity.
    - repeat split; unfold m1; destruct (mlast m); reflexivity.
    - intros q Hq. cbn [hn hp]. rewrite upd_neq by (intros ->; apply Hq; left; reflexivity). split; [reflexivity|]. eapply upd_if_out; [|exact Hq].
      intros a Ha. right. rewrite DF in Ha. apply hd_in in Ha. exact Ha.
  Qed.

  Lemma new_rec_frame h key v : frame h (snd (new_rec h key v)) [].
  Proof. cbn. split; [cbn; lia|]. intros q _ Hq. cbn. rewrite !upd_neq by exact Hq. auto. Qed.
  Lemma frame_trans h1 h2 h3 L L' : frame h1 h2 L -> frame h2 h3 L' -> hfresh h2 = hfresh h1 -> frame h1 h3 (L ++ L').
  Proof.
    intros [F1 F2] [G1 G2] E. split; [lia|]. intros q Hq Hf. assert (~ In q L /\ ~ In q L') as [X Y] by (split; intros Z; apply Hq, in_or_app; auto).
    destruct (F2 q X Hf) as (A1 & A2 & A3 & A4). destruct (G2 q Y ltac:(congruence)) as (B1 & B2 & B3 & B4). repeat split; congruence.
  Qed.
  Lemma rep_not_in h m L l : rep h m L l -> ~ In (hfresh h) L.
  Proof. intros R X. apply (r_lt _ _ _ _ R) in X. lia. Qed.

  (** Storing a new record. *)
  Lemma store_ok h m L l key v md i : rep h m L l -> ~ In key (map fst l) -> i = hash key mod mnb m ->
    exists h' m' L', (hm <- link md (snd (new_rec h key v)) m (hfresh h) ;; h2 <- set_child (fst hm) (hfresh h) (mb (snd hm) i) ;; kv <- get_kv h2 (hfresh h) ;;
        Some (kv, h2, with_num (with_bucket (snd hm) i (Some (hfresh h))) (mnum (snd hm) + 1))) = Some ((key, v), h', m') /\
      rep h' m' L' (linked md l (key, v)) /\ frame h h' L /\ (forall p, In p L' <-> In p L \/ p = hfresh h) /\ hfresh h' = S (hfresh h).
  Proof.
    intros R NK Ei. set (p := hfresh h). set (h1 := snd (new_rec h key v)). assert (NI : ~ In p L) by (eapply rep_not_in; eauto).
    assert (F1 := new_rec_frame h key v). fold h1 in F1. assert (R1 : rep h1 m L l) by (eapply rep_frame; eauto).
    assert (Ekp : hk h1 p = Some (key, v)) by (cbn; apply upd_eq).
    destruct (link_ok md h1 m L p (rep_dll _ _ _ _ R1) NI (alive_some _ _ _ Ekp) ltac:(cbn; apply upd_eq) ltac:(cbn; apply upd_eq)) as (h' & m' & EL & D & (Ek & Ec & Ef & Eb & Enb & En) & DF).
    rewrite EL. cbn [obind fst snd]. unfold set_child. assert (Ap : alive h' p = true) by (unfold alive; rewrite Ek, Ekp; reflexivity). rewrite Ap. cbn [obind]. unfold get_kv. cbn [hk]. rewrite Ek, Ekp. cbn [obind].
    eexists _, _, (linked md L p). split; [reflexivity|]. split; [|split; [|split]].
    - destruct D as (ND & AL & PN & PP). destruct R1. constructor; cbn [mnb hk hfresh hn hp hc mfirst mlast mb mnum with_num with_bucket].
      + congruence.
      + exact ND.
      + rewrite !linked_map. f_equal; [exact r_kv0|exact Ekp].
      + rewrite linked_map. eapply Permutation_NoDup; [apply linked_perm|]. constructor; assumption.
      + intros q Hq. rewrite Ef. apply (Permutation_in _ (Permutation_sym (linked_perm _ md L p))) in Hq. destruct Hq as [<-|Hq]; [cbn; lia|apply r_lt0, Hq].
      + exact PN.
      + exact PP.
      + rewrite Ec, Eb, Enb. assert (X := ch_push (hc h1) (mb m) (hk h1) (mnb m) (fun p => In p L) p i r_chain0 NI ltac:(unfold kmod; rewrite Ekp; symmetry; exact Ei)).
        eapply (ch_ext _ _ _ (hk h1)); [| |exact X].
        * intros q. split; [intros Y; eapply Permutation_in; [apply linked_perm|]; cbn; destruct Y; auto|]. intros Y. apply (Permutation_in _ (Permutation_sym (linked_perm _ md L p))) in Y. cbn in Y. destruct Y; auto.
        * reflexivity.
      + rewrite En, r_num0, <- (Permutation_length (linked_perm _ md L p)). cbn [length]. lia.
    - split; [cbn [hfresh]; rewrite Ef; cbn; lia|]. intros q Hq Hf. cbn [hk hc hp hn]. rewrite upd_neq by exact Hf. rewrite ?Ek, Ec. destruct (DF q ltac:(intros [X|X]; [apply Hf; symmetry; exact X|auto])) as [-> ->].
      destruct F1 as [_ F1]. apply F1; auto.
    - intros q. split; intros Y.
      + apply (Permutation_in _ (Permutation_sym (linked_perm _ md L p))) in Y. cbn in Y. destruct Y; auto.
      + eapply Permutation_in; [apply linked_perm|]. cbn. destruct Y; auto.
    - cbn [hfresh]. rewrite Ef. reflexivity.
  Qed.
  Lemma find_in key l kv : s_find key l = Some kv -> fst kv = key /\ In kv l.
  Proof. intros H. apply find_some in H. destruct H as [H1 H2]. destruct (keq_spec (fst kv) key); [auto|discriminate]. Qed.
  Lemma set_val_rep h m A p B la lb (kv : K * V) v : rep h m (A ++ p :: B) (la ++ kv :: lb) -> hk h p = Some kv -> map (hk h) A = map Some la -> map (hk h) B = map Some lb ->
    exists h1, set_val h p v = Some h1 /\ rep h1 m (A ++ p :: B) (la ++ (fst kv, v) :: lb) /\ frame h h1 (A ++ p :: B) /\ hk h1 p = Some (fst kv, v) /\ hfresh h1 = hfresh h /\
      map (hk h1) A = map Some la /\ map (hk h1) B = map Some lb.
  Proof.
    intros R E EA EB. unfold set_val. rewrite E. destruct kv as [k v0]. eexists. split; [reflexivity|]. cbn [fst snd] in *. cbn [hk hfresh].
    assert (NI : ~ In p (A ++ B)) by (apply NoDup_remove_2, (r_nd _ _ _ _ R)).
    assert (EA' : map (upd (hk h) p (Some (k, v))) A = map Some la). { rewrite <- EA. apply map_ext_in. intros q Hq. apply upd_neq. intros ->. apply NI, in_or_app; auto. }
    assert (EB' : map (upd (hk h) p (Some (k, v))) B = map Some lb). { rewrite <- EB. apply map_ext_in. intros q Hq. apply upd_neq. intros ->. apply NI, in_or_app; auto. }
    split; [|split; [|split; [apply upd_eq|split; [reflexivity|split; assumption]]]].
    - destruct R. constructor; cbn [mnb hk hfresh hn hp hc]; auto.
      + rewrite !map_app. cbn [map]. rewrite upd_eq. f_equal; [exact EA'|f_equal; exact EB'].
      + rewrite map_app in *. exact r_keys0.
      + intros i. destruct (r_chain0 i) as (C & P & N & I). exists C. split; [exact P|]. split; [exact N|]. intros q. rewrite I. unfold mods. cbn [hk]. unfold upd.
        destruct (Nat.eqb_spec q p) as [->|]; [|reflexivity]. rewrite E. reflexivity.
    - split; [cbn; lia|]. intros q Hq _. cbn. rewrite upd_neq; [auto|]. intros ->. apply Hq, in_or_app. right. left. reflexivity.
  Qed.
  Lemma set_ok h m L l key v ow md : rep h m L l ->
    exists h' m' L', lm_set keq hash h m key v ow md =
        Some (match s_find key l with Some kv => if ow then (key, v) else kv | None => (key, v) end, h', m') /\
      rep h' m' L' (match s_find key l with Some _ => if ow then s_move md (key, v) l else l | None => linked md l (key, v) end) /\
      frame h h' L /\ (forall p, In p L' -> In p L \/ p = hfresh h).
  Proof.
    intros R. destruct (lookup_ok h m L l key R) as (i & C & Eb & Ei & PC & NC & IC & [[W N]|(C1 & p & C2 & kv & EC & E & Ek & Hp & W)]).
    - unfold lm_set. rewrite Eb. cbn [obind]. rewrite W. cbn [obind fst]. rewrite s_find_none by exact N.
      destruct (store_ok h m L l key v md i R N Ei) as (h' & m' & L' & ES & R' & F & I & _). cbn [new_rec snd] in ES. cbn [new_rec]. exists h', m', L'. split; [exact ES|]. split; [exact R'|]. split; [exact F|]. intros q Hq. apply I, Hq.
    - unfold lm_set. rewrite Eb. cbn [obind]. rewrite W. cbn [obind fst].
      destruct (rep_split _ _ _ _ _ _ R Hp E) as (A & B & la & lb & -> & -> & EA & EB & NK). subst key. destruct (s_split la lb kv NK v md) as (S1 & S2 & S3). rewrite S1, S3.
      destruct ow; cbn [negb].
      + destruct (set_val_rep h m A p B la lb kv v R E EA EB) as (h1 & EV & R1 & F1 & Ek1 & Ef1 & EA1 & EB1). rewrite EV. cbn [obind].
        destruct (move_ok md h1 m A p B (rep_dll _ _ _ _ R1)) as (h' & m' & EM & D' & SR & DF). rewrite EM. cbn [obind fst snd]. unfold get_kv.
        assert (Ek' : hk h' p = Some (fst kv, v)) by (destruct SR as (-> & _); exact Ek1). rewrite Ek'. cbn [obind].
        exists h', m', (placed md A p B). split; [reflexivity|]. split; [|split].
        * eapply rep_perm; eauto using placed_perm. rewrite !placed_map. destruct SR as (-> & _). rewrite Ek1, EA1, EB1. reflexivity.
        * assert (X := frame_trans _ _ _ _ _ F1 (fr_of _ _ _ _ _ SR DF) Ef1). destruct X as [X1 X2]. split; [exact X1|]. intros q Hq. apply X2. intros Y. apply in_app_or in Y. tauto.
        * intros q Hq. left. eapply Permutation_in; [symmetry; apply placed_perm|exact Hq].
      + unfold get_kv. rewrite E. cbn [obind]. exists h, m, (A ++ p :: B). split; [reflexivity|]. split; [exact R|]. split; [apply frame_refl|auto].
  Qed.
  Lemma insert_ok h m L l key v : rep h m L l ->
    exists h' m' L', lm_insert keq hash h m key v = Some (match s_find key l with Some kv => (kv, false) | None => (key, v, true) end, h', m') /\
      rep h' m' L' (match s_find key l with Some _ => l | None => l ++ [(key, v)] end) /\ frame h h' L /\ (forall p, In p L' -> In p L \/ p = hfresh h).
  Proof.
    intros R. destruct (lookup_ok h m L l key R) as (i & C & Eb & Ei & PC & NC & IC & [[W N]|(C1 & p & C2 & kv & EC & E & Ek & Hp & W)]).
    - unfold lm_insert. rewrite Eb. cbn [obind]. rewrite W. cbn [obind fst]. rewrite s_find_none by exact N.
      destruct (store_ok h m L l key v MOVE_CURRENT i R N Ei) as (h' & m' & L' & ES & R' & F & I & _). cbn [new_rec snd] in ES. cbn [new_rec]. exists h', m', L'.
      split; [|split; [exact R'|split; [exact F|intros q Hq; apply I, Hq]]].
      destruct (link MOVE_CURRENT _ m (hfresh h)) as [[h2 m2]|]; [|discriminate]. cbn [obind fst snd] in *. destruct (set_child h2 (hfresh h) (mb m2 i)) as [h3|]; [|discriminate]. cbn [obind] in *.
      destruct (get_kv h3 (hfresh h)); [|discriminate]. cbn [obind] in *. inversion ES; subst. reflexivity.
    - unfold lm_insert. rewrite Eb. cbn [obind]. rewrite W. cbn [obind fst].
      destruct (rep_split _ _ _ _ _ _ R Hp E) as (A & B & la & lb & -> & -> & EA & EB & NK). subst key. destruct (s_split la lb kv NK v MOVE_CURRENT) as (S1 & S2 & S3). rewrite S1.
      unfold get_kv. rewrite E. cbn [obind]. exists h, m, (A ++ p :: B). split; [reflexivity|]. split; [exact R|]. split; [apply frame_refl|auto].
  Qed.

  (** * Taking a record out *)
  Lemma unlink_ok h m A p B la lb (kv : K * V) i C1 C2 : rep h m (A ++ p :: B) (la ++ kv :: lb) -> hk h p = Some kv -> map (hk h) A = map Some la -> map (hk h) B = map Some lb ->
    path (hc h) (mb m i) (C1 ++ p :: C2) None -> NoDup (C1 ++ p :: C2) -> (forall q, In q (C1 ++ p :: C2) <-> In q (A ++ p :: B) /\ mods (mnb m) h q i) ->
    exists h' m', unlink h m i (last_opt C1) p = Some (h', m') /\ rep h' m' (A ++ B) (la ++ lb) /\ frame h h' (A ++ B) /\ hk h' = hk h /\ hfresh h' = hfresh h.
  Proof.
    intros R E EA EB PC NC IC. assert (D := rep_dll _ _ _ _ R). destruct (dll_out _ _ _ _ _ D) as (h2 & E2 & Eh & P1 & P2).
    assert (EPV := dll_prev _ _ _ _ _ D). assert (ENX := dll_next _ _ _ _ _ D). assert (DF := dll_first _ _ _ _ _ D). assert (DL := dll_last _ _ _ _ _ D).
    assert (Ap := alive_some _ _ _ E). unfold unlink. unfold get_prev, get_next in E2 |- *. rewrite Ap in *. cbn [obind] in *.
    destruct (set_next_if h (hp h p) (hn h p)) as [h1|]; [|discriminate]. cbn [obind] in *. rewrite E2. cbn [obind]. cbv zeta.
    unfold get_child. assert (Ap2 : alive h2 p = true) by (rewrite Eh; exact Ap). rewrite Ap2. cbn [obind].
    assert (Ec : hc h2 p = hc h p) by (rewrite Eh; reflexivity). rewrite Ec.
    assert (IN1 : forall a, In a C1 -> In a (A ++ p :: B)) by (intros a Ha; apply IC, in_or_app; auto).
    rewrite set_entry_ok. 2:{ intros a Ha. rewrite Eh. change (alive h a = true). eapply rep_alive'; [exact R|]. apply IN1, last_opt_in, Ha. }
    cbn [obind fst snd]. eexists _, _. split; [reflexivity|].
    set (m1 := if peq (Some p) (mfirst m) then with_first m (hn h p) else m). set (m2 := if peq (Some p) (mlast m1) then with_last m1 (hp h p) else m1).
    assert (F2 : mfirst m2 = match A with [] => hd_error B | _ => mfirst m end).
    { unfold m2. replace (mfirst (if peq (Some p) (mlast m1) then with_last m1 (hp h p) else m1)) with (mfirst m1) by (case (peq (Some p) (mlast m1)); reflexivity).
      unfold m1. destruct (peq_spec (Some p) (mfirst m)) as [X|X]; [symmetry in X; apply DF in X; subst A; exact ENX|]. destruct A; [exfalso; apply X; symmetry; apply DF; reflexivity|reflexivity]. }
    assert (L2 : mlast m2 = match B with [] => last_opt A | _ => mlast m end).
    { assert (Y : mlast m1 = mlast m) by (unfold m1; destruct (peq _ _); reflexivity). unfold m2. destruct (peq_spec (Some p) (mlast m1)) as [X|X]; rewrite Y in X.
      - symmetry in X. apply DL in X. subst B. exact EPV.
      - rewrite Y. destruct B; [exfalso; apply X; symmetry; apply DL; reflexivity|reflexivity]. }
    assert (O2 : mb m2 = mb m /\ mnb m2 = mnb m /\ mnum m2 = mnum m) by (unfold m2, m1; destruct (peq _ _); destruct (peq _ _); auto). destruct O2 as (O2 & O3 & O4).
    destruct (NoDup_app_remove _ _ _ (r_nd _ _ _ _ R)) as [ND' NI].
    split; [|split; [|split]].
    - destruct R. constructor; cbn [mnb hk hfresh hn hp hc mfirst mlast mb mnum with_num].
      + congruence.
      + exact ND'.
      + rewrite Eh. cbn [hk out_heap]. rewrite !map_app, EA, EB. reflexivity.
      + rewrite map_app in *. cbn [map] in *. eapply NoDup_remove_1, r_keys0.
      + intros q Hq. rewrite Eh. cbn [hfresh out_heap]. apply r_lt0. apply in_app_or in Hq. apply in_or_app. cbn. tauto.
      + rewrite F2. exact P1.
      + rewrite L2. exact P2.
      + rewrite O2, O3. assert (Ehc : hc h2 = hc h) by (rewrite Eh; reflexivity). rewrite Ehc.
        assert (X := ch_remove (hc h) (mb m) (hk h) (mnb m) (fun q => In q (A ++ p :: B)) p i C1 C2 r_chain0 PC NC IC).
        eapply (ch_ext _ _ _ (hk h2)); [| |exact X].
        * intros q. rewrite !in_app_iff. cbn. split; [intros [[Y|[Y|Y]] Z]; auto; congruence|]. intros Y. split; [tauto|]. intros ->. apply NI, in_or_app, Y.
        * intros q _. rewrite Eh. reflexivity.
      + rewrite O4, r_num0. rewrite !app_length. cbn [length]. lia.
    - split; [rewrite Eh; cbn; lia|]. intros q Hq _. cbn [hk hc hp hn]. rewrite Eh. cbn [hk hc hp hn out_heap]. split; [reflexivity|]. split; [|split].
      + destruct (last_opt C1) as [a|] eqn:EC; [|reflexivity]. cbn. rewrite upd_neq; [reflexivity|]. intros ->. assert (Ia := last_opt_in _ _ EC). assert (X := IN1 a Ia).
        apply in_app_or in X. destruct X as [X|[X|X]]; [apply Hq, in_or_app; auto| |apply Hq, in_or_app; auto]. subst a. apply NoDup_remove_2 in NC. apply NC, in_or_app. auto.
      + destruct (hd_error B) as [b|] eqn:EB'; [|reflexivity]. cbn. rewrite upd_neq; [reflexivity|]. intros ->. apply Hq, in_or_app. right. apply hd_in, EB'.
      + destruct (last_opt A) as [a|] eqn:EA'; [|reflexivity]. cbn. rewrite upd_neq; [reflexivity|]. intros ->. apply Hq, in_or_app. left. apply last_opt_in, EA'.
    - rewrite Eh. reflexivity.
    - rewrite Eh. reflexivity.
  Qed.
  Lemma free_rep h m L l p : rep h m L l -> ~ In p L -> alive h p = true -> exists h', free h p = Some h' /\ rep h' m L l /\ frame h h' [p] /\ hfresh h' = hfresh h.
  Proof.
    intros R NI Ap. unfold free. rewrite Ap. eexists. split; [reflexivity|].
    assert (F : frame h (mkH (upd (hk h) p None) (hc h) (hp h) (hn h) (hfresh h)) [p]). { split; [cbn; lia|]. intros q Hq _. cbn. rewrite upd_neq; [auto|]. intros ->. apply Hq. left. reflexivity. }
    split; [|split; [exact F|reflexivity]]. eapply rep_frame; [exact R|exact F|]. intros q Hq [<-|[]]. auto.
  Qed.
  Lemma remove_ok h m L l key : rep h m L l ->
    exists h' m' L', lm_remove keq hash h m key = Some (match s_find key l with Some _ => true | None => false end, h', m') /\ rep h' m' L' (s_del key l) /\
      frame h h' L /\ (forall p, In p L' -> In p L) /\ hfresh h' = hfresh h.
  Proof.
    intros R. destruct (lookup_ok h m L l key R) as (i & C & Eb & Ei & PC & NC & IC & [[W N]|(C1 & p & C2 & kv & EC & E & Ek & Hp & W)]).
    - unfold lm_remove. rewrite Eb. cbn [obind]. rewrite W. cbn [obind fst]. rewrite s_find_none, s_del_none by exact N. exists h, m, L. split; [reflexivity|]. split; [exact R|]. split; [apply frame_refl|auto].
    - unfold lm_remove. rewrite Eb. cbn [obind]. rewrite W. cbn [obind fst snd].
      destruct (rep_split _ _ _ _ _ _ R Hp E) as (A & B & la & lb & -> & -> & EA & EB & NK). subst key C. destruct (s_split la lb kv NK (snd kv) MOVE_CURRENT) as (S1 & S2 & _). rewrite S1, S2.
      destruct (unlink_ok h m A p B la lb kv i C1 C2 R E EA EB PC NC IC) as (h1 & m1 & EU & R1 & F1 & Ek1 & Ef1). rewrite EU. cbn [obind fst snd].
      destruct (NoDup_app_remove _ _ _ (r_nd _ _ _ _ R)) as [ND' NI].
      destruct (free_rep h1 m1 (A ++ B) (la ++ lb) p R1 NI ltac:(unfold alive; rewrite Ek1, E; reflexivity)) as (h2 & EF & R2 & F2 & Ef2). rewrite EF. cbn [obind].
      exists h2, m1, (A ++ B). split; [reflexivity|]. split; [exact R2|]. split; [|split].
      + destruct (frame_trans _ _ _ _ _ F1 F2 Ef1) as [X1 X2]. split; [exact X1|]. intros q Hq. apply X2. intros Y. apply Hq. apply in_app_or in Y. apply in_or_app. cbn in *. destruct Y as [Y|[Y|[]]]; [apply in_app_or in Y; tauto|auto].
      + intros q Hq. apply in_app_or in Hq. apply in_or_app. cbn. tauto.
      + congruence.
  Qed.

  (** * Migrate *)
  Lemma ch_fext f g b kvf nb P : (forall q, f q = g q) -> CH f b kvf nb P -> CH g b kvf nb P.
  Proof. intros H X i. destruct (X i) as (C & P1 & N & E). exists C. split; [eapply path_frame; [|exact P1]; auto|auto]. Qed.
  Lemma upd_if_comm (f : nat -> option nat) p x o y q : o <> Some p -> upd (upd_if f o y) p x q = upd_if (upd f p x) o y q.
  Proof.
    intros H. destruct o as [a|]; [|reflexivity]. cbn. unfold upd. destruct (Nat.eqb_spec q p), (Nat.eqb_spec q a); try reflexivity. congruence.
  Qed.
  Lemma upd_same (f : nat -> option nat) p q : upd f p (f p) q = f q.
  Proof. unfold upd. destruct (Nat.eqb_spec q p); congruence. Qed.
  Lemma replace_rec_ok h d A old B la lb (kvo kv : K * V) i C1 C2 p : rep h d (A ++ old :: B) (la ++ kvo :: lb) -> hk h old = Some kvo -> hk h p = Some kv -> fst kv = fst kvo ->
    map (hk h) A = map Some la -> map (hk h) B = map Some lb -> ~ In p (A ++ old :: B) -> (p < hfresh h)%nat -> hc h p = None -> hp h p = None -> hn h p = None ->
    path (hc h) (mb d i) (C1 ++ old :: C2) None -> NoDup (C1 ++ old :: C2) -> (forall q, In q (C1 ++ old :: C2) <-> In q (A ++ old :: B) /\ mods (mnb d) h q i) ->
    exists h' d', replace_rec h d i (last_opt C1) old p = Some (h', d') /\ rep h' d' (A ++ p :: B) (la ++ kv :: lb) /\ frame h h' (p :: A ++ old :: B) /\ hk h' p = Some kv /\ hfresh h' = hfresh h /\
      map (hk h') A = map Some la /\ map (hk h') B = map Some lb.
  Proof.
    intros R Eo Ep Ek EA EB NI Lp Zc Zp Zn PC NC IC. assert (D := rep_dll _ _ _ _ R).
    assert (EPV := dll_prev _ _ _ _ _ D). assert (ENX := dll_next _ _ _ _ _ D). assert (DF := dll_first _ _ _ _ _ D). assert (DL := dll_last _ _ _ _ _ D). destruct D as (ND & AL & PN & PP).
    assert (NA : last_opt A <> Some p) by (intros X; apply last_opt_in in X; apply NI, in_or_app; auto).
    assert (NB : hd_error B <> Some p) by (intros X; apply hd_in in X; apply NI, in_or_app; cbn; auto).
    assert (Nop : old <> p) by (intros ->; apply NI, in_or_app; cbn; auto).
    assert (ALA : forall a, last_opt A = Some a -> exists x, hk h a = Some x) by (intros a X; apply last_opt_in in X; destruct (rep_alive _ _ _ _ a R ltac:(apply in_or_app; auto)) as (x & E & _); eauto).
    assert (ALB : forall a, hd_error B = Some a -> exists x, hk h a = Some x) by (intros a X; apply hd_in in X; destruct (rep_alive _ _ _ _ a R ltac:(apply in_or_app; cbn; auto)) as (x & E & _); eauto).
    assert (STEP : exists h3, (h1 <- match hc h old with Some _ => set_child h p (hc h old) | None => Some h end ;;
      h2 <- match hp h old with Some q => h' <- set_prev h1 p (hp h old) ;; set_next h' q (Some p) | None => Some h1 end ;;
      match hn h old with Some q => h' <- set_next h2 p (hn h old) ;; set_prev h' q (Some p) | None => Some h2 end) = Some h3 /\ hk h3 = hk h /\ hfresh h3 = hfresh h /\
      (forall q, hc h3 q = upd (hc h) p (hc h old) q) /\ (forall q, hn h3 q = upd_if (upd (hn h) p (hd_error B)) (last_opt A) (Some p) q) /\ (forall q, hp h3 q = upd_if (upd (hp h) p (last_opt A)) (hd_error B) (Some p) q)).
    { rewrite EPV, ENX.
      assert (S1 : exists h1, match hc h old with Some _ => set_child h p (hc h old) | None => Some h end = Some h1 /\ hk h1 = hk h /\ hfresh h1 = hfresh h /\ hn h1 = hn h /\ hp h1 = hp h /\ forall q, hc h1 q = upd (hc h) p (hc h old) q).
      { destruct (hc h old) as [c|]; [unfold set_child; rewrite (alive_some _ _ _ Ep)|]; eexists; (split; [reflexivity|]); repeat split. intros q. rewrite <- Zc. symmetry. apply upd_same. }
      destruct S1 as (h1 & -> & K1 & F1 & N1 & P1 & C1'). cbn [obind].
      assert (S2 : exists h2, match last_opt A with Some q => h' <- set_prev h1 p (last_opt A) ;; set_next h' q (Some p) | None => Some h1 end = Some h2 /\ hk h2 = hk h /\ hfresh h2 = hfresh h /\ hc h2 = hc h1 /\
        (forall q, hn h2 q = upd_if (hn h) (last_opt A) (Some p) q) /\ (forall q, hp h2 q = upd (hp h) p (last_opt A) q)).
      { destruct (last_opt A) as [a|].
        - destruct (ALA a eq_refl) as [x Ea]. unfold set_prev, alive. rewrite K1, Ep. cbn [obind]. unfold set_next, alive. cbn [hk]. rewrite ?K1, Ea. eexists. split; [reflexivity|]. cbn [hk hfresh hc hn hp upd_if]. rewrite N1, P1. repeat split; assumption.
        - eexists. split; [reflexivity|]. cbn [upd_if]. rewrite N1, P1. repeat split; try assumption. intros q. rewrite <- Zp. symmetry. apply upd_same. }
      destruct S2 as (h2 & -> & K2 & F2 & C2' & N2 & P2). cbn [obind].
      destruct (hd_error B) as [b|].
      - destruct (ALB b eq_refl) as [x Eb]. unfold set_next, alive. rewrite K2, Ep. cbn [obind]. unfold set_prev, alive. cbn [hk]. rewrite ?K2, Eb. eexists. split; [reflexivity|]. cbn [hk hfresh hc hn hp upd_if]. split; [reflexivity|]. split; [exact F2|]. rewrite C2'. split; [exact C1'|]. split.
        + intros q. rewrite <- upd_if_comm by exact NA. unfold upd at 1 2. destruct (Nat.eqb q p); [reflexivity|apply N2].
        + intros q. unfold upd at 1 2. destruct (Nat.eqb q b); [reflexivity|apply P2].
      - eexists. split; [reflexivity|]. split; [exact K2|]. split; [exact F2|]. rewrite C2'. split; [exact C1'|]. cbn [upd_if]. split; [|exact P2].
        intros q. rewrite N2. rewrite <- upd_if_comm by exact NA. unfold upd. destruct (Nat.eqb_spec q p) as [->|]; [|reflexivity]. destruct (last_opt A) as [a|]; cbn; [|exact Zn]. rewrite upd_neq; [exact Zn|congruence]. }
    destruct STEP as (h3 & ES & K3 & F3 & HC3 & HN3 & HP3).
    unfold replace_rec, get_child, get_prev, get_next. rewrite (alive_some _ _ _ Eo). cbn [obind].
    destruct (match hc h old with Some _ => set_child h p (hc h old) | None => Some h end) as [h1|]; [|discriminate]. cbn [obind] in *.
    destruct (match hp h old with Some q => h' <- set_prev h1 p (hp h old) ;; set_next h' q (Some p) | None => Some h1 end) as [h2|]; [|discriminate]. cbn [obind] in *.
    rewrite ES. cbn [obind]. cbv zeta. clear ES h1 h2.
    set (d1 := if peq (mfirst d) (Some old) then with_first d (Some p) else d). set (d2 := if peq (mlast d1) (Some old) then with_last d1 (Some p) else d1).
    assert (FD : mfirst d2 = match A with [] => Some p | _ => mfirst d end).
    { unfold d2. replace (mfirst (if peq (mlast d1) (Some old) then with_last d1 (Some p) else d1)) with (mfirst d1) by (case (peq (mlast d1) (Some old)); reflexivity).
      unfold d1. destruct (peq_spec (mfirst d) (Some old)) as [X|X]; [apply DF in X; subst A; reflexivity|]. destruct A; [exfalso; apply X, DF; reflexivity|reflexivity]. }
    assert (LD : mlast d2 = match B with [] => Some p | _ => mlast d end).
    { assert (Y : mlast d1 = mlast d) by (unfold d1; destruct (peq _ _); reflexivity). unfold d2. destruct (peq_spec (mlast d1) (Some old)) as [X|X]; rewrite Y in X.
      - apply DL in X. subst B. reflexivity.
      - rewrite Y. destruct B; [exfalso; apply X, DL; reflexivity|reflexivity]. }
    assert (O : mb d2 = mb d /\ mnb d2 = mnb d /\ mnum d2 = mnum d) by (unfold d2, d1; destruct (peq _ _); destruct (peq _ _); auto). destruct O as (O2 & O3 & O4).
    assert (IN1 : forall a, In a C1 -> In a (A ++ old :: B)) by (intros a Ha; apply IC, in_or_app; auto).
    rewrite set_entry_ok. 2:{ intros a Ha. unfold alive. rewrite K3. apply last_opt_in in Ha. destruct (rep_alive _ _ _ _ a R (IN1 a Ha)) as (x & -> & _). reflexivity. }
    cbn [obind fst snd]. unfold free, alive. cbn [hk]. rewrite K3, Eo. cbn [obind hfresh hc hp hn].
    destruct (NoDup_app_remove _ _ _ ND) as [ND' NIo].
    assert (EA' : map (upd (hk h) old None) A = map Some la). { rewrite <- EA. apply map_ext_in. intros q Hq. apply upd_neq. intros ->. apply NIo, in_or_app; auto. }
    assert (EB' : map (upd (hk h) old None) B = map Some lb). { rewrite <- EB. apply map_ext_in. intros q Hq. apply upd_neq. intros ->. apply NIo, in_or_app; auto. }
    assert (Ep' : upd (hk h) old None p = Some kv) by (rewrite upd_neq by auto; exact Ep).
    eexists _, _. split; [reflexivity|]. split; [|split; [|split; [exact Ep'|split; [exact F3|split; [exact EA'|exact EB']]]]].
    - assert (CC := rep_ch _ _ _ _ R). destruct R. constructor; cbn [mnb hk hfresh hn hp hc mfirst mlast mb mnum].
      + congruence.
      + apply NoDup_Add with (a := p) (l := A ++ B); [apply Add_app|]. split; [exact ND'|]. intros X. apply NI. apply in_app_or in X. apply in_or_app. cbn. tauto.
      + rewrite !map_app. cbn [map]. f_equal; [exact EA'|f_equal; [exact Ep'|exact EB']].
      + rewrite map_app in *. cbn [map] in *. rewrite Ek. exact r_keys0.
      + intros q Hq. rewrite F3. apply in_app_or in Hq. destruct Hq as [Hq|[<-|Hq]]; [apply r_lt0, in_or_app; auto|exact Lp|apply r_lt0, in_or_app; cbn; auto].
      + rewrite FD. eapply path_frame; [intros q _; symmetry; apply HN3|]. apply path_replace with (old := old); assumption.
      + rewrite LD. eapply path_frame; [intros q _; symmetry; apply HP3|]. rewrite rev_mid in *. apply NoDup_rev in ND. rewrite rev_mid in ND.
        assert (NI' : ~ In p (rev B ++ old :: rev A)) by (rewrite <- rev_mid; intros X; apply in_rev in X; auto).
        assert (X := path_replace _ _ _ _ _ p ND NI' PP). rewrite last_opt_rev in X. change (hd_error (rev A)) with (last_opt A) in X.
        replace (match B with [] => Some p | _ => mlast d end) with (match rev B with [] => Some p | _ => mlast d end); [exact X|]. destruct B; [reflexivity|]. cbn. destruct (rev B); reflexivity.
      + rewrite O2, O3. assert (KM : kmod (hk h) (mnb d) p i). { unfold kmod. rewrite Ep, Ek. assert (X : In old (C1 ++ old :: C2)) by (apply in_or_app; cbn; auto). apply IC in X. unfold mods in X. rewrite Eo in X. tauto. }
        assert (X := ch_replace (hc h) (mb d) (hk h) (mnb d) (fun q => In q (A ++ old :: B)) old p i C1 C2 CC PC NC IC NI KM).
        eapply (ch_ext _ _ (hk h)). 3:{ eapply ch_fext; [|exact X]. intros q. destruct (last_opt C1) as [a|]; cbn; [unfold upd at 1 3; destruct (Nat.eqb q a); [reflexivity|]|]; symmetry; apply HC3. }
        * intros q. rewrite !in_app_iff. cbn. split; [intros [[[Y|[Y|Y]] Z]|Y]; auto; congruence|]. intros [Y|[Y|Y]]; auto; left; (split; [tauto|]); intros ->; apply NIo, in_or_app; auto.
        * intros q Hq. symmetry. apply upd_neq. destruct Hq as [[_ Hq]| ->]; [exact Hq|auto].
      + rewrite O4, r_num0. rewrite !app_length. reflexivity.
    - split; [cbn [hfresh]; lia|]. intros q Hq _. cbn [hk hc hp hn]. assert (Q1 : q <> p) by (intros ->; apply Hq; left; reflexivity). assert (Q2 : q <> old) by (intros ->; apply Hq; right; apply in_or_app; cbn; auto).
      rewrite upd_neq by exact Q2. split; [reflexivity|]. split; [|split].
      + destruct (last_opt C1) as [a|] eqn:EC; cbn; [rewrite upd_neq|]; rewrite ?HC3; try (apply upd_neq; exact Q1). intros ->. apply Hq. right. apply IN1, last_opt_in, EC.
      + rewrite HP3. destruct (hd_error B) as [b|] eqn:EB2; cbn; [rewrite upd_neq|]; try (apply upd_neq; exact Q1). intros ->. apply Hq. right. apply hd_in in EB2. apply in_or_app. cbn. auto.
      + rewrite HN3. destruct (last_opt A) as [a|] eqn:EA2; cbn; [rewrite upd_neq|]; try (apply upd_neq; exact Q1). intros ->. apply Hq. right. apply last_opt_in in EA2. apply in_or_app. auto.
  Qed.
  (** Clearing the pointers of a record that belongs to no map. *)
  Lemma reset_ok h p kv : hk h p = Some kv -> exists h', (h1 <- set_child h p None ;; h2 <- set_prev h1 p None ;; set_next h2 p None) = Some h' /\ frame h h' [p] /\
    hk h' = hk h /\ hfresh h' = hfresh h /\ hc h' p = None /\ hp h' p = None /\ hn h' p = None.
  Proof.
    intros E. unfold set_child. rewrite (alive_some _ _ _ E). cbn [obind]. unfold set_prev, alive. cbn [hk]. rewrite E. cbn [obind]. unfold set_next, alive. cbn [hk]. rewrite E.
    eexists. split; [reflexivity|]. cbn [hk hc hp hn hfresh]. rewrite !upd_eq. split; [|auto]. split; [cbn; lia|]. intros q Hq _. cbn. rewrite !upd_neq; auto; intros ->; apply Hq; left; reflexivity.
  Qed.
  Definition disjoint (L L' : list ptr) : Prop := forall p, In p L -> ~ In p L'.
  Lemma migrate_ok h m d L L2 l l2 key md : rep h m L l -> rep h d L2 l2 -> disjoint L L2 ->
    exists h' m' d' L' L2', lm_migrate keq hash h m d key md = Some (s_find key l, h', m', d') /\
      rep h' m' L' (s_del key l) /\
      rep h' d' L2' (match s_find key l with None => l2 | Some kv => match s_find key l2 with Some _ => s_move md kv l2 | None => linked md l2 kv end end) /\
      disjoint L' L2' /\ hfresh h' = hfresh h /\ frame h h' (L ++ L2) /\ (forall q, In q (L' ++ L2') -> In q (L ++ L2)).
  Proof.
    intros R RD DJ. destruct (lookup_ok h m L l key R) as (i & C & Eb & Ei & PC & NC & IC & [[W N]|(C1 & p & C2 & kv & EC & E & Ek & Hp & W)]).
    - unfold lm_migrate. rewrite Eb. cbn [obind]. rewrite W. cbn [obind fst]. rewrite s_find_none, s_del_none by exact N. exists h, m, d, L, L2.
      split; [reflexivity|]. split; [exact R|]. split; [exact RD|]. split; [exact DJ|]. split; [reflexivity|]. split; [apply frame_refl|auto].
    - unfold lm_migrate. rewrite Eb. cbn [obind]. rewrite W. cbn [obind fst snd].
      assert (Lp := r_lt _ _ _ _ R p Hp).
      destruct (rep_split _ _ _ _ _ _ R Hp E) as (A & B & la & lb & -> & -> & EA & EB & NK). subst C. destruct (s_split la lb kv NK (snd kv) md) as (S1 & S2 & _). rewrite Ek in S1, S2. rewrite S1, S2.
      destruct (unlink_ok h m A p B la lb kv i C1 C2 R E EA EB PC NC IC) as (h1 & m1 & EU & R1 & F1 & Ek1 & Ef1). rewrite EU. cbn [obind fst snd].
      destruct (NoDup_app_remove _ _ _ (r_nd _ _ _ _ R)) as [ND' NI].
      assert (NP2 : ~ In p L2) by (apply DJ, Hp).
      assert (DJ1 : disjoint (A ++ B) L2). { intros q Hq. apply DJ. apply in_app_or in Hq. apply in_or_app. cbn. tauto. }
      assert (RD1 : rep h1 d L2 l2). { eapply rep_frame; [exact RD|exact F1|]. intros q Hq X. apply (DJ1 q X Hq). }
      destruct (reset_ok h1 p kv ltac:(rewrite Ek1; exact E)) as (h3 & ER & F3 & Ek3 & Ef3 & Zc & Zp & Zn).
      destruct (set_child h1 p None) as [h1'|]; [|discriminate]. cbn [obind] in *. destruct (set_prev h1' p None) as [h2'|]; [|discriminate]. cbn [obind] in *. rewrite ER. cbn [obind].
      assert (R3 : rep h3 m1 (A ++ B) (la ++ lb)). { eapply rep_frame; [exact R1|exact F3|]. intros q Hq [<-|[]]. auto. }
      assert (RD3 : rep h3 d L2 l2). { eapply rep_frame; [exact RD1|exact F3|]. intros q Hq [<-|[]]. auto. }
      assert (Ekp : hk h3 p = Some kv) by (rewrite Ek3, Ek1; exact E). clear ER h1' h2'.
      assert (FR3 : frame h h3 ((A ++ B) ++ [p])) by (eapply frame_trans; eauto).
      destruct (lookup_ok h3 d L2 l2 key RD3) as (j & C' & Eb' & Ej & PC' & NC' & IC' & [[W' N']|(D1 & old & D2 & kvo & EC' & Eo & Eko & Ho & W')]).
      + rewrite Eb'. cbn [obind]. rewrite W'. cbn [obind fst snd]. rewrite s_find_none by exact N'.
        destruct (link_ok md h3 d L2 p (rep_dll _ _ _ _ RD3) NP2 (alive_some _ _ _ Ekp) Zn Zp) as (h4 & d4 & EL & D & (Gk & Gc & Gf & Gb & Gnb & Gn) & DF). rewrite EL. cbn [obind fst snd].
        rewrite set_entry_ok. 2:{ intros a Ha. unfold alive. rewrite Gk. apply last_opt_in in Ha. apply IC' in Ha. destruct (rep_alive _ _ _ _ a RD3 (proj1 Ha)) as (x & -> & _). reflexivity. }
        cbn [obind fst snd]. unfold get_kv. cbn [hk]. rewrite Gk, Ekp. cbn [obind].
        set (h5 := mkH (hk h3) (upd_if (hc h4) (last_opt C') (Some p)) (hp h4) (hn h4) (hfresh h4)).
        assert (F5 : frame h3 h5 (p :: L2)).
        { split; [cbn; lia|]. intros q Hq _. cbn [h5 hk hc hp hn]. split; [reflexivity|]. destruct (DF q Hq) as [-> ->]. split; [|auto]. rewrite Gc. eapply upd_if_out; [|exact Hq]. intros a Ha. right. apply last_opt_in in Ha. apply IC' in Ha. tauto. }
        exists h5. eexists _, _, (A ++ B), (linked md L2 p). split; [reflexivity|]. split; [|split; [|split; [|split; [|split]]]].
        * eapply rep_frame; [exact R3|exact F5|]. intros q Hq [<-|X]; [auto|apply (DJ1 q Hq X)].
        * destruct D as (ND & AL & PN & PP). assert (CC := rep_ch _ _ _ _ RD3). destruct RD3. constructor; cbn [h5 mnb hk hfresh hn hp hc mfirst mlast mb mnum with_num].
          -- congruence.
          -- exact ND.
          -- rewrite !linked_map. f_equal; [exact r_kv0|exact Ekp].
          -- rewrite linked_map. eapply Permutation_NoDup; [apply linked_perm|]. constructor; [rewrite Ek|]; assumption.
          -- intros q Hq. rewrite Gf. apply (Permutation_in _ (Permutation_sym (linked_perm _ md L2 p))) in Hq. destruct Hq as [<-|Hq]; [lia|apply r_lt0, Hq].
          -- exact PN.
          -- exact PP.
          -- rewrite Gc, Gb, Gnb. assert (X := ch_append (hc h3) (mb d) (hk h3) (mnb d) (fun q => In q L2) p j C' CC PC' NC' IC' NP2 Zc ltac:(unfold kmod; rewrite Ekp, Ek; symmetry; exact Ej)).
             eapply (ch_ext _ _ _ (hk h3)); [| |exact X]; [|reflexivity].
             intros q. split; [intros Y; eapply Permutation_in; [apply linked_perm|]; cbn; destruct Y; auto|]. intros Y. apply (Permutation_in _ (Permutation_sym (linked_perm _ md L2 p))) in Y. cbn in Y. destruct Y; auto.
          -- rewrite Gn, r_num0, <- (Permutation_length (linked_perm _ md L2 p)). cbn [length]. lia.
        * intros q Hq X. apply (Permutation_in _ (Permutation_sym (linked_perm _ md L2 p))) in X. destruct X as [<-|X]; [auto|apply (DJ1 q Hq X)].
        * cbn [h5 hfresh]. congruence.
        * destruct (frame_trans _ _ _ _ _ FR3 F5 ltac:(congruence)) as [X1 X2]. split; [exact X1|]. intros q Hq. apply X2. intros Y. apply Hq. rewrite !in_app_iff in *. cbn in *. tauto.
        * intros q Hq. apply in_app_or in Hq. destruct Hq as [Hq|Hq].
          -- rewrite !in_app_iff in *. cbn. tauto.
          -- apply (Permutation_in _ (Permutation_sym (linked_perm _ md L2 p))) in Hq. rewrite !in_app_iff. cbn in *. tauto.
      + rewrite Eb'. cbn [obind]. rewrite W'. cbn [obind fst snd]. subst C'.
        destruct (rep_split _ _ _ _ _ _ RD3 Ho Eo) as (A2 & B2 & la2 & lb2 & -> & -> & EA2 & EB2 & NK2). destruct (s_split la2 lb2 kvo NK2 (snd kv) md) as (T1 & _ & T3). rewrite Eko in T1, T3. rewrite <- Ek, <- surjective_pairing in T3. rewrite T1, T3.
        destruct (replace_rec_ok h3 d A2 old B2 la2 lb2 kvo kv j D1 D2 p RD3 Eo Ekp ltac:(congruence) EA2 EB2 NP2 ltac:(lia) Zc Zp Zn PC' NC' IC') as (h4 & d4 & ERR & R4 & F4 & Ek4 & Ef4 & EA4 & EB4).
        rewrite ERR. cbn [obind fst snd]. destruct (move_ok md h4 d4 A2 p B2 (rep_dll _ _ _ _ R4)) as (h5 & d5 & EM & D5 & SR5 & DF5). rewrite EM. cbn [obind fst snd]. unfold get_kv.
        assert (Ek5 : hk h5 p = Some kv) by (destruct SR5 as (-> & _); exact Ek4). rewrite Ek5. cbn [obind].
        assert (F5 : frame h3 h5 ((p :: A2 ++ old :: B2) ++ (A2 ++ p :: B2))) by (eapply frame_trans; [exact F4|eapply fr_of; eauto|exact Ef4]).
        exists h5, m1, d5, (A ++ B), (placed md A2 p B2). split; [reflexivity|]. split; [|split; [|split; [|split; [|split]]]].
        * eapply rep_frame; [exact R3|exact F5|]. intros q Hq X. assert (X2 := DJ1 q Hq). rewrite ?in_app_iff in X, X2. cbn in X, X2. rewrite ?in_app_iff in X. cbn in X.
          assert (q <> p) by (intros ->; auto). intuition congruence.
        * eapply rep_perm; eauto using placed_perm. rewrite !placed_map. destruct SR5 as (-> & _). rewrite Ek4, EA4, EB4. reflexivity.
        * intros q Hq X. apply (Permutation_in _ (Permutation_sym (placed_perm _ md A2 p B2))) in X. assert (X2 := DJ1 q Hq). assert (q <> p) by (intros ->; auto).
          rewrite in_app_iff in X, X2. cbn in X, X2. intuition congruence.
        * destruct SR5 as (_ & _ & -> & _). congruence.
        * destruct (frame_trans _ _ _ _ _ FR3 F5 ltac:(congruence)) as [X1 X2]. split; [exact X1|]. intros q Hq. apply X2. intros Y. apply Hq. rewrite ?in_app_iff in *. cbn in *. rewrite ?in_app_iff in *. cbn in *. tauto.
        * intros q Hq. apply in_app_or in Hq. destruct Hq as [Hq|Hq].
          -- rewrite !in_app_iff in *. cbn. tauto.
          -- apply (Permutation_in _ (Permutation_sym (placed_perm _ md A2 p B2))) in Hq. rewrite !in_app_iff in *. cbn in *. tauto.
  Qed.

  (** * Iteration, clear, rehash, construction *)
  Lemma iterate_ok h fuel : forall L l x, path (hn h) x L None -> map (hk h) L = map Some l -> (length L < fuel)%nat -> iterate fuel h x = Some l.
  Proof.
    induction fuel as [|fu IH]; intros L l x P E Hf; [lia|]. destruct L as [|p L], l as [|kv l]; try discriminate; cbn [path] in P.
    - subst x. reflexivity.
    - destruct P as [-> P]. cbn [map] in E. injection E as E1 E2. cbn [iterate]. unfold get_kv, get_next. rewrite E1, (alive_some _ _ _ E1). cbn [obind]. rewrite (IH L l (hn h p) P E2) by (cbn in Hf; lia). reflexivity.
  Qed.
  Lemma iterate_back_ok h fuel : forall L l x, path (hp h) x L None -> map (hk h) L = map Some l -> (length L < fuel)%nat -> iterate_back fuel h x = Some l.
  Proof.
    induction fuel as [|fu IH]; intros L l x P E Hf; [lia|]. destruct L as [|p L], l as [|kv l]; try discriminate; cbn [path] in P.
    - subst x. reflexivity.
    - destruct P as [-> P]. cbn [map] in E. injection E as E1 E2. cbn [iterate_back]. unfold get_kv, get_prev. rewrite E1, (alive_some _ _ _ E1). cbn [obind]. rewrite (IH L l (hp h p) P E2) by (cbn in Hf; lia). reflexivity.
  Qed.
  Lemma rep_len h m L l : rep h m L l -> (length L <= hfresh h)%nat.
  Proof. intros R. apply nodup_lt; apply R. Qed.
  Lemma items_ok h m L l : rep h m L l -> lm_items h m = Some l /\ lm_items_back h m = Some (rev l) /\ lm_size m = N.of_nat (length l) /\ lm_front h m = hd_error l /\ lm_back h m = hd_error (rev l) /\ forall key, lm_find keq hash h m key = Some (s_find key l).
  Proof.
    intros R. assert (X := rep_len _ _ _ _ R). assert (LL : length L = length l) by (assert (Y := f_equal (@length _) (r_kv _ _ _ _ R)); rewrite !map_length in Y; exact Y).
    assert (RV : map (hk h) (rev L) = map Some (rev l)) by (rewrite !map_rev, (r_kv _ _ _ _ R); reflexivity).
    split; [|split; [|split; [|split; [|split]]]].
    - eapply iterate_ok; [apply R|apply R|lia].
    - eapply iterate_back_ok; [apply R|exact RV|rewrite rev_length; lia].
    - unfold lm_size. rewrite (r_num _ _ _ _ R), LL. reflexivity.
    - unfold lm_front. rewrite (path_hd _ _ _ (r_next _ _ _ _ R)). assert (Y := r_kv _ _ _ _ R). destruct L, l; try discriminate; [reflexivity|]. injection Y as Y _. exact Y.
    - unfold lm_back. rewrite (path_hd _ _ _ (r_prev _ _ _ _ R)). destruct (rev L), (rev l); try discriminate; [reflexivity|]. injection RV as Y _. exact Y.
    - intros key. destruct (get_ok h m L l key MOVE_CURRENT R) as (h' & m' & L' & E & _). unfold lm_find. unfold lm_get in E.
      destruct (bucket_of hash m key) as [i|]; [|discriminate]. cbn [obind] in *. destruct (lm_walk keq h m i key) as [[[p|] e]|]; [| |discriminate]; cbn [obind fst snd move] in *; [|congruence].
      destruct (get_kv h p); [|discriminate]. cbn [obind] in *. congruence.
  Qed.
  Lemma new_ok h nb : rep h (lm_new nb) [] [].
  Proof.
    constructor; cbn; auto; try (constructor; fail); try (intros p []).
    - destruct (N.ltb_spec nb 1); lia.
    - intros i. exists []. split; [reflexivity|]. split; [constructor|]. intros p. split; [intros []|tauto].
  Qed.
  Lemma free_all_ok fuel : forall h L x, NoDup L -> path (hp h) x L None -> (forall p, In p L -> alive h p = true) -> (length L < fuel)%nat ->
    exists h', free_all fuel h x = Some h' /\ frame h h' L /\ hfresh h' = hfresh h.
  Proof.
    induction fuel as [|fu IH]; intros h L x ND P AL Hf; [lia|]. destruct L as [|p L]; cbn [path] in P.
    - subst x. exists h. split; [reflexivity|]. split; [apply frame_refl|reflexivity].
    - destruct P as [-> P]. inversion ND as [|? ? N1 N2]; subst. cbn [free_all]. unfold get_prev, free. rewrite (AL p (or_introl eq_refl)). cbn [obind].
      set (h1 := mkH (upd (hk h) p None) (hc h) (hp h) (hn h) (hfresh h)).
      destruct (IH h1 L (hp h p) N2 P) as (h' & E & F & Ef).
      + intros q Hq. unfold alive. cbn [h1 hk]. rewrite upd_neq; [apply (AL q); right; exact Hq|]. intros ->; auto.
      + cbn in Hf. lia.
      + exists h'. split; [exact E|]. split; [|exact Ef]. destruct F as [G1 G2]. split; [exact G1|]. intros q Hq Hf'. destruct (G2 q ltac:(intros X; apply Hq; right; exact X) Hf') as (-> & -> & -> & ->). cbn [h1 hk hc hp hn].
        rewrite upd_neq; [auto|]. intros ->. apply Hq. left. reflexivity.
  Qed.
  Lemma clear_ok h m L l : rep h m L l -> exists h' m', lm_clear h m = Some (h', m') /\ rep h' m' [] [] /\ frame h h' L /\ mnb m' = mnb m /\ hfresh h' = hfresh h.
  Proof.
    intros R. unfold lm_clear. destruct (N.ltb_spec (mnum m) 1) as [X|X].
    - rewrite (r_num _ _ _ _ R) in X. destruct L as [|p L]; [|cbn in X; lia]. exists h, m. split; [reflexivity|]. assert (E := r_kv _ _ _ _ R). destruct l; [|discriminate]. split; [exact R|]. split; [apply frame_refl|auto].
    - assert (Y := rep_len _ _ _ _ R). destruct (free_all_ok (S (hfresh h)) h (rev L) (mlast m) (NoDup_rev (r_nd _ _ _ _ R)) (r_prev _ _ _ _ R)) as (h' & E & F & Ef).
      + intros p Hp. eapply rep_alive'; [exact R|]. apply in_rev, Hp.
      + rewrite rev_length. lia.
      + rewrite E. cbn [obind]. eexists _, _. split; [reflexivity|]. split; [|split; [|auto]].
        * constructor; cbn; auto; try (constructor; fail); try (intros p []); [apply R|].
          intros i. exists []. split; [reflexivity|]. split; [constructor|]. intros p. split; [intros []|tauto].
        * destruct F as [F1 F2]. split; [exact F1|]. intros q Hq. apply F2. intros X2. apply Hq, in_rev, X2.
  Qed.
  Lemma relink_ok nb fuel : nb <> 0 -> forall done todo h m x, NoDup (done ++ todo) -> mnb m = nb -> path (hn h) x todo None -> (forall p, In p todo -> exists kv, hk h p = Some kv) ->
    CH (hc h) (mb m) (hk h) nb (fun p => In p done) -> (length todo < fuel)%nat ->
    exists h' m', relink hash fuel h m x = Some (h', m') /\ hk h' = hk h /\ hn h' = hn h /\ hp h' = hp h /\ hfresh h' = hfresh h /\ mfirst m' = mfirst m /\ mlast m' = mlast m /\ mnum m' = mnum m /\ mnb m' = nb /\
      CH (hc h') (mb m') (hk h) nb (fun p => In p (done ++ todo)) /\ (forall q, ~ In q todo -> hc h' q = hc h q).
  Proof.
    intros NB. induction fuel as [|fu IH]; intros done todo h m x ND Em P AL CC Hf; [lia|]. destruct todo as [|p todo]; cbn [path] in P.
    - subst x. exists h, m. rewrite app_nil_r. repeat split; auto.
    - destruct P as [-> P]. destruct (AL p (or_introl eq_refl)) as [kv E]. cbn [relink]. unfold get_kv. rewrite E. cbn [obind]. unfold bucket_of. rewrite Em. destruct (N.eqb_spec nb 0) as [X|_]; [contradiction|]. cbn [obind].
      unfold set_child. rewrite (alive_some _ _ _ E). cbn [obind]. unfold get_next, alive. cbn [hk hn]. rewrite E. cbn [obind].
      set (i := hash (fst kv) mod nb). set (h1 := mkH (hk h) (upd (hc h) p (mb m i)) (hp h) (hn h) (hfresh h)).
      assert (ND1 : NoDup ((done ++ [p]) ++ todo)) by (rewrite <- app_assoc; exact ND). assert (NI : ~ In p (done ++ todo)) by (apply NoDup_remove_2 in ND; exact ND).
      destruct (IH (done ++ [p]) todo h1 (with_bucket m i (Some p)) (hn h p) ND1 Em P) as (h' & m' & E' & X1 & X2 & X3 & X4 & X5 & X6 & X7 & X8 & X9 & X10).
      + intros q Hq. apply AL. right. exact Hq.
      + cbn [h1 hc hk mb with_bucket]. eapply (ch_ext _ _ (hk h) (hk h)); [|reflexivity|apply (ch_push (hc h) (mb m) (hk h) nb (fun q => In q done) p i CC)].
        * intros q. rewrite in_app_iff. cbn. split; [intros [Y|Y]; auto|intros [Y|[Y|[]]]; auto].
        * intros Y. apply NI, in_or_app; auto.
        * unfold kmod. rewrite E. reflexivity.
      + cbn in Hf. lia.
      + exists h', m'. split; [exact E'|]. cbn [h1 hk hn hp hfresh hc with_bucket mfirst mlast mnum] in *. repeat split; auto.
        * rewrite <- app_assoc in X9. exact X9.
        * intros q Hq. rewrite X10 by (intros Y; apply Hq; right; exact Y). apply upd_neq. intros ->. apply Hq. left. reflexivity.
  Qed.
  Lemma rehash_ok h m L l nb : nb <> 0 -> rep h m L l -> exists h' m', lm_rehash hash h m nb = Some (h', m') /\ rep h' m' L l /\ frame h h' L /\ mnb m' = nb /\ hfresh h' = hfresh h.
  Proof.
    intros NB R. assert (Y := rep_len _ _ _ _ R). unfold lm_rehash.
    destruct (relink_ok nb (S (hfresh h)) NB [] L h (mkM (fun _ => None) nb (mfirst m) (mlast m) (mnum m)) (mfirst m)) as (h' & m' & E & X1 & X2 & X3 & X4 & X5 & X6 & X7 & X8 & X9 & X10); try apply R; try lia; auto.
    - intros p Hp. destruct (rep_alive _ _ _ _ _ R Hp) as (kv & E & _). eauto.
    - intros i. exists []. split; [reflexivity|]. split; [constructor|]. intros p. split; [intros []|tauto].
    - exists h', m'. split; [exact E|]. cbn [mfirst mlast mnum] in *. split; [|split; [|auto]].
      + destruct R. constructor; auto.
        * congruence.
        * rewrite X1. exact r_kv0.
        * rewrite X4. exact r_lt0.
        * rewrite X2, X5. exact r_next0.
        * rewrite X3, X6. exact r_prev0.
        * intros i. destruct (X9 i) as (C & P & N & I). exists C. unfold mods. rewrite X1, X8. auto.
        * congruence.
      + split; [lia|]. intros q Hq _. rewrite X1, X2, X3, X10 by exact Hq. auto.
  Qed.
End Linked.
