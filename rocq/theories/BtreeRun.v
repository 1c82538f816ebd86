(** The calls on the B+ tree, against an ordered map. *)
From Coq Require Import List NArith ZArith Bool Lia Arith Permutation Sorting.Sorted.
Import ListNotations.
From Verif Require Import Bytes DbmModel StatusModel OmapSpec BtreeModel BtreeTree BtreeSort BtreeUp BtreeInv BtreeMerge BtreeOps.

(** A result: undefined behaviour of the two kinds that occur, or a value with [P]. *)
Definition givesx (strict : bool) {A} (r : res A) (P : A -> Prop) : Prop := match r with Ok a => P a | Ub e => (e = EmptyFront /\ strict = true) \/ e = DeepTree end.
(** A result without undefined behaviour. *)
Definition sure {A} (r : res A) (P : A -> Prop) : Prop := match r with Ok a => P a | Ub _ => False end.
Lemma gives_bind : forall {sb : bool} {A B} (r : res A) (f : A -> res B) P Q, givesx sb r P -> (forall a, P a -> givesx sb (f a) Q) -> givesx sb (bind r f) Q.
Proof. intros sb A B [a|e] f P Q H H2; cbn in *; auto. Qed.
Lemma sure_bind : forall {A B} (r : res A) (f : A -> res B) P Q, sure r P -> (forall a, P a -> sure (f a) Q) -> sure (bind r f) Q.
Proof. intros A B [a|e] f P Q H H2; cbn in *; auto. Qed.
Lemma sure_gives_bind : forall {sb : bool} {A B} (r : res A) (f : A -> res B) P Q, sure r P -> (forall a, P a -> givesx sb (f a) Q) -> givesx sb (bind r f) Q.
Proof. intros sb A B [a|e] f P Q H H2; cbn in *; [auto|destruct H]. Qed.
Lemma sure_gives : forall {sb : bool} {A} (r : res A) P, sure r P -> givesx sb r P.
Proof. intros sb A [a|e] P H; cbn in *; [auto|destruct H]. Qed.
Lemma gives_impl : forall {sb : bool} {A} (r : res A) (P Q : A -> Prop), (forall a, P a -> Q a) -> givesx sb r P -> givesx sb r Q.
Proof. intros sb A [a|e] P Q H H2; cbn in *; auto. Qed.
Lemma sure_impl : forall {A} (r : res A) (P Q : A -> Prop), (forall a, P a -> Q a) -> sure r P -> sure r Q.
Proof. intros A [a|e] P Q H H2; cbn in *; auto. Qed.

Lemma find_app : forall {A} (f : A -> bool) a b, find f (a ++ b) = match find f a with Some x => Some x | None => find f b end.
Proof. intros A f a b. induction a as [|x a IH]; cbn; auto. destruct (f x); auto. Qed.
Lemma find_none_all : forall {A} (f : A -> bool) a, Forall (fun x => f x = false) a -> find f a = None.
Proof. intros A f a H. induction H as [|x a H1 H IH]; cbn; auto. now rewrite H1. Qed.
Lemma find_all : forall {A} (f : A -> bool) a, Forall (fun x => f x = true) a -> find f a = hd_error a.
Proof. intros A f a H. destruct H as [|x a H1 H]; cbn; auto. now rewrite H1. Qed.
Lemma hd_app : forall {A} (a b : list A), hd_error (a ++ b) = match hd_error a with Some x => Some x | None => hd_error b end.
Proof. intros A [|x a] b; auto. Qed.

Section Run.
  Variable cmp : bytes -> bytes -> comparison.
  Hypothesis cmp_opp : forall a b, cmp b a = CompOpp (cmp a b).
  Hypothesis cmp_le_trans : forall a b c, cmp a b <> Gt -> cmp b c <> Gt -> cmp a c <> Gt.
  Notation klt := (klt cmp). Notation kle := (kle cmp). Notation ss := (ss cmp). Notation routes := (routes cmp). Notation routes_at := (routes_at cmp).
  Notation inv := (inv cmp).
  Variables divp mrgp : list rec -> bool.
  Variable weight : list rec -> N.
  Variable how : leafcf.
  Notation gives := (givesx (h_strict how)).
  Variables max_branches level_max : nat.
  Variable choose : list (id * bytes) -> nat.
  Hypothesis divp_two : forall rs, divp rs = true -> 2 <= length rs.
  Notation reorganize := (reorganize cmp divp mrgp weight max_branches level_max choose).
  Notation b_impl := (b_impl cmp divp mrgp how).
  Notation b_search := (b_search cmp).
  Notation b_process := (b_process cmp divp mrgp weight how max_branches level_max choose).

  Definition kept (s s' : bdb) : Prop := forall j, it_key (b_its s' j) = it_key (b_its s j).
  Lemma kept_refl : forall s, kept s s. Proof. intros s j; auto. Qed.
  Lemma kept_trans : forall a b c, kept a b -> kept b c -> kept a c. Proof. intros a b c H H2 j. now rewrite H2. Qed.
  Lemma tied_kept : forall s s', tied s s' -> kept s s'. Proof. intros s s' [H _] j. now rewrite H. Qed.
  (** The state stands for the records [L]; the iterators are at the same keys as in [s]. *)
  Definition stands (s : bdb) (L : omap) : Prop := exists E, inv s [] E /\ recs E = L.
  Definition goes (s s' : bdb) (L : omap) : Prop := stands s' L /\ kept s s'.

  Lemma reorganize_goes : forall s L, stands s L -> gives (reorganize s) (fun s' => goes s s' L).
  Proof.
    intros s L (E & H & HL). destruct (reorganize_ok cmp cmp_opp cmp_le_trans divp mrgp weight max_branches level_max choose divp_two s E H) as [R|(s' & E' & R & R1 & R2 & R3 & R4)]; rewrite R; cbn; auto.
    split; auto. exists E'. split; auto. congruence.
  Qed.
  Lemma reorg_if : forall (b : bool) s L, stands s L -> gives (if b then reorganize s else Ok s) (fun s' => goes s s' L /\ (b = false -> s' = s)).
  Proof. intros [] s L H. - eapply gives_impl; [|apply reorganize_goes; exact H]. cbn. intros a Ha. split; auto. discriminate. - cbn. repeat split; auto. Qed.

  (** ProcessImpl on the leaf of the key. *)
  Lemma impl_goes : forall S s E x key (pr : proc S) w st, inv s [] E -> routes E key x ->
    gives (b_impl s x key pr w st) (fun '(s', st') => exists E', inv s' [] E' /\ (forall k y, routes E k y -> routes E' k y) /\ map eid E' = map eid E /\ tied s s' /\
       recs E' = fst (o_process cmp (recs E) key pr w st) /\ st' = snd (o_process cmp (recs E) key pr w st) /\ (w = false -> s' = s) /\
       (forall A lo rs B, E = A ++ (lo, x, rs) :: B -> exists rs', E' = A ++ (lo, x, rs') :: B)).
  Proof.
    intros S s E x key pr w st H (A & lo & rs & B & EE & R). rewrite EE in H. pose proof (inv_nodup _ _ _ _ H) as N.
    destruct (b_impl_ok cmp cmp_opp cmp_le_trans divp mrgp weight how divp_two S s [] A lo x rs B key pr w st H R) as [(_ & _ & _ & Rs & R1)|(s' & rs' & R1 & R2 & R3 & R4 & R5)]; rewrite R1; cbn; auto.
    exists (A ++ (lo, x, rs') :: B). rewrite EE. split; auto. split; [intros k y; apply shape_routes|]. split; [rewrite !map_app; reflexivity|]. do 4 (split; auto).
    intros A0 lo0 rs0 B0 E0. destruct (nodup_split _ _ _ _ _ _ _ _ _ _ N eq_refl E0) as (<- & <- & <- & <-). eauto.
  Qed.
  Lemma impl_sure : forall S s E x key (pr : proc S) st, inv s [] E -> routes E key x -> b_impl s x key pr false st = Ok (s, snd (o_process cmp (recs E) key pr false st)).
  Proof.
    intros S s E x key pr st H (A & lo & rs & B & EE & R). rewrite EE in H |- *.
    destruct (b_impl_ok cmp cmp_opp cmp_le_trans divp mrgp weight how divp_two S s [] A lo x rs B key pr false st H R) as [(_ & _ & W & _)|(s' & rs' & R1 & R2 & R3 & R4 & R5)]; [discriminate|]. rewrite R1, R5; auto.
  Qed.
  Lemma search_sure : forall s E key, inv s [] E -> sure (b_search s key) (fun x => routes E key x).
  Proof. intros s E key H. destruct (inv_search cmp cmp_opp cmp_le_trans _ _ _ key H) as (A & lo & x & rs & B & R & EE & R1). rewrite R. cbn. exists A, lo, rs, B. auto. Qed.

  (** * Process, Append, ProcessMulti *)
  Lemma process_goes : forall S s L key (pr : proc S) w st, stands s L ->
    gives (b_process s key pr w st) (fun '(s', st') => goes s s' (fst (o_process cmp L key pr w st)) /\ st' = snd (o_process cmp L key pr w st)).
  Proof.
    intros S s L key pr w st H. unfold BtreeModel.b_process. eapply gives_bind; [apply (reorg_if w); exact H|]. intros s1 [[(E & H1 & HL) K] _].
    eapply sure_gives_bind; [apply search_sure; exact H1|]. intros x Hx. eapply gives_impl; [|apply (impl_goes S s1 E); auto]. intros [s' st'] (E' & I' & _ & _ & T & R1 & R2 & _). rewrite HL in *. split; auto.
    split; [exists E'; auto|]. eapply kept_trans; [exact K|now apply tied_kept].
  Qed.
  (** A read never fails and changes nothing. *)
  Lemma process_read : forall S s L key (pr : proc S) st, stands s L -> b_process s key pr false st = Ok (s, snd (o_process cmp L key pr false st)).
  Proof.
    intros S s L key pr st (E & H & <-). unfold BtreeModel.b_process. cbn [bind]. pose proof (search_sure s E key H) as W. destruct (b_search s key) as [x|e]; [|destruct W]. cbn [bind]. apply impl_sure; auto.
  Qed.
  Lemma search_all_sure : forall s E keys, inv s [] E -> sure (search_all cmp s keys) (fun xs => Forall2 (fun k x => routes E k x) keys xs).
  Proof.
    intros s E keys H. induction keys as [|k keys IH]; cbn [search_all]; [constructor|]. eapply sure_bind; [apply search_sure; exact H|]. intros x Hx. eapply sure_bind; [exact IH|]. intros xs Hxs. cbn. constructor; auto.
  Qed.
  Lemma impl_all_goes : forall S (l : list (bytes * proc S)) xs s E w st, inv s [] E -> Forall2 (fun k x => routes E k x) (map fst l) xs ->
    gives (impl_all cmp divp mrgp how s xs l w st) (fun '(s', st') => goes s s' (fst (o_multi cmp (recs E) l w st)) /\ st' = snd (o_multi cmp (recs E) l w st) /\ (w = false -> s' = s)).
  Proof.
    intros S l. induction l as [|[k p] l IH]; intros xs s E w st H F; cbn [map fst] in F; inversion F as [|? x ? xs' F1 F2]; subst; cbn [impl_all].
    - cbn. repeat split; auto. + exists E; auto. 
    - eapply gives_bind; [apply (impl_goes S s E x k p w st); auto|]. intros [s1 st1] (E1 & I1 & Rt & _ & T & R1 & R2 & R3 & _).
      eapply gives_impl; [|apply (IH xs' s1 E1); auto].
      + intros [s' st'] [[G1 G2] [G3 G4]]. cbn [o_multi]. destruct (o_process cmp (recs E) k p w st) as [L1 st1'] eqn:Ep. cbn [fst snd] in R1, R2. rewrite R1 in *. subst st1. split; [split; auto; eapply kept_trans; [apply tied_kept; exact T|exact G2]|]. split; auto. intros W. rewrite G4; auto.
      + clear - F2 Rt. induction F2; constructor; auto.
  Qed.
  Lemma multi_goes : forall S always s L (l : list (bytes * proc S)) w st, stands s L ->
    gives (b_multi cmp divp mrgp weight how max_branches level_max choose always s l w st) (fun '(s', st') => goes s s' (fst (o_multi cmp L l w st)) /\ st' = snd (o_multi cmp L l w st)).
  Proof.
    intros S always s L l w st H. unfold b_multi. eapply gives_bind; [apply (reorg_if (always || w)); exact H|]. intros s1 [[(E & H1 & HL) K] _].
    eapply sure_gives_bind; [apply search_all_sure; exact H1|]. intros xs Hx. eapply gives_impl; [|apply (impl_all_goes S l xs s1 E); auto]. intros [s' st'] [[G1 G2] [G3 _]]. rewrite HL in *. split; auto. split; auto. eapply kept_trans; eauto.
  Qed.

  (** * ProcessFirst *)
  Lemma first_from_goes : forall S (pr : proc S) w st fuel A B s, inv s [] (A ++ B) -> recs A = [] -> length B <= fuel ->
    gives (first_from cmp divp mrgp how fuel s (hdid B None) pr w st) (fun '(c, s', st') =>
      match recs (A ++ B) with
      | [] => c = false /\ s' = s /\ st' = st
      | (k, _) :: _ => c = true /\ goes s s' (fst (o_process cmp (recs (A ++ B)) k pr w st)) /\ st' = snd (o_process cmp (recs (A ++ B)) k pr w st) /\ (w = false -> s' = s)
      end).
  Proof.
    intros S pr w st fuel. induction fuel as [|fu IH]; intros A B s H HA Hf; (destruct B as [|[[lo x] rs] B]; [cbn; rewrite app_nil_r, HA; auto|]); [cbn in Hf; lia|].
    cbn [hdid eid fst snd first_from]. pose proof (inv_chain _ _ _ _ H) as Ch. rewrite (chain_at _ _ _ _ _ _ Ch). cbn [bind]. destruct rs as [|[k v] rs].
    - specialize (IH (A ++ [(lo, x, [])]) B s). rewrite <- app_assoc in IH. cbn [app] in IH. apply IH; auto. + rewrite recs_app, HA. reflexivity. + cbn in Hf. lia.
    - rewrite recs_mid. rewrite HA. cbn [app]. eapply gives_bind; [apply (impl_goes S s _ x k pr w st H)|].
      + exists A, lo, ((k, v) :: rs), B. split; auto. eapply routes_rec; [eapply inv_ss; exact H|left; reflexivity].
      + intros [s' st'] (E' & I' & _ & _ & T & R1 & R2 & R3 & _). cbn. rewrite recs_mid, HA in *. cbn [app] in *. repeat split; auto. * exists E'; auto. * now apply tied_kept.
  Qed.
  Lemma first_goes : forall S baby s L (pr : proc S) w st, stands s L ->
    gives (b_first_of cmp divp mrgp weight how max_branches level_max choose baby s pr w st) (fun '(c, s', st') =>
      match L with
      | [] => c = false /\ goes s s' L /\ st' = st
      | (k, _) :: _ => c = true /\ goes s s' (fst (o_process cmp L k pr (baby || w) st)) /\ st' = snd (o_process cmp L k pr (baby || w) st)
      end).
  Proof.
    intros S baby s L pr w st H. unfold b_first_of. eapply gives_bind; [apply (reorg_if (negb baby && w)); exact H|]. intros s1 [[(E & H1 & HL) K] _].
    pose proof (inv_first _ _ _ _ H1) as Hf. rewrite <- Hf. eapply gives_impl; [|apply (first_from_goes S pr (baby || w) st (b_fresh s1) [] E s1); auto; eapply inv_len; exact H1].
    intros [[c s'] st'] G. cbn [app] in G. rewrite HL in G. destruct L as [|[k v] L]; [destruct G as (-> & -> & ->); repeat split; auto; exists E; auto|]. destruct G as (-> & [G1 G2] & G3 & _). repeat split; auto. eapply kept_trans; eauto.
  Qed.

  (** * ProcessEach *)
  Lemma o_each_app : forall S (p : proc S) w a b st, o_each (a ++ b) p w st = let '(a', s1) := o_each a p w st in let '(b', s2) := o_each b p w s1 in (a' ++ b', s2).
  Proof.
    intros S p w a. induction a as [|[k v] a IH]; intros b st; cbn. - destruct (o_each b p w st); auto.
    - destruct (on_full p k v st) as [ac s1]. rewrite IH. destruct (o_each a p w s1) as [a' s2]. destruct (o_each b p w s2) as [b' s3]. destruct w; auto. destruct ac; auto.
  Qed.
  Lemma o_each_read : forall S (p : proc S) a st, o_each a p false st = (a, show_all a p st).
  Proof. intros S p a. induction a as [|[k v] a IH]; intros st; cbn; auto. destruct (on_full p k v st) as [ac s1]. cbn. rewrite IH. auto. Qed.
  Lemma o_process_at : forall S (p : proc S) P k v Q st, ascending cmp (P ++ (k, v) :: Q) ->
    o_process cmp (P ++ (k, v) :: Q) k p true st = (P ++ fst (o_each [(k, v)] p true st) ++ Q, snd (o_each [(k, v)] p true st)).
  Proof.
    intros S p P k v Q st H. assert (FP : Forall (fun r : bytes * bytes => cmp (fst r) k = Lt) P).
    { apply Forall_forall. intros r Hr. apply SS_app in H. destruct H as (_ & _ & H). apply (H r (k, v)); cbn; auto. }
    assert (Ek : cmp k k = Eq). { pose proof (cmp_opp k k) as W. destruct (cmp k k); cbn in W; congruence. }
    unfold o_process, o_call. rewrite o_find_app by auto. cbn [o_find]. rewrite Ek. cbn. destruct (on_full p k v st) as [a s1]. cbn. f_equal. destruct a as [| |v1]; cbn [o_act].
    - reflexivity. - rewrite o_del_app by auto. cbn. now rewrite Ek. - rewrite o_put_app by auto. cbn. now rewrite Ek.
  Qed.
  Lemma impl_keys_goes : forall S (pr : proc S) Q P A lo x B s st, inv s [] (A ++ (lo, x, P ++ Q) :: B) ->
    gives (impl_keys cmp divp mrgp how s x (map fst Q) pr st) (fun '(s', st') => inv s' [] (A ++ (lo, x, P ++ fst (o_each Q pr true st)) :: B) /\ st' = snd (o_each Q pr true st) /\ tied s s').
  Proof.
    intros S pr Q. induction Q as [|[k v] Q IH]; intros P A lo x B s st H; cbn [map fst impl_keys].
    - cbn. repeat split; auto; rewrite ?app_nil_r in *; auto; apply H.
    - assert (Hs := inv_ss _ _ _ _ H). eapply gives_bind; [apply (impl_goes S s _ x k pr true st H)|].
      + exists A, lo, (P ++ (k, v) :: Q), B. split; auto. eapply routes_rec; [exact Hs|]. apply in_or_app. right. left. reflexivity.
      + intros [s1 st1] (E1 & I1 & _ & _ & T & R1 & R2 & _ & Sh). destruct (Sh _ _ _ _ eq_refl) as (rs' & EE). subst E1.
        assert (EQ : recs (A ++ (lo, x, P ++ (k, v) :: Q) :: B) = (recs A ++ P) ++ (k, v) :: Q ++ recs B) by (rewrite recs_mid, <- !app_assoc; reflexivity).
        assert (R1' : recs A ++ rs' ++ recs B = fst (o_process cmp ((recs A ++ P) ++ (k, v) :: Q ++ recs B) k pr true st)) by (rewrite <- EQ; rewrite <- (recs_mid A lo x rs' B); exact R1).
        assert (R2' : st1 = snd (o_process cmp ((recs A ++ P) ++ (k, v) :: Q ++ recs B) k pr true st)) by (rewrite <- EQ; exact R2). clear R1 R2. rename R1' into R1. rename R2' into R2.
        assert (As : ascending cmp ((recs A ++ P) ++ (k, v) :: Q ++ recs B)). { rewrite <- EQ. apply ss_recs. exact Hs. }
        pose proof (o_process_at S pr _ k v _ st As) as OP. apply (f_equal fst) in OP as OP1. apply (f_equal snd) in OP as OP2. apply (eq_trans R1) in OP1. apply (eq_trans R2) in OP2. clear R1 R2. rename OP1 into R1. rename OP2 into R2. cbn [fst snd] in R1, R2. rewrite <- app_assoc in R1. apply app_inv_head in R1.
        rewrite !app_assoc in R1. apply app_inv_tail in R1. subst rs'. rewrite <- (app_assoc P) in I1. rewrite app_assoc in I1.
        eapply gives_impl; [|apply (IH (P ++ fst (o_each [(k, v)] pr true st)) A lo x B s1 st1 I1)]. intros [s' st'] (J1 & J2 & J3).
        change ((k, v) :: Q) with ([(k, v)] ++ Q). rewrite o_each_app. destruct (o_each [(k, v)] pr true st) as [a' s2] eqn:Ea. cbn [fst snd] in *. subst s2. destruct (o_each Q pr true st1) as [q' s3] eqn:Eq. cbn [fst snd] in *. rewrite <- app_assoc in J1.
        repeat split; auto; try apply J1. * destruct J3 as (J31 & J32 & J33 & J34). destruct T as (T1 & T2 & T3 & T4). congruence. * destruct J3 as (J31 & J32 & J33 & J34). destruct T as (T1 & T2 & T3 & T4). congruence. * destruct J3 as (J31 & J32 & J33 & J34). destruct T as (T1 & T2 & T3 & T4). congruence. * destruct J3 as (J31 & J32 & J33 & J34). destruct T as (T1 & T2 & T3 & T4). congruence.
  Qed.
  Lemma each_from_goes : forall S (pr : proc S) w fuel A B s st, inv s [] (A ++ B) -> length B <= fuel ->
    gives (each_from cmp divp mrgp how fuel s (hdid B None) pr w st) (fun '(s', st') => goes s s' (recs A ++ fst (o_each (recs B) pr w st)) /\ st' = snd (o_each (recs B) pr w st)).
  Proof.
    intros S pr w fuel. induction fuel as [|fu IH]; intros A B s st H Hf; (destruct B as [|[[lo x] rs] B]; [cbn; repeat split; auto; exists (A ++ []); rewrite recs_app; auto|]); [cbn in Hf; lia|].
    cbn [hdid eid fst snd each_from]. pose proof (inv_chain _ _ _ _ H) as Ch. rewrite (chain_at _ _ _ _ _ _ Ch). cbn [bind].
    assert (St : gives (if w then impl_keys cmp divp mrgp how s x (map fst rs) pr st else Ok (s, show_all rs pr st))
        (fun '(s1, st1) => inv s1 [] (A ++ (lo, x, fst (o_each rs pr w st)) :: B) /\ st1 = snd (o_each rs pr w st) /\ tied s s1)).
    { destruct w. - apply (impl_keys_goes S pr rs [] A lo x B s st H). - cbn. rewrite o_each_read. cbn. repeat split; auto; apply H. }
    eapply gives_bind; [exact St|]. intros [s1 st1] (I1 & -> & T). pose proof (inv_chain _ _ _ _ I1) as Ch1. rewrite (chain_at _ _ _ _ _ _ Ch1). cbn [bind].
    change (A ++ (lo, x, fst (o_each rs pr w st)) :: B) with (A ++ [(lo, x, fst (o_each rs pr w st))] ++ B) in I1. rewrite app_assoc in I1.
    eapply gives_impl; [|apply (IH _ B s1 _ I1); cbn in Hf; lia]. intros [s' st'] [[G1 G2] G3]. change (recs ((lo, x, rs) :: B)) with (rs ++ recs B). rewrite o_each_app.
    rewrite recs_app in G1. cbn [recs flat_map ers snd] in G1. rewrite app_nil_r in G1. destruct (o_each rs pr w st) as [a' s2]. cbn [fst snd] in *. destruct (o_each (recs B) pr w s2) as [b' s3]. cbn [fst snd] in *. rewrite <- app_assoc in G1.
    repeat split; auto. eapply kept_trans; [apply tied_kept; exact T|exact G2].
  Qed.
  Lemma each_goes : forall S baby s L (pr : proc S) w st, stands s L ->
    gives (b_each cmp divp mrgp weight how max_branches level_max choose baby s pr w st) (fun '(s', st') => goes s s' (fst (o_each L pr w st)) /\ st' = snd (o_each L pr w st)).
  Proof.
    intros S baby s L pr w st H. unfold b_each. eapply gives_bind; [apply (reorg_if (negb baby && w)); exact H|]. intros s1 [[(E & H1 & HL) K] _].
    pose proof (inv_first _ _ _ _ H1) as Hf. rewrite <- Hf. eapply gives_impl; [|apply (each_from_goes S pr w (b_fresh s1) [] E s1 st H1); eapply inv_len; exact H1].
    intros [s' st'] [[G1 G2] G3]. cbn [recs flat_map app] in G1. rewrite HL in *. repeat split; auto. eapply kept_trans; eauto.
  Qed.
End Run.
