(** C16: a reopened TreeDBM.  The metadata give the first leaf as the last one (TreePageProps.v); what that changes, and what not. *)
From Coq Require Import List NArith ZArith Bool Lia Arith.
Import ListNotations.
From Verif Require Import Bytes BytesOrder CodecModel DbmModel StatusModel OmapSpec OmapHist OmapFacts BtreeModel BtreeTree BtreeInv BtreeOps BtreeRun BtreeHist BabyProps TreeProps TreePageModel TreePageProps.
Open Scope nat_scope.

(** The state with another last leaf. *)
Definition relast (s : bdb) (y : id) : bdb := mkB (b_h s) (b_fresh s) (b_level s) (b_root s) (b_first s) y (b_reorg s) (b_num s) (b_its s).
(** The same but for the last leaf. *)
Definition same (s s' : bdb) : Prop := exists y, s' = relast s y.
Definition rsim {A} (P : A -> A -> Prop) (r r' : res A) : Prop := match r, r' with Ok a, Ok b => P a b | Ub e, Ub f => e = f | _, _ => False end.
Definition same2 {S} (a b : bdb * S) : Prop := same (fst a) (fst b) /\ snd a = snd b.
Definition same3 {C S} (a b : C * bdb * S) : Prop := fst (fst a) = fst (fst b) /\ same (snd (fst a)) (snd (fst b)) /\ snd a = snd b.
Definition same1 {C} (a b : C * bdb) : Prop := fst a = fst b /\ same (snd a) (snd b).
Lemma rsim_bind {A B} (P : A -> A -> Prop) (Q : B -> B -> Prop) r r' f f' : rsim P r r' -> (forall a b, P a b -> rsim Q (f a) (f' b)) -> rsim Q (bind r f) (bind r' f').
Proof. intros H G. destruct r, r'; cbn in *; auto; contradiction. Qed.
Lemma rsim_eq {A B} (Q : B -> B -> Prop) (r : res A) f f' : (forall a, rsim Q (f a) (f' a)) -> rsim Q (bind r f) (bind r f').
Proof. intros G. destruct r; cbn; auto. Qed.
Lemma same_refl s : same s s. Proof. exists (b_last s). destruct s; reflexivity. Qed.
Lemma same_to s y : same s (relast s y). Proof. exists y; reflexivity. Qed.

Section Last.
  Variable cmp : bytes -> bytes -> comparison.
  Variables divp mrgp : list rec -> bool.
  Variable weight : list rec -> N.
  Variable how : leafcf.
  Variables max_branches level_max : nat.
  Variable choose : list (id * bytes) -> nat.
  Lemma divide_last s s' x k : same s s' -> rsim same (divide cmp max_branches level_max s x k) (divide cmp max_branches level_max s' x k).
  Proof.
    intros [y ->]. unfold divide, b_trace. cbn [relast b_h b_fresh b_level b_root b_first b_last b_reorg b_num b_its]. apply rsim_eq; intros hist. apply rsim_eq; intros [[p n] rs].
    destruct (skipn _ rs) as [|[mk mv] r2]; [reflexivity|]. apply rsim_eq; intros h1. apply rsim_eq; intros [[[h3 fresh] level] root]. cbn. eexists; reflexivity.
  Qed.
  Lemma merge_last s s' x k : same s s' -> rsim same (merge cmp weight max_branches level_max s x k) (merge cmp weight max_branches level_max s' x k).
  Proof.
    intros [y ->]. unfold merge, b_trace. cbn [relast b_h b_fresh b_level b_root b_first b_last b_reorg b_num b_its]. apply rsim_eq; intros [|par hist']; [reflexivity|].
    apply rsim_eq; intros [pe pls]. apply rsim_eq; intros [[p n] rs]. destruct (sibs pe pls x) as [[prev ik] next]. apply rsim_eq; intros np. apply rsim_eq; intros nn.
    assert (Z : rsim same ('(h4, level, root) <~ merge_up max_branches par hist' (b_h s) (b_level s) (b_root s);; Ok (mkB h4 (b_fresh s) level root (b_first s) (b_last s) (b_reorg s) (b_num s) (b_its s)))
       ('(h4, level, root) <~ merge_up max_branches par hist' (b_h s) (b_level s) (b_root s);; Ok (mkB h4 (b_fresh s) level root (b_first s) y (b_reorg s) (b_num s) (b_its s)))) by (apply rsim_eq; intros [[h4 level] root]; cbn; eexists; reflexivity).
    destruct np as [[q [[qp qn] qrs]]|]; destruct nn as [[z [[zp zn] zrs]]|]; try exact Z.
    1: destruct (weight qrs <=? weight zrs)%N. all: repeat (apply rsim_eq; intros ?; repeat match goal with X : prod _ _ |- _ => destruct X end; cbn beta iota); cbn; eexists; reflexivity.
  Qed.
  Lemma loop_last : forall fuel s s' done, same s s' -> rsim same (reorganize_loop cmp divp mrgp weight max_branches level_max choose fuel s done) (reorganize_loop cmp divp mrgp weight max_branches level_max choose fuel s' done).
  Proof.
    induction fuel as [|fu IH]; intros s s' done H; cbn [reorganize_loop]; [exact H|]. assert (Hr : b_reorg s' = b_reorg s /\ b_h s' = b_h s /\ b_root s' = b_root s) by (destruct H as [y ->]; auto). destruct Hr as (-> & -> & ->).
    destruct (nth_error _ _) as [[x k]|]; [|exact H]. assert (H1 : forall l, same (set_reorg s l) (set_reorg s' l)) by (intros l; destruct H as [y ->]; exists y; reflexivity).
    destruct (existsb (Nat.eqb x) done); [apply IH, H1|]. apply rsim_eq; intros [[p n] rs]. eapply rsim_bind; [|intros a b Hab; apply IH, Hab]. destruct (divp rs); [apply divide_last, H1|]. destruct (mrgp rs && _); [apply merge_last, H1|apply H1].
  Qed.
  Lemma reorg_last s s' : same s s' -> rsim same (reorganize cmp divp mrgp weight max_branches level_max choose s) (reorganize cmp divp mrgp weight max_branches level_max choose s').
  Proof. intros H. unfold reorganize. assert (Hr : b_reorg s' = b_reorg s) by (destruct H as [y ->]; auto). rewrite Hr. now apply loop_last. Qed.
  Lemma put_last s s' x p n rs num : same s s' -> same (put_leaf s x p n rs num) (put_leaf s' x p n rs num). Proof. intros [y ->]; exists y; reflexivity. Qed.
  Lemma add_last s s' x k : same s s' -> same (add_reorg s x k) (add_reorg s' x k).
  Proof. intros [y ->]. unfold add_reorg. cbn [relast b_reorg]. match goal with |- context [existsb ?f ?l] => destruct (existsb f l) end; exists y; reflexivity. Qed.
  Lemma note_last s s' x rs : same s s' -> rsim same (note s x rs) (note s' x rs).
  Proof. intros H. unfold note. destruct rs as [|[k v] r]; [reflexivity|]. now apply add_last. Qed.
  Lemma note_del_last s s' x rs k : same s s' -> rsim same (note_del how s x rs k) (note_del how s' x rs k).
  Proof. intros H. unfold note_del. destruct rs as [|[k0 v] r]; [destruct (h_strict how); [reflexivity|now apply add_last]|now apply note_last]. Qed.
  Lemma set_it_last s s' j i : same s s' -> same (set_it s j i) (set_it s' j i). Proof. intros [y ->]; exists y; reflexivity. Qed.
  Lemma fields s s' : same s s' -> b_h s' = b_h s /\ b_root s' = b_root s /\ b_num s' = b_num s /\ b_level s' = b_level s /\ b_fresh s' = b_fresh s /\ b_first s' = b_first s /\ b_its s' = b_its s.
  Proof. intros [y ->]. repeat split. Qed.
  Lemma impl_last {S} s s' x k (p : proc S) w st : same s s' -> rsim same2 (b_impl cmp divp mrgp how s x k p w st) (b_impl cmp divp mrgp how s' x k p w st).
  Proof.
    intros H. destruct (fields s s' H) as (F1 & F2 & F3 & _). unfold b_impl. rewrite F1, F2, F3. apply rsim_eq; intros [[pp n] rs]. destruct (lower cmp k rs) as [l1 l2].
    assert (K : forall (m m' : res bdb) (t : S), rsim same m m' -> rsim same2 (bind m (fun a => Ok (a, t))) (bind m' (fun a => Ok (a, t)))) by (intros m m' t X; eapply rsim_bind; [exact X|]; intros a b Y; split; auto).
    assert (M : rsim same2 (let '(a, st1) := on_empty p k st in match a with ASet v => if w then s2 <~ (if divp (l1 ++ (k, v) :: l2) then note (put_leaf s x pp n (l1 ++ (k, v) :: l2) (b_num s + 1)) x (l1 ++ (k, v) :: l2) else Ok (put_leaf s x pp n (l1 ++ (k, v) :: l2) (b_num s + 1)));; Ok (s2, st1) else Ok (s, st1) | _ => Ok (s, st1) end)
      (let '(a, st1) := on_empty p k st in match a with ASet v => if w then s2 <~ (if divp (l1 ++ (k, v) :: l2) then note (put_leaf s' x pp n (l1 ++ (k, v) :: l2) (b_num s + 1)) x (l1 ++ (k, v) :: l2) else Ok (put_leaf s' x pp n (l1 ++ (k, v) :: l2) (b_num s + 1)));; Ok (s2, st1) else Ok (s', st1) | _ => Ok (s', st1) end)).
    { destruct (on_empty p k st) as [a st1]. destruct a; try (split; auto; fail). destruct w; [|split; auto]. apply K. destruct (divp _); [apply note_last|]; now apply put_last. }
    destruct l2 as [|[k1 v1] r]; [exact M|]. destruct (ltb cmp k k1); [exact M|]. destruct (on_full p k1 v1 st) as [a st1]. destruct w; cbn [negb]; [|split; auto].
    destruct a; [split; auto|apply K|apply K].
    - destruct (mrgp _ && _); [apply note_del_last|]; now apply put_last.
    - destruct (h_check how); [|now apply put_last]. destruct (blen v1 <? blen _)%N; [destruct (divp _); [apply note_last|]; now apply put_last|]. destruct (_ <? _)%N; [|now apply put_last]. destruct (mrgp _ && _); [apply note_last|]; now apply put_last.
  Qed.
  Lemma impl_all_last {S} : forall xs (l : list (bytes * proc S)) s s' w st, same s s' -> rsim same2 (impl_all cmp divp mrgp how s xs l w st) (impl_all cmp divp mrgp how s' xs l w st).
  Proof.
    induction xs as [|x xs IH]; intros l s s' w st H; cbn [impl_all]; [split; auto|]. destruct l as [|[k p] l]; [split; auto|]. eapply rsim_bind; [apply impl_last, H|]. intros [a ta] [b tb] [X Y]. cbn in X, Y. subst. now apply IH.
  Qed.
  Lemma impl_keys_last {S} : forall ks s s' x (p : proc S) st, same s s' -> rsim same2 (impl_keys cmp divp mrgp how s x ks p st) (impl_keys cmp divp mrgp how s' x ks p st).
  Proof.
    induction ks as [|k ks IH]; intros s s' x p st H; cbn [impl_keys]; [split; auto|]. eapply rsim_bind; [apply impl_last, H|]. intros [a ta] [b tb] [X Y]. cbn in X, Y. subst. now apply IH.
  Qed.
  Lemma each_last {S} : forall f s s' ox (p : proc S) w st, same s s' -> rsim same2 (each_from cmp divp mrgp how f s ox p w st) (each_from cmp divp mrgp how f s' ox p w st).
  Proof.
    induction f as [|f IH]; intros s s' [x|] p w st H; cbn [each_from]; try (split; auto; fail). destruct (fields s s' H) as (F1 & _). rewrite F1. apply rsim_eq; intros [[a0 b0] rs].
    eapply rsim_bind with (P := same2); [destruct w; [now apply impl_keys_last|split; auto]|]. intros [a ta] [b tb] [X Y]. cbn in X, Y. subst. destruct (fields a b X) as (G1 & _). rewrite G1. apply rsim_eq; intros [[a1 b1] rs1]. now apply IH.
  Qed.
  Lemma first_last {S} : forall f s s' ox (p : proc S) w st, same s s' -> rsim same3 (first_from cmp divp mrgp how f s ox p w st) (first_from cmp divp mrgp how f s' ox p w st).
  Proof.
    induction f as [|f IH]; intros s s' [x|] p w st H; cbn [first_from]; try (repeat split; auto; fail). destruct (fields s s' H) as (F1 & _). rewrite F1. apply rsim_eq; intros [[a0 b0] rs].
    destruct rs as [|[k v] rs]; [now apply IH|]. eapply rsim_bind; [apply impl_last, H|]. intros [a ta] [b tb] [X Y]. cbn in X, Y. subst. repeat split; auto.
  Qed.
  Lemma search_all_last : forall ks s s', same s s' -> search_all cmp s' ks = search_all cmp s ks.
  Proof. induction ks as [|k ks IH]; intros s s' H; [reflexivity|]. cbn [search_all]. rewrite (IH s s' H). destruct H as [y ->]. reflexivity. Qed.
  Lemma upper_loop_last : forall f s s' k b i, same s s' -> upper_loop cmp f s' k b i = upper_loop cmp f s k b i.
  Proof. induction f as [|f IH]; intros s s' k b [[k1 ox]|] H; cbn [upper_loop]; auto. destruct (cmp k1 k); [destruct b; auto|..]; auto. all: destruct H as [y ->]; change (next_impl cmp (relast s y) k ox) with (next_impl cmp s k ox); destruct (next_impl cmp s k ox); cbn; auto; apply IH, same_to. Qed.

  (** The calls that do not ask for the last leaf. *)
  Definition nolast {S} (c : ocall S) : bool := match c with KItLast _ | KItLower _ _ _ => false | _ => true end.
  Lemma call_last {S} : forall baby (c : ocall S) s s' st, same s s' -> nolast c = true ->
    rsim same3 (b_call cmp divp mrgp weight how max_branches level_max choose baby S c s st) (b_call cmp divp mrgp weight how max_branches level_max choose baby S c s' st).
  Proof.
    intros baby c s s' st H Hc.
    assert (RO : forall b, rsim same (if b : bool then reorganize cmp divp mrgp weight max_branches level_max choose s else Ok s) (if b then reorganize cmp divp mrgp weight max_branches level_max choose s' else Ok s')) by (intros []; [now apply reorg_last|exact H]).
    assert (PR : forall T k (p : proc T) w t, rsim same2 (b_process cmp divp mrgp weight how max_branches level_max choose s k p w t) (b_process cmp divp mrgp weight how max_branches level_max choose s' k p w t)).
    { intros T k p w t. unfold b_process. eapply rsim_bind; [apply RO|]. intros a b Hab. replace (b_search cmp b k) with (b_search cmp a k) by (destruct Hab as [y ->]; reflexivity). apply rsim_eq; intros x. now apply impl_last. }
    destruct (fields s s' H) as (F1 & F2 & F3 & F4 & F5 & F6 & F7).
    destruct c; cbn [b_call nolast] in *; try discriminate.
    - eapply rsim_bind; [apply PR|]. intros [a ta] [b tb] [X Y]. cbn in *. repeat split; auto.
    - destruct baby.
      + eapply rsim_bind with (P := same).
        * unfold b_append. eapply rsim_bind; [apply (reorg_last s s' H)|]. intros a b Hab. replace (b_search cmp b k) with (b_search cmp a k) by (destruct Hab as [y ->]; reflexivity). apply rsim_eq; intros x. destruct (fields a b Hab) as (G1 & G2 & G3 & _). rewrite G1, G3. apply rsim_eq; intros [[p n] rs].
          destruct (lower cmp k rs) as [l1 l2]. assert (M : rsim same (if divp (l1 ++ (k, v) :: l2) then note (put_leaf a x p n (l1 ++ (k, v) :: l2) (b_num a + 1)) x (l1 ++ (k, v) :: l2) else Ok (put_leaf a x p n (l1 ++ (k, v) :: l2) (b_num a + 1))) (if divp (l1 ++ (k, v) :: l2) then note (put_leaf b x p n (l1 ++ (k, v) :: l2) (b_num a + 1)) x (l1 ++ (k, v) :: l2) else Ok (put_leaf b x p n (l1 ++ (k, v) :: l2) (b_num a + 1)))) by (destruct (divp _); [apply note_last|]; now apply put_last).
          destruct l2 as [|[k1 v1] r]; [exact M|]. destruct (ltb cmp k k1); [exact M|]. now apply put_last.
        * intros a b Hab. cbn. repeat split; auto.
      + eapply rsim_bind; [apply PR|]. intros [a ta] [b tb] [X Y]. cbn in *. repeat split; auto.
    - eapply rsim_bind with (P := same2).
      + unfold b_multi. eapply rsim_bind; [apply RO|]. intros a b Hab. rewrite (search_all_last _ a b Hab). apply rsim_eq; intros xs. now apply impl_all_last.
      + intros [a ta] [b tb] [X Y]. cbn in *. repeat split; auto.
    - eapply rsim_bind with (P := same3).
      + unfold b_first_of. eapply rsim_bind; [apply RO|]. intros a b Hab. destruct (fields a b Hab) as (_ & _ & _ & _ & G5 & G6 & _). rewrite G5, G6. now apply first_last.
      + intros [[c1 a] ta] [[c2 b] tb] (X & Y & Z). cbn in *. subst. repeat split; auto.
    - eapply rsim_bind with (P := same2).
      + unfold b_each. eapply rsim_bind; [apply RO|]. intros a b Hab. destruct (fields a b Hab) as (_ & _ & _ & _ & G5 & G6 & _). rewrite G5, G6. now apply each_last.
      + intros [a ta] [b tb] [X Y]. cbn in *. repeat split; auto.
    - repeat split; auto. apply same_refl.
    - unfold it_first. rewrite F1, F5, F6. destruct (pos_first _ _ _); cbn; [|reflexivity]. repeat split; auto. now apply set_it_last.
    - cbn. repeat split; auto. now apply set_it_last.
    - unfold it_jump_upper. replace (sync cmp s' k None) with (sync cmp s k None) by (destruct H as [y ->]; reflexivity). destruct (sync cmp s k None); cbn [bind]; [|reflexivity]. rewrite (upper_loop_last 2 s s' k inclusive a H). destruct (upper_loop cmp 2 s k inclusive a); cbn; [|reflexivity]. repeat split; auto. now apply set_it_last.
    - unfold it_next. rewrite F7. destruct (b_its s j) as [[k ox]|]; [|cbn; repeat split; auto]. replace (next_impl cmp s' k ox) with (next_impl cmp s k ox) by (destruct H as [y ->]; reflexivity). destruct (next_impl cmp s k ox); cbn; [|reflexivity]. repeat split; auto. now apply set_it_last.
    - unfold it_previous. rewrite F7. destruct (b_its s j) as [[k ox]|]; [|cbn; repeat split; auto]. replace (prev_impl cmp s' k ox) with (prev_impl cmp s k ox) by (destruct H as [y ->]; reflexivity). destruct (prev_impl cmp s k ox); cbn; [|reflexivity]. repeat split; auto. now apply set_it_last.
    - unfold it_process. eapply rsim_bind; [apply RO|]. intros a b Hab. destruct (fields a b Hab) as (G1 & _ & _ & _ & _ & _ & G7). rewrite G1, G7. destruct (b_its a j) as [[k ox]|]; [|cbn; repeat split; auto].
      replace (sync cmp b k ox) with (sync cmp a k ox) by (destruct Hab as [y ->]; reflexivity). destruct (sync cmp a k ox) as [i|]; cbn [bind]; [|reflexivity]. destruct i as [[k1 [x|]]|]; try (repeat split; auto; now apply set_it_last).
      destruct w.
      + eapply rsim_bind; [apply impl_last; apply set_it_last, Hab|]. intros [a1 ta] [b1 tb] [X Y]. cbn in *. repeat split; auto.
      + apply rsim_eq; intros [[p1 n1] rs]. destruct (snd (lower cmp k1 rs)) as [|[k2 v2] r]; [reflexivity|]. repeat split; auto. now apply set_it_last.
  Qed.
  Lemma calls_last {S} : forall baby (cs : list (ocall S)) s s' st, same s s' -> Forall (fun c => nolast c = true) cs ->
    rsim same3 (b_calls cmp divp mrgp weight how max_branches level_max choose baby S cs s st) (b_calls cmp divp mrgp weight how max_branches level_max choose baby S cs s' st).
  Proof.
    intros baby cs. induction cs as [|c cs IH]; intros s s' st H F; cbn [b_calls]; [repeat split; auto|]. inversion F; subst. eapply rsim_bind; [apply call_last; eauto|]. intros [[c1 a] ta] [[c2 b] tb] (X & Y & Z). cbn in X, Y, Z. subst.
    eapply rsim_bind; [apply IH; eauto|]. intros [[d1 a1] ua] [[d2 b1] ub] (X & Y1 & Z). cbn in *. subst. repeat split; auto.
  Qed.
End Last.

(** The state as it is read after Close and Open: the nodes, the metadata (whose last id is the first), no positions of iterators, nothing
    to reorganize.  [C16_reopen_image] below is why. *)
Definition reopened (s : bdb) : bdb := mkB (b_h s) (b_fresh s) (b_level s) (b_root s) (b_first s) (b_first s) [] (b_num s) (fun _ => None).
(** Close, tkrzw_dbm_tree.cc:511-557 (it reorganizes first), and Open of an existing database, 491-497. *)
Definition tree_close (mp : N) (mb : nat) (cmp : bytes -> bytes -> comparison) (choose : list (id * bytes) -> nat) (s : bdb) : res bdb :=
  s1 <~ reorganize cmp (tree_divide mp) (tree_merge mp) page_size mb 32 choose s ;; Ok (reopened s1).

(** A database and what is stored of it: the ids of the pages are given by [pid]; the numbers of the metadata. *)
Definition oid (pid : id -> N) (o : option id) : N := match o with None => 0%N | Some x => pid x end.
Definition page_of (pid : id -> N) (n : node) : pnode :=
  match n with Leaf p q rs => PLeaf (oid pid p) (oid pid q) rs | Inner h ls => PInner (pid h) (map (fun kc => (fst kc, pid (snd kc))) ls) end.
Definition image (pid : id -> N) (mp : N) (mb : nat) (s : bdb) (m : tmeta) (g : N -> option pnode) : Prop :=
  Z.of_N (t_num m) = b_num s /\ t_root m = pid (b_root s) /\ t_first m = pid (b_first s) /\ t_last m = pid (b_last s) /\ t_level m = N.of_nat (b_level s) /\
  t_page m = mp /\ t_branches m = N.of_nat mb /\ (forall x n, b_h s x = Some n -> g (pid x) = Some (page_of pid n)).
(** What the metadata and pages of a database (each of which is read back: C16_pages) give is [reopened]. *)
Theorem C16_reopen_image : forall pid mp mb s m g given, image pid mp mb s m g -> meta_ok m -> (1 <= t_leaves m)%N -> (1 <= mp)%N -> 2 <= mb -> 1 <= b_level s ->
  (comp_known (t_comp m) = true \/ t_comp m = 255%N /\ given = true) ->
  exists m', load_meta given (save_meta m) = POk m' /\ image pid mp mb (reopened s) m' g.
Proof.
  intros pid mp mb s m g given (A & B & C & D & E & F & G & H) M L1 L2 L3 L4 K. exists (with_last m (t_first m)). split; [apply C16_metadata_partial; auto; lia|].
  unfold image, reopened, with_last; cbn. repeat split; auto.
Qed.

(** After any history, Close and Open, any history that does not use Last or JumpLower does what it does to an ordered map that has the same records. *)
Theorem C16_reopen_partial : forall strict mp mb cmp choose S (cs cs' : list (ocall S)) st cds s1 st1, preorder cmp -> Forall (fun c => nolast c = true) cs' ->
  tree_calls strict mp mb cmp choose cs b_init st = Ok (cds, s1, st1) ->
  exists o1, oruns cmp S cs o_empty st cds o1 st1 /\
  match s2 <~ tree_close mp mb cmp choose s1 ;; tree_calls strict mp mb cmp choose cs' s2 st1 with
  | Ok (cds', s3, st3) => exists o2, oruns cmp S cs' (mkO (o_recs o1) (fun _ => None)) st1 cds' o2 st3 /\ b_num s3 = Z.of_nat (length (o_recs o2))
  | Ub e => (e = EmptyFront /\ strict = true) \/ e = DeepTree
  end.
Proof.
  intros strict mp mb cmp choose S cs cs' st cds s1 st1 [H1 H2] F E.
  pose proof (calls_ok cmp (tree_divide mp) (tree_merge mp) page_size (tree_how strict) mb 32 choose false S H1 H2 (tree_two mp) cs b_init o_empty st (rel_init cmp) (all_fair _ _)) as W.
  unfold tree_calls in *. rewrite E in W. destruct W as (o1 & W1 & W2 & _). exists o1. split; auto. unfold tree_close.
  pose proof (reorganize_goes cmp H1 H2 (tree_divide mp) (tree_merge mp) page_size (tree_how strict) mb 32 choose (tree_two mp) s1 (o_recs o1) W2) as G.
  destruct (reorganize _ _ _ _ _ _ _ s1) as [s2|e]; cbn [bind]; [|exact G]. destruct G as [(E2 & I & HL) _].
  set (c := mkB (b_h s2) (b_fresh s2) (b_level s2) (b_root s2) (b_first s2) (b_last s2) [] (b_num s2) (fun _ => None)).
  assert (Rc : rel cmp c (mkO (o_recs o1) (fun _ => None))). { split; [|reflexivity]. exists E2. split; auto. destruct I as [I1 I2 I3 I4]. constructor; cbn; auto. - intros j k x X. discriminate. - intros x k []. }
  pose proof (calls_ok cmp (tree_divide mp) (tree_merge mp) page_size (tree_how strict) mb 32 choose false S H1 H2 (tree_two mp) cs' c _ st1 Rc (all_fair _ _)) as V.
  pose proof (calls_last cmp (tree_divide mp) (tree_merge mp) page_size (tree_how strict) mb 32 choose false cs' c (reopened s2) st1 (ex_intro _ (b_first s2) eq_refl) F) as U.
  destruct (b_calls _ _ _ _ _ _ _ _ _ _ cs' c st1) as [[[cds1 s3] st3]|e]; destruct (b_calls _ _ _ _ _ _ _ _ _ _ cs' (reopened s2) st1) as [[[cds2 s4] st4]|e2]; cbn in U; try contradiction.
  - destruct U as (U1 & U & U2). cbn in U1, U, U2. subst cds2 st4. destruct V as (o2 & V1 & V2). exists o2. split; auto. destruct U as [y ->]. cbn. eapply rel_count; exact V2.
  - subst. exact V.
Qed.
(** If there is one leaf, nothing is left out. *)
Theorem C16_reopen_one_leaf_partial : forall strict mp mb cmp choose S (cs cs' : list (ocall S)) st cds s1 st1, preorder cmp ->
  tree_calls strict mp mb cmp choose cs b_init st = Ok (cds, s1, st1) ->
  exists o1, oruns cmp S cs o_empty st cds o1 st1 /\
  match tree_close mp mb cmp choose s1 with
  | Ok s2 => b_level s2 = 1 ->
      match tree_calls strict mp mb cmp choose cs' s2 st1 with
      | Ok (cds', s3, st3) => exists o2, oruns cmp S cs' (mkO (o_recs o1) (fun _ => None)) st1 cds' o2 st3 /\ b_num s3 = Z.of_nat (length (o_recs o2))
      | Ub e => (e = EmptyFront /\ strict = true) \/ e = DeepTree
      end
  | Ub e => (e = EmptyFront /\ strict = true) \/ e = DeepTree
  end.
Proof.
  intros strict mp mb cmp choose S cs cs' st cds s1 st1 [H1 H2] E.
  pose proof (calls_ok cmp (tree_divide mp) (tree_merge mp) page_size (tree_how strict) mb 32 choose false S H1 H2 (tree_two mp) cs b_init o_empty st (rel_init cmp) (all_fair _ _)) as W.
  unfold tree_calls in *. rewrite E in W. destruct W as (o1 & W1 & W2 & _). exists o1. split; auto. unfold tree_close.
  pose proof (reorganize_goes cmp H1 H2 (tree_divide mp) (tree_merge mp) page_size (tree_how strict) mb 32 choose (tree_two mp) s1 (o_recs o1) W2) as G.
  destruct (reorganize _ _ _ _ _ _ _ s1) as [s2|e]; cbn [bind]; [|exact G]. destruct G as [(E2 & I & HL) _]. intros Lv. cbn in Lv.
  assert (Rc : rel cmp (reopened s2) (mkO (o_recs o1) (fun _ => None))).
  { split; [|reflexivity]. exists E2. split; auto. destruct I as [I1 I2 I3 I4]. constructor; cbn; auto; [|intros j k x X; discriminate|intros x k []].
    destruct I1 as (t & Et & C). exists t. split; auto. assert (Q : b_first s2 = b_last s2); [|rewrite Q at 2; exact C].
    destruct C as [Cr Cl Cd _ _ _ _ _ Cf Cz]. rewrite Lv in Cd. cbn in Cd. inversion Cd; subst t; cbn in Cf, Cz; congruence. }
  pose proof (calls_ok cmp (tree_divide mp) (tree_merge mp) page_size (tree_how strict) mb 32 choose false S H1 H2 (tree_two mp) cs' (reopened s2) _ st1 Rc (all_fair _ _)) as V.
  destruct (b_calls _ _ _ _ _ _ _ _ _ _ cs' (reopened s2) st1) as [[[cds1 s3] st3]|e]; [|exact V].
  destruct V as (o2 & V1 & V2). exists o2. split; auto. eapply rel_count; exact V2.
Qed.

(** Last after reopening: six records in pages of 40 bytes; the last record is that of key 5, but Last stands at another, and so does JumpLower of a greater key. *)
Definition six : list (ocall (list (bytes * bytes))) := map (fun i => KProcess (key2 i) (pset [1%N; 2%N]) true) (seq 0 6).
Theorem C16_reopen_refuted : exists cds s1 s2, tree_calls true 40 2 bcmp (fun _ => 0) six b_init [] = Ok (cds, s1, []) /\ tree_close 40 2 bcmp (fun _ => 0) s1 = Ok s2 /\
  (exists s3 c3, tree_calls true 40 2 bcmp (fun _ => 0) [KItLast 0; KItProcess 0 collect false] s1 [] = Ok (c3, s3, [(key2 5, [1%N; 2%N])])) /\
  (exists s4 c4, tree_calls true 40 2 bcmp (fun _ => 0) [KItLast 0; KItProcess 0 collect false] s2 [] = Ok (c4, s4, [(key2 1, [1%N; 2%N])])) /\
  (exists s5 c5, tree_calls true 40 2 bcmp (fun _ => 0) [KItLower 0 (key2 9) true; KItProcess 0 collect false] s2 [] = Ok (c5, s5, [(key2 1, [1%N; 2%N])])).
Proof.
  do 3 eexists. split; [vm_compute; reflexivity|]. split; [vm_compute; reflexivity|]. split; [do 2 eexists; vm_compute; reflexivity|]. split; do 2 eexists; vm_compute; reflexivity.
Qed.
(** A case of C16_reopen_partial: the same database, reopened, is scanned from the first record, and written. *)
Example C16_reopen_case : exists s2 c s3, tree_close 40 2 bcmp (fun _ => 0) (match tree_calls true 40 2 bcmp (fun _ => 0) six b_init [] with Ok (_, s, _) => s | Ub _ => b_init end) = Ok s2 /\
  tree_calls true 40 2 bcmp (fun _ => 0) (KProcess (key2 7) (pset []) true :: KProcess (key2 0) pdel true :: scan_up 6 0) s2 [] =
    Ok (c, s3, map (fun i => (key2 i, [1%N; 2%N])) (seq 1 5) ++ [(key2 7, [])]) /\ b_num s3 = 6%Z.
Proof. do 3 eexists. split; [vm_compute; reflexivity|]. split; [vm_compute; reflexivity|reflexivity]. Qed.

Print Assumptions C16_reopen_image.
Print Assumptions C16_reopen_partial.
Print Assumptions C16_reopen_one_leaf_partial.
Print Assumptions C16_reopen_refuted.

(** * C42: other limits of pages *)
(** At the level of the tree Rebuild reorganizes it with the old limits (tkrzw_dbm_tree.cc:848-854) and sets new ones (887-899).  Any history, Rebuild to
    any page size and number of branches, any history: all does what it does to one ordered map, on which Rebuild does nothing. *)
Definition tree_rebuild (mp : N) (mb : nat) (cmp : bytes -> bytes -> comparison) (choose : list (id * bytes) -> nat) (s : bdb) : res bdb :=
  match b_reorg s with [] => Ok s | _ => reorganize cmp (tree_divide mp) (tree_merge mp) page_size mb 32 choose s end.
Theorem C42_tree_tuning_partial : forall strict mp mb mp' mb' cmp choose S (cs cs' : list (ocall S)) st cds s1 st1, preorder cmp ->
  tree_calls strict mp mb cmp choose cs b_init st = Ok (cds, s1, st1) ->
  match bind (tree_rebuild mp mb cmp choose s1) (fun s2 => tree_calls strict mp' mb' cmp choose cs' s2 st1) with
  | Ok (cds', s3, st3) => exists o1 o2, oruns cmp S cs o_empty st cds o1 st1 /\ oruns cmp S cs' o1 st1 cds' o2 st3 /\
      b_num s3 = Z.of_nat (length (o_recs o2)) /\ ascending cmp (o_recs o2)
  | Ub e => (e = EmptyFront /\ strict = true) \/ e = DeepTree
  end.
Proof.
  intros strict mp mb mp' mb' cmp choose S cs cs' st cds s1 st1 [H1 H2] E.
  pose proof (calls_ok cmp (tree_divide mp) (tree_merge mp) page_size (tree_how strict) mb 32 choose false S H1 H2 (tree_two mp) cs b_init o_empty st (rel_init cmp) (all_fair _ _)) as W.
  unfold tree_calls in *. rewrite E in W. destruct W as (o1 & W1 & W2).
  assert (G : match tree_rebuild mp mb cmp choose s1 with Ok s2 => rel cmp s2 o1 | Ub e => (e = EmptyFront /\ strict = true) \/ e = DeepTree end).
  { unfold tree_rebuild. destruct W2 as [W2 W3]. destruct (b_reorg s1); [split; assumption|].
    pose proof (reorganize_goes cmp H1 H2 (tree_divide mp) (tree_merge mp) page_size (tree_how strict) mb 32 choose (tree_two mp) s1 (o_recs o1) W2) as G.
    destruct (reorganize _ _ _ _ _ _ _ s1) as [s2|e]; [|exact G]. destruct G as [G1 G2]. split; [exact G1|]. intros j. rewrite G2. apply W3. }
  destruct (tree_rebuild mp mb cmp choose s1) as [s2|e]; cbn [bind]; [|exact G].
  pose proof (calls_ok cmp (tree_divide mp') (tree_merge mp') page_size (tree_how strict) mb' 32 choose false S H1 H2 (tree_two mp') cs' s2 o1 st1 G (all_fair _ _)) as V.
  destruct (b_calls _ _ _ _ _ _ _ _ _ _ cs' s2 st1) as [[[cds1 s3] st3]|e]; [|exact V].
  destruct V as (o2 & V1 & V2). exists o1, o2. split; [exact W1|]. split; [exact V1|]. split; [eapply rel_count; exact V2|eapply rel_asc; exact V2].
Qed.
(** Six records in pages of 40 bytes with two branches; then pages of 200 bytes and more branches, another record, a removal and a scan. *)
Example C42_tree_tuning_ex : exists s2 c s3,
  tree_rebuild 40 2 bcmp (fun _ => 0) (match tree_calls true 40 2 bcmp (fun _ => 0) six b_init [] with Ok (_, s, _) => s | Ub _ => b_init end) = Ok s2 /\
  tree_calls true 200 16 bcmp (fun _ => 0) (KProcess (key2 7) (pset []) true :: KProcess (key2 0) pdel true :: scan_up 6 0) s2 [] =
    Ok (c, s3, map (fun i => (key2 i, [1%N; 2%N])) (seq 1 5) ++ [(key2 7, [])]) /\ b_num s3 = 6%Z.
Proof. do 3 eexists. split; [vm_compute; reflexivity|]. split; [vm_compute; reflexivity|reflexivity]. Qed.
Print Assumptions C42_tree_tuning_partial.
