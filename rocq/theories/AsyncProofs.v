(** AsyncDBM: the tasks hold the arguments; the invariant of the executions. *)
From Coq Require Import List NArith ZArith Bool Arith Lia Sorting.Permutation.
Import ListNotations.
From Verif Require Import Bytes StatusModel DbmModel TaskModel TaskProps AsyncModel.
Local Open Scope nat_scope.

(** * Strings of a task *)
Definition ext (v w : vec) : Prop := v_gen w = v_gen v /\ v_cap w = v_cap v /\ exists x, v_el w = v_el v ++ x.
Lemma ext_refl v : ext v v. Proof. split; [reflexivity|]. split; [reflexivity|]. exists []. rewrite app_nil_r. reflexivity. Qed.
Lemma ext_trans a b c : ext a b -> ext b c -> ext a c.
Proof. intros (A1 & A2 & x & A3) (B1 & B2 & y & B3). split; [congruence|]. split; [congruence|]. exists (x ++ y). rewrite B3, A3, app_assoc. reflexivity. Qed.
Definition room (v : vec) : nat := v_cap v - length (v_el v).
Lemma push_ok v b : 1 <= room v -> let '(v', r) := v_push v b in ext v v' /\ room v = S (room v') /\ forall w, ext v' w -> v_look w r = Some b.
Proof.
  unfold room, v_push. intros H. destruct (length (v_el v) <? v_cap v) eqn:E; [|apply Nat.ltb_ge in E; lia]. apply Nat.ltb_lt in E. cbn. split; [|split].
  - split; [reflexivity|]. split; [reflexivity|]. exists [b]. reflexivity.
  - rewrite app_length. cbn. lia.
  - intros w (W1 & W2 & x & W3). unfold v_look. cbn in *. rewrite W1, Nat.eqb_refl, W3, <- app_assoc. rewrite nth_error_app2 by lia. rewrite Nat.sub_diag. reflexivity.
Qed.
Lemma pushes_ok l : forall v, length l <= room v -> let '(v', rs) := v_pushes v l in ext v v' /\ room v = length l + room v' /\ v_el v' = v_el v ++ l /\ forall w, ext v' w -> all (v_look w) rs = Some l.
Proof.
  induction l as [|b l IH]; intros v H; cbn [v_pushes].
  - split; [apply ext_refl|]. split; [reflexivity|]. split; [rewrite app_nil_r; reflexivity|]. reflexivity.
  - cbn [length] in H. assert (P := push_ok v b ltac:(lia)). assert (PE : v_el (fst (v_push v b)) = v_el v ++ [b]) by (unfold v_push; destruct (_ <? _); reflexivity). destruct (v_push v b) as [v1 r]. destruct P as (E1 & R1 & L1). cbn in PE.
    specialize (IH v1 ltac:(lia)). destruct (v_pushes v1 l) as [v2 rs]. destruct IH as (E2 & R2 & C2 & L2). split; [eapply ext_trans; eauto|]. split; [cbn [length]; lia|].
    split; [rewrite C2, PE, <- app_assoc; reflexivity|]. intros w W. cbn [all]. rewrite (L1 w (ext_trans _ _ _ E2 W)), (L2 w W). reflexivity.
Qed.
Section build_ok.
  Context {T L : Type}.
  Variable mem : L -> bytes.
  Let rd (l : L) : option bytes := Some (mem l).
  Lemma recs_ok l : forall v, length l * 2 <= room v -> let '(v', rs) := b_recs mem v l in ext v v' /\ room v = length l * 2 + room v' /\
    forall w, ext v' w -> all (r_pair (v_look w)) rs = all (r_pair rd) l.
  Proof.
    induction l as [|[a b] l IH]; intros v H; cbn [b_recs].
    - split; [apply ext_refl|]. split; reflexivity.
    - cbn [length] in H. assert (P := push_ok v (mem a) ltac:(lia)). destruct (v_push v (mem a)) as [v1 r1]. destruct P as (E1 & R1 & L1).
      assert (P := push_ok v1 (mem b) ltac:(lia)). destruct (v_push v1 (mem b)) as [v2 r2]. destruct P as (E2 & R2 & L2).
      specialize (IH v2 ltac:(lia)). destruct (b_recs mem v2 l) as [v3 rs]. destruct IH as (E3 & R3 & L3). split; [eapply ext_trans; [eauto|eapply ext_trans; eauto]|]. split; [cbn [length]; lia|].
      intros w W. cbn [all]. unfold r_pair at 1 3. cbn [fst snd]. rewrite (L1 w), (L2 w), (L3 w W); [reflexivity| |]; eauto using ext_trans.
  Qed.
  Lemma view_ok p v : 1 <= room v -> let '(v', r) := b_view mem v p in ext v v' /\ room v <= 1 + room v' /\ forall w, ext v' w -> r_view (v_look w) r = r_view rd p.
  Proof.
    intros H. destruct p as [| |b]; cbn [b_view]; [split; [apply ext_refl|]; split; [lia|reflexivity]..|].
    assert (P := push_ok v (mem b) H). destruct (v_push v (mem b)) as [v1 r1]. destruct P as (E1 & R1 & L1). split; [exact E1|]. split; [lia|]. intros w W. cbn. rewrite (L1 w W). reflexivity.
  Qed.
  Lemma expected_ok l : forall v, length l * 2 <= room v -> let '(v', rs) := b_expected mem v l in ext v v' /\ room v <= length l * 2 + room v' /\
    forall w, ext v' w -> all (r_kv (v_look w)) rs = all (r_kv rd) l.
  Proof.
    induction l as [|[a p] l IH]; intros v H; cbn [b_expected].
    - split; [apply ext_refl|]. split; [cbn; lia|reflexivity].
    - cbn [length] in H. assert (P := push_ok v (mem a) ltac:(lia)). destruct (v_push v (mem a)) as [v1 r1]. destruct P as (E1 & R1 & L1).
      assert (P := view_ok p v1 ltac:(lia)). destruct (b_view mem v1 p) as [v2 r2]. destruct P as (E2 & R2 & L2).
      specialize (IH v2 ltac:(lia)). destruct (b_expected mem v2 l) as [v3 rs]. destruct IH as (E3 & R3 & L3). split; [eapply ext_trans; [eauto|eapply ext_trans; eauto]|]. split; [cbn [length]; lia|].
      intros w W. cbn [all]. unfold r_kv at 1 3. cbn [fst snd]. rewrite (L1 w), (L2 w), (L3 w W); [reflexivity| |]; eauto using ext_trans.
  Qed.
  (** ANY_DATA as a desired value becomes a string. *)
  Definition as_str (p : pview bytes) : pview bytes := match p with PAny => PStr any_bytes | _ => p end.
  Definition norm (c : acall T bytes) : acall T bytes := match c with ACasMulti e d => ACasMulti e (map (fun p => (fst p, as_str (snd p))) d) | _ => c end.
  Lemma desired_ok l : forall v, length l * 2 <= room v -> let '(v', rs) := b_desired mem v l in ext v v' /\ room v <= length l * 2 + room v' /\
    forall w, ext v' w -> all (r_kv (v_look w)) rs = option_map (map (fun p => (fst p, as_str (snd p)))) (all (r_kv rd) l).
  Proof.
    induction l as [|[a p] l IH]; intros v H; cbn [b_desired].
    - split; [apply ext_refl|]. split; [cbn; lia|reflexivity].
    - cbn [length] in H. assert (P := push_ok v (mem a) ltac:(lia)). destruct (v_push v (mem a)) as [v1 r1]. destruct P as (E1 & R1 & L1).
      set (X := match p with PNull => _ | PAny => _ | PStr b => _ end).
      assert (P : let '(v', r) := X in ext v1 v' /\ room v1 <= 1 + room v' /\ forall w, ext v' w -> r_view (v_look w) r = option_map as_str (r_view rd p)).
      { unfold X. destruct p as [| |b].
        - split; [apply ext_refl|]. split; [lia|reflexivity].
        - assert (P := push_ok v1 any_bytes ltac:(lia)). destruct (v_push v1 any_bytes) as [v2 r2]. destruct P as (E2 & R2 & L2). split; [exact E2|]. split; [lia|]. intros w W. cbn [r_view]. rewrite (L2 w W). reflexivity.
        - assert (P := push_ok v1 (mem b) ltac:(lia)). destruct (v_push v1 (mem b)) as [v2 r2]. destruct P as (E2 & R2 & L2). split; [exact E2|]. split; [lia|]. intros w W. cbn [r_view]. rewrite (L2 w W). reflexivity. }
      destruct X as [v2 r2]. destruct P as (E2 & R2 & L2).
      specialize (IH v2 ltac:(lia)). destruct (b_desired mem v2 l) as [v3 rs]. destruct IH as (E3 & R3 & L3). split; [eapply ext_trans; [eauto|eapply ext_trans; eauto]|]. split; [cbn [length]; lia|].
      intros w W. cbn [all]. unfold r_kv at 1 3. cbn [fst snd]. rewrite (L1 w), (L2 w), (L3 w W); [| |]; eauto using ext_trans.
      change (rd a) with (Some (mem a)). cbn iota. destruct (r_view rd p); [|reflexivity]. cbn [option_map]. destruct (all (r_kv rd) l); reflexivity.
  Qed.
  Lemma all_seq (v : vec) (l : list bytes) : v_el v = l -> forall n m, skipn n l = m -> all (v_look v) (map (fun i => (v_gen v, i)) (seq n (length m))) = Some m.
  Proof.
    intros E n m. revert n. induction m as [|b m IH]; intros n H; [reflexivity|]. cbn [length seq map all]. unfold v_look at 1. cbn [fst snd]. rewrite Nat.eqb_refl, E.
    assert (X : nth_error l n = Some b). { rewrite <- (firstn_skipn n l), H. assert (length (firstn n l) = n). { apply firstn_length_le. destruct (Nat.le_gt_cases n (length l)) as [|G]; [assumption|]. rewrite skipn_all2 in H by lia. discriminate. } rewrite nth_error_app2 by lia. rewrite H0, Nat.sub_diag. reflexivity. }
    rewrite X, (IH (S n)); [reflexivity|]. clear - H. revert n H. induction l as [|y l IH]; intros [|n] H; cbn in *; try discriminate; [congruence|]. apply IH, H.
  Qed.
  Lemma all_rd l : all rd l = Some (map mem l).
  Proof. induction l as [|x l IH]; cbn; [reflexivity|]. rewrite IH. reflexivity. Qed.
  (** The task holds what the arguments were at the call, and none of its views dangles. *)
  Lemma build_ok (c : acall T L) : r_call (v_look (fst (build mem c))) (snd (build mem c)) = option_map norm (r_call rd c).
  Proof.
    Ltac pushes := repeat match goal with |- context [v_push ?v ?b] => let P := fresh in assert (P := push_ok v b ltac:(unfold room in *; cbn in *; lia)); destruct (v_push v b) as [? ?]; destruct P as (? & ? & ?) end.
    destruct c as [k|ks|k x ow|rs ow|k|ks|k x d|rs d|k e d|e d|k i j|o n ow cp| |m f]; cbn [build].
    - pushes. cbn. rewrite H1 by apply ext_refl. reflexivity.
    - assert (P := pushes_ok (map mem ks) (v_new (length ks)) ltac:(unfold room; cbn; rewrite map_length; lia)). destruct (v_pushes _ _) as [v rs]. destruct P as (_ & _ & P & _). cbn [fst snd r_call]. rewrite all_rd.
      rewrite <- (map_length mem ks), (all_seq v (map mem ks) P 0 (map mem ks) eq_refl). reflexivity.
    - pushes. cbn. rewrite H1, H4; [reflexivity|apply ext_refl|eauto using ext_trans].
    - assert (P := recs_ok rs (v_new (length rs * 2)) ltac:(unfold room; cbn; lia)). destruct (b_recs _ _ _) as [v l]. destruct P as (_ & _ & P). cbn [fst snd r_call]. rewrite P by apply ext_refl. destruct (all _ rs); reflexivity.
    - pushes. cbn. rewrite H1 by apply ext_refl. reflexivity.
    - assert (P := pushes_ok (map mem ks) (v_new (length ks)) ltac:(unfold room; cbn; rewrite map_length; lia)). destruct (v_pushes _ _) as [v rs]. destruct P as (_ & _ & _ & P). cbn [fst snd r_call]. rewrite P by apply ext_refl. rewrite all_rd. reflexivity.
    - pushes. cbn. rewrite H1, H4, H7; eauto using ext_trans, ext_refl.
    - pushes. assert (P := recs_ok rs v ltac:(unfold room in *; cbn in *; lia)). destruct (b_recs _ _ _) as [v' l]. destruct P as (P1 & _ & P). cbn [fst snd r_call]. rewrite P, H1; eauto using ext_refl. destruct (all _ rs); reflexivity.
    - pushes. assert (P := view_ok e v ltac:(unfold room in *; cbn in *; lia)). destruct (b_view mem v e) as [v' r']. destruct P as (P1 & P2 & P3).
      assert (Q := view_ok d v' ltac:(unfold room in *; cbn in *; lia)). destruct (b_view mem v' d) as [v'' r'']. destruct Q as (Q1 & Q2 & Q3). cbn [fst snd r_call].
      rewrite H1, P3, Q3; eauto using ext_trans, ext_refl. change (rd k) with (Some (mem k)). destruct (r_view rd e), (r_view rd d); reflexivity.
    - assert (P := expected_ok e (v_new (length e * 2 + length d * 2)) ltac:(unfold room; cbn; lia)). destruct (b_expected _ _ _) as [v l]. destruct P as (P1 & P2 & P3).
      assert (Q := desired_ok d v ltac:(unfold room in *; cbn in *; lia)). destruct (b_desired _ _ _) as [v' l']. destruct Q as (Q1 & Q2 & Q3). cbn [fst snd r_call].
      rewrite P3, Q3; eauto using ext_refl. destruct (all (r_kv rd) e), (all (r_kv rd) d); reflexivity.
    - pushes. cbn. rewrite H1 by apply ext_refl. reflexivity.
    - pushes. cbn. rewrite H1, H4; [reflexivity|apply ext_refl|eauto using ext_trans].
    - reflexivity.
    - reflexivity.
  Qed.
End build_ok.
Lemma norm_do D (c : acall (d_st D) bytes) d : do_call D (norm c) d = do_call D c d.
Proof.
  destruct c; try reflexivity. cbn [norm do_call]. unfold op_cas_multi.
  assert (E : forall (l : list (bytes * pview bytes)), map (fun '(k, v) => (k, pr_exchange v)) (map (fun p : bytes * pview bytes => (fst p, to_sview (snd p))) (map (fun p => (fst p, as_str (snd p))) l))
     = map (fun '(k, v) => (k, pr_exchange v)) (map (fun p : bytes * pview bytes => (fst p, to_sview (snd p))) l)).
  { induction l as [|[k p] l IH]; [reflexivity|]. cbn [map]. rewrite IH. f_equal. destruct p; reflexivity. }
  rewrite E. reflexivity.
Qed.
Lemma norm_name D (c : acall (d_st D) bytes) : post_name D (norm c) = post_name D c.
Proof. destruct c; reflexivity. Qed.
Lemma name_call D {B C} (f : B -> option C) c c' : r_call f c = Some c' -> post_name D c' = post_name D c.
Proof.
  destruct c; cbn [r_call]; unfold option_map; intros H;
    repeat match type of H with (match ?x with _ => _ end) = _ => destruct x; [|discriminate H] end; injection H as <-; reflexivity.
Qed.
