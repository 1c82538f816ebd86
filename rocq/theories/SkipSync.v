(** Synchronize of SkipDBM as a stable merge, and the database under any history of calls. *)
From Coq Require Import List NArith ZArith Bool Lia Arith Sorted Permutation.
Import ListNotations.
From Verif Require Import Bytes BytesOrder CodecModel CodecProofs StatusModel StrSerialModel StrSerialProofs FlatModel DbmModel MqProofs FlatProofs SkipModel SkipLayout SkipWrite SkipSearch SkipIter SkipMerge.
Open Scope N_scope.

(** * The specification *)
(** A record to be stored, or (None) the removal of the records of a key. *)
Notation event := (bytes * option bytes)%type.
Definition evals (k : bytes) (evs : list event) : list (option bytes) := map snd (filter (fun e => beqb (fst e) k) evs).
(** The values that are left after the removals. *)
Definition live (vs : list (option bytes)) : list bytes := fold_left (fun acc e => match e with None => [] | Some v => acc ++ [v] end) vs [].
(** The values of a key after synchronization; the reducer is not called for a key without a value. *)
Definition result (red : reducer) (evs : list event) (k : bytes) : list bytes :=
  match live (evals k evs) with [] => [] | vs => match red with None => vs | Some h => h k vs end end.
(** The keys in order, without repetitions. *)
Fixpoint k_insert (x : bytes) (l : list bytes) : list bytes :=
  match l with [] => [x] | y :: l' => match bcmp x y with Lt => x :: l | Eq => l | Gt => y :: k_insert x l' end end.
Definition keys (evs : list event) : list bytes := fold_right k_insert [] (map fst evs).
Definition merged (red : reducer) (evs : list event) : list krec := flat_map (fun k => map (pair k) (result red evs k)) (keys evs).
Definition kept (l : list krec) : list event := map (fun r => (fst r, Some (snd r))) l.

(** * Facts of the specification *)
Lemma k_insert_in x l y : In y (k_insert x l) <-> y = x \/ In y l.
Proof.
  induction l as [|z l IH]; cbn [k_insert]; [cbn; intuition|]. destruct (bcmp x z) eqn:E; cbn [In]; [|intuition|rewrite IH; intuition].
  apply bcmp_eq in E. subst. intuition.
Qed.
Lemma k_insert_sorted x l : StronglySorted blt l -> StronglySorted blt (k_insert x l).
Proof.
  induction 1 as [|y l S IH F]; cbn [k_insert]; [constructor; constructor|]. destruct (bcmp x y) eqn:E.
  - constructor; assumption.
  - constructor; [constructor; assumption|]. constructor; [exact E|]. eapply Forall_impl; [|exact F]. intros z Z. eapply blt_trans; eassumption.
  - constructor; [exact IH|]. apply Forall_forall. intros z Z. apply k_insert_in in Z as [->|Z]; [apply bcmp_gt; exact E|]. rewrite Forall_forall in F. apply F. exact Z.
Qed.
Lemma keys_sorted evs : StronglySorted blt (keys evs).
Proof. unfold keys. induction (map fst evs) as [|x l IH]; cbn; [constructor|]. apply k_insert_sorted. exact IH. Qed.
Lemma keys_in evs k : In k (keys evs) <-> In k (map fst evs).
Proof. unfold keys. induction (map fst evs) as [|x l IH]; cbn; [reflexivity|]. rewrite k_insert_in, IH. intuition. Qed.
Lemma evals_none evs k : ~ In k (map fst evs) -> evals k evs = [].
Proof.
  unfold evals. induction evs as [|e evs IH]; intros H; [reflexivity|]. cbn in *. destruct (beqb (fst e) k) eqn:E; [exfalso; apply H; left; apply beqb_eq; exact E|]. apply IH. intuition.
Qed.
Lemma vals_app k a b : vals k (a ++ b) = vals k a ++ vals k b.
Proof. unfold vals. rewrite at_key_app, map_app. reflexivity. Qed.
Lemma vals_pair k x vs : vals k (map (pair x) vs) = if beqb x k then vs else [].
Proof.
  unfold vals. induction vs as [|v vs IH]; [destruct (beqb x k); reflexivity|]. cbn [map]. rewrite at_key_cons. cbn [fst]. destruct (beqb x k); cbn [map snd]; [f_equal; exact IH|exact IH].
Qed.
Lemma vals_flat_map k (F : bytes -> list bytes) ks : StronglySorted blt ks -> vals k (flat_map (fun x => map (pair x) (F x)) ks) = if existsb (beqb k) ks then F k else [].
Proof.
  induction 1 as [|x ks S IH L]; [reflexivity|]. cbn [flat_map existsb]. rewrite vals_app, vals_pair, IH. rewrite (beqb_sym k x). destruct (beqb x k) eqn:E; cbn [orb]; [|reflexivity].
  apply beqb_eq in E. subst x. destruct (existsb (beqb k) ks) eqn:X; [|apply app_nil_r]. apply existsb_exists in X as (y & Y & Z). apply beqb_eq in Z. subst y.
  rewrite Forall_forall in L. exfalso. eapply blt_irrefl. apply L. exact Y.
Qed.
(** What the specification says of each key. *)
Lemma merged_vals red evs k : vals k (merged red evs) = result red evs k.
Proof.
  unfold merged. rewrite vals_flat_map by apply keys_sorted. destruct (existsb (beqb k) (keys evs)) eqn:X; [reflexivity|].
  unfold result. rewrite evals_none; [reflexivity|]. intros H. apply keys_in in H. assert (Y : existsb (beqb k) (keys evs) = true) by (apply existsb_exists; exists k; split; [exact H|apply beqb_refl]). congruence.
Qed.
Lemma ordered_app a b : ordered a -> ordered b -> (forall x y, In x a -> In y b -> kle x y) -> ordered (a ++ b).
Proof.
  induction 1 as [|x a S IH F]; intros B H; [exact B|]. cbn. constructor; [apply IH; [exact B|]; intros; apply H; [right|]; assumption|].
  apply Forall_app. split; [exact F|]. apply Forall_forall. intros y Y. apply H; [left; reflexivity|exact Y].
Qed.
Lemma pair_ordered (x : bytes) (vs : list bytes) : ordered (map (pair x) vs).
Proof.
  induction vs as [|v vs IH]; cbn; constructor; [exact IH|]. apply Forall_forall. intros y Y. apply in_map_iff in Y as (z & <- & _). apply (kle_refl (x, v)).
Qed.
Lemma merged_ordered red evs : ordered (merged red evs).
Proof.
  unfold merged. assert (S := keys_sorted evs). induction S as [|x ks S IH F]; [constructor|]. cbn [flat_map]. apply ordered_app; [apply pair_ordered|exact IH|].
  intros a b A B. apply in_map_iff in A as (va & <- & _). apply in_flat_map in B as (y & Y & B). apply in_map_iff in B as (vb & <- & _).
  rewrite Forall_forall in F. specialize (F y Y). unfold kle. cbn. intros X. eapply blt_irrefl. eapply blt_trans; eassumption.
Qed.

(** * The merging loop *)
Fixpoint write_list (p : sp) (rs : list krec) (w : wst) : sres wst :=
  match rs with [] => SOk w | r :: rs' => let* w1 := write_record p (fst r) (snd r) w in write_list p rs' w1 end.
Lemma sbind_assoc {A B C} (x : sres A) (f : A -> sres B) (g : B -> sres C) : sbind (sbind x f) g = sbind x (fun a => sbind (f a) g).
Proof. destruct x; reflexivity. Qed.
Lemma write_list_app p a : forall b w, write_list p (a ++ b) w = let* w1 := write_list p a w in write_list p b w1.
Proof.
  induction a as [|r a IH]; intros b w; [reflexivity|]. cbn [app write_list]. destruct (write_record p (fst r) (snd r) w); cbn; auto.
Qed.
Definition chosen (red : reducer) (removed : bool) (k : bytes) (vs : list bytes) : list bytes :=
  let lv := if removed then reduce_remove vs else vs in match lv with [] => [] | _ => match red with None => lv | Some h => h k lv end end.
Lemma write_all_list p k vs : forall w, write_all p k vs w = write_list p (map (pair k) vs) w.
Proof. induction vs as [|v vs IH]; intros w; [reflexivity|]. cbn [write_all map write_list fst snd]. destruct (write_record p k v w); cbn; auto. Qed.
Lemma write_group_list p red removed k vs w : write_group p red removed k vs w = write_list p (map (pair k) (chosen red removed k vs)) w.
Proof.
  unfold write_group, chosen. cbv zeta. destruct (if removed then reduce_remove vs else vs) as [|x t]; [reflexivity|]. rewrite write_all_list. reflexivity.
Qed.
Definition direct (red : reducer) (removed : bool) : bool := match red, removed with None, false => true | _, _ => false end.
Fixpoint written (red : reducer) (removed : bool) (out : list krec) (last : option (bytes * list bytes)) : list krec :=
  match out with
  | [] => match last with None => [] | Some (k, vs) => map (pair k) (chosen red removed k vs) end
  | (k, v) :: out' =>
      if direct red removed then (k, v) :: written red removed out' last
      else match last with
           | None => written red removed out' (Some (k, [v]))
           | Some (k0, vs) => if beqb k k0 then written red removed out' (Some (k0, vs ++ [v])) else map (pair k0) (chosen red removed k0 vs) ++ written red removed out' (Some (k, [v]))
           end
  end.
Definition count (ls : list (list krec)) : nat := length (concat ls).
Lemma loop_ok p red removed fuel : forall sls ls, Forall2 slot_holds sls ls -> (count ls < fuel)%nat ->
  exists out, picks ls out /\ forall last w, merge_loop p red removed fuel sls last w = write_list p (written red removed out last) w.
Proof.
  induction fuel as [|fu IH]; intros sls ls F L; [lia|]. cbn [merge_loop]. destruct (so_get_ok sls ls F) as [[E N]|(k & v & a & rest & b & sls' & E & -> & A & B & F')].
  - rewrite E. exists []. split; [constructor; exact N|]. intros last w. cbn [sbind written]. destruct last as [[k vs]|]; [apply write_group_list|reflexivity].
  - destruct (IH sls' (a ++ rest :: b) F') as (out & P & H).
    { unfold count in *. rewrite concat_app in *. cbn [concat] in *. rewrite !app_length in *. cbn [length] in L. lia. }
    exists ((k, v) :: out). split; [constructor; assumption|]. intros last w. rewrite E. cbn [sbind written].
    assert (N : (match red, removed with
     | None, false => let* w1 := write_record p k v w in merge_loop p red removed fu sls' last w1
     | _, _ => match last with None => merge_loop p red removed fu sls' (Some (k, [v])) w
          | Some (k0, vs) => if beqb k k0 then merge_loop p red removed fu sls' (Some (k0, vs ++ [v])) w
             else let* w1 := write_group p red removed k0 vs w in merge_loop p red removed fu sls' (Some (k, [v])) w1 end end)
     = if direct red removed then let* w1 := write_record p k v w in merge_loop p red removed fu sls' last w1
       else match last with None => merge_loop p red removed fu sls' (Some (k, [v])) w
          | Some (k0, vs) => if beqb k k0 then merge_loop p red removed fu sls' (Some (k0, vs ++ [v])) w
             else let* w1 := write_group p red removed k0 vs w in merge_loop p red removed fu sls' (Some (k, [v])) w1 end).
    { destruct red, removed; reflexivity. }
    rewrite N. clear N. destruct (direct red removed).
    + cbn [write_list fst snd]. destruct (write_record p k v w); cbn [sbind]; auto.
    + destruct last as [[k0 vs]|]; [|apply H]. destruct (beqb k k0); [apply H|]. rewrite write_list_app, write_group_list. destruct (write_list p _ w); cbn [sbind]; auto.
Qed.
Lemma chosen_nil red removed k : chosen red removed k [] = [].
Proof. unfold chosen. destruct removed; reflexivity. Qed.
Lemma direct_chosen red removed k vs : direct red removed = true -> chosen red removed k vs = vs.
Proof. destruct red, removed; try discriminate. intros _. unfold chosen. destruct vs; reflexivity. Qed.
Lemma written_direct red removed out : direct red removed = true -> written red removed out None = out.
Proof. intros D. induction out as [|[k v] out IH]; cbn [written]; [reflexivity|]. rewrite D, IH. reflexivity. Qed.
Lemma pair_in (x : bytes) (vs : list bytes) (r : krec) : In r (map (pair x) vs) -> fst r = x.
Proof. intros H. apply in_map_iff in H as (v & <- & _). reflexivity. Qed.
Lemma written_some red removed out : direct red removed = false -> ordered out -> forall k0 vs, Forall (fun r => kle (k0, []) r) out ->
  ordered (written red removed out (Some (k0, vs))) /\ Forall (fun r => kle (k0, []) r) (written red removed out (Some (k0, vs))) /\
  forall k, vals k (written red removed out (Some (k0, vs))) = chosen red removed k (if beqb k0 k then vs ++ vals k out else vals k out).
Proof.
  intros D. induction 1 as [|[k v] out S IH F]; intros k0 vs G; cbn [written].
  - split; [apply pair_ordered|]. split.
    + apply Forall_forall. intros r R. apply pair_in in R. unfold kle. cbn. rewrite R, bcmp_refl. discriminate.
    + intros k. rewrite vals_pair. change (vals k []) with (@nil bytes). rewrite app_nil_r. destruct (beqb k0 k) eqn:E; [apply beqb_eq in E; subst; reflexivity|symmetry; apply chosen_nil].
  - rewrite D. inversion G as [|? ? G1 G2]; subst. destruct (beqb k k0) eqn:E.
    + apply beqb_eq in E. subst k0. destruct (IH k (vs ++ [v]) G2) as (I1 & I2 & I3). split; [exact I1|]. split; [exact I2|]. intros x. rewrite I3. unfold vals at 3 4. rewrite at_key_cons. cbn [fst].
      destruct (beqb k x); [|reflexivity]. cbn [map snd]. rewrite <- app_assoc. reflexivity.
    + assert (NE : k <> k0) by (intros ->; rewrite beqb_refl in E; discriminate).
      destruct (IH k [v]) as (I1 & I2 & I3). { eapply Forall_impl; [|exact F]. intros r R. exact R. }
      assert (LT : blt k0 k). { unfold kle in G1. cbn in G1. destruct (blt_total k0 k) as [H|[H|H]]; [exact H|congruence|contradiction]. }
      split; [|split].
      * apply ordered_app; [apply pair_ordered|exact I1|]. intros x y X Y. apply pair_in in X. rewrite Forall_forall in I2. specialize (I2 y Y). unfold kle in *. cbn in *. rewrite X. intros Z. apply I2. eapply blt_trans; eassumption.
      * apply Forall_app. split; [apply Forall_forall; intros r R; apply pair_in in R; unfold kle; cbn; rewrite R, bcmp_refl; discriminate|].
        eapply Forall_impl; [|exact I2]. intros r R. unfold kle in *. cbn in *. intros Z. apply R. eapply blt_trans; eassumption.
      * intros x. rewrite vals_app, vals_pair, I3. destruct (beqb k0 x) eqn:Ex.
        -- apply beqb_eq in Ex. subst x. rewrite E. assert (VN : vals k0 out = []). { unfold vals. rewrite at_key_none; [reflexivity|]. intros r R Q. rewrite Forall_forall in F. specialize (F r R). unfold kle in F. cbn in F. rewrite Q in F. contradiction. }
           unfold vals at 2. rewrite at_key_cons. cbn [fst]. rewrite E. fold (vals k0 out). rewrite VN, chosen_nil, !app_nil_r. reflexivity.
        -- cbn [app]. f_equal. unfold vals at 3. rewrite at_key_cons. cbn [fst]. destruct (beqb k x); reflexivity.
Qed.
Lemma written_ok red removed out : ordered out -> ordered (written red removed out None) /\ forall k, vals k (written red removed out None) = chosen red removed k (vals k out).
Proof.
  intros O. destruct (direct red removed) eqn:D.
  - rewrite written_direct by exact D. split; [exact O|]. intros k. rewrite direct_chosen by exact D. reflexivity.
  - destruct O as [|[k v] out S F]; cbn [written]; [split; [constructor|]; intros k; symmetry; apply chosen_nil|]. rewrite D.
    destruct (written_some red removed out D S k [v]) as (I1 & _ & I3). { eapply Forall_impl; [|exact F]. intros r R. exact R. }
    split; [exact I1|]. intros x. rewrite I3. unfold vals at 3. rewrite at_key_cons. cbn [fst]. destruct (beqb k x); reflexivity.
Qed.

(** * Removals as values *)
Definition raw (e : option bytes) : bytes := match e with Some v => v | None => removing end.
Definition ev_rec (e : event) : krec := (fst e, raw (snd e)).
(** No value that is stored is the mark of a removal. *)
Definition plain (e : event) : Prop := snd e <> Some removing.
Lemma vals_raw k evs : vals k (map ev_rec evs) = map raw (evals k evs).
Proof.
  unfold evals, vals. induction evs as [|e evs IH]; [reflexivity|]. cbn [map filter]. rewrite at_key_cons. cbn [ev_rec fst]. destruct (beqb (fst e) k); cbn [map snd ev_rec]; [f_equal|]; exact IH.
Qed.
Lemma evals_in k evs x : In x (evals k evs) -> In (k, x) evs.
Proof. unfold evals. intros H. apply in_map_iff in H as ([y z] & <- & H). apply filter_In in H as [H E]. apply beqb_eq in E. cbn in *. subst. exact H. Qed.
Lemma reduce_live vs : Forall (fun e => e <> Some removing) vs -> forall acc, fold_left (fun acc v => if beqb v removing then [] else acc ++ [v]) (map raw vs) acc = fold_left (fun acc e => match e with None => [] | Some v => acc ++ [v] end) vs acc.
Proof.
  induction 1 as [|[v|] vs N F IH]; intros acc; [reflexivity| |]; cbn [map raw fold_left].
  - destruct (beqb v removing) eqn:E; [apply beqb_eq in E; congruence|]. apply IH.
  - rewrite beqb_refl. apply IH.
Qed.
Lemma live_all vs : Forall (fun e => e <> None) vs -> forall acc, fold_left (fun acc e => match e with None => [] | Some v => acc ++ [v] end) vs acc = acc ++ map raw vs.
Proof.
  induction 1 as [|[v|] vs N F IH]; intros acc; [cbn; rewrite app_nil_r; reflexivity| |contradiction]. cbn [map raw fold_left]. rewrite IH, <- app_assoc. reflexivity.
Qed.
Lemma chosen_result red removed evs k : Forall plain evs -> (removed = false -> Forall (fun e => snd e <> None) evs) ->
  chosen red removed k (vals k (map ev_rec evs)) = result red evs k.
Proof.
  intros P R. rewrite vals_raw. assert (PE : Forall (fun e => e <> Some removing) (evals k evs)).
  { apply Forall_forall. intros x X. apply evals_in in X. rewrite Forall_forall in P. apply (P (k, x) X). }
  unfold chosen, result. destruct removed.
  - unfold reduce_remove, live. rewrite (reduce_live _ PE). destruct (fold_left _ _ _); reflexivity.
  - unfold live. rewrite live_all; [cbn [app]; destruct (map raw _); reflexivity|]. specialize (R eq_refl). apply Forall_forall. intros x X. apply evals_in in X. rewrite Forall_forall in R. apply (R (k, x) X).
Qed.

(** * Writing a list of records *)
Definition data_size (l : list krec) : N := fold_right (fun r n => blen (fst r) + blen (snd r) + n) 0 l.
Lemma data_size_app a b : data_size (a ++ b) = data_size a + data_size b.
Proof. unfold data_size. induction a as [|r a IH]; [reflexivity|]. cbn [app fold_right]. rewrite IH. lia. Qed.
Lemma write_list_ok p (PO : sp_ok p) rs : forall l f past num eff, stored p f l -> past_ok p l past -> (forall i r, nth_error (l ++ rs) i = Some r -> rsize p i r < 2^31) ->
  exists f' past', write_list p rs (mkW f (length l) past num eff) = SOk (mkW f' (length (l ++ rs)) past' (num + length rs) (eff + data_size rs)) /\ stored p f' (l ++ rs) /\ past_ok p (l ++ rs) past'.
Proof.
  induction rs as [|r rs IH]; intros l f past num eff ST PA SZ.
  - exists f, past. rewrite !app_nil_r. cbn. rewrite Nat.add_0_r, N.add_0_r. auto.
  - cbn [write_list]. assert (RS : rsize p (length l) r < 2^31) by (apply SZ; rewrite nth_error_app2 by lia; rewrite Nat.sub_diag; reflexivity).
    destruct (write_ok p PO l r f past num eff ST PA RS) as (f1 & E1 & ST1 & PA1). rewrite E1. cbn [sbind].
    destruct (IH (l ++ [r]) f1 _ (S num) (eff + blen (fst r) + blen (snd r)) ST1 PA1) as (f2 & past2 & E2 & ST2 & PA2).
    { intros i x. rewrite <- app_assoc. apply SZ. }
    rewrite <- app_assoc in *. cbn [app] in *. replace (length (l ++ [r])) with (S (length l)) in E2 by (rewrite app_length; cbn; lia).
    exists f2, past2. split; [|auto]. rewrite E2. f_equal. f_equal; cbn [length data_size fold_right]; [lia|]. fold (data_size rs). lia.
Qed.
Lemma past_0 p : past_ok p [] (repeat 0 (maxl p)).
Proof. split; [apply repeat_length|]. intros lv L. cbn [length Nat.eqb]. apply nth_rep. exact L. Qed.
