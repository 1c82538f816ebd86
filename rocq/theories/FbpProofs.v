(** Lemmas about the pool of free blocks. *)
From Coq Require Import Sorting.Sorted.
From Verif Require Import Bytes CodecModel CodecProofs FileModel FbpModel.
Open Scope N_scope.

Definition fblt (a b : fblock) : Prop := fb_lt a b = true.
Definition fbsorted (l : list fblock) : Prop := StronglySorted fblt l.
Definition fbp_ok (p : fbpool) : Prop :=
  fbsorted (fp_data p) /\ N.of_nat (length (fp_data p)) <= fp_cap p.

Ltac fbt := unfold fblt, fb_lt in *;
  repeat match goal with
  | H : context [fb_size ?a =? fb_size ?b] |- _ => destruct (N.eqb_spec (fb_size a) (fb_size b)); cbn [negb] in *
  | |- context [fb_size ?a =? fb_size ?b] => destruct (N.eqb_spec (fb_size a) (fb_size b)); cbn [negb] in *
  end; try lia.

Lemma fblt_trans a b c : fblt a b -> fblt b c -> fblt a c.
Proof. intros. fbt. Qed.
Lemma fblt_irrefl a : ~ fblt a a.
Proof. intros H. fbt. Qed.
Lemma fb_eq a b : fb_size a = fb_size b -> fb_off a = fb_off b -> a = b.
Proof. destruct a, b; cbn; intros; subst; reflexivity. Qed.
Lemma fblt_total a b : {fblt a b} + {a = b} + {fblt b a}.
Proof.
  destruct (fb_lt a b) eqn:E1; [left; left; exact E1|].
  destruct (fb_lt b a) eqn:E2; [right; exact E2|].
  left; right. apply fb_eq; fbt.
Qed.
Lemma fblt_size a b : fblt a b -> fb_size a <= fb_size b.
Proof. intros H. fbt. Qed.

Lemma set_insert_in b l x : In x (set_insert b l) <-> x = b \/ In x l.
Proof.
  induction l as [|a l IH]; cbn [set_insert In]; [intuition auto|].
  destruct (fb_lt b a) eqn:E1; [cbn [In]; intuition auto|].
  destruct (fb_lt a b) eqn:E2; cbn [In].
  - rewrite IH. intuition auto.
  - assert (a = b) by (destruct (fblt_total a b) as [[H|H]|H]; unfold fblt in *; congruence).
    subst. intuition auto.
Qed.

Lemma set_insert_sorted b l : fbsorted l -> fbsorted (set_insert b l).
Proof.
  intros H. induction H as [|a l Hs IH Hf]; cbn [set_insert]; [repeat constructor|].
  destruct (fb_lt b a) eqn:E1.
  - constructor; [constructor; assumption|]. constructor; [exact E1|].
    eapply Forall_impl; [|exact Hf]. intros y Hy. exact (fblt_trans _ _ _ E1 Hy).
  - destruct (fb_lt a b) eqn:E2; [|constructor; assumption].
    constructor; [exact IH|]. rewrite Forall_forall in *. intros y Hy. apply set_insert_in in Hy.
    destruct Hy as [->|Hy]; auto.
Qed.

Lemma set_insert_length b l : (length (set_insert b l) <= S (length l))%nat.
Proof.
  induction l as [|a l IH]; cbn [set_insert length]; [lia|].
  destruct (fb_lt b a); [cbn [length]; lia|]. destruct (fb_lt a b); cbn [length]; lia.
Qed.

Lemma set_insert_length_new b l : fbsorted l -> ~ In b l -> length (set_insert b l) = S (length l).
Proof.
  induction l as [|a l IH]; cbn [set_insert length]; [reflexivity|]. intros Hs Hn.
  destruct (fb_lt b a) eqn:E1; [reflexivity|]. destruct (fb_lt a b) eqn:E2; cbn [length].
  - rewrite IH; [reflexivity| |firstorder]. inversion Hs; assumption.
  - exfalso. apply Hn. left. destruct (fblt_total a b) as [[H|H]|H]; unfold fblt in *; congruence.
Qed.

Lemma sorted_app_inv l1 l2 : fbsorted (l1 ++ l2) -> fbsorted l1 /\ fbsorted l2 /\
  (forall a b, In a l1 -> In b l2 -> fblt a b).
Proof.
  induction l1 as [|a l1 IH]; cbn [app]; intros H.
  - repeat split; [constructor|exact H|intros a b []].
  - inversion H as [|? ? Hs Hf]; subst. destruct (IH Hs) as (H1 & H2 & H3).
    rewrite Forall_forall in Hf. repeat split; auto.
    + constructor; [exact H1|]. apply Forall_forall. intros x Hx. apply Hf, in_or_app; auto.
    + intros x y [->|Hx] Hy; [apply Hf, in_or_app; auto|auto].
Qed.

Lemma fbsorted_nodup l : fbsorted l -> NoDup l.
Proof.
  intros H. induction H as [|a l Hs IH Hf]; constructor; auto.
  intros Hin. rewrite Forall_forall in Hf. exact (fblt_irrefl a (Hf a Hin)).
Qed.

Lemma lower_take_spec key l b rest : fbsorted l -> lower_take key l = Some (b, rest) ->
  exists l1 l2, l = l1 ++ b :: l2 /\ rest = l1 ++ l2 /\ Forall (fun a => fblt a key) l1 /\ ~ fblt b key.
Proof.
  revert rest; induction l as [|a l IH]; cbn [lower_take]; intros rest Hs E; [discriminate|].
  destruct (fb_lt a key) eqn:El.
  - destruct (lower_take key l) as [[b' r']|]; [|discriminate]. injection E as -> <-.
    destruct (IH r') as (l1 & l2 & -> & -> & Hf & Hb); [inversion Hs; assumption|reflexivity|].
    exists (a :: l1), l2. repeat split; auto.
  - injection E as -> <-. exists [], l. repeat split; auto. unfold fblt. congruence.
Qed.

Lemma lower_take_none key l : lower_take key l = None -> Forall (fun a => fblt a key) l.
Proof.
  induction l as [|a l IH]; cbn [lower_take]; intros E; [constructor|].
  destruct (fb_lt a key) eqn:El; [|discriminate].
  destruct (lower_take key l) as [[? ?]|]; [discriminate|]. constructor; auto.
Qed.

Lemma fbp_insert_ok p b p' : fbp_ok p -> fbp_insert p b = Some p' -> fbp_ok p' /\ fp_cap p' = fp_cap p.
Proof.
  intros [Hs Hl] E. unfold fbp_insert in E. destruct (N.leb_spec (fp_cap p) (N.of_nat (length (fp_data p)))).
  - destruct (fp_data p) as [|a l] eqn:Ed; [discriminate|].
    destruct (N.leb_spec (fb_size b) (fb_size a)); injection E as <-.
    + split; [|reflexivity]. unfold fbp_ok. rewrite Ed. split; assumption.
    + split; [|reflexivity]. unfold fbp_ok. cbn [fp_data fp_cap]. split.
      * apply set_insert_sorted. inversion Hs; assumption.
      * assert (L := set_insert_length b l). cbn [length] in *. lia.
  - injection E as <-. split; [|reflexivity]. unfold fbp_ok. cbn [fp_data fp_cap].
    split; [apply set_insert_sorted; exact Hs|]. assert (L := set_insert_length b (fp_data p)). lia.
Qed.

(** What an insertion keeps and drops. *)
Lemma fbp_insert_spec p b p' : fbp_ok p -> fbp_insert p b = Some p' ->
  (forall x, In x (fp_data p') -> x = b \/ In x (fp_data p)) /\
  (forall x, (x = b \/ In x (fp_data p)) -> ~ In x (fp_data p') ->
     length (fp_data p) = N.to_nat (fp_cap p) /\ forall y, In y (fp_data p') -> fb_size x <= fb_size y).
Proof.
  intros [Hs Hl] E. unfold fbp_insert in E. destruct (N.leb_spec (fp_cap p) (N.of_nat (length (fp_data p)))).
  - destruct (fp_data p) as [|a l] eqn:Ed; [discriminate|].
    assert (Hf : forall x, In x l -> fblt a x) by (inversion Hs as [|? ? ? Hf]; subst; apply Forall_forall; exact Hf).
    destruct (N.leb_spec (fb_size b) (fb_size a)) as [Hle|Hlt]; injection E as <-; cbn [fp_data]; rewrite ?Ed.
    + split; [auto|]. intros x [->|Hx] Hn; [|contradiction].
      split; [cbn [length] in *; lia|]. intros y [<-|Hy]; [exact Hle|].
      assert (S := fblt_size _ _ (Hf y Hy)). lia.
    + split; [intros x Hx; apply set_insert_in in Hx; cbn [In]; tauto|].
      intros x Hx Hn. rewrite set_insert_in in Hn.
      assert (x = a) as -> by (cbn [In] in Hx; intuition congruence).
      split; [cbn [length] in *; lia|]. intros y Hy. apply set_insert_in in Hy.
      destruct Hy as [->|Hy]; [lia|]. exact (fblt_size _ _ (Hf y Hy)).
  - injection E as <-. cbn [fp_data]. split.
    + intros x Hx. apply set_insert_in in Hx. exact Hx.
    + intros x Hx Hn. rewrite set_insert_in in Hn. contradiction.
Qed.

Lemma fbp_fetch_ok p n b p' : fbp_ok p -> fbp_fetch p n = Some (b, p') -> fbp_ok p' /\ fp_cap p' = fp_cap p.
Proof.
  intros [Hs Hl] E. unfold fbp_fetch in E.
  destruct (lower_take _ _) as [[b0 rest]|] eqn:El; [|discriminate]. injection E as -> <-.
  destruct (lower_take_spec _ _ _ _ Hs El) as (l1 & l2 & E1 & E2 & _ & _). rewrite E1 in *. subst rest.
  split; [|reflexivity]. unfold fbp_ok. cbn [fp_data fp_cap]. split.
  - clear -Hs. induction l1 as [|a l1 IH]; cbn [app] in *; [inversion Hs; assumption|].
    inversion Hs as [|? ? Hs' Hf]; subst. constructor; [exact (IH Hs')|].
    rewrite Forall_forall in *. intros x Hx. apply Hf. apply in_app_or in Hx. apply in_or_app; cbn [In]; tauto.
  - rewrite app_length in *. cbn [length] in *. lia.
Qed.

Lemma fbp_fetch_spec p n b p' : fbp_ok p -> fbp_fetch p n = Some (b, p') ->
  In b (fp_data p) /\ n <= fb_size b /\ ~ In b (fp_data p') /\
  (forall x, In x (fp_data p) <-> x = b \/ In x (fp_data p')) /\
  (forall x, In x (fp_data p) -> n <= fb_size x -> fb_size b <= fb_size x).
Proof.
  intros [Hs Hl] E. unfold fbp_fetch in E.
  destruct (lower_take _ _) as [[b0 rest]|] eqn:El; [|discriminate]. injection E as -> <-.
  destruct (lower_take_spec _ _ _ _ Hs El) as (l1 & l2 & E1 & E2 & Hf & Hb). cbn [fp_data].
  rewrite E1 in *. subst rest. assert (Hnd := fbsorted_nodup _ Hs).
  destruct (sorted_app_inv _ _ Hs) as (_ & Hs2 & Hx12).
  repeat split.
  - apply in_or_app; cbn [In]; auto.
  - unfold fblt, fb_lt in Hb. cbn [fb_size fb_off] in Hb.
    destruct (N.eqb_spec (fb_size b) n); cbn [negb] in Hb; [lia|].
    destruct (N.ltb_spec (fb_size b) n); [congruence|lia].
  - apply NoDup_remove_2 in Hnd. exact Hnd.
  - intros Hx. apply in_app_or in Hx. cbn [In] in Hx. rewrite in_app_iff. intuition auto.
  - intros [->|Hx]; apply in_or_app; cbn [In]; [auto|]. apply in_app_or in Hx. tauto.
  - intros x Hx Hn. apply in_app_or in Hx. destruct Hx as [Hx|[->|Hx]]; [|lia|].
    + rewrite Forall_forall in Hf. specialize (Hf x Hx). unfold fblt, fb_lt in Hf. cbn [fb_size fb_off] in Hf.
      destruct (N.eqb_spec (fb_size x) n); cbn [negb] in Hf; lia.
    + inversion Hs2 as [|? ? _ Hf2]; subst. rewrite Forall_forall in Hf2. exact (fblt_size _ _ (Hf2 x Hx)).
Qed.

Lemma fbp_fetch_none p n : fbp_fetch p n = None -> forall x, In x (fp_data p) -> fb_size x < n.
Proof.
  unfold fbp_fetch. destruct (lower_take _ _) as [[? ?]|] eqn:El; [discriminate|]. intros _ x Hx.
  apply lower_take_none in El. rewrite Forall_forall in El. specialize (El x Hx).
  unfold fblt, fb_lt in El. cbn [fb_size fb_off] in El.
  destruct (N.eqb_spec (fb_size x) n); cbn [negb] in El; lia.
Qed.

Lemma fbp_insert_defined p b : fbp_ok p -> 1 <= fp_cap p -> exists p', fbp_insert p b = Some p'.
Proof.
  intros [_ Hl] Hc. unfold fbp_insert. destruct (N.leb_spec (fp_cap p) (N.of_nat (length (fp_data p)))) as [H|H].
  - destruct (fp_data p) as [|a l]; [cbn [length] in H; lia|]. destruct (fb_size b <=? fb_size a); eauto.
  - eauto.
Qed.

Lemma skipn_sorted n l : fbsorted l -> fbsorted (skipn n l).
Proof. intros H. rewrite <- (firstn_skipn n l) in H. apply sorted_app_inv in H. apply H. Qed.

Lemma fbp_set_capacity_ok p cap : fbp_ok p -> fbp_ok (fbp_set_capacity p cap).
Proof.
  intros [Hs Hl]. unfold fbp_ok, fbp_set_capacity. cbn [fp_data fp_cap].
  split; [apply skipn_sorted; exact Hs|]. rewrite skipn_length. lia.
Qed.

(** Histories of operations. *)
Inductive fop := FInsert (b : fblock) | FFetch (n : N) | FCapacity (cap : N).
Fixpoint frun (p : fbpool) (ops : list fop) : option (fbpool * list fblock) :=
  match ops with
  | [] => Some (p, [])
  | FInsert b :: ops' => match fbp_insert p b with Some p' => frun p' ops' | None => None end
  | FFetch n :: ops' =>
      match fbp_fetch p n with
      | Some (b, p') => match frun p' ops' with Some (q, out) => Some (q, b :: out) | None => None end
      | None => frun p ops'
      end
  | FCapacity cap :: ops' => frun (fbp_set_capacity p cap) ops'
  end.
Definition fb_dec (a b : fblock) : {a = b} + {a <> b}.
Proof. decide equality; apply N.eq_dec. Defined.
Definition inserted (ops : list fop) : list fblock :=
  flat_map (fun o => match o with FInsert b => [b] | _ => [] end) ops.

Lemma sorted_count l x : fbsorted l -> (count_occ fb_dec l x <= 1)%nat.
Proof. intros H. apply fbsorted_nodup in H. apply NoDup_count_occ; assumption. Qed.

Lemma frun_count ops : forall p q out x, fbp_ok p -> frun p ops = Some (q, out) ->
  (count_occ fb_dec out x + count_occ fb_dec (fp_data q) x
   <= count_occ fb_dec (inserted ops) x + count_occ fb_dec (fp_data p) x)%nat /\ fbp_ok q.
Proof.
  induction ops as [|o ops IH]; intros p q out x Hp E; cbn [frun] in E.
  - injection E as <- <-. cbn. split; [lia|assumption].
  - destruct o as [b|n|cap].
    + destruct (fbp_insert p b) as [p'|] eqn:Ei; [|discriminate].
      destruct (fbp_insert_ok _ _ _ Hp Ei) as [Hp' _]. destruct (IH p' q out x Hp' E) as [IH1 IH2].
      split; [|exact IH2].
      change (inserted (FInsert b :: ops)) with (b :: inserted ops). cbn [count_occ].
      enough (count_occ fb_dec (fp_data p') x <= (if fb_dec b x then 1 else 0) + count_occ fb_dec (fp_data p) x)%nat
        by (destruct (fb_dec b x); lia).
      destruct (fbp_insert_spec _ _ _ Hp Ei) as [S1 _].
      assert (C := sorted_count _ x (proj1 Hp')).
      destruct (in_dec fb_dec x (fp_data p')) as [Hi|Hi].
      * destruct (S1 x Hi) as [->|Hx]; [destruct (fb_dec b b); [lia|congruence]|].
        apply (count_occ_In fb_dec) in Hx. lia.
      * apply (count_occ_not_In fb_dec) in Hi. lia.
    + change (inserted (FFetch n :: ops)) with (inserted ops).
      destruct (fbp_fetch p n) as [[b p']|] eqn:Ef; [|auto].
      destruct (fbp_fetch_ok _ _ _ _ Hp Ef) as [Hp' _].
      destruct (frun p' ops) as [[q' out']|] eqn:Er; [|discriminate]. injection E as <- <-.
      destruct (IH p' q' out' x Hp' Er) as [IH1 IH2]. split; [|exact IH2]. cbn [count_occ].
      destruct (fbp_fetch_spec _ _ _ _ Hp Ef) as (S1 & _ & S3 & S4 & _).
      destruct (fb_dec b x) as [->|Hne].
      * apply (count_occ_not_In fb_dec) in S3. apply (count_occ_In fb_dec) in S1. lia.
      * assert (C := sorted_count _ x (proj1 Hp')).
        destruct (in_dec fb_dec x (fp_data p')) as [Hi|Hi].
        -- assert (Hx : In x (fp_data p)) by (apply S4; auto). apply (count_occ_In fb_dec) in Hx. lia.
        -- apply (count_occ_not_In fb_dec) in Hi. lia.
    + change (inserted (FCapacity cap :: ops)) with (inserted ops).
      assert (Hp' := fbp_set_capacity_ok p cap Hp). destruct (IH _ q out x Hp' E) as [IH1 IH2].
      split; [|exact IH2]. enough (count_occ fb_dec (fp_data (fbp_set_capacity p cap)) x <= count_occ fb_dec (fp_data p) x)%nat by lia.
      unfold fbp_set_capacity. cbn [fp_data].
      generalize (length (fp_data p) - N.to_nat cap)%nat; intros m.
      assert (Ec := count_occ_app fb_dec (firstn m (fp_data p)) (skipn m (fp_data p)) x).
      rewrite firstn_skipn in Ec. lia.
Qed.

(** * Serialization *)

Definition fb_ok (width : nat) (apow : N) (b : fblock) : Prop :=
  1 <= fb_size b /\ fb_size b < 2 ^ 32 /\ fb_off b mod 2 ^ apow = 0 /\ fb_off b < 256 ^ N.of_nat width * 2 ^ apow.

Lemma fb_bytes_length width apow b : length (fb_bytes width apow b) = (width + 4)%nat.
Proof. unfold fb_bytes. rewrite app_length, !write_fix_length. lia. Qed.

Lemma flat_fb_length width apow l : length (flat_map (fb_bytes width apow) l) = (length l * (width + 4))%nat.
Proof. induction l as [|b l IH]; cbn [flat_map length]; [reflexivity|]. rewrite app_length, fb_bytes_length, IH. lia. Qed.

Lemma firstn_len_app' {A} (n : nat) (a b : list A) : n = length a -> firstn n (a ++ b) = a.
Proof. intros ->. rewrite firstn_app, Nat.sub_diag, firstn_O, app_nil_r. apply firstn_all. Qed.
Lemma skipn_len_app' {A} (n : nat) (a b : list A) : n = length a -> skipn n (a ++ b) = b.
Proof. intros ->. rewrite skipn_app, Nat.sub_diag, skipn_all. reflexivity. Qed.

Lemma read_fix_zero n : read_fix_bytes (repeat 0 n) = 0.
Proof.
  unfold read_fix_bytes. assert (G : forall acc, acc = 0 -> fold_left (fun acc b => acc * 256 + b) (repeat 0 n) acc = 0).
  { induction n as [|n IH]; intros acc ->; [reflexivity|]. cbn [repeat fold_left]. apply IH. reflexivity. }
  apply G. reflexivity.
Qed.

Lemma repeat_firstn {A} (x : A) n m : firstn n (repeat x m) = repeat x (Nat.min n m).
Proof.
  revert m; induction n as [|n IH]; intros [|m]; try reflexivity. cbn [repeat firstn Nat.min]. rewrite IH. reflexivity.
Qed.
Lemma repeat_skipn {A} (x : A) n m : skipn n (repeat x m) = repeat x (m - n).
Proof.
  revert m; induction n as [|n IH]; intros [|m]; try reflexivity. cbn [repeat skipn Nat.sub]. apply IH.
Qed.

Lemma fbp_load_content width apow l : Forall (fb_ok width apow) l ->
  forall n z acc, (length l <= n)%nat ->
  fbp_load n width apow (flat_map (fb_bytes width apow) l ++ repeat 0 z) acc
  = fold_left (fun a b => set_insert b a) l acc.
Proof.
  induction l as [|b l IH]; intros Hf n z acc Hn.
  - cbn [flat_map app fold_left]. destruct n as [|n]; [reflexivity|]. cbn [fbp_load].
    rewrite repeat_skipn, !repeat_firstn, !read_fix_zero. reflexivity.
  - inversion Hf as [|? ? Hb Hf']; subst. cbn [length] in Hn. destruct n as [|n]; [lia|].
    assert (Eb : flat_map (fb_bytes width apow) (b :: l) ++ repeat 0 z
      = write_fix width (N.shiftr (fb_off b) apow) ++ write_fix 4 (fb_size b)
        ++ (flat_map (fb_bytes width apow) l ++ repeat 0 z))
      by (cbn [flat_map]; unfold fb_bytes at 1; rewrite <- !app_assoc; reflexivity).
    rewrite Eb. cbn [fold_left fbp_load].
    rewrite (firstn_len_app' width) by (rewrite write_fix_length; reflexivity).
    rewrite (skipn_len_app' width) by (rewrite write_fix_length; reflexivity).
    rewrite (firstn_len_app' 4) by (rewrite write_fix_length; reflexivity).
    rewrite (skipn_len_app' 4) by (rewrite write_fix_length; reflexivity).
    rewrite !read_write_fix_bytes. destruct Hb as (Hb1 & Hb2 & Hb3 & Hb4).
    change (256 ^ N.of_nat 4) with (2 ^ 32). rewrite (N.mod_small (fb_size b)) by assumption.
    destruct (N.ltb_spec (fb_size b) 1); [lia|].
    assert (Ho : N.shiftl (N.shiftr (fb_off b) apow mod 256 ^ N.of_nat width) apow = fb_off b).
    { rewrite N.shiftr_div_pow2, N.shiftl_mul_pow2.
      assert (Hz : 2 ^ apow <> 0) by (apply N.pow_nonzero; discriminate).
      rewrite N.mod_small by (apply N.div_lt_upper_bound; [exact Hz|lia]).
      assert (E := N.div_mod (fb_off b) (2 ^ apow) Hz). rewrite Hb3 in E. lia. }
    rewrite Ho. replace (mkfb (fb_size b) (fb_off b)) with b by (destruct b; reflexivity).
    apply IH; [assumption|lia].
Qed.

Lemma fold_insert_in l : forall acc x, In x (fold_left (fun a b => set_insert b a) l acc) <-> In x l \/ In x acc.
Proof.
  induction l as [|b l IH]; intros acc x; cbn [fold_left In]; [tauto|].
  rewrite IH, set_insert_in. intuition auto.
Qed.
Lemma fold_insert_sorted l : forall acc, fbsorted acc -> fbsorted (fold_left (fun a b => set_insert b a) l acc).
Proof. induction l as [|b l IH]; intros acc H; cbn [fold_left]; [assumption|]. apply IH, set_insert_sorted, H. Qed.

Lemma sorted_ext l1 : forall l2, fbsorted l1 -> fbsorted l2 -> (forall x, In x l1 <-> In x l2) -> l1 = l2.
Proof.
  induction l1 as [|a l1 IH]; intros [|b l2] H1 H2 He; auto.
  - exfalso. apply (proj2 (He b)); left; reflexivity.
  - exfalso. apply (proj1 (He a)); left; reflexivity.
  - inversion H1 as [|? ? H1s H1f]; inversion H2 as [|? ? H2s H2f]; subst.
    rewrite Forall_forall in H1f, H2f.
    assert (a = b).
    { destruct (proj1 (He a) (or_introl eq_refl)) as [E|Ha]; [auto|].
      destruct (proj2 (He b) (or_introl eq_refl)) as [E|Hb]; [auto|].
      exfalso. exact (fblt_irrefl a (fblt_trans _ _ _ (H1f b Hb) (H2f a Ha))). }
    subst b. f_equal. apply IH; auto. intros x. split; intros Hx.
    + destruct (proj1 (He x) (or_intror Hx)) as [<-|Hx2]; [|exact Hx2]. destruct (fblt_irrefl _ (H1f _ Hx)).
    + destruct (proj2 (He x) (or_intror Hx)) as [<-|Hx2]; [|exact Hx2]. destruct (fblt_irrefl _ (H2f _ Hx)).
Qed.

(** Loading what was saved keeps the largest blocks that fit. *)
Lemma fbp_load_save p q width apow size :
  fbp_ok p -> Forall (fb_ok width apow) (fp_data p) ->
  let n := N.to_nat (size / (N.of_nat width + 4)) in
  (Nat.min n (length (fp_data p)) <= N.to_nat (fp_cap q))%nat ->
  fp_data (fbp_deserialize q width apow (fbp_serialize p width apow size))
  = skipn (length (fp_data p) - n) (fp_data p).
Proof.
  intros [Hs Hl] Hf n Hcap. unfold fbp_deserialize, fbp_serialize. cbn [fp_data]. fold n.
  set (l := firstn n (rev (fp_data p))).
  assert (Hlen : length l = Nat.min n (length (fp_data p))) by (unfold l; rewrite firstn_length, rev_length; reflexivity).
  set (u := N.of_nat width + 4) in *.
  assert (Hu : u <> 0) by (unfold u; lia).
  assert (Hcl : blen (flat_map (fb_bytes width apow) l) = N.of_nat (length l) * u)
    by (unfold blen; rewrite flat_fb_length; unfold u; lia).
  assert (Hsz : N.of_nat n * u <= size).
  { unfold n. rewrite N2Nat.id. assert (D := N.mul_div_le size u Hu). lia. }
  assert (Hfit : N.of_nat (length l) * u <= size).
  { assert (N.of_nat (length l) <= N.of_nat n) by lia.
    assert (M := N.mul_le_mono_r (N.of_nat (length l)) (N.of_nat n) u H). lia. }
  assert (Htot : blen (flat_map (fb_bytes width apow) l ++ repeat 0 (N.to_nat (size - blen (flat_map (fb_bytes width apow) l)))) = size).
  { rewrite blen_app. unfold blen at 2. rewrite repeat_length. lia. }
  rewrite Htot.
  assert (Hin : forall x, In x l <-> In x (skipn (length (fp_data p) - n) (fp_data p))).
  { intros x. unfold l. rewrite firstn_rev, <- in_rev. reflexivity. }
  rewrite fbp_load_content.
  - apply sorted_ext.
    + apply fold_insert_sorted. constructor.
    + apply skipn_sorted. exact Hs.
    + intros x. rewrite fold_insert_in, Hin. cbn [In]. tauto.
  - apply Forall_forall. intros x Hx. rewrite Hin in Hx.
    rewrite Forall_forall in Hf. apply Hf.
    rewrite <- (firstn_skipn (length (fp_data p) - n) (fp_data p)). apply in_or_app; auto.
  - rewrite Hlen. fold n in Hcap. unfold n in *. rewrite N2Nat.inj_min. lia.
Qed.
