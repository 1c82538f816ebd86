(** Facts about PolyModel.v. *)
From Coq Require Import List NArith ZArith Bool String Ascii Lia Arith.
Import ListNotations.
From Verif Require Import Bytes StatusModel SearchModel PathModel PolyModel.
Open Scope list_scope.
Open Scope nat_scope.

Lemma beqb_eq a b : beqb a b = true <-> a = b.
Proof. destruct (beqb_spec a b); split; intros; subst; congruence. Qed.
(** Names erased. *)
Lemma in_erase k ps a : In a (erase k ps) <-> In a ps /\ fst a <> k.
Proof. unfold erase. rewrite filter_In. rewrite negb_true_iff. destruct (beqb_spec (fst a) k); split; intros [H1 H2]; split; auto; congruence. Qed.
Lemma in_erase_all ks : forall ps a, In a (erase_all ks ps) <-> In a ps /\ ~ In (fst a) (map txt ks).
Proof.
  induction ks as [|k ks IH]; intros ps a; unfold erase_all in *; cbn [fold_left map In]; [tauto|]. rewrite IH, in_erase. split.
  - intros [[H1 H2] H3]. split; auto. intros [E|E]; auto.
  - intros [H1 H2]. repeat split; auto.
Qed.
Lemma search_erased k ps d : search_map (erase k ps) k d = d.
Proof. induction ps as [|[a v] r IH]; cbn; auto. destruct (beqb a k) eqn:E; cbn; auto. rewrite E. exact IH. Qed.
Lemma search_absent ps k d : ~ In k (map fst ps) -> search_map ps k d = d.
Proof. induction ps as [|[a v] r IH]; cbn; auto. intros H. destruct (beqb_spec a k); [exfalso; auto|]. apply IH. auto. Qed.
Lemma search_other ps k k' d : k <> k' -> search_map (erase k' ps) k d = search_map ps k d.
Proof.
  intros N. induction ps as [|[a v] r IH]; cbn; auto. destruct (beqb_spec a k') as [->|]; cbn.
  - destruct (beqb_spec k' k); [congruence|exact IH].
  - destruct (beqb a k); auto.
Qed.
Lemma search_others ks : forall ps k d, ~ In k (map txt ks) -> search_map (erase_all ks ps) k d = search_map ps k d.
Proof.
  induction ks as [|x ks IH]; intros ps k d H; unfold erase_all in *; cbn [fold_left map In] in *; auto. rewrite IH by tauto. apply search_other. intros ->. auto.
Qed.
Lemma search_filter f ps k d : f k = true -> search_map (filter (fun a => f (fst a)) ps) k d = search_map ps k d.
Proof.
  intros F. induction ps as [|[a v] r IH]; cbn; auto. destruct (f a) eqn:E; cbn; destruct (beqb_spec a k); subst; try congruence; auto.
Qed.

(** Paths. *)
Lemma rfind_none c b : ~ In c b -> rfind_char c b = None.
Proof. induction b as [|d b IH]; cbn; auto. intros H. rewrite IH by tauto. destruct (N.eqb_spec d c); [exfalso; auto|reflexivity]. Qed.
Lemma rfind_at c a b : ~ In c b -> rfind_char c (a ++ c :: b) = Some (length a).
Proof.
  intros H. induction a as [|d a IH]; cbn [app rfind_char length].
  - rewrite rfind_none by auto. rewrite N.eqb_refl. reflexivity.
  - rewrite IH. reflexivity.
Qed.
Lemma find_none c b : ~ In c b -> find_char c b = None.
Proof. induction b as [|d b IH]; cbn; auto. intros H. destruct (N.eqb_spec d c); [exfalso; auto|]. rewrite IH by tauto. reflexivity. Qed.
Lemma trim_id p x : x <> sep -> trim (p ++ [x]) = p ++ [x].
Proof.
  intros H. unfold trim. rewrite app_length. cbn [length]. rewrite Nat.add_1_r. cbn [trim_loop].
  replace (nth (length p) (p ++ [x]) 0%N) with x by (rewrite app_nth2, Nat.sub_diag by lia; reflexivity).
  destruct (N.eqb_spec x sep); [contradiction|]. rewrite andb_false_r. rewrite firstn_all2; [reflexivity|]. rewrite app_length. cbn. lia.
Qed.
Lemma single_neq (p : bytes) x y : x <> y -> beqb (p ++ [x]) [y] = false.
Proof.
  intros H. destruct (beqb_spec (p ++ [x]) [y]) as [E|]; auto. destruct p as [|a p]; cbn in E; [congruence|]. inversion E as [[E1 E2]]. destruct p; discriminate.
Qed.
(** The base name of a file in a directory. *)
Lemma base_plain (n : bytes) x : x <> sep -> ~ In sep n -> base_name (n ++ [x]) = n ++ [x].
Proof.
  intros Hx Hn. unfold base_name. rewrite trim_id by auto. rewrite single_neq by auto. rewrite rfind_none; auto. rewrite in_app_iff. cbn. intuition.
Qed.
Lemma base_in_dir (d n : bytes) x : x <> sep -> ~ In sep n -> base_name (d ++ sep :: n ++ [x]) = n ++ [x].
Proof.
  intros Hx Hn. unfold base_name. replace (d ++ sep :: n ++ [x]) with ((d ++ sep :: n) ++ [x]) by (rewrite <- app_assoc; reflexivity).
  rewrite trim_id by auto. rewrite single_neq by auto. rewrite <- app_assoc. cbn [app]. rewrite rfind_at by (rewrite in_app_iff; cbn; intuition).
  replace (S (length d)) with (length (d ++ [sep])) by (rewrite app_length; cbn; lia). replace (d ++ sep :: n ++ [x]) with ((d ++ [sep]) ++ n ++ [x]) by (rewrite <- app_assoc; reflexivity).
  rewrite skipn_app, Nat.sub_diag, skipn_all. reflexivity.
Qed.
Lemma ext_plain (n e : bytes) x : x <> sep -> x <> dot -> ~ In sep n -> ~ In sep e -> ~ In dot e -> extension (n ++ dot :: e ++ [x]) = e ++ [x].
Proof.
  intros Hx Hd Hn He Hde. unfold extension. replace (n ++ dot :: e ++ [x]) with ((n ++ dot :: e) ++ [x]) by (rewrite <- app_assoc; reflexivity).
  rewrite base_plain; auto; [|rewrite in_app_iff; cbn; intuition discriminate].
  rewrite <- app_assoc. cbn [app]. rewrite rfind_at by (rewrite in_app_iff; cbn; intuition).
  replace (S (length n)) with (length (n ++ [dot])) by (rewrite app_length; cbn; lia). replace (n ++ dot :: e ++ [x]) with ((n ++ [dot]) ++ e ++ [x]) by (rewrite <- app_assoc; reflexivity).
  rewrite skipn_app, Nat.sub_diag, skipn_all. reflexivity.
Qed.
Lemma lower_sep c : (lower c = sep <-> c = sep) /\ (lower c = dot <-> c = dot) /\ (lower c = 45%N <-> c = 45%N).
Proof. unfold lower, sep, dot. destruct ((65 <=? c) && (c <=? 90))%N eqn:E; [|tauto]. apply andb_true_iff in E. destruct E as [E1 E2]. apply N.leb_le in E1, E2. repeat split; intros; lia. Qed.
Lemma in_lower c s : (forall d, lower d = c <-> d = c) -> In c (lower_case s) <-> In c s.
Proof. intros H. unfold lower_case. rewrite in_map_iff. split; [intros (d & E & I); apply (proj1 (H d)) in E; subst d; exact I|intros I; exists c; split; [exact (proj2 (H c) eq_refl)|exact I]]. Qed.
(** The extension found by GuessClassNameFromPath. *)
Lemma guess_ext (pre name e : bytes) : (pre = [] \/ exists d, pre = d ++ [sep]) -> ~ In sep name -> e <> [] -> ~ In sep e -> ~ In dot e ->
  extension (lower_case (base_name (pre ++ name ++ dot :: e))) = lower_case e.
Proof.
  intros P Hn He Hs Hd. destruct (exists_last He) as (e' & x & ->). rewrite in_app_iff in Hs, Hd. cbn in Hs, Hd.
  assert (Hx : x <> sep) by (intros ->; auto). assert (Hy : x <> dot) by (intros ->; auto).
  assert (B : base_name (pre ++ name ++ dot :: e' ++ [x]) = name ++ dot :: e' ++ [x]).
  { replace (name ++ dot :: e' ++ [x]) with ((name ++ dot :: e') ++ [x]) by (rewrite <- app_assoc; reflexivity).
    assert (~ In sep (name ++ dot :: e')) by (rewrite in_app_iff; cbn; intuition discriminate).
    destruct P as [->|(d & ->)]; cbn [app]; [apply base_plain; auto|]. rewrite <- app_assoc. cbn [app]. apply base_in_dir; auto. }
  rewrite B. unfold lower_case. rewrite map_app. cbn [map]. rewrite map_app. cbn [map]. change (lower dot) with dot.
  assert (L1 : forall d, lower d = sep <-> d = sep) by (intros d; apply lower_sep). assert (L2 : forall d, lower d = dot <-> d = dot) by (intros d; apply lower_sep).
  apply ext_plain.
  - intros E. apply Hx, (proj1 (L1 x)); exact E.
  - intros E. apply Hy, (proj1 (L2 x)); exact E.
  - intros E. apply Hn. apply (proj1 (in_lower sep name L1)). exact E.
  - intros E. apply Hs. left. apply (proj1 (in_lower sep e' L1)). exact E.
  - intros E. apply Hd. left. apply (proj1 (in_lower dot e' L2)). exact E.
Qed.
