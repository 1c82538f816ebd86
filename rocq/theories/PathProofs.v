(** Proofs about splitting strings and file paths. *)
From Coq Require Import List NArith Bool Arith Lia.
Import ListNotations.
From Verif Require Import Bytes PathModel PathSpec.
Local Open Scope nat_scope.

(* ---- splitting ---- *)
Lemma parts_nonnil c s : parts c s <> [].
Proof. destruct s as [|d s]; cbn; [discriminate|]. destruct (d =? c)%N; [discriminate|]. destruct (parts c s); discriminate. Qed.
Lemma parts_app c a b : parts c (a ++ c :: b) = parts c a ++ parts c b.
Proof.
  induction a as [|d a IH]; cbn [app parts].
  - rewrite N.eqb_refl. reflexivity.
  - rewrite IH. destruct (d =? c)%N; [reflexivity|].
    destruct (parts c a) eqn:E; [now apply parts_nonnil in E|]. reflexivity.
Qed.
Lemma parts_plain c a : ~ In c a -> parts c a = [a].
Proof.
  induction a as [|d a IH]; intros H; cbn [parts]; auto.
  destruct (N.eqb_spec d c) as [->|]; [exfalso; apply H; now left|].
  rewrite IH; auto. intros Hi; apply H; now right.
Qed.
Lemma find_char_spec c s :
  match find_char c s with
  | Some i => s = firstn i s ++ c :: skipn (S i) s /\ ~ In c (firstn i s) /\ length (firstn i s) = i
  | None => ~ In c s
  end.
Proof.
  induction s as [|d s IH]; cbn [find_char]; auto.
  destruct (N.eqb_spec d c) as [->|Hne]; cbn.
  - repeat split; auto.
  - destruct (find_char c s) as [i|]; cbn.
    + destruct IH as (E & Hn & Hl). repeat split; [|intros [H|H]; auto|now rewrite Hl].
      cbn in E. congruence.
    + intros [H|H]; auto.
Qed.
Lemma split_loop_parts c skip : forall fuel s, length s <= fuel -> split_loop fuel c skip s = flat_map (seg skip) (parts c s).
Proof.
  induction fuel as [|f IH]; intros s Hl; cbn [split_loop].
  - destruct s; [|cbn in Hl; lia]. cbn. now rewrite app_nil_r.
  - destruct s as [|d s]; [cbn; now rewrite app_nil_r|].
    pose proof (find_char_spec c (d :: s)) as H. destruct (find_char c (d :: s)) as [i|].
    + destruct H as (E & Hn & Hi). rewrite E at 3. rewrite parts_app, (parts_plain _ _ Hn), flat_map_app.
      cbn [flat_map]. rewrite app_nil_r. f_equal. rewrite IH; auto.
      rewrite skipn_length. cbn in *. lia.
    + rewrite (parts_plain _ _ H). cbn [flat_map]. now rewrite app_nil_r.
Qed.
Lemma str_split_all c s : str_split c false s = parts c s.
Proof.
  unfold str_split. rewrite split_loop_parts by auto. induction (parts c s) as [|p l IH]; cbn; auto. now rewrite IH.
Qed.
Lemma str_split_skip c s : str_split c true s = filter nonempty (parts c s).
Proof.
  unfold str_split. rewrite split_loop_parts by auto. induction (parts c s) as [|p l IH]; [reflexivity|].
  cbn [flat_map filter]. rewrite IH. destruct p; reflexivity.
Qed.
Lemma parts_clean c s : Forall (fun p => ~ In c p) (parts c s).
Proof.
  induction s as [|d s IH]; cbn; [repeat constructor; auto|].
  destruct (N.eqb_spec d c); [constructor; auto|].
  destruct (parts c s) as [|p l]; [repeat constructor; intros [H|[]]; auto|].
  inversion IH; subst. constructor; auto. intros [H|H]; auto.
Qed.

(* ---- components ---- *)
Lemma comps_app a b : comps (a ++ sep :: b) = comps a ++ comps b.
Proof. unfold comps. now rewrite parts_app, filter_app. Qed.
Lemma comps_nil : comps [] = [].
Proof. reflexivity. Qed.
Lemma comps_plain e : plain e -> comps e = [e].
Proof. intros [H1 H2]. unfold comps. rewrite (parts_plain _ _ H2). destruct e; [congruence|reflexivity]. Qed.
Lemma comps_all_plain p : Forall plain (comps p).
Proof.
  unfold comps. pose proof (parts_clean sep p) as H. rewrite Forall_forall in *.
  intros e He. apply filter_In in He as [He Hn]. split; auto. intros ->. discriminate.
Qed.
Lemma comps_join l : Forall plain l -> comps (join_elems l) = l.
Proof.
  induction 1 as [|e l He Hl IH]; auto. destruct l as [|e' l]; [now apply comps_plain|].
  change (join_elems (e :: e' :: l)) with (e ++ sep :: join_elems (e' :: l)).
  rewrite comps_app, (comps_plain _ He), IH. reflexivity.
Qed.
Lemma comps_sep p : comps (sep :: p) = comps p.
Proof. change (sep :: p) with ([] ++ sep :: p). now rewrite comps_app. Qed.
Lemma comps_sep_end p : comps (p ++ [sep]) = comps p.
Proof. rewrite comps_app, comps_nil. apply app_nil_r. Qed.
Lemma join_head l : Forall plain l -> is_absolute (join_elems l) = false.
Proof.
  intros H. destruct H as [|e l [H1 H2] _]; auto.
  assert (Hh : forall r, is_absolute (e ++ r) = false).
  { intros r. destruct e as [|d e]; [congruence|]. cbn. destruct (N.eqb_spec d sep); auto. subst. exfalso. apply H2. now left. }
  destruct l as [|e' l]; [|apply Hh]. cbn. rewrite <- (app_nil_r e). apply Hh.
Qed.
Lemma join_nil l : Forall plain l -> join_elems l = [] -> l = [].
Proof.
  intros H E. destruct H as [|e l [H1 H2] _]; auto. destruct e; [congruence|]. destruct l; discriminate.
Qed.

(* ---- walking a path ---- *)
Lemma step_eq dir e : step dir e = if beqb e this_dir then dir else if beqb e up_dir then tl dir else e :: dir.
Proof. reflexivity. Qed.
(** Normal stacks: names above a run of ".."; an absolute one has no "..". *)
Inductive normal (absolute : bool) : list bytes -> Prop :=
| norm_up n : (absolute = true -> n = 0) -> normal absolute (repeat up_dir n)
| norm_name e out : name e -> normal absolute out -> normal absolute (e :: out).
Lemma beqb_neq a b : a <> b -> beqb a b = false.
Proof. intros H. destruct (beqb a b) eqn:E; auto. now apply beqb_eq in E. Qed.
Lemma norm_elem_normal ab out e : plain e -> normal ab out -> normal ab (norm_elem ab out e).
Proof.
  intros He Hn. unfold norm_elem. destruct (beqb e this_dir) eqn:E1; auto. destruct (beqb e up_dir) eqn:E2.
  - destruct Hn as [n Hz|x out Hx Hn].
    + destruct n as [|n]; cbn [repeat].
      * destruct ab; [apply (norm_up true 0); auto|apply (norm_up false 1); discriminate].
      * change (beqb up_dir up_dir) with true. cbn iota. apply (norm_up ab (S (S n))). intros H; specialize (Hz H). lia.
    + destruct Hx as (_ & _ & Hx). rewrite (beqb_neq _ up_dir Hx). exact Hn.
  - apply norm_name; auto. repeat split; try apply He; intros ->; discriminate.
Qed.
Lemma norm_fold_normal ab l : Forall plain l -> forall out, normal ab out -> normal ab (fold_left (norm_elem ab) l out).
Proof. induction 1; intros out Ho; cbn; auto. apply IHForall. now apply norm_elem_normal. Qed.
Lemma normal_nil ab : normal ab [].
Proof. apply (norm_up ab 0). auto. Qed.
Lemma normal_plain ab out : normal ab out -> Forall plain out.
Proof.
  induction 1 as [n _|e out He _ IH]; [|constructor; auto; apply He].
  apply Forall_forall. intros e He. apply repeat_spec in He as ->. split; [discriminate|]. intros [H|[H|[]]]; discriminate.
Qed.
Lemma fold_left_rev {A B} (f : A -> B -> A) l a : fold_left f (rev l) a = fold_right (fun x acc => f acc x) a l.
Proof. rewrite <- fold_left_rev_right. now rewrite rev_involutive. Qed.
(** Normalizing a normal list again changes nothing. *)
Lemma norm_again ab out : normal ab out -> fold_left (norm_elem ab) (rev out) [] = out.
Proof.
  intros H. rewrite fold_left_rev. induction H as [n Hz|e out He H IH]; cbn [fold_right].
  - induction n as [|n IH]; auto. cbn [repeat fold_right]. rewrite IH by (intros E; specialize (Hz E); lia).
    unfold norm_elem. change (beqb up_dir this_dir) with false. change (beqb up_dir up_dir) with true. cbn iota.
    destruct n; cbn; [|reflexivity]. destruct ab; auto. specialize (Hz eq_refl). lia.
  - rewrite IH. destruct He as (_ & H1 & H2). unfold norm_elem. now rewrite (beqb_neq _ this_dir H1), (beqb_neq _ up_dir H2).
Qed.
(** Each step of normalizing keeps where the path leads. *)
Lemma norm_elem_walk ab out e dir : normal ab out -> plain e -> (ab = true -> dir = []) ->
  fold_left step (rev (norm_elem ab out e)) dir = step (fold_left step (rev out) dir) e.
Proof.
  intros Hn He Hd. unfold norm_elem. rewrite (step_eq _ e). destruct (beqb e this_dir) eqn:E1; auto.
  destruct (beqb e up_dir) eqn:E2; [|cbn [rev]; rewrite fold_left_app; cbn [fold_left]; rewrite step_eq; now rewrite E1, E2].
  destruct Hn as [n Hz|x out Hx Hn].
  - destruct n as [|n]; cbn [repeat].
    + destruct ab; [|reflexivity]. rewrite (Hd eq_refl). reflexivity.
    + change (beqb up_dir up_dir) with true. cbn iota. cbn [rev]. rewrite !fold_left_app. reflexivity.
  - destruct Hx as (_ & H1 & H2). rewrite (beqb_neq _ up_dir H2). cbn [rev]. rewrite fold_left_app. cbn [fold_left].
    rewrite (step_eq _ x). now rewrite (beqb_neq _ this_dir H1), (beqb_neq _ up_dir H2).
Qed.
Lemma norm_fold_walk ab l dir : (ab = true -> dir = []) -> Forall plain l -> forall out, normal ab out ->
  fold_left step (rev (fold_left (norm_elem ab) l out)) dir = fold_left step l (fold_left step (rev out) dir).
Proof.
  intros Hd. induction 1 as [|e l He Hl IH]; intros out Ho; cbn; auto.
  rewrite IH by (now apply norm_elem_normal). f_equal. now apply norm_elem_walk.
Qed.

(* ---- NormalizePath ---- *)
Definition stack (p : bytes) : list bytes := fold_left (norm_elem (is_absolute p)) (comps p) [].
Lemma stack_normal p : normal (is_absolute p) (stack p).
Proof. apply norm_fold_normal; [apply comps_all_plain|apply normal_nil]. Qed.
Lemma normalize_stack p : normalize_path p = (if is_absolute p then [sep] else []) ++ join_elems (rev (stack p)).
Proof. destruct p; [reflexivity|]. unfold normalize_path. now rewrite str_split_skip. Qed.
Lemma stack_plain p : Forall plain (rev (stack p)).
Proof. apply Forall_rev. eapply normal_plain, stack_normal. Qed.
Lemma normalize_absolute p : is_absolute (normalize_path p) = is_absolute p.
Proof. rewrite normalize_stack. destruct (is_absolute p); [reflexivity|]. apply join_head, stack_plain. Qed.
Lemma normalize_comps p : comps (normalize_path p) = rev (stack p).
Proof.
  rewrite normalize_stack. destruct (is_absolute p).
  - cbn [app]. rewrite comps_sep. apply comps_join, stack_plain.
  - apply comps_join, stack_plain.
Qed.
Lemma normalize_stack_again p : stack (normalize_path p) = stack p.
Proof.
  unfold stack at 1. rewrite normalize_absolute, normalize_comps. apply norm_again, stack_normal.
Qed.
(** The normal form is determined by whether the path is absolute and where it leads. *)
Lemma walk_stack p dir : walk dir p = fold_left step (rev (stack p)) (if is_absolute p then [] else dir).
Proof.
  unfold walk, stack. change (rooted p) with (is_absolute p). rewrite norm_fold_walk; [reflexivity| |apply comps_all_plain|apply normal_nil].
  intros ->. reflexivity.
Qed.
Lemma walk_normal out ab : normal ab out ->
  exists names n, out = names ++ repeat up_dir n /\ Forall name names /\ (ab = true -> n = 0) /\
    forall dir, fold_left step (rev out) dir = names ++ skipn n dir.
Proof.
  intros H. induction H as [n Hz|e out He H (names & n & -> & Hn & Hz & E)].
  - exists [], n. repeat split; auto. intros dir. rewrite fold_left_rev. cbn [app]. clear Hz. revert dir.
    assert (G : forall m dir, fold_right (fun x acc => step acc x) dir (repeat up_dir m) = skipn m dir).
    { induction m as [|m IH]; intros dir; auto. cbn [repeat fold_right]. rewrite IH, step_eq.
      change (beqb up_dir this_dir) with false. change (beqb up_dir up_dir) with true. cbn iota.
      clear. revert dir; induction m as [|m IH]; intros [|d dir]; auto. cbn. apply (IH dir). }
    intros dir. apply G.
  - exists (e :: names), n. repeat split; auto. intros dir. cbn [app rev]. rewrite fold_left_app, E. cbn [fold_left]. rewrite step_eq. destruct He as (_ & H1 & H2).
    now rewrite (beqb_neq _ this_dir H1), (beqb_neq _ up_dir H2).
Qed.
Lemma names_repeat_inj (z : bytes) : forall (l l' : list bytes) m m', ~ In z l -> ~ In z l' -> l ++ repeat z m = l' ++ repeat z m' -> l = l' /\ m = m'.
Proof.
  induction l as [|x l IH]; intros [|y l'] m m' H H' E; cbn in E.
  - split; auto. apply (f_equal (@length bytes)) in E. now rewrite !repeat_length in E.
  - exfalso. destruct m; [discriminate|]. cbn in E. injection E as <- _. apply H'. now left.
  - exfalso. destruct m'; [discriminate|]. cbn in E. injection E as -> _. apply H. now left.
  - injection E as -> E. apply IH in E as [-> ->]; auto; intros Hi; [apply H|apply H']; now right.
Qed.
Lemma skipn_repeat {T} (z : T) n m : skipn n (repeat z m) = repeat z (m - n).
Proof. revert n; induction m as [|m IH]; intros [|n]; cbn; auto. Qed.
Lemma long_name (l : list bytes) : exists z, ~ In z l.
Proof.
  exists (repeat 97%N (S (list_max (map (@length N) l)))). intros H.
  pose proof (proj1 (list_max_le (map (@length N) l) _) (le_n _)) as Hm. rewrite Forall_forall in Hm.
  specialize (Hm _ (in_map (@length N) _ _ H)). rewrite repeat_length in Hm. lia.
Qed.
Lemma walk_determines p q : is_absolute p = is_absolute q -> (forall dir, walk dir p = walk dir q) -> stack p = stack q.
Proof.
  intros Ha Hw. pose proof (stack_normal p) as Np. pose proof (stack_normal q) as Nq. rewrite <- Ha in Nq.
  destruct (walk_normal _ _ Np) as (a & n & Ea & _ & Za & Wa). destruct (walk_normal _ _ Nq) as (b & m & Eb & _ & Zb & Wb).
  destruct (is_absolute p) eqn:Ep.
  - specialize (Hw []). rewrite !walk_stack, Ep, <- Ha, Wa, Wb, (Za eq_refl), (Zb eq_refl) in Hw.
    rewrite Ea, Eb, (Za eq_refl), (Zb eq_refl). cbn [skipn repeat] in *. exact Hw.
  - destruct (long_name (stack p ++ stack q)) as [z Hz].
    specialize (Hw (repeat z (n + m))). rewrite !walk_stack, Ep, <- Ha, Wa, Wb, !skipn_repeat in Hw.
    apply names_repeat_inj in Hw as [-> Hnm].
    + rewrite Ea, Eb. do 2 f_equal. lia.
    + intros Hi. apply Hz. apply in_or_app. left. rewrite Ea. apply in_or_app. now left.
    + intros Hi. apply Hz. apply in_or_app. right. rewrite Eb. apply in_or_app. now left.
Qed.

(* ---- base and directory names ---- *)
Lemma rfind_char_spec c s :
  match rfind_char c s with
  | Some i => s = firstn i s ++ c :: skipn (S i) s /\ ~ In c (skipn (S i) s)
  | None => ~ In c s
  end.
Proof.
  induction s as [|d s IH]; cbn [rfind_char]; auto.
  destruct (rfind_char c s) as [i|].
  - destruct IH as (E & Hn). split; auto. cbn [firstn app]. f_equal. exact E.
  - destruct (N.eqb_spec d c) as [->|Hne]; cbn; auto. intros [H|H]; auto.
Qed.
Lemma trim_loop_spec p : forall n, n <= length p -> exists k, n = trim_loop n p + k /\
  firstn n p = firstn (trim_loop n p) p ++ repeat sep k /\
  (trim_loop n p = 0 -> n = 0) /\
  (1 < trim_loop n p -> nth (trim_loop n p - 1) p 0%N <> sep).
Proof.
  induction n as [|m IH]; intros Hl; cbn [trim_loop].
  - exists 0. repeat split; auto. lia.
  - destruct ((0 <? m) && (nth m p 0 =? sep)%N) eqn:E.
    + apply andb_prop in E as [E1 E2]. apply Nat.ltb_lt in E1. apply N.eqb_eq in E2.
      destruct (IH ltac:(lia)) as (k & H1 & H2 & H3 & H4). exists (S k). split; [lia|]. split; [|split; auto; intros H; specialize (H3 H); lia].
      change (repeat sep (S k)) with (sep :: repeat sep k). rewrite (repeat_cons k sep), app_assoc, <- H2.
      assert (Hn : nth_error p m = Some sep) by (rewrite <- E2; apply nth_error_nth'; lia).
      clear - Hn. revert m Hn; induction p as [|x p IHp]; intros [|m] Hn; cbn in *; try discriminate; [congruence|].
      now rewrite (IHp _ Hn).
    + exists 0. split; [lia|]. split; [now rewrite app_nil_r|]. split; [lia|]. intros Hm. replace (S m - 1) with m by lia.
      apply andb_false_iff in E as [E|E]; [apply Nat.ltb_ge in E; lia|]. now apply N.eqb_neq.
Qed.
Lemma trim_spec p : exists k, p = trim p ++ repeat sep k /\ (trim p = [] -> p = []) /\
  (1 < length (trim p) -> last (trim p) 0%N <> sep).
Proof.
  destruct (trim_loop_spec p (length p) (le_n _)) as (k & H1 & H2 & H3 & H4). exists k.
  rewrite firstn_all in H2. split; [exact H2|].
  assert (Hl : length (trim p) = trim_loop (length p) p) by (unfold trim; rewrite firstn_length; lia).
  split.
  - intros E. rewrite E in Hl. cbn in Hl. specialize (H3 (eq_sym Hl)). now destruct p.
  - rewrite Hl. intros Hk. specialize (H4 Hk).
    assert (Hne : trim p <> []) by (intros E; rewrite E in Hl; cbn in Hl; lia).
    assert (Hlast : last (trim p) 0%N = nth (trim_loop (length p) p - 1) (trim p) 0%N).
    { rewrite <- Hl. destruct (exists_last Hne) as (l & x & ->). rewrite last_last, app_length. cbn.
      rewrite app_nth2 by lia. replace (length l + 1 - 1 - length l) with 0 by lia. reflexivity. }
    rewrite Hlast. unfold trim. intros E. apply H4. rewrite <- E.
    generalize dependent (trim_loop (length p) p). intros n. intros.
    transitivity (nth (n - 1) (firstn n p ++ skipn n p) 0%N); [now rewrite firstn_skipn|]. apply app_nth1. rewrite firstn_length. lia.
Qed.
Lemma comps_repeat_sep p k : comps (p ++ repeat sep k) = comps p.
Proof.
  revert p; induction k as [|k IH]; intros p; cbn [repeat]; [now rewrite app_nil_r|].
  change (sep :: repeat sep k) with ([sep] ++ repeat sep k). rewrite app_assoc, IH. apply comps_sep_end.
Qed.
Lemma comps_trim p : comps p = comps (trim p).
Proof. destruct (trim_spec p) as (k & E & _). rewrite E at 1. apply comps_repeat_sep. Qed.
Lemma absolute_trim p : is_absolute p = is_absolute (trim p).
Proof.
  destruct (trim_spec p) as (k & E & Hn & _). destruct (trim p) as [|c t]; [rewrite Hn by auto; reflexivity|].
  rewrite E. reflexivity.
Qed.
Lemma stack_ext p q : is_absolute p = is_absolute q -> comps p = comps q -> stack p = stack q.
Proof. unfold stack. now intros -> ->. Qed.
Lemma normalize_ext p q : is_absolute p = is_absolute q -> comps p = comps q -> normalize_path p = normalize_path q.
Proof. intros Ha Hc. now rewrite !normalize_stack, Ha, (stack_ext _ _ Ha Hc). Qed.
Lemma stack_dot_slash p : is_absolute p = false -> stack (this_dir ++ sep :: p) = stack p.
Proof. intros H. unfold stack. rewrite comps_app. change (is_absolute (this_dir ++ sep :: p)) with false. rewrite H. reflexivity. Qed.
Lemma join_sep b c r : b <> [] -> (c =? sep)%N = false -> normalize_path (join_path b (c :: r)) = normalize_path (b ++ sep :: c :: r).
Proof.
  intros Hb Hc. unfold join_path. rewrite Hc. destruct b as [|d b]; [congruence|]. cbv zeta.
  destruct (last (d :: b) 0 =? sep)%N eqn:El.
  - apply N.eqb_eq in El. destruct (@exists_last _ (d :: b) ltac:(discriminate)) as (l & x & F).
    rewrite F in *. rewrite last_last in El. subst x.
    replace ((l ++ [sep]) ++ sep :: c :: r) with (l ++ sep :: sep :: c :: r) by (now rewrite <- app_assoc).
    replace ((l ++ [sep]) ++ c :: r) with (l ++ sep :: c :: r) by (now rewrite <- app_assoc).
    apply normalize_ext; [destruct l; reflexivity|]. now rewrite !comps_app, comps_sep.
  - now rewrite <- app_assoc.
Qed.
Lemma join_dir_base p : normalize_path (join_path (dir_name p) (base_name p)) = normalize_path p.
Proof.
  assert (Hp : normalize_path p = normalize_path (trim p)) by (apply normalize_ext; [apply absolute_trim|apply comps_trim]).
  rewrite Hp. clear Hp. destruct (trim_spec p) as (_ & _ & _ & Hlast). unfold dir_name, base_name.
  generalize dependent (trim p). intros t Hlast. cbv zeta.
  destruct (beqb t [sep]) eqn:Et; [apply beqb_eq in Et as ->; reflexivity|].
  pose proof (rfind_char_spec sep t) as Hr. destruct (rfind_char sep t) as [i|].
  - destruct Hr as [E Hn]. 
    assert (Hb : skipn (S i) t <> []).
    { intros Z. rewrite Z in E. assert (Hl : last t 0%N = sep) by (rewrite E; apply last_last).
      assert (1 < length t); [|now apply Hlast].
      destruct (firstn i t) as [|c r] eqn:F; [cbn in E; rewrite E in Et; discriminate|].
      rewrite E. cbn. rewrite app_length. cbn. lia. }
    destruct (skipn (S i) t) as [|c r] eqn:Es; [congruence|].
    assert (Hc : (c =? sep)%N = false) by (apply N.eqb_neq; intros ->; apply Hn; now left).
    destruct i as [|i].
    + cbn [join_path]. rewrite Hc. cbn [firstn app] in E. rewrite E. reflexivity.
    + rewrite join_sep; [now rewrite <- E|intros Z; rewrite Z in E; cbn in E|exact Hc].
      destruct t; [discriminate|]. discriminate Z.
  - destruct t as [|c t].
    + reflexivity.
    + assert (Hc : (c =? sep)%N = false) by (apply N.eqb_neq; intros ->; apply Hr; now left).
      unfold join_path. rewrite Hc. change (last this_dir 0 =? sep)%N with false. cbn iota.
      transitivity (normalize_path (this_dir ++ sep :: (c :: t))); [reflexivity|].
      rewrite (normalize_stack (c :: t)), (normalize_stack (_ ++ _)), stack_dot_slash by exact Hc.
      cbn [is_absolute]. rewrite Hc. reflexivity.
Qed.
