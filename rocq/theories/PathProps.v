(** C44: paths are normalized, split and joined as they should.
    Source: /repo/tkrzw_file_util.cc:77-178, /repo/tkrzw_str_util.cc:534-552. *)
From Coq Require Import List NArith Bool Arith Lia.
Import ListNotations.
From Verif Require Import Bytes PathModel PathSpec PathProofs.
Local Open Scope nat_scope.

(** StrSplit: the parts hold no delimiter and give the string when they are put together again; there is only one
    such list.  With skip_empty the empty parts are left out. *)
Lemma intercalate_parts c s : intercalate c (parts c s) = s.
Proof.
  induction s as [|d s IH]; auto. cbn [parts]. destruct (N.eqb_spec d c) as [->|Hne].
  - pose proof (parts_nonnil c s). destruct (parts c s) as [|p l] eqn:E; [congruence|]. cbn in *. now rewrite IH.
  - pose proof (parts_nonnil c s). destruct (parts c s) as [|p l] eqn:E; [congruence|].
    destruct l; cbn in *; now rewrite IH.
Qed.
Lemma parts_intercalate c l : l <> [] -> Forall (fun p => ~ In c p) l -> parts c (intercalate c l) = l.
Proof.
  intros Hn H. induction H as [|p l Hp Hl IH]; [congruence|].
  destruct l as [|q l]; [now apply parts_plain|].
  change (intercalate c (p :: q :: l)) with (p ++ c :: intercalate c (q :: l)).
  rewrite parts_app, (parts_plain _ _ Hp), IH by discriminate. reflexivity.
Qed.
Theorem C44_split : forall c s l,
  str_split c false s = l <-> l <> [] /\ intercalate c l = s /\ Forall (fun p => ~ In c p) l.
Proof.
  intros c s l. rewrite str_split_all. split.
  - intros <-. split; [apply parts_nonnil|]. split; [apply intercalate_parts|apply parts_clean].
  - intros (Hn & <- & Hf). now apply parts_intercalate.
Qed.
Theorem C44_split_skip_empty : forall c s,
  str_split c true s = filter (fun p => negb (length p =? 0)) (str_split c false s).
Proof.
  intros c s. rewrite str_split_all, str_split_skip. apply filter_ext. intros []; reflexivity.
Qed.
(* "a//b/" *)
Example C44_split_case : str_split 47 false [97; 47; 47; 98; 47]%N = [[97]; []; [98]; []]%N /\
  str_split 47 true [97; 47; 47; 98; 47]%N = [[97]; [98]]%N.
Proof. split; reflexivity. Qed.

(** NormalizePath of a normalized path is itself. *)
Theorem C44_idempotent : forall p, normalize_path (normalize_path p) = normalize_path p.
Proof.
  intros p. rewrite (normalize_stack (normalize_path p)), normalize_absolute, normalize_stack_again. symmetry. apply normalize_stack.
Qed.
(** The result is written with single slashes and without one at the end, and its components are names (not empty,
    not "." and not "..") after some "..", of which an absolute path has none. *)
Theorem C44_components : forall p, exists n names,
  normalize_path p = (if rooted p then [slash] else []) ++ intercalate slash (repeat [46; 46]%N n ++ names) /\
  comps (normalize_path p) = repeat [46; 46]%N n ++ names /\
  Forall name names /\ (rooted p = true -> n = 0).
Proof.
  intros p. destruct (walk_normal _ _ (stack_normal p)) as (names & n & E & Hn & Hz & _).
  exists n, (rev names).
  assert (Er : rev (stack p) = repeat [46; 46]%N n ++ rev names).
  { rewrite E, rev_app_distr. f_equal. clear. change [46; 46]%N with up_dir.
    induction n as [|n IH]; auto. cbn [repeat rev]. rewrite IH. symmetry. apply (repeat_cons n). }
  split; [|split; [rewrite normalize_comps; exact Er|split; [now apply Forall_rev|exact Hz]]].
  rewrite normalize_stack, Er. change (is_absolute p) with (rooted p). f_equal.
  generalize (repeat [46; 46]%N n ++ rev names). clear.
  induction l as [|e l IH]; auto. destruct l; auto. cbn in *. now rewrite IH.
Qed.
(** The result leads to the same place from every directory; an absolute path stays absolute, and so inside the root. *)
Theorem C44_same_place : forall p dir, walk dir (normalize_path p) = walk dir p.
Proof. intros p dir. rewrite !walk_stack, normalize_absolute, normalize_stack_again. reflexivity. Qed.
(** Two paths, both absolute or both relative, have the same normal form just if they lead to the same place from
    every directory. *)
Theorem C44_canonical : forall p q, rooted p = rooted q ->
  (normalize_path p = normalize_path q <-> forall dir, walk dir p = walk dir q).
Proof.
  intros p q Hr. split.
  - intros E dir. now rewrite <- (C44_same_place p), <- (C44_same_place q), E.
  - intros H. rewrite !normalize_stack. change (is_absolute p) with (rooted p). change (is_absolute q) with (rooted q).
    rewrite <- Hr. now rewrite (walk_determines p q Hr H).
Qed.
(* "/a/./b//../../../c/" gives "/c"; "../a/.././../b" gives "../../b"; "a/.." gives "" *)
Example C44_case :
  normalize_path [47; 97; 47; 46; 47; 98; 47; 47; 46; 46; 47; 46; 46; 47; 46; 46; 47; 99; 47]%N = [47; 99]%N /\
  normalize_path [46; 46; 47; 97; 47; 46; 46; 47; 46; 47; 46; 46; 47; 98]%N = [46; 46; 47; 46; 46; 47; 98]%N /\
  normalize_path [97; 47; 46; 46]%N = [] /\
  walk [[120]; [121]]%N [46; 46; 47; 97]%N = [[97]; [121]]%N.
Proof. repeat split; reflexivity. Qed.

(** A path made by JoinPath leads from the base to the child, unless the child is absolute. *)
Theorem C44_join : forall b c dir, b <> [] -> rooted c = false -> walk dir (join_path b c) = walk (walk dir b) c.
Proof.
  intros b [|x c] dir Hb Hc.
  - unfold walk at 2. reflexivity.
  - assert (E : walk dir (join_path b (x :: c)) = walk dir (b ++ slash :: x :: c)).
    { rewrite <- C44_same_place, (join_sep b x c Hb Hc). apply C44_same_place. }
    rewrite E. unfold walk. assert (Ha : rooted (b ++ slash :: x :: c) = rooted b) by (destruct b; [congruence|reflexivity]).
    rewrite Ha. change slash with sep at 1. rewrite comps_app, fold_left_app. rewrite Hc. reflexivity.
Qed.
Theorem C44_join_absolute : forall b c, rooted c = true -> join_path b c = c.
Proof. intros b [|x c] H; [discriminate|]. cbn in *. unfold slash in H. change sep with 47%N. now rewrite H. Qed.
(** With an empty base it does not: the result is absolute, although the empty path leads nowhere else. *)
Theorem C44_join_empty_refuted : forall x c, x <> slash ->
  join_path [] (x :: c) = slash :: x :: c /\ walk [[97%N]] [] = [[97%N]] /\
  exists dir, walk dir (join_path [] (x :: c)) <> walk (walk dir []) (x :: c).
Proof.
  intros x c Hx. assert (E : join_path [] (x :: c) = slash :: x :: c).
  { unfold join_path. rewrite (proj2 (N.eqb_neq x sep) Hx). reflexivity. }
  split; [exact E|]. split; [reflexivity|].
  assert (Hc : rooted (x :: c) = false) by (apply N.eqb_neq; exact Hx).
  assert (Ha : forall d, walk d (slash :: x :: c) = fold_left step (comps (x :: c)) []).
  { intros d. unfold walk. change (rooted (slash :: x :: c)) with true. cbn iota. exact (f_equal (fun l => fold_left step l []) (comps_sep (x :: c))). }
  assert (Hb : forall d, walk d (x :: c) = fold_left step (comps (x :: c)) d) by (intros d; unfold walk; now rewrite Hc).
  pose proof (stack_normal (x :: c)) as Hn. destruct (walk_normal _ _ Hn) as (names & n & _ & _ & _ & W).
  exists (repeat [97%N] (S n)). rewrite E, Ha. change (walk (repeat [97%N] (S n)) []) with (repeat [97%N] (S n)).
  rewrite walk_stack. change (is_absolute (x :: c)) with (rooted (x :: c)). rewrite Hc, W.
  pose proof (walk_stack (x :: c) []) as W0. change (is_absolute (x :: c)) with (rooted (x :: c)) in W0.
  rewrite Hc, W, Hb in W0. rewrite W0. rewrite skipn_nil, skipn_repeat.
  replace (S n - n) with 1 by lia. cbn [repeat]. rewrite app_nil_r. intros F.
  apply (f_equal (@length bytes)) in F. rewrite app_length in F. cbn in F. lia.
Qed.

(** The directory name and the base name of a path, joined, name the same place as the path, and the base name is a
    single component (or "/" for the root, or nothing for the empty path). *)
Theorem C44_dir_base : forall p, normalize_path (join_path (dir_name p) (base_name p)) = normalize_path p.
Proof. exact join_dir_base. Qed.
Theorem C44_base_name : forall p,
  (base_name p = [] /\ p = []) \/ (base_name p = [slash] /\ comps p = [] /\ p <> []) \/
  (plain (base_name p) /\ exists pre, comps p = pre ++ [base_name p]).
Proof.
  intros p. destruct (trim_spec p) as (k & Ep & Hz & Hlast). pose proof (comps_trim p) as Hc. unfold base_name.
  generalize dependent (trim p). intros t Ep Hz Hlast Hc. cbv zeta.
  destruct (beqb t [sep]) eqn:Et; [apply beqb_eq in Et as ->|].
  - right; left. split; [reflexivity|]. split; [exact Hc|]. rewrite Ep. discriminate.
  - pose proof (rfind_char_spec sep t) as Hr. destruct (rfind_char sep t) as [i|].
    + right; right. destruct Hr as [E Hn].
      assert (Hb : skipn (S i) t <> []).
      { intros Z. rewrite Z in E. assert (Hl : last t 0%N = sep) by (rewrite E; apply last_last).
        assert (1 < length t); [|now apply Hlast].
        destruct (firstn i t) as [|c r] eqn:F; [cbn in E; rewrite E in Et; discriminate|].
        rewrite E. cbn. rewrite app_length. cbn. lia. }
      split; [now split|]. exists (comps (firstn i t)). rewrite Hc. rewrite E at 1. rewrite comps_app.
      f_equal. apply comps_plain. now split.
    + destruct t as [|c t]; [left; auto|]. right; right. split; [split; [discriminate|exact Hr]|]. exists [].
      rewrite Hc. apply comps_plain. split; [discriminate|exact Hr].
Qed.
Lemma comps_head c t : (c =? slash)%N = false -> exists e l, comps (c :: t) = e :: l.
Proof.
  intros H. unfold comps. cbn. rewrite H. destruct (parts slash t) as [|e l]; cbn; eauto.
Qed.
(** The directory name is never empty, is absolute as the path is, and has the components of the path but the last one; "." if there are none and the path
    is relative. *)
Theorem C44_dir_name : forall p, dir_name p <> [] /\ rooted (dir_name p) = rooted p /\
  forall pre b, comps p = pre ++ [b] -> comps (dir_name p) = match pre with [] => if rooted p then [] else [[46%N]] | _ => pre end.
Proof.
  intros p. destruct (trim_spec p) as (k & Ep & Hz & Hlast). pose proof (comps_trim p) as Hc.
  assert (Hr0 : rooted (trim p) = rooted p) by (symmetry; exact (absolute_trim p)).
  unfold dir_name. generalize dependent (trim p). intros t Ep Hz Hlast Hc Hr0. cbv zeta. rewrite Hc, <- Hr0. clear Hc Hr0 Ep Hz.
  destruct (beqb t [sep]) eqn:Et; [apply beqb_eq in Et as ->|].
  - split; [discriminate|]. split; [reflexivity|]. intros pre b E. destruct pre; discriminate.
  - pose proof (rfind_char_spec sep t) as Hr. destruct (rfind_char sep t) as [i|].
    + destruct Hr as [E Hn].
      assert (Hb : plain (skipn (S i) t)).
      { split; [|exact Hn]. intros Z. rewrite Z in E. assert (Hl : last t 0%N = sep) by (rewrite E; apply last_last).
        assert (1 < length t); [|now apply Hlast].
        destruct (firstn i t) as [|c r] eqn:F; [cbn in E; rewrite E in Et; discriminate|].
        rewrite E. cbn. rewrite app_length. cbn. lia. }
      assert (CT : comps t = comps (firstn i t) ++ [skipn (S i) t]) by (rewrite E at 1; rewrite comps_app; f_equal; apply comps_plain; exact Hb).
      destruct i as [|i].
      * split; [discriminate|]. assert (RT : rooted t = true) by (rewrite E; reflexivity). split; [symmetry; exact RT|]. intros pre b EQ. rewrite RT. rewrite CT in EQ. cbn [firstn] in EQ.
        destruct pre as [|x pre]; [reflexivity|]. destruct pre; discriminate.
      * assert (NE : firstn (S i) t <> []) by (destruct t; [cbn in E; discriminate|discriminate]). split; [exact NE|]. split; [destruct t; reflexivity|].
        intros pre b EQ. rewrite CT in EQ. apply app_inj_tail in EQ as [P _]. rewrite P. destruct pre as [|x pre]; [|reflexivity].
        destruct (rooted t) eqn:RT; [reflexivity|]. exfalso. destruct t as [|c t]; [discriminate|]. cbn [firstn] in P. unfold rooted in RT.
        destruct (comps_head c (firstn i t)) as (e & l & Q); [exact RT|]. cbn [firstn] in Q. congruence.
    + split; [discriminate|]. split.
      * destruct t as [|c t]; [reflexivity|]. cbn. destruct (N.eqb_spec c slash) as [->|]; [exfalso; apply Hr; now left|reflexivity].
      * intros pre b EQ. destruct t as [|c t]; [destruct pre; discriminate|].
        rewrite comps_plain in EQ by (split; [discriminate|exact Hr]). destruct pre as [|x pre]; [|destruct pre; discriminate].
        replace (rooted (c :: t)) with false; [reflexivity|]. cbn. destruct (N.eqb_spec c slash) as [->|]; [exfalso; apply Hr; now left|reflexivity].
Qed.
Example C44_dir_name_case : map dir_name [[47; 97]; [97]; [47; 97; 47; 98; 47]; [47; 47; 97]]%N = [[47]; [46]; [47; 97]; [47]]%N.
Proof. reflexivity. Qed.

(** The extension is what follows the last dot of the base name; nothing if there is no dot. *)
Theorem C44_extension : forall p, ~ In 46%N (extension p) /\
  ((~ In 46%N (base_name p) /\ extension p = []) \/ exists stem, base_name p = stem ++ 46%N :: extension p).
Proof.
  intros p. unfold extension. cbv zeta. pose proof (rfind_char_spec dot (base_name p)) as H.
  destruct (rfind_char dot (base_name p)) as [i|].
  - destruct H as [E Hn]. split; [exact Hn|]. right. eexists. exact E.
  - split; [intros []|]. left. auto.
Qed.
(* "/a/b.tkh/" *)
Example C44_names_case :
  dir_name [47; 97; 47; 98; 46; 116; 107; 104; 47]%N = [47; 97]%N /\
  base_name [47; 97; 47; 98; 46; 116; 107; 104; 47]%N = [98; 46; 116; 107; 104]%N /\
  extension [47; 97; 47; 98; 46; 116; 107; 104; 47]%N = [116; 107; 104]%N /\
  join_path [47; 97]%N [98; 46; 116; 107; 104]%N = [47; 97; 47; 98; 46; 116; 107; 104]%N.
Proof. repeat split; reflexivity. Qed.

Print Assumptions C44_split.
Print Assumptions C44_split_skip_empty.
Print Assumptions C44_idempotent.
Print Assumptions C44_components.
Print Assumptions C44_same_place.
Print Assumptions C44_canonical.
Print Assumptions C44_join.
Print Assumptions C44_join_absolute.
Print Assumptions C44_join_empty_refuted.
Print Assumptions C44_dir_base.
Print Assumptions C44_base_name.
Print Assumptions C44_dir_name.
Print Assumptions C44_extension.
