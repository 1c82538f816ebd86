(** Abstract random access files, the services of the File interface used by
    the databases (Read, Write, Append, GetSizeSimple).
    Source: /repo/tkrzw_file.h:100-220 (interface) and the default
    implementation /repo/tkrzw_file_mmap.cc:433-495 and 544-605.
    Simplifications: I/O errors of the operating system (open, mmap, ftruncate
    failures), permission errors and the 2^40 size limit are left out;
    concurrency of Append is treated in AppendModel.v. *)
From Verif Require Import Bytes.
Open Scope N_scope.

(** The contents of a file: the byte at each position and the size.  Bytes at
    positions not below the size have no meaning. *)
Record file := mkfile { fdata : N -> N; fsize : N }.

(** [dread d off n]: the [n] bytes from position [off]. *)
Fixpoint dread (d : N -> N) (off : N) (n : nat) : bytes :=
  match n with
  | O => []
  | S n' => d off :: dread d (off + 1) n'
  end.

(** [dwrite d off b]: overwrites the bytes from position [off] with [b]. *)
Definition dwrite (d : N -> N) (off : N) (b : bytes) : N -> N :=
  fun i => if (off <=? i) && (i <? off + blen b) then nth (N.to_nat (i - off)) b 0 else d i.

(** File::Read, tkrzw_file_mmap.cc:433-444: fails unless the whole region is
    inside the file. *)
Definition file_read (f : file) (off n : N) : option bytes :=
  if off + n <=? fsize f then Some (dread (fdata f) off (N.to_nat n)) else None.

(** File::Write, tkrzw_file_mmap.cc:458-467 and 573-588: the file grows if needed. *)
Definition file_write (f : file) (off : N) (b : bytes) : file :=
  mkfile (dwrite (fdata f) off b) (N.max (fsize f) (off + blen b)).

(** File::Append, tkrzw_file_mmap.cc:469-481 and 556-572: writes at the end and
    returns the old size. *)
Definition file_append (f : file) (b : bytes) : file * N :=
  (file_write f (fsize f) b, fsize f).

(** File::Truncate, tkrzw_file_mmap.cc:243-270.  Growing fills with zeros as
    ftruncate does; shrinking keeps the kept part.  Simplified: a file grown after
    it was shrunk in the same session gets zeros here, while the code may show the
    bytes that were there before. *)
Definition file_truncate (f : file) (n : N) : file :=
  mkfile (fun i => if i <? fsize f then fdata f i else 0) n.

Definition file_empty : file := mkfile (fun _ => 0) 0.

(** AlignNumber, tkrzw_sys_config.h:378-384. *)
Definition align_num (num a : N) : N :=
  let diff := num mod a in if 0 <? diff then num + (a - diff) else num.

(** * Facts *)

Lemma dread_length d off n : length (dread d off n) = n.
Proof. revert off; induction n as [|n IH]; intros off; cbn [dread length]; [|rewrite IH]; reflexivity. Qed.

Lemma dread_blen d off n : blen (dread d off n) = N.of_nat n.
Proof. unfold blen; rewrite dread_length; reflexivity. Qed.

Lemma dread_app d off n m :
  dread d off (n + m) = dread d off n ++ dread d (off + N.of_nat n) m.
Proof.
  revert off; induction n as [|n IH]; intros off; cbn [dread Nat.add app].
  - f_equal; lia.
  - rewrite IH. f_equal. f_equal. f_equal. lia.
Qed.

Lemma dread_ext d d' off n :
  (forall i, off <= i -> i < off + N.of_nat n -> d i = d' i) -> dread d off n = dread d' off n.
Proof.
  revert off; induction n as [|n IH]; intros off H; cbn [dread]; [reflexivity|].
  f_equal; [apply H; lia|]. apply IH. intros i Hi1 Hi2. apply H; lia.
Qed.

Lemma dread_inj d d' off n :
  dread d off n = dread d' off n ->
  forall i, off <= i -> i < off + N.of_nat n -> d i = d' i.
Proof.
  revert off; induction n as [|n IH]; intros off H i Hi1 Hi2; [lia|].
  cbn [dread] in H. injection H as H1 H2.
  destruct (N.eq_dec i off) as [->|Hne]; [exact H1|]. apply (IH (off + 1)); auto; lia.
Qed.

Lemma dread_dwrite_same d off b : dread (dwrite d off b) off (length b) = b.
Proof.
  assert (G : forall k b1 b2, b = b1 ++ b2 -> k = off + blen b1 ->
            dread (dwrite d off b) k (length b2) = b2).
  { intros k b1 b2; revert k b1; induction b2 as [|x b2 IH]; intros k b1 E Hk; [reflexivity|].
    cbn [dread length]. f_equal.
    - unfold dwrite. subst b. rewrite blen_app, blen_cons.
      destruct (N.leb_spec off k); [|lia]. destruct (N.ltb_spec k (off + (blen b1 + (1 + blen b2)))); [|lia].
      cbn [andb]. replace (N.to_nat (k - off)) with (length b1) by (unfold blen in *; lia).
      rewrite app_nth2, Nat.sub_diag by lia. reflexivity.
    - apply IH with (b1 := b1 ++ [x]).
      + rewrite <- app_assoc. exact E.
      + rewrite blen_app, blen_cons, blen_nil. lia. }
  apply (G off [] b); [reflexivity|]. rewrite blen_nil; lia.
Qed.

Lemma dread_dwrite_disjoint d off b off' n :
  off' + N.of_nat n <= off \/ off + blen b <= off' ->
  dread (dwrite d off b) off' n = dread d off' n.
Proof.
  intros H. apply dread_ext. intros i Hi1 Hi2. unfold dwrite.
  destruct (N.leb_spec off i); cbn [andb]; [|reflexivity].
  destruct (N.ltb_spec i (off + blen b)); [lia|reflexivity].
Qed.

(** Overwriting a part of a region. *)
Lemma dread_dwrite_inside d off a b c b' :
  length b' = length b ->
  dread d off (length (a ++ b ++ c)) = a ++ b ++ c ->
  dread (dwrite d (off + blen a) b') off (length (a ++ b' ++ c)) = a ++ b' ++ c.
Proof.
  intros Hl H. rewrite !app_length in *. rewrite !dread_app in *.
  assert (Ha : dread d off (length a) = a).
  { assert (E := f_equal (firstn (length a)) H).
    rewrite firstn_app, dread_length, Nat.sub_diag in E.
    rewrite firstn_O, app_nil_r in E.
    rewrite firstn_all2 in E by (rewrite dread_length; lia).
    rewrite firstn_app, Nat.sub_diag, firstn_all, firstn_O, app_nil_r in E. exact E. }
  rewrite Ha in H. apply app_inv_head in H.
  assert (Hc : dread d (off + N.of_nat (length a) + N.of_nat (length b)) (length c) = c).
  { assert (E := f_equal (skipn (length b)) H).
    rewrite skipn_app, dread_length, Nat.sub_diag in E.
    rewrite skipn_O in E.
    rewrite skipn_all2 in E by (rewrite dread_length; lia).
    rewrite skipn_app, Nat.sub_diag, skipn_all, skipn_O in E. exact E. }
  rewrite dread_dwrite_disjoint by (unfold blen; lia). rewrite Ha. f_equal.
  change (N.of_nat (length a)) with (blen a). rewrite dread_dwrite_same. f_equal.
  rewrite dread_dwrite_disjoint by (unfold blen; lia).
  rewrite Hl. exact Hc.
Qed.

Lemma file_read_ok f off n :
  off + n <= fsize f -> file_read f off n = Some (dread (fdata f) off (N.to_nat n)).
Proof. intros H; unfold file_read. destruct (N.leb_spec (off + n) (fsize f)); [reflexivity|lia]. Qed.

Lemma align_num_ge num a : a <> 0 -> num <= align_num num a.
Proof. intros H; unfold align_num. destruct (0 <? num mod a); lia. Qed.

Lemma align_num_mod num a : a <> 0 -> align_num num a mod a = 0.
Proof.
  intros H; unfold align_num. destruct (N.ltb_spec 0 (num mod a)) as [L|L]; [|lia].
  assert (Hb := N.mod_lt num a H). assert (E := N.div_mod num a H).
  replace (num + (a - num mod a)) with ((num / a + 1) * a) by nia.
  apply N.mod_mul; exact H.
Qed.

Lemma align_num_id num a : a <> 0 -> num mod a = 0 -> align_num num a = num.
Proof. intros H E; unfold align_num; rewrite E. reflexivity. Qed.

Lemma align_num_lt num a : a <> 0 -> align_num num a < num + a.
Proof. intros H; unfold align_num. assert (Hb := N.mod_lt num a H). destruct (N.ltb_spec 0 (num mod a)); lia. Qed.
