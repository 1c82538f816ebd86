(** Lemmas on flat record files and lines (FlatModel). *)
From Coq Require Import Lia.
From Verif Require Import Bytes CodecModel CodecProofs StatusModel TextCodecModel TextCodecProofs FlatModel MqProofs.
Local Open Scope N_scope.

Definition small (r : frec) : Prop := blen (snd r) < 2^49.
Lemma size_var_7 n : n < 2^49 -> size_var n <= 7.
Proof. intros H. unfold size_var. repeat match goal with |- context [?a <? ?b] => destruct (N.ltb_spec a b); [lia|] end. lia. Qed.
Lemma flat_len r : blen (flat_write r) = 1 + size_var (blen (snd r)) + blen (snd r).
Proof. unfold flat_write. rewrite blen_cons, blen_app, write_var_length. lia. Qed.
Lemma small64 r : small r -> blen (snd r) < two64.
Proof. unfold small. change (2^49) with 562949953421312. change two64 with 18446744073709551616. lia. Qed.
Lemma flat_head_ok r c : small r -> flat_head (fmagic (fst r) :: write_var (blen (snd r)) ++ c) = Some (fst r, blen (snd r), 1 + size_var (blen (snd r))).
Proof.
  intros H. unfold flat_head. rewrite read_write_var by (apply small64, H). destruct r as [[|] d]; reflexivity.
Qed.
Lemma firstn_app_ge {A} n (a b : list A) : (length a <= n)%nat -> firstn n (a ++ b) = a ++ firstn (n - length a) b.
Proof. intros H. rewrite firstn_app, firstn_all2 by exact H. reflexivity. Qed.
Lemma var_len n : length (write_var n) = N.to_nat (size_var n).
Proof. rewrite <- write_var_length, to_nat_blen. reflexivity. Qed.

(** A buffer that starts with the head of a record. *)
Lemma from_buf_ok r rest m : small r -> (N.to_nat (1 + size_var (blen (snd r))) <= m)%nat ->
  let b := firstn m (flat_write r ++ rest) in
  (length (flat_write r) <= m)%nat /\ from_buf b = FRec r (blen (flat_write r)) \/
  (m < length (flat_write r))%nat /\ from_buf b = FShort (blen (snd r)) (N.of_nat m - (1 + size_var (blen (snd r)))).
Proof.
  intros H Hm b. assert (LV := var_len (blen (snd r))). assert (P := size_var_pos (blen (snd r))).
  assert (Eb : b = fmagic (fst r) :: write_var (blen (snd r)) ++ firstn (m - N.to_nat (1 + size_var (blen (snd r)))) (snd r ++ rest)).
  { unfold b, flat_write. destruct m as [|m]; [lia|]. cbn [app firstn]. f_equal. rewrite <- app_assoc, firstn_app_ge by lia. f_equal. f_equal. lia. }
  assert (Hl : length (flat_write r) = (N.to_nat (1 + size_var (blen (snd r))) + length (snd r))%nat).
  { unfold flat_write. cbn [length]. rewrite app_length. lia. }
  unfold from_buf. rewrite Eb, flat_head_ok by exact H. cbv iota beta.
  assert (HB : blen (fmagic (fst r) :: write_var (blen (snd r)) ++ firstn (m - N.to_nat (1 + size_var (blen (snd r)))) (snd r ++ rest)) - (1 + size_var (blen (snd r)))
     = N.of_nat (min (m - N.to_nat (1 + size_var (blen (snd r)))) (length (snd r ++ rest)))).
  { rewrite blen_cons, blen_app, write_var_length. unfold blen at 2. rewrite firstn_length. lia. }
  rewrite HB. clear HB. rewrite app_length.
  assert (BD : blen (snd r) = N.of_nat (length (snd r))) by reflexivity.
  destruct (N.leb_spec (blen (snd r)) (N.of_nat (min (m - N.to_nat (1 + size_var (blen (snd r)))) (length (snd r) + length rest)))) as [L|L].
  - left. split; [lia|]. f_equal; [|rewrite flat_len; lia].
    transitivity (fst r, snd r); [|destruct r; reflexivity]. f_equal.
    replace (N.to_nat (1 + size_var (blen (snd r)))) with (S (N.to_nat (size_var (blen (snd r))))) by lia. cbn [skipn].
    rewrite skipn_exact by lia. rewrite to_nat_blen. rewrite firstn_firstn, min_l by lia. apply firstn_exact. reflexivity.
  - right. split; [lia|]. f_equal. lia.
Qed.

Lemma skipn_skipn' {A} n m (l : list A) : skipn n (skipn m l) = skipn (m + n) l.
Proof. revert l; induction m as [|m IH]; intros l; [reflexivity|]. destruct l; [rewrite !skipn_nil; reflexivity|]. apply IH. Qed.
(** * FlatRecord::Read *)
Lemma f_read_app a x c off n : off = blen a -> n = blen x -> f_read (a ++ x ++ c) off n = Some x.
Proof.
  intros -> ->. unfold f_read. rewrite !blen_app. destruct (N.ltb_spec (blen a + (blen x + blen c)) (blen a + blen x)) as [X|_]; [lia|].
  rewrite !to_nat_blen, skipn_exact, firstn_exact by reflexivity. reflexivity.
Qed.
Lemma f_read_prefix a b off n : off = blen a -> n <= blen b -> f_read (a ++ b) off n = Some (firstn (N.to_nat n) b).
Proof.
  intros -> H. unfold f_read. rewrite blen_app. destruct (N.ltb_spec (blen a + blen b) (blen a + n)) as [X|_]; [lia|].
  rewrite to_nat_blen, skipn_exact by reflexivity. reflexivity.
Qed.
Lemma flat_read_ok pre r rest : blen (flat_write r) <= 2^40 ->
  flat_read (pre ++ flat_write r ++ rest) (blen pre) = (SUCCESS, Some (r, blen (flat_write r))).
Proof.
  intros Hs. assert (FL := flat_len r). assert (P := size_var_pos (blen (snd r))).
  assert (SM : small r). { unfold small. change (2^40) with 1099511627776 in Hs. change (2^49) with 562949953421312. lia. }
  assert (P7 := size_var_7 _ SM).
  unfold flat_read. cbv zeta. rewrite !blen_app.
  replace (blen pre + (blen (flat_write r) + blen rest) - blen pre) with (blen (flat_write r) + blen rest) by lia.
  set (mx := N.min (blen (flat_write r) + blen rest) (2^40)). assert (M1 : blen (flat_write r) <= mx) by (unfold mx; lia).
  assert (M2 : mx <= blen (flat_write r) + blen rest) by (unfold mx; lia). clearbody mx.
  destruct (N.ltb_spec mx 2); [lia|].
  rewrite f_read_prefix by (try reflexivity; rewrite blen_app; lia).
  set (n := N.min mx 48). assert (N1 : (N.to_nat (1 + size_var (blen (snd r))) <= N.to_nat n)%nat) by lia.
  destruct (from_buf_ok r rest (N.to_nat n) SM N1) as [[L E]|[L E]]; unfold from_buf in E;
    destruct (flat_head (firstn (N.to_nat n) (flat_write r ++ rest))) as [[[t size] h]|] eqn:EH; try discriminate E.
  - destruct (N.leb_spec size (blen (firstn (N.to_nat n) (flat_write r ++ rest)) - h)) as [X|X]; [|discriminate E].
    assert (E1 := f_equal (fun x => match x with FRec a b => Some (a, b) | _ => None end) E). cbv beta iota in E1. clear E.
    assert (EB : blen (firstn (N.to_nat n) (flat_write r ++ rest)) = n).
    { unfold blen. rewrite firstn_length, app_length. unfold blen in M2. lia. }
    rewrite EB in X. destruct (N.ltb_spec mx size); [lia|]. destruct (N.leb_spec size (n - h)); [|lia]. exact (f_equal (fun x => (SUCCESS, x)) E1).
  - destruct (N.leb_spec size (blen (firstn (N.to_nat n) (flat_write r ++ rest)) - h)) as [X|X]; [discriminate E|].
    assert (EB : blen (firstn (N.to_nat n) (flat_write r ++ rest)) = n).
    { unfold blen. rewrite firstn_length, app_length. unfold blen in M2. lia. }
    rewrite EB in *.
    assert (EH2 : flat_head (firstn (N.to_nat n) (flat_write r ++ rest)) = Some (fst r, blen (snd r), 1 + size_var (blen (snd r)))).
    { unfold flat_write. destruct (N.to_nat n) as [|k] eqn:En; [lia|]. cbn [app firstn]. rewrite <- app_assoc, firstn_app_ge by (rewrite var_len; lia). apply flat_head_ok, SM. }
    rewrite EH in EH2. injection EH2 as -> -> ->. destruct (N.ltb_spec mx (blen (snd r))); [lia|]. destruct (N.leb_spec (blen (snd r)) (n - (1 + size_var (blen (snd r))))); [lia|].
    assert (EF : pre ++ flat_write r ++ rest = (pre ++ fmagic (fst r) :: write_var (blen (snd r))) ++ snd r ++ rest).
    { unfold flat_write. rewrite <- !app_assoc. cbn [app]. rewrite <- app_assoc. reflexivity. }
    rewrite EF, f_read_app.
    + rewrite FL. destruct r; reflexivity.
    + rewrite blen_app, blen_cons, write_var_length. lia.
    + reflexivity.
Qed.

(** * FlatRecordReader *)
Definition flats (l : list frec) : bytes := flat_map flat_write l.
(** The reader is at [rest], and the unread part of its buffer is a beginning of it. *)
Definition fr_inv (s : fr) (pre rest : bytes) : Prop :=
  fr_off s = blen pre /\ 8 <= fr_size s /\ fr_idx s <= blen (fr_buf s) /\ exists m, skipn (N.to_nat (fr_idx s)) (fr_buf s) = firstn m rest /\ (m <= length rest)%nat.
Lemma fr_new_inv n f : fr_inv (fr_new n) [] f.
Proof.
  unfold fr_new, fr_inv. cbn [fr_off fr_size fr_idx fr_buf]. split; [reflexivity|]. split; [destruct (N.ltb_spec n 1); lia|]. split; [rewrite blen_nil; lia|].
  exists 0%nat. split; [reflexivity|lia].
Qed.
Lemma skipn_firstn_rest r rest m : (length (flat_write r) <= m)%nat -> (m <= length (flat_write r ++ rest))%nat ->
  exists m', skipn (N.to_nat (blen (flat_write r))) (firstn m (flat_write r ++ rest)) = firstn m' rest /\ (m' <= length rest)%nat.
Proof.
  intros L M. rewrite app_length in M. exists (m - length (flat_write r))%nat. split; [|lia]. rewrite to_nat_blen, firstn_app_ge by exact L. apply skipn_exact. reflexivity.
Qed.
Lemma refill_ok r rest pre s : small r -> fr_inv s pre (flat_write r ++ rest) -> (2 < length (flat_write r ++ rest))%nat ->
  exists s', fr_refill (pre ++ flat_write r ++ rest) s = (SUCCESS, Some r, s') /\ fr_inv s' (pre ++ flat_write r) rest.
Proof.
  intros SM (I1 & I2 & I3 & I4) H2. assert (FL := flat_len r). assert (P := size_var_pos (blen (snd r))). assert (P7 := size_var_7 _ SM).
  unfold fr_refill. rewrite I1, blen_app. set (R := flat_write r ++ rest) in *. assert (BR : blen R = N.of_nat (length R)) by reflexivity.
  destruct (N.leb_spec (blen pre + blen R) (blen pre + 2)) as [X|_]; [lia|]. cbv zeta.
  replace (blen pre + blen R - blen pre) with (blen R) by lia. set (n := N.min (fr_size s) (blen R)).
  assert (RL : blen R = blen (flat_write r) + blen rest) by (unfold R; apply blen_app).
  rewrite f_read_prefix by (try reflexivity; unfold n; lia).
  destruct (from_buf_ok r rest (N.to_nat n) SM ltac:(unfold n; lia)) as [[L E]|[L E]]; fold R in E; rewrite E.
  - eexists. split; [reflexivity|]. unfold fr_inv. cbn [fr_off fr_size fr_idx fr_buf]. split; [rewrite blen_app; reflexivity|]. split; [exact I2|].
    split; [unfold blen at 2; rewrite firstn_length; assert (Q : blen (flat_write r) = N.of_nat (length (flat_write r))) by reflexivity; unfold n in *; lia|].
    apply skipn_firstn_rest; [exact L|]. fold R. unfold n. lia.
  - assert (Q : blen (flat_write r) = N.of_nat (length (flat_write r))) by reflexivity. assert (En : n = fr_size s) by (unfold n in *; lia).
    set (bs := fr_size s + _). assert (Ebs : bs = blen (flat_write r)) by (unfold bs in *; lia).
    unfold R. rewrite f_read_app by (try reflexivity; exact Ebs).
    destruct (from_buf_ok r [] (length (flat_write r)) SM) as [[L' E']|[L' E']].
    + assert (X : length (flat_write r) = N.to_nat (blen (flat_write r))) by (symmetry; apply to_nat_blen). rewrite X. lia.
    + cbv zeta in E'. rewrite app_nil_r, firstn_all in E'. rewrite E'. eexists. split; [reflexivity|].
      unfold fr_inv. cbn [fr_off fr_size fr_idx fr_buf]. split; [rewrite blen_app; reflexivity|]. split; [unfold bs; lia|]. split; [rewrite blen_nil; lia|].
      exists 0%nat. split; [reflexivity|lia].
    + lia.
Qed.
Lemma read_ok r rest pre s : small r -> fr_inv s pre (flat_write r ++ rest) -> (2 < length (flat_write r ++ rest))%nat ->
  exists s', fr_read (pre ++ flat_write r ++ rest) s = (SUCCESS, Some r, s') /\ fr_inv s' (pre ++ flat_write r) rest.
Proof.
  intros SM I H2. assert (P7 := size_var_7 _ SM). assert (I' := I). destruct I' as (I1 & I2 & I3 & m & I4 & I5). unfold fr_read.
  destruct (N.leb_spec (fr_idx s + 9) (blen (fr_buf s))) as [L|_]; [|apply refill_ok; assumption].
  assert (Lm : length (skipn (N.to_nat (fr_idx s)) (fr_buf s)) = m) by (rewrite I4, firstn_length; lia).
  rewrite skipn_length in Lm. unfold blen in L, I3. rewrite I4.
  destruct (from_buf_ok r rest m SM ltac:(lia)) as [[L' E']|[L' E']]; rewrite E'; [|apply refill_ok; assumption].
  eexists. split; [reflexivity|]. unfold fr_inv. cbn [fr_off fr_size fr_idx fr_buf]. split; [rewrite I1, blen_app; reflexivity|]. split; [exact I2|].
  split; [unfold blen in *; lia|]. destruct (skipn_firstn_rest r rest m L' I5) as (m' & E & Lm'). exists m'. split; [|exact Lm'].
  rewrite <- E, <- I4, skipn_skipn'. f_equal. lia.
Qed.
Lemma end_read f s pre rest : f = pre ++ rest -> fr_inv s pre rest -> (length rest <= 2)%nat -> exists s', fr_read f s = (NOT_FOUND_ERROR, None, s').
Proof.
  intros -> (I1 & I2 & I3 & m & I4 & I5) H. exists s. unfold fr_read, fr_refill.
  assert (Lm : length (skipn (N.to_nat (fr_idx s)) (fr_buf s)) = m) by (rewrite I4, firstn_length; lia). rewrite skipn_length in Lm.
  destruct (N.leb_spec (fr_idx s + 9) (blen (fr_buf s))) as [L|_]; [unfold blen in L; lia|].
  rewrite I1, blen_app. destruct (N.leb_spec (blen pre + blen rest) (blen pre + 2)) as [_|X]; [reflexivity|]. unfold blen in X at 2 3; unfold blen in X; lia.
Qed.

(** What can be read back: an empty last record is lost. *)
Fixpoint readable (l : list frec) : list frec :=
  match l with [] => [] | [(_, [])] => [] | r :: l' => r :: readable l' end.
Lemma flats_cons r l : flats (r :: l) = flat_write r ++ flats l. Proof. reflexivity. Qed.
Lemma flat_length r : length (flat_write r) = S (N.to_nat (size_var (blen (snd r))) + length (snd r)).
Proof. unfold flat_write. cbn [length]. rewrite app_length, var_len. reflexivity. Qed.
Lemma flat_len2 r : (2 <= length (flat_write r))%nat.
Proof. rewrite flat_length. assert (P := size_var_pos (blen (snd r))). lia. Qed.
Lemma flats_short r l : (length (flats (r :: l)) <= 2)%nat -> snd r = [] /\ l = [].
Proof.
  rewrite flats_cons, app_length, flat_length. assert (P := size_var_pos (blen (snd r))). intros H. split.
  - destruct (snd r); [reflexivity|]. cbn in H. lia.
  - destruct l as [|x l]; [reflexivity|]. rewrite flats_cons, app_length in H. assert (Q := flat_len2 x). lia.
Qed.
Lemma fr_all_ok l : Forall small l -> forall pre s fuel, fr_inv s pre (flats l) -> (length l < fuel)%nat ->
  fr_all fuel (pre ++ flats l) s = Some (NOT_FOUND_ERROR, readable l).
Proof.
  induction 1 as [|r l SM _ IH]; intros pre s fuel I Hf; (destruct fuel as [|fu]; [cbn in Hf; lia|]).
  - cbn [fr_all]. destruct (@end_read _ s pre (flats []) eq_refl I ltac:(cbn; lia)) as [s' E]. rewrite E. reflexivity.
  - destruct (Nat.le_gt_cases (length (flats (r :: l))) 2) as [Hs|Hs].
    + destruct (@end_read _ s pre _ eq_refl I Hs) as [s' E]. cbn [fr_all]. rewrite E. destruct (flats_short _ _ Hs) as [E1 ->]. destruct r as [t d]. cbn in E1. subst d. reflexivity.
    + rewrite flats_cons in *. destruct (read_ok r (flats l) pre s SM I Hs) as (s' & E & I'). cbn [fr_all]. rewrite E.
      rewrite app_assoc, (IH _ s' fu I') by (cbn in Hf; lia).
      assert (X : readable (r :: l) = r :: readable l); [|rewrite X; reflexivity].
      destruct r as [t [|x d]]; [|reflexivity]. destruct l; [|reflexivity]. exfalso. revert Hs. change (length (flat_write (t, []) ++ flats [])) with 2%nat. lia.
Qed.

(** * Import *)
Section Target.
  Variable T : Type.
  Variable t_set : T -> bytes -> bytes -> code * T.
  Fixpoint sets (l : list (bytes * bytes)) (t : T) : T := match l with [] => t | (k, v) :: l' => sets l' (snd (t_set t k v)) end.
  Definition kv_small (kv : bytes * bytes) : Prop := blen (fst kv) < 2^49 /\ blen (snd kv) < 2^49.
  Definition ends_empty (l : list (bytes * bytes)) : Prop := exists l' k, l = l' ++ [(k, [])].
  Lemma flat_import_ok l : (forall t k v, fst (t_set t k v) = SUCCESS) -> Forall kv_small l -> ~ ends_empty l ->
    forall pre s t fuel, fr_inv s pre (flat_export l) -> (length l < fuel)%nat ->
    flat_import t_set fuel (pre ++ flat_export l) s t = Some (SUCCESS, sets l t).
  Proof.
    intros HS. induction 1 as [|[k v] l [H1 H2] _ IH]; intros HE pre s t fuel I Hf; (destruct fuel as [|fu]; [cbn in Hf; lia|]).
    - cbn [flat_import]. destruct (@end_read _ s pre [] eq_refl I ltac:(cbn; lia)) as [s' E]. cbn [flat_export flat_map]. rewrite E. reflexivity.
    - change (flat_export ((k, v) :: l)) with ((flat_write (false, k) ++ flat_write (false, v)) ++ flat_export l) in *. rewrite <- app_assoc in *.
      assert (Lk := flat_len2 (false, k)). assert (Lv := flat_len2 (false, v)).
      destruct (read_ok (false, k) (flat_write (false, v) ++ flat_export l) pre s H1 I) as (s1 & E1 & I1); [rewrite !app_length; lia|].
      cbn [flat_import]. rewrite E1. rewrite app_assoc.
      destruct (read_ok (false, v) (flat_export l) (pre ++ flat_write (false, k)) s1 H2 I1) as (s2 & E2 & I2).
      { rewrite app_length. destruct l as [|[k' v'] l].
        - assert (v <> []). { intros ->. apply HE. exists [], k. reflexivity. } rewrite flat_length. cbn [snd]. assert (P := size_var_pos (blen v)). destruct v; [contradiction|]. cbn [length]. lia.
        - assert (L3 := flat_len2 (false, k')). cbn [flat_export flat_map fst snd]. rewrite !app_length. lia. }
      rewrite E2. assert (X := HS t k v). destruct (t_set t k v) as [c t'] eqn:ET. cbn [fst] in X. subst c. change (code_eqb SUCCESS SUCCESS) with true. cbn iota.
      rewrite app_assoc, IH; [cbn [sets]; rewrite ET; reflexivity| |exact I2|cbn in Hf; lia].
      intros (l' & k' & ->). apply HE. exists ((k, v) :: l'), k'. reflexivity.
  Qed.
  (** A last empty value makes the whole import fail. *)
  Lemma flat_import_bad l k0 : (forall t k v, fst (t_set t k v) = SUCCESS) -> Forall kv_small l -> blen k0 < 2^49 ->
    forall pre s t fuel, fr_inv s pre (flat_export (l ++ [(k0, [])])) -> (S (length l) < fuel)%nat ->
    flat_import t_set fuel (pre ++ flat_export (l ++ [(k0, [])])) s t = Some (BROKEN_DATA_ERROR, sets l t).
  Proof.
    intros HS H H0. induction H as [|[k v] l [H1 H2] _ IH]; intros pre s t fuel I Hf; (destruct fuel as [|fu]; [cbn in Hf; lia|]); cbn [app] in *.
    - change (flat_export [(k0, [])]) with ((flat_write (false, k0) ++ flat_write (false, [])) ++ []) in *. rewrite app_nil_r in *.
      assert (Lk := flat_len2 (false, k0)). assert (Lv := flat_len2 (false, [])).
      destruct (read_ok (false, k0) (flat_write (false, [])) pre s H0 I) as (s1 & E1 & I1); [rewrite app_length; lia|].
      cbn [flat_import]. rewrite E1, app_assoc. destruct (@end_read _ s1 (pre ++ flat_write (false, k0)) _ eq_refl I1) as [s2 E2]; [apply Nat.le_refl|]. rewrite E2. reflexivity.
    - change (flat_export ((k, v) :: l ++ [(k0, [])])) with ((flat_write (false, k) ++ flat_write (false, v)) ++ flat_export (l ++ [(k0, [])])) in *. rewrite <- app_assoc in *.
      assert (Lk := flat_len2 (false, k)). assert (Lv := flat_len2 (false, v)).
      destruct (read_ok (false, k) (flat_write (false, v) ++ flat_export (l ++ [(k0, [])])) pre s H1 I) as (s1 & E1 & I1); [rewrite !app_length; lia|].
      cbn [flat_import]. rewrite E1. rewrite app_assoc.
      destruct (read_ok (false, v) (flat_export (l ++ [(k0, [])])) (pre ++ flat_write (false, k)) s1 H2 I1) as (s2 & E2 & I2).
      { rewrite app_length. assert (L3 : (2 <= length (flat_export (l ++ [(k0, [])])))%nat); [|lia].
        unfold flat_export. rewrite flat_map_app, app_length. cbn [flat_map fst snd]. rewrite !app_length. assert (L3 := flat_len2 (false, k0)). lia. }
      rewrite E2. assert (X := HS t k v). destruct (t_set t k v) as [c t'] eqn:ET. cbn [fst] in X. subst c. change (code_eqb SUCCESS SUCCESS) with true. cbn iota.
      rewrite app_assoc, IH; [cbn [sets]; rewrite ET; reflexivity|exact I2|cbn in Hf; lia].
  Qed.
  Lemma flat_import_meta meta f rest s t fuel : blen meta < 2^49 -> f = flat_write (true, meta) ++ rest -> (2 < length f)%nat -> fr_inv s [] f ->
    exists s', flat_import t_set (S fuel) f s t = flat_import t_set fuel f s' t /\ fr_inv s' (flat_write (true, meta)) rest.
  Proof.
    intros Hm -> L I. destruct (read_ok (true, meta) rest [] s Hm I L) as (s' & E & I'). exists s'. split; [|exact I']. cbn [flat_import app] in *. rewrite E. reflexivity.
  Qed.
End Target.

(** * Lines *)
Lemma take_line_spec b : match take_line b with
  | (l, Some r) => exists l0, l = l0 ++ [10] /\ b = l0 ++ 10 :: r /\ ~ In 10 l0
  | (l, None) => l = b /\ ~ In 10 b
  end.
Proof.
  induction b as [|c b IH]; cbn [take_line]; [auto|]. destruct (N.eqb_spec c 10) as [->|Hc].
  - exists []. auto.
  - destruct (take_line b) as [l [r|]].
    + destruct IH as (l0 & -> & -> & H). exists (c :: l0). repeat split. cbn. intros [X|X]; [congruence|auto].
    + destruct IH as [-> H]. split; [reflexivity|]. cbn. intros [X|X]; [congruence|auto].
Qed.
Definition lr_inv (f : bytes) (s : lr) (rest : bytes) (q : bytes) : Prop :=
  exists p, f = p ++ lr_buf s ++ q /\ lr_off s = blen (p ++ lr_buf s) /\ rest = lr_buf s ++ q.
Lemma split_unique (a a' b b' : bytes) : ~ In 10 a -> ~ In 10 a' -> a ++ 10 :: b = a' ++ 10 :: b' -> a = a' /\ b = b'.
Proof.
  revert a'; induction a as [|x a IH]; intros [|y a'] H H' E; cbn in E; inversion E; subst; auto.
  - exfalso. apply H'. left. reflexivity.
  - exfalso. apply H. left. reflexivity.
  - destruct (IH a') as [-> ->]; auto; intros X; [apply H|apply H']; right; exact X.
Qed.
(** Refilling the buffer. *)
Lemma lr_step f s rest q fu str : lr_inv f s rest q -> take_line (lr_buf s) = (lr_buf s, None) ->
  (q = [] /\ read_line (S fu) f s str = Some (match str ++ rest with [] => NOT_FOUND_ERROR | _ => SUCCESS end, str ++ rest, mkLr (lr_off s) [])) \/
  (exists b q', q = b ++ q' /\ (length q' < length q)%nat /\ lr_inv f (mkLr (lr_off s + blen b) b) q q' /\
     read_line (S fu) f s str = read_line fu f (mkLr (lr_off s + blen b) b) (str ++ lr_buf s)).
Proof.
  intros (p & E & Eo & Er) ET. cbn [read_line]. rewrite ET. cbv zeta.
  assert (EL : blen f = lr_off s + blen q) by (rewrite E, Eo, !blen_app; lia).
  replace (blen f - lr_off s) with (blen q) by lia.
  destruct (N.ltb_spec (N.min (blen q) 8192) 1) as [H|H].
  - left. assert (Q : q = []) by (destruct q; [reflexivity|rewrite blen_cons in H; lia]). subst q. rewrite app_nil_r in Er. subst rest. auto.
  - right. set (n := N.min (blen q) 8192) in *.
    assert (ER : f_read f (lr_off s) n = Some (firstn (N.to_nat n) q)).
    { rewrite E, app_assoc. apply f_read_prefix; [exact Eo|unfold n; lia]. }
    rewrite ER. exists (firstn (N.to_nat n) q), (skipn (N.to_nat n) q).
    assert (BL : blen (firstn (N.to_nat n) q) = n) by (unfold blen in *; rewrite firstn_length; unfold n; lia).
    split; [symmetry; apply firstn_skipn|]. split; [rewrite skipn_length; unfold n, blen in *; lia|]. split.
    + exists (p ++ lr_buf s). cbn [lr_buf lr_off]. rewrite firstn_skipn. split; [rewrite <- app_assoc; exact E|]. split; [|reflexivity].
      rewrite blen_app, Eo. reflexivity.
    + rewrite BL. reflexivity.
Qed.
Lemma read_line_ok f line rest' : ~ In 10 line -> forall fuel s q str l0, lr_inv f s (l0 ++ 10 :: rest') q -> (length q < fuel)%nat -> ~ In 10 l0 -> line = str ++ l0 ->
  exists s' q', read_line fuel f s str = Some (SUCCESS, line ++ [10], s') /\ lr_inv f s' rest' q' /\ (length q' <= length q)%nat.
Proof.
  intros HL. induction fuel as [|fu IH]; intros s q str l0 I Hf Hl0 El; [lia|].
  assert (TS := take_line_spec (lr_buf s)). destruct (take_line (lr_buf s)) as [l [r|]] eqn:ET.
  - destruct TS as (l1 & -> & EB & H1). cbn [read_line]. rewrite ET. destruct I as (p & E & Eo & Er).
    rewrite EB in Er. rewrite <- app_assoc in Er. cbn [app] in Er. apply split_unique in Er; auto. destruct Er as [<- ->].
    eexists _, q. split; [rewrite El, <- app_assoc; reflexivity|]. split; [|lia]. exists (p ++ l0 ++ [10]). cbn [lr_buf lr_off].
    split; [rewrite E, EB, <- !app_assoc; reflexivity|]. split; [|reflexivity]. rewrite Eo, EB, <- !app_assoc. reflexivity.
  - destruct TS as [-> H1]. destruct (lr_step f s _ q fu str I ET) as [[-> E]|(b & q' & E1 & E2 & E3 & E4)].
    + exfalso. destruct I as (p & _ & _ & Er). rewrite app_nil_r in Er. apply H1. rewrite <- Er. apply in_or_app. right. left. reflexivity.
    + rewrite E4. destruct I as (p & _ & _ & Er).
      assert (G : exists l2, l0 = lr_buf s ++ l2 /\ q = l2 ++ 10 :: rest').
      { clear - Er H1. revert l0 Er. induction (lr_buf s) as [|x b IH]; intros l0 Er; [exists l0; auto|]. destruct l0 as [|y l0]; cbn in Er; inversion Er; subst.
        - exfalso. apply H1. left. reflexivity.
        - destruct (IH (fun X => H1 (or_intror X)) l0 ltac:(assumption)) as (l2 & -> & ->). exists l2. auto. }
      destruct G as (l2 & -> & Eq). rewrite Eq in E3. rewrite Eq in E2.
      destruct (IH (mkLr (lr_off s + blen b) b) q' (str ++ lr_buf s) l2 E3) as (s' & q2 & X1 & X2 & X3).
      * rewrite Eq in Hf. lia.
      * intros X. apply Hl0. apply in_or_app. right. exact X.
      * rewrite El, app_assoc. reflexivity.
      * exists s', q2. split; [exact X1|]. split; [exact X2|]. rewrite Eq. lia.
Qed.
Lemma read_line_end f s q fuel : lr_inv f s [] q -> (0 < fuel)%nat -> exists s', read_line fuel f s [] = Some (NOT_FOUND_ERROR, [], s').
Proof.
  intros I Hf. destruct fuel as [|fu]; [lia|]. assert (I' := I). destruct I' as (p & E & Eo & Er). symmetry in Er. apply app_eq_nil in Er. destruct Er as [Eb ->].
  assert (ET : take_line (lr_buf s) = (lr_buf s, None)) by (rewrite Eb; reflexivity).
  destruct (lr_step f s [] [] fu [] I ET) as [[_ X]|(b & q' & X1 & X2 & _)].
  - eexists. exact X.
  - cbn in X2. lia.
Qed.
Lemma lr_new_inv f : lr_inv f lr_new f f.
Proof. exists []. repeat split. Qed.
(** A last line without a newline. *)
Lemma read_line_tail f line : line <> [] -> ~ In 10 line -> forall fuel s q str l0, lr_inv f s l0 q -> (length q < fuel)%nat -> line = str ++ l0 ->
  exists s' , read_line fuel f s str = Some (SUCCESS, line, s') /\ lr_inv f s' [] [].
Proof.
  intros HN HL. induction fuel as [|fu IH]; intros s q str l0 I Hf El; [lia|].
  assert (TS := take_line_spec (lr_buf s)). destruct (take_line (lr_buf s)) as [l [r|]] eqn:ET.
  - exfalso. destruct TS as (l1 & _ & EB & _). destruct I as (p & _ & _ & Er). apply HL. rewrite El, Er, EB. apply in_or_app. right. apply in_or_app. left. apply in_or_app. right. left. reflexivity.
  - destruct TS as [-> H1]. destruct (lr_step f s _ q fu str I ET) as [[-> E]|(b & q' & E1 & E2 & E3 & E4)].
    + rewrite E, <- El. destruct I as (p & F1 & F2 & _). eexists. split; [destruct line; [contradiction|reflexivity]|]. exists (p ++ lr_buf s). cbn [lr_buf lr_off app].
      rewrite !app_nil_r in *. auto.
    + rewrite E4. destruct I as (p & _ & _ & Er). apply (IH _ q' (str ++ lr_buf s) q E3); [lia|]. rewrite El, Er, app_assoc. reflexivity.
Qed.

Lemma content_line a : content_of (a ++ [10]) = a.
Proof. unfold content_of. rewrite rev_app_distr. cbn. apply rev_involutive. Qed.
Lemma split_tab_app a b : ~ In 9 a -> split_tab (a ++ 9 :: b) = Some (a, b).
Proof.
  induction a as [|x a IH]; intros H; cbn; [reflexivity|]. destruct (N.eqb_spec x 9) as [->|_]; [exfalso; apply H; left; reflexivity|].
  rewrite IH; [reflexivity|]. intros X. apply H. right. exact X.
Qed.
