(** The fraction of FormatDateW3CDTFWithFrac, and reading it back. *)
From Coq Require Import QArith.
From Coq Require Import List NArith ZArith Bool Lia.
Import ListNotations.
From Verif Require Import Bytes CodecModel StrSerialModel ComparatorModel TimeModel TimeCal TimeProofs.
Open Scope N_scope.

(** The number of a list of decimal digits. *)
Definition dec_val (l : bytes) : N := fold_left (fun n c => n * 10 + (c - 48)) l 0.
Definition digits (l : bytes) : Prop := forallb is_digit l = true.
Lemma dec_fold l : forall n, fold_left (fun n c => n * 10 + (c - 48)) l n = n * 10 ^ N.of_nat (length l) + dec_val l.
Proof.
  induction l as [|c l IH]; intros n; [cbn; lia|]. unfold dec_val. cbn [fold_left length]. rewrite IH, (IH (0 * 10 + (c - 48))).
  rewrite Nat2N.inj_succ, N.pow_succ_r'. lia.
Qed.
Lemma dec_app a b : dec_val (a ++ b) = dec_val a * 10 ^ N.of_nat (length b) + dec_val b.
Proof. unfold dec_val at 1. rewrite fold_left_app. apply dec_fold. Qed.
Lemma dec_bound l : digits l -> dec_val l < 10 ^ N.of_nat (length l).
Proof.
  induction l as [|c l IH] using rev_ind; [cbn; lia|]. intros D. unfold digits in D. rewrite forallb_app in D. apply andb_prop in D. destruct D as [D1 D2].
  cbn in D2. rewrite andb_true_r in D2. apply dg_range in D2. specialize (IH D1). rewrite dec_app, app_length. cbn [length].
  replace (N.of_nat (length l + 1)) with (N.succ (N.of_nat (length l))) by lia. rewrite N.pow_succ_r'. change (dec_val [c]) with (0 * 10 + (c - 48)).
  change (10 ^ N.of_nat 1) with 10. lia.
Qed.
Lemma firstn_val l k : (k <= length l)%nat -> digits l -> dec_val (firstn k l) = dec_val l / 10 ^ N.of_nat (length l - k).
Proof.
  intros K D. rewrite <- (firstn_skipn k l) at 2. rewrite dec_app, skipn_length.
  assert (S : digits (skipn k l)).
  { unfold digits in *. rewrite <- (firstn_skipn k l), forallb_app in D. apply andb_prop in D. tauto. }
  pose proof (dec_bound _ S) as B. rewrite skipn_length in B.
  rewrite N.add_comm, N.div_add by (apply N.pow_nonzero; lia). rewrite N.div_small by exact B. lia.
Qed.
Lemma digs_spec fuel : forall n acc, n < 10 ^ N.of_nat (S fuel) ->
  exists d, digs fuel n acc = d ++ acc /\ digits d /\ dec_val d = n /\ (1 <= length d)%nat /\ forall k, (1 <= k)%nat -> n < 10 ^ N.of_nat k -> (length d <= k)%nat.
Proof.
  induction fuel as [|fu IH]; intros n acc H; cbn [digs].
  - change (10 ^ N.of_nat 1) with 10 in H. exists [48 + n mod 10]. rewrite N.mod_small by lia. repeat split; [| |cbn; lia|intros; cbn; lia].
    + unfold digits, is_digit. cbn [forallb]. rewrite andb_true_r, andb_true_iff, !N.leb_le. lia.
    + unfold dec_val. cbn [fold_left]. lia.
  - destruct (N.ltb_spec n 10).
    + exists [48 + n mod 10]. rewrite N.mod_small by lia. repeat split; [| |cbn; lia|intros; cbn; lia].
      * unfold digits, is_digit. cbn [forallb]. rewrite andb_true_r, andb_true_iff, !N.leb_le. lia.
      * unfold dec_val. cbn [fold_left]. lia.
    + assert (Hd : n / 10 < 10 ^ N.of_nat (S fu)).
      { apply N.div_lt_upper_bound; [lia|]. rewrite (Nat2N.inj_succ (S fu)), N.pow_succ_r' in H. lia. }
      destruct (IH (n / 10) ((48 + n mod 10) :: acc) Hd) as (d & E & D & V & L & B).
      exists (d ++ [48 + n mod 10]). rewrite E, <- app_assoc. pose proof (N.mod_lt n 10 ltac:(lia)). repeat split.
      * unfold digits in *. rewrite forallb_app, D. unfold is_digit. cbn [forallb andb]. rewrite andb_true_r, andb_true_iff, !N.leb_le. lia.
      * rewrite dec_app, V. change (10 ^ N.of_nat (length [48 + n mod 10])) with 10. change (dec_val [48 + n mod 10]) with (0 * 10 + (48 + n mod 10 - 48)).
        pose proof (N.div_mod n 10 ltac:(lia)). lia.
      * rewrite app_length. cbn [length]. lia.
      * intros k K Hk. rewrite app_length. cbn [length]. destruct k as [|[|k]]; [lia| |].
        { change (10 ^ N.of_nat 1) with 10 in Hk. lia. }
        specialize (B (S k) ltac:(lia)). assert (n / 10 < 10 ^ N.of_nat (S k)).
        { apply N.div_lt_upper_bound; [lia|]. rewrite (Nat2N.inj_succ (S k)), N.pow_succ_r' in Hk. lia. }
        specialize (B H2). lia.
Qed.
Lemma twelve n : n < 10 ^ 12 -> let l := zeros 12 (digs 20 n []) in digits l /\ length l = 12%nat /\ dec_val l = n.
Proof.
  intros H. destruct (digs_spec 20 n []) as (d & E & D & V & L & B). { apply (N.lt_trans _ _ _ H). reflexivity. }
  specialize (B 12%nat ltac:(lia) H). rewrite E, app_nil_r. cbv zeta. unfold zeros.
  assert (R : forall m, digits (repeat 48 m) /\ dec_val (repeat 48 m) = 0).
  { induction m as [|m [I1 I2]]; [split; reflexivity|]. split; [unfold digits; cbn [repeat forallb]; exact I1|].
    unfold dec_val. cbn [repeat fold_left]. exact I2. }
  destruct (R (12 - length d)%nat) as [R1 R2]. repeat split.
  - unfold digits in *. rewrite forallb_app, R1, D. reflexivity.
  - rewrite app_length, repeat_length. lia.
  - rewrite dec_app, R2, V. lia.
Qed.

Lemma frac_text_spec f cols : (1 <= cols <= 12)%Z -> round12 f < 10 ^ 12 ->
  exists ds, frac_text f cols = 46 :: ds /\ digits ds /\ length ds = Z.to_nat cols /\ dec_val ds = round12 f / 10 ^ N.of_nat (12 - Z.to_nat cols).
Proof.
  intros C R. unfold frac_text. rewrite N.div_small by exact R. rewrite (N.mod_small (round12 f)) by exact R.
  destruct (twelve _ R) as (D & L & V). set (l := zeros 12 (digs 20 (round12 f) [])) in *. clearbody l.
  change (digs 20 0 []) with [48]. cbn [app]. change (48 =? 48) with true. cbv iota.
  rewrite Z.min_l by lia. replace (Z.to_nat (cols + 1)) with (S (Z.to_nat cols)) by lia. cbn [firstn].
  exists (firstn (Z.to_nat cols) l). split; [reflexivity|]. split; [|split].
  - unfold digits in *. rewrite <- (firstn_skipn (Z.to_nat cols) l), forallb_app in D. apply andb_prop in D. tauto.
  - rewrite firstn_length, L. lia.
  - rewrite firstn_val, V, L by (try exact D; lia). reflexivity.
Qed.

Definition no_nul (s : bytes) : Prop := Forall (fun c => c <> 0) s.
Lemma c_string_app s t : no_nul s -> c_string (s ++ 0 :: t) = Some s.
Proof.
  induction 1 as [|c s H _ IH]; [reflexivity|]. cbn [app c_string]. rewrite (proj2 (N.eqb_neq _ _) H), IH. reflexivity.
Qed.
Lemma digits_no_nul l : digits l -> no_nul l.
Proof.
  unfold digits. intros D. rewrite forallb_forall in D. apply Forall_forall. intros c I. specialize (D c I). apply dg_range in D. lia.
Qed.
Lemma zone_shape td : (td mod 60 = 0)%Z -> (Z.abs td < 360000)%Z ->
  no_nul (zone td) /\ exists c r, zone td = c :: r /\ is_digit c = false /\ (c =? 101) || (c =? 69) = false.
Proof.
  intros M A. unfold zone. set (m := Z.quot td 60) in *.
  assert (Q : (td = 60 * m)%Z) by (unfold m; clear m; Z.to_euclidean_division_equations; lia).
  destruct (Z.eqb_spec m 0) as [E | E].
  - split; [repeat constructor; discriminate|]. exists 90, []. repeat split; reflexivity.
  - rewrite Z.quot_div_nonneg, Z.rem_mod_nonneg by lia.
    destruct (pad2 (Z.abs m / 60)) as (h1 & h2 & -> & H1 & H2 & _). { Z.to_euclidean_division_equations; lia. }
    destruct (pad2 (Z.abs m mod 60)) as (m1 & m2 & -> & M1 & M2 & _). { Z.to_euclidean_division_equations; lia. }
    apply dg_range in H1, H2, M1, M2. destruct (m <? 0)%Z; cbn [app]; (split; [repeat constructor; lia|]);
      eexists; eexists; repeat split; reflexivity.
Qed.

Section Frac.
  Variable conv : Z -> bytes -> bytes -> option Z -> fl.
  Lemma span_all k : forall l c r, digits l -> (length l <= k)%nat -> is_digit c = false -> span_frac k (l ++ c :: r) = (l, c :: r).
  Proof.
    induction k as [|k IH]; intros l c r D L C; destruct l as [|a l]; cbn [length] in L; try lia; cbn [span_frac app]; [reflexivity| |].
    - rewrite C. reflexivity.
    - unfold digits in D. cbn [forallb] in D. apply andb_prop in D. destruct D as [D1 D2]. rewrite D1, IH by (try assumption; lia). reflexivity.
  Qed.
  Lemma skip_digits l c r : digits l -> is_digit c = false -> skip is_digit (l ++ c :: r) = c :: r.
  Proof.
    intros D C. induction l as [|a l IH]; cbn [app skip]; [rewrite C; reflexivity|]. unfold digits in D. cbn [forallb] in D. apply andb_prop in D.
    destruct D as [D1 D2]. rewrite D1. apply IH. exact D2.
  Qed.
  Lemma frac_read ds z after : digits ds -> (1 <= length ds <= 16)%nat -> no_nul z ->
    (exists c r, z = c :: r /\ is_digit c = false /\ (c =? 101) || (c =? 69) = false) ->
    frac_at conv (46 :: ds ++ z) (0 :: after) = Some (conv 1%Z [] ds (Some 0%Z)).
  Proof.
    intros D L NZ (c & r & -> & C & E). unfold frac_at. rewrite c_string_app.
    2:{ constructor; [discriminate|]. apply Forall_app. split; [apply digits_no_nul; exact D | exact NZ]. }
    destruct ds as [|a ds']; [cbn in L; lia|]. cbn [app]. assert (DA : is_digit a = true) by (unfold digits in D; cbn in D; apply andb_prop in D; tauto).
    rewrite DA. f_equal. unfold str_to_double. cbn [skip_space]. change (46 <=? 32) with false. cbv iota. cbn [read_sign].
    change (46 =? 45) with false. change (46 =? 43) with false. cbv iota.
    replace (up3 105 110 102 (46 :: a :: ds' ++ c :: r)) with false by (unfold up3; destruct (ds' ++ c :: r); reflexivity).
    replace (up3 110 97 110 (46 :: a :: ds' ++ c :: r)) with false by (unfold up3; destruct (ds' ++ c :: r); reflexivity).
    cbn [skip_space]. change (46 <=? 32) with false. cbv iota. cbn [span_digits]. change (is_digit 46) with false. cbv iota.
    change (46 =? 46) with true. cbv iota. change (columns []) with 0%nat. change (a :: ds' ++ c :: r) with ((a :: ds') ++ c :: r).
    rewrite span_all by (try assumption; lia). rewrite E. reflexivity.
  Qed.
  Lemma w3c_frac_round t td f cols after : (0 <= tm_year (gmtime t) + 1900 < 10000)%Z -> (td mod 60 = 0)%Z -> (Z.abs td < 360000)%Z ->
    (1 <= cols <= 12)%Z -> round12 f < 10 ^ 12 ->
    exists ds, digits ds /\ length ds = Z.to_nat cols /\ dec_val ds = round12 f / 10 ^ N.of_nat (12 - Z.to_nat cols)
    /\ parse_date conv (w3c_text (gmtime t) ++ frac_text f cols ++ zone td) (0 :: after) = PTime (t - td) (conv 1%Z [] ds (Some 0%Z)).
  Proof.
    intros Y M A C R. destruct (frac_text_spec f cols C R) as (ds & E & D & L & V). exists ds. repeat split; try assumption.
    destruct (zone_shape td M A) as [NZ Sh].
    pose proof (gm_ranges t) as G. cbv zeta in G. unfold w3c_text. rewrite text_head by (try lia; auto).
    cbv zeta. rewrite timegm_gmtime, E. cbn [app]. change (46 =? 46) with true. cbv iota.
    rewrite frac_read by (try assumption; lia).
    destruct Sh as (c & r & Z1 & Z2 & Z3). pose proof (zone_read conv td (fun td => PTime (t - td) (conv 1%Z [] ds (Some 0%Z))) M A) as ZR.
    rewrite Z1 in ZR |- *. rewrite skip_digits by assumption. exact ZR.
  Qed.
End Frac.
