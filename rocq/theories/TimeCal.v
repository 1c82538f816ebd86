(** Proofs about the calendar: gmtime and timegm are inverse, and GetDayOfWeek is the day of week. *)
From Coq Require Import QArith.
From Coq Require Import List NArith ZArith Bool Lia.
Import ListNotations.
From Verif Require Import Bytes CodecModel StrSerialModel ComparatorModel TimeModel.
Open Scope Z_scope.

(** * The calendar *)
Lemma leap_spec y : leap y = true <-> y mod 4 = 0 /\ (y mod 100 <> 0 \/ y mod 400 = 0).
Proof. unfold leap. rewrite andb_true_iff, orb_true_iff, negb_true_iff, !Z.eqb_eq, Z.eqb_neq. tauto. Qed.

Lemma days_next y : days_before (y + 1) = days_before y + (if leap y then 366 else 365).
Proof.
  assert (E : leap y = true \/ leap y = false) by (destruct (leap y); auto).
  unfold days_before. replace (y + 1 - 1) with y by lia.
  destruct (leap y) eqn:L.
  - apply leap_spec in L. Z.to_euclidean_division_equations; lia.
  - assert (N : ~ (y mod 4 = 0 /\ (y mod 100 <> 0 \/ y mod 400 = 0))) by (rewrite <- leap_spec; congruence).
    clear L E. Z.to_euclidean_division_equations; lia.
Qed.

Lemma year_of_spec d : days_before (year_of d) <= d < days_before (year_of d + 1).
Proof.
  unfold year_of. set (y := 400 * d / 146097 + 1).
  assert (A : days_before (y - 1) <= d) by (unfold days_before, y; Z.to_euclidean_division_equations; lia).
  assert (B : d < days_before (y + 2)) by (unfold days_before, y; Z.to_euclidean_division_equations; lia).
  destruct (Z.ltb_spec d (days_before y)).
  - replace (y - 1 + 1) with y by lia. lia.
  - destruct (Z.leb_spec (days_before (y + 1)) d); [replace (y + 1 + 1) with (y + 2) by lia|]; lia.
Qed.

Lemma days_mono_nat y (n : nat) : days_before y <= days_before (y + Z.of_nat n).
Proof.
  induction n; [replace (y + Z.of_nat 0) with y by lia; lia|].
  replace (y + Z.of_nat (S n)) with (y + Z.of_nat n + 1) by lia. rewrite days_next. destruct (leap _); lia.
Qed.
Lemma days_mono y z : y <= z -> days_before y <= days_before z.
Proof. intros H. replace z with (y + Z.of_nat (Z.to_nat (z - y))) by lia. apply days_mono_nat. Qed.
Lemma year_of_unique d y : days_before y <= d < days_before (y + 1) -> year_of d = y.
Proof.
  intros H. pose proof (year_of_spec d) as S.
  destruct (Z.lt_trichotomy (year_of d) y) as [L | [E | L]]; [|exact E|].
  - pose proof (days_mono (year_of d + 1) y). lia.
  - pose proof (days_mono (y + 1) (year_of d)). lia.
Qed.

Lemma month_start_0 l : month_start l 0 = 0. Proof. reflexivity. Qed.
Lemma month_spec (l : bool) (d : Z) : 0 <= d < (if l then 366 else 365) ->
  let '(m, md) := find_month (month_lens l) 0 d in 0 <= m < 12 /\ 1 <= md <= 31 /\ month_start l m + md - 1 = d.
Proof.
  intros H. destruct l; cbn [find_month month_lens];
    repeat match goal with |- context [if ?a <? ?b then _ else _] => destruct (Z.ltb_spec a b) end;
    cbn [Z.add Pos.add Pos.succ]; try lia;
    match goal with |- context [month_start ?l ?m] => let x := eval vm_compute in (month_start l m) in change (month_start l m) with x end; lia.
Qed.

Lemma timegm_gmtime t : timegm (gmtime t) = t.
Proof.
  unfold gmtime, timegm. pose proof (year_of_spec (t / 86400 + epoch)) as Y. set (y := year_of (t / 86400 + epoch)) in *.
  rewrite days_next in Y.
  pose proof (month_spec (leap y) (t / 86400 + epoch - days_before y) ltac:(lia)) as M.
  destruct (find_month _ _ _) as [m md]. destruct M as (M1 & M2 & M3).
  cbn [tm_year tm_mon tm_mday tm_hour tm_min tm_sec].
  rewrite Z.div_small, Z.mod_small by lia. replace (y - 1900 + 1900 + 0) with y by lia.
  replace (days_before y + month_start (leap y) m + md - 1 - epoch) with (t / 86400) by lia.
  Z.to_euclidean_division_equations; lia.
Qed.
Lemma gm_ranges t : let c := gmtime t in 0 <= tm_mon c < 12 /\ 1 <= tm_mday c <= 31 /\ 0 <= tm_hour c < 24 /\ 0 <= tm_min c < 60 /\ 0 <= tm_sec c < 60
  /\ 0 <= tm_wday c < 7.
Proof.
  unfold gmtime. pose proof (year_of_spec (t / 86400 + epoch)) as Y. set (y := year_of (t / 86400 + epoch)) in *.
  rewrite days_next in Y.
  pose proof (month_spec (leap y) (t / 86400 + epoch - days_before y) ltac:(lia)) as M.
  destruct (find_month _ _ _) as [m md]. destruct M as (M1 & M2 & M3).
  cbn [tm_year tm_mon tm_mday tm_hour tm_min tm_sec tm_wday].
  repeat split; try lia; Z.to_euclidean_division_equations; lia.
Qed.

Lemma dow_ok year mon day : 1 <= year <= 10 ^ 9 -> 1 <= mon <= 12 -> 1 <= day <= 31 ->
  get_day_of_week year mon day = Some (tm_wday (gmtime (timegm (mkTm (year - 1900) (mon - 1) day 0 0 0 0)))).
Proof.
  intros Y M D.
  assert (W : tm_wday (gmtime (timegm (mkTm (year - 1900) (mon - 1) day 0 0 0 0)))
              = (days_before year + month_start (leap year) (mon - 1) + day - 1 - epoch + 4) mod 7).
  { unfold timegm, gmtime. cbn [tm_year tm_mon tm_mday tm_hour tm_min tm_sec].
    rewrite (Z.div_small (mon - 1)), (Z.mod_small (mon - 1)) by lia. replace (year - 1900 + 1900 + 0) with year by lia.
    destruct (find_month _ _ _). cbn [tm_wday]. f_equal. f_equal. rewrite !Z.add_0_r, Z.div_mul by lia. reflexivity. }
  rewrite W. clear W. change epoch with 719162. unfold get_day_of_week.
  assert (C : mon = 1 \/ mon = 2 \/ mon = 3 \/ mon = 4 \/ mon = 5 \/ mon = 6 \/ mon = 7 \/ mon = 8 \/ mon = 9 \/ mon = 10 \/ mon = 11 \/ mon = 12) by lia.
  assert (B : forall b, int32_ok b = true <-> - 2 ^ 31 <= b <= 2 ^ 31 - 1) by (intros b; unfold int32_ok; rewrite andb_true_iff, !Z.leb_le; lia).
  assert (G : forall y m k, 0 <= y <= 10 ^ 9 -> 0 <= m <= 20 -> (y = year \/ y = year - 1) ->
            (day + Z.quot (8 + 13 * m) 5 + (y + Z.quot y 4 - Z.quot y 100 + Z.quot y 400)) mod 7 = k ->
            (if forallb int32_ok [year; mon; day; y; m; 13 * m; 8 + 13 * m; day + Z.quot (8 + 13 * m) 5; y + Z.quot y 4; y + Z.quot y 4 - Z.quot y 100;
                y + Z.quot y 4 - Z.quot y 100 + Z.quot y 400; day + Z.quot (8 + 13 * m) 5 + (y + Z.quot y 4 - Z.quot y 100 + Z.quot y 400)]
             then Some (Z.rem (day + Z.quot (8 + 13 * m) 5 + (y + Z.quot y 4 - Z.quot y 100 + Z.quot y 400)) 7) else None) = Some k).
  { intros y m k Hy Hm Hyy Hk. rewrite !Z.quot_div_nonneg in * by lia.
    replace (forallb _ _) with true.
    - rewrite Z.rem_mod_nonneg; [congruence| |lia]. clear Hk. Z.to_euclidean_division_equations; lia.
    - symmetry. cbn [forallb]. rewrite !andb_true_iff, !B. clear Hk. repeat split; try reflexivity; Z.to_euclidean_division_equations; lia. }
  assert (Q : forall y, 0 <= y -> y + Z.quot y 4 - Z.quot y 100 + Z.quot y 400 = days_before (y + 1) - 364 * y).
  { intros y Hy. rewrite !Z.quot_div_nonneg by lia. unfold days_before. replace (y + 1 - 1) with y by lia. lia. }
  destruct (Z.ltb_spec mon 3) as [L | L].
  - apply G; try lia. rewrite Q by lia. replace (year - 1 + 1) with year by lia. generalize (days_before year). intros db.
    assert (mon = 1 \/ mon = 2) as [-> | ->] by lia; destruct (leap year);
      match goal with |- context [month_start ?l ?m] => let x := eval vm_compute in (month_start l m) in change (month_start l m) with x end;
      match goal with |- context [Z.quot ?m 5] => let x := eval vm_compute in (Z.quot m 5) in change (Z.quot m 5) with x end;
      Z.to_euclidean_division_equations; lia.
  - apply G; try lia. rewrite Q by lia. rewrite days_next. generalize (days_before year). intros db.
    assert (Hm : mon = 3 \/ mon = 4 \/ mon = 5 \/ mon = 6 \/ mon = 7 \/ mon = 8 \/ mon = 9 \/ mon = 10 \/ mon = 11 \/ mon = 12) by lia.
    clear C Q G B.
    destruct Hm as [C|[C|[C|[C|[C|[C|[C|[C|[C|C]]]]]]]]]; subst mon; destruct (leap year);
      match goal with |- context [month_start ?l ?m] => let x := eval vm_compute in (month_start l m) in change (month_start l m) with x end;
      match goal with |- context [Z.quot ?m 5] => let x := eval vm_compute in (Z.quot m 5) in change (Z.quot m 5) with x end;
      Z.to_euclidean_division_equations; lia.
Qed.
