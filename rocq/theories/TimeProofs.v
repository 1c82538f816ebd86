(** What ParseDateStr and ParseDateStrYYYYMMDD read from what the format functions write. *)
From Coq Require Import QArith.
From Coq Require Import List NArith ZArith Bool Lia.
Import ListNotations.
From Verif Require Import Bytes CodecModel StrSerialModel StrSerialProofs ComparatorModel TimeModel TimeCal.
Open Scope Z_scope.

Lemma timegm_fields c : timegm (mkTm (tm_year c) (tm_mon c) (tm_mday c) (tm_hour c) (tm_min c) (tm_sec c) 0) = timegm c.
Proof. unfold timegm. cbn [tm_year tm_mon tm_mday tm_hour tm_min tm_sec]. reflexivity. Qed.

(** * Numbers of two and of four digits: all of them *)
Definition two_ok (z : Z) : bool :=
  match pad 2 z with [a; b] => is_digit a && is_digit b && match str_to_int [a; b] with Some n => n =? z | None => false end | _ => false end.
Definition four_ok (z : Z) : bool :=
  match pad 4 z with [a; b; c; d] => is_digit a && is_digit b && is_digit c && is_digit d && match str_to_int [a; b; c; d] with Some n => n =? z | None => false end | _ => false end.
Lemma all_two : forallb two_ok (map Z.of_nat (seq 0 100)) = true. Proof. vm_compute. reflexivity. Qed.
Lemma all_four : forallb four_ok (map Z.of_nat (seq 0 (100 * 100))) = true. Proof. vm_compute. reflexivity. Qed.
Lemma pad2 z : 0 <= z < 100 -> exists a b, pad 2 z = [a; b] /\ is_digit a = true /\ is_digit b = true /\ str_to_int [a; b] = Some z.
Proof.
  intros H. pose proof all_two as A. rewrite forallb_forall in A. specialize (A z). unfold two_ok in A.
  assert (I : In z (map Z.of_nat (seq 0 100))) by (apply in_map_iff; exists (Z.to_nat z); split; [lia | apply in_seq; lia]).
  specialize (A I). destruct (pad 2 z) as [|a [|b [|]]]; try discriminate.
  apply andb_prop in A. destruct A as [A B]. apply andb_prop in A. destruct A as [A1 A2]. exists a, b. repeat split; auto.
  destruct (str_to_int [a; b]); [apply Z.eqb_eq in B; congruence | discriminate].
Qed.
Lemma pad4 z : 0 <= z < 10000 -> exists a b c d, pad 4 z = [a; b; c; d] /\ is_digit a = true /\ is_digit b = true /\ is_digit c = true /\ is_digit d = true
  /\ str_to_int [a; b; c; d] = Some z.
Proof.
  intros H. pose proof all_four as A. rewrite forallb_forall in A. specialize (A z). unfold four_ok in A.
  assert (I : In z (map Z.of_nat (seq 0 (100 * 100)))).
  { apply in_map_iff. exists (Z.to_nat z). split; [lia | apply in_seq].
    split; [lia|]. apply Nat2Z.inj_lt. rewrite Z2Nat.id by lia. change (Z.of_nat (0 + 100 * 100)) with 10000. lia. }
  specialize (A I). destruct (pad 4 z) as [|a [|b [|c [|d [|]]]]]; try discriminate.
  do 4 (apply andb_prop in A; let B := fresh "B" in destruct A as [A B]). exists a, b, c, d. repeat split; auto.
  match goal with E : match str_to_int _ with _ => _ end = true |- _ => revert E end.
  destruct (str_to_int [a; b; c; d]); [|discriminate]. intros E. apply Z.eqb_eq in E. congruence.
Qed.

Lemma dg_range a : is_digit a = true -> (48 <= a <= 57)%N.
Proof. unfold is_digit. rewrite andb_true_iff, !N.leb_le. lia. Qed.
Ltac nn := repeat match goal with |- context [(?a <=? ?b)%N] => destruct (N.leb_spec a b) | |- context [(?a =? ?b)%N] => destruct (N.eqb_spec a b)
  | |- context [(?a <? ?b)%N] => destruct (N.ltb_spec a b) end; try lia; try reflexivity.
Lemma dg_blank a : is_digit a = true -> blank a = false. Proof. intros H. apply dg_range in H. unfold blank. nn. Qed.
Lemma dg_sign a : is_digit a = true -> is_sign a = false. Proof. intros H. apply dg_range in H. unfold is_sign. nn. Qed.
Lemma dg_x a : is_digit a = true -> ((a =? 120) || (a =? 88))%N = false. Proof. intros H. apply dg_range in H. nn. Qed.
Lemma dg_sp a : is_digit a = true -> is_sp a = false. Proof. intros H. apply dg_range in H. unfold is_sp. nn. Qed.
Lemma dg_le a : is_digit a = true -> (a <=? 32)%N = false. Proof. intros H. apply dg_range in H. nn. Qed.

Section Parse.
  Variable conv : Z -> bytes -> bytes -> option Z -> fl.

  (** The head of a date and time. *)
  Lemma w3c_head y1 y2 y3 y4 e m1 m2 e' d1 d2 x h1 h2 i1 i2 s1 s2 r after y mo d h i s :
    is_digit y1 = true -> is_digit y2 = true -> is_digit y3 = true -> is_digit y4 = true ->
    (e = 45%N \/ e = 47%N) -> (e' = 45%N \/ e' = 47%N) -> (x = 84%N \/ x = 32%N) ->
    str_to_int [y1; y2; y3; y4] = Some y -> str_to_int [m1; m2] = Some mo -> str_to_int [d1; d2] = Some d ->
    str_to_int [h1; h2] = Some h -> str_to_int [i1; i2] = Some i -> str_to_int [s1; s2] = Some s ->
    parse_date conv ([y1; y2; y3; y4; e; m1; m2; e'; d1; d2; x; h1; h2; 58%N; i1; i2; 58%N; s1; s2] ++ r) after =
    (let t := timegm (mkTm (y - 1900) (mo - 1) d h i s 0) in
     let zone_of (r1 : bytes) (fr : fl) := w3c_zone (skip (fun c => (c <=? 32)%N) r1) (fun td => PTime (t - td) fr) in
     match r with
      | c :: r' => if (c =? 46)%N then match frac_at conv r after with None => POutside | Some fr => zone_of (skip is_digit r') fr end else zone_of r (FNum 0)
      | [] => zone_of r (FNum 0)
      end).
  Proof.
    intros D1 D2 D3 D4 E E' X Y MO DD HH II SS. unfold parse_date. cbn [app skip]. rewrite (dg_blank _ D1). cbv iota.
    cbn [at_ nth]. rewrite (dg_x _ D2), andb_false_r. cbv iota.
    replace (parse_unit _ after) with (@None (option Z)).
    2:{ unfold parse_unit. rewrite (dg_sign _ D1). cbv iota. rewrite D1. cbn [skip orb negb]. rewrite D1, D2, D3, D4. cbn [orb]. cbv iota.
        destruct E as [-> | ->]; reflexivity. }
    cbn [at_ nth]. replace (is_sep e) with true by (destruct E as [-> | ->]; reflexivity).
    replace (is_sep e') with true by (destruct E' as [-> | ->]; reflexivity).
    cbn [length Nat.leb andb]. unfold parse_w3c. cbn [sub firstn skipn]. rewrite Y, MO, DD. cbn [int_or]. cbn [at_ nth length Nat.leb].
    replace ((x =? 84) || (x =? 32))%N with true by (destruct X as [-> | ->]; reflexivity).
    change (is_sep 58) with true. cbn [andb]. rewrite HH, II, SS. cbn [int_or]. reflexivity.
  Qed.

  (** A time written with fields of fixed widths. *)
  Lemma text_head (e x : N) c r after : (e = 45%N \/ e = 47%N) -> (x = 84%N \/ x = 32%N) -> 0 <= tm_year c + 1900 < 10000 -> 0 <= tm_mon c + 1 < 100 ->
    0 <= tm_mday c < 100 -> 0 <= tm_hour c < 100 -> 0 <= tm_min c < 100 -> 0 <= tm_sec c < 100 ->
    parse_date conv ((pad 4 (tm_year c + 1900) ++ e :: pad 2 (tm_mon c + 1) ++ e :: pad 2 (tm_mday c) ++ x :: hms c) ++ r) after =
    (let zone_of (r1 : bytes) (fr : fl) := w3c_zone (skip (fun c => (c <=? 32)%N) r1) (fun td => PTime (timegm c - td) fr) in
     match r with
      | c :: r' => if (c =? 46)%N then match frac_at conv r after with None => POutside | Some fr => zone_of (skip is_digit r') fr end else zone_of r (FNum 0)
      | [] => zone_of r (FNum 0)
      end).
  Proof.
    intros E X Y MO D H I S. unfold hms.
    destruct (pad4 _ Y) as (y1 & y2 & y3 & y4 & -> & Y1 & Y2 & Y3 & Y4 & YY).
    destruct (pad2 _ MO) as (m1 & m2 & -> & _ & _ & MM). destruct (pad2 _ D) as (d1 & d2 & -> & _ & _ & DD).
    destruct (pad2 _ H) as (h1 & h2 & -> & _ & _ & HH). destruct (pad2 _ I) as (i1 & i2 & -> & _ & _ & II).
    destruct (pad2 _ S) as (s1 & s2 & -> & _ & _ & SS).
    pose proof (w3c_head y1 y2 y3 y4 e m1 m2 e d1 d2 x h1 h2 i1 i2 s1 s2 r after _ _ _ _ _ _ Y1 Y2 Y3 Y4 E E X YY MM DD HH II SS) as W.
    cbn [app] in *. rewrite W. replace (tm_year c + 1900 - 1900) with (tm_year c) by lia. replace (tm_mon c + 1 - 1) with (tm_mon c) by lia.
    rewrite timegm_fields. reflexivity.
  Qed.

  Lemma zone_read td f : td mod 60 = 0 -> Z.abs td < 360000 -> w3c_zone (skip (fun c => (c <=? 32)%N) (zone td)) f = f td.
  Proof.
    intros M A. unfold zone. assert (Q : td = 60 * Z.quot td 60) by (Z.to_euclidean_division_equations; lia).
    set (m := Z.quot td 60) in *. destruct (Z.eqb_spec m 0) as [E | E].
    - replace td with 0 by lia. reflexivity.
    - rewrite Z.quot_div_nonneg, Z.rem_mod_nonneg by lia.
      destruct (pad2 (Z.abs m / 60)) as (h1 & h2 & -> & _ & _ & HH). { Z.to_euclidean_division_equations; lia. }
      destruct (pad2 (Z.abs m mod 60)) as (m1 & m2 & -> & _ & _ & MM). { Z.to_euclidean_division_equations; lia. }
      assert (T : Z.abs m / 60 * 3600 + Z.abs m mod 60 * 60 = Z.abs td) by (Z.to_euclidean_division_equations; lia).
      destruct (Z.ltb_spec m 0); cbn [app skip];
        [change (45 <=? 32)%N with false | change (43 <=? 32)%N with false]; cbv iota; unfold w3c_zone; cbn [length Nat.leb at_ nth sub firstn skipn];
        [change (is_sign 45) with true | change (is_sign 43) with true]; cbn [andb]; rewrite HH; cbn [int_or]; change (58 =? 58)%N with true; cbv iota;
        rewrite MM; cbn [int_or]; [change (45 =? 45)%N with true | change (43 =? 45)%N with false]; cbv iota; f_equal; lia.
  Qed.
  Lemma zone_no_point td : exists c r, zone td = c :: r /\ (c =? 46)%N = false.
  Proof. unfold zone. destruct (_ =? 0); [exists 90%N, []; auto|]. destruct (_ <? 0); eexists; eexists; split; reflexivity. Qed.

  Lemma w3c_round t td after : 0 <= tm_year (gmtime t) + 1900 < 10000 -> td mod 60 = 0 -> Z.abs td < 360000 ->
    parse_date conv (w3c_text (gmtime t) ++ zone td) after = PTime (t - td) (FNum 0).
  Proof.
    intros Y M A. pose proof (gm_ranges t) as R. cbv zeta in R. unfold w3c_text. rewrite text_head by (try lia; auto).
    cbv zeta. rewrite timegm_gmtime. destruct (zone_no_point td) as (c & r & Z1 & Z2).
    pose proof (zone_read td (fun td => PTime (t - td) (FNum 0)) M A) as ZR. rewrite Z1 in ZR |- *. rewrite Z2. exact ZR.
  Qed.
  Lemma simple_round t after : 0 <= tm_year (gmtime t) + 1900 < 10000 -> parse_date conv (simple_text (gmtime t)) after = PTime t (FNum 0).
  Proof.
    intros Y. pose proof (gm_ranges t) as R. cbv zeta in R. rewrite <- (app_nil_r (simple_text _)). unfold simple_text. rewrite text_head by (try lia; auto).
    cbv zeta. rewrite timegm_gmtime. unfold w3c_zone. cbn. f_equal. lia.
  Qed.
  Lemma simple_length c : 0 <= tm_year c + 1900 < 10000 -> 0 <= tm_mon c + 1 < 100 ->
    0 <= tm_mday c < 100 -> 0 <= tm_hour c < 100 -> 0 <= tm_min c < 100 -> 0 <= tm_sec c < 100 -> length (simple_text c) = 19%nat.
  Proof.
    intros Y MO D H I S. unfold simple_text, hms.
    destruct (pad4 _ Y) as (y1 & y2 & y3 & y4 & -> & Y1 & Y2 & Y3 & Y4 & YY).
    destruct (pad2 _ MO) as (m1 & m2 & -> & _ & _ & MM). destruct (pad2 _ D) as (d1 & d2 & -> & _ & _ & DD).
    destruct (pad2 _ H) as (h1 & h2 & -> & _ & _ & HH). destruct (pad2 _ I) as (i1 & i2 & -> & _ & _ & II).
    destruct (pad2 _ S) as (s1 & s2 & -> & _ & _ & SS). reflexivity.
  Qed.
  Lemma ymd_round local t td : 0 <= tm_year (gmtime t) + 1900 < 10000 -> parse_ymd local (simple_text (gmtime t)) td = PTime (t - the_zone local td) (FNum 0).
  Proof.
    intros Y. pose proof (gm_ranges t) as (MO & D & H & I & S & _). set (c := gmtime t) in *. unfold simple_text, hms.
    assert (MO' : 0 <= tm_mon c + 1 < 100) by lia. assert (D' : 0 <= tm_mday c < 100) by lia.
    assert (H' : 0 <= tm_hour c < 100) by lia. assert (I' : 0 <= tm_min c < 100) by lia. assert (S' : 0 <= tm_sec c < 100) by lia.
    destruct (pad4 _ Y) as (y1 & y2 & y3 & y4 & -> & Y1 & Y2 & Y3 & Y4 & YY).
    destruct (pad2 _ MO') as (m1 & m2 & -> & M1 & M2 & MM). destruct (pad2 _ D') as (d1 & d2 & -> & D1 & D2 & DD).
    destruct (pad2 _ H') as (h1 & h2 & -> & H1 & H2 & HH). destruct (pad2 _ I') as (i1 & i2 & -> & I1 & I2 & II).
    destruct (pad2 _ S') as (s1 & s2 & -> & S1 & S2 & SS).
    assert (FD : forall a l, is_digit a = true -> filter is_digit (a :: l) = a :: filter is_digit l) by (intros a l E; cbn [filter]; rewrite E; reflexivity).
    assert (FN : forall a l, is_digit a = false -> filter is_digit (a :: l) = filter is_digit l) by (intros a l E; cbn [filter]; rewrite E; reflexivity).
    cbn [app]. unfold parse_ymd.
    rewrite (FD y1), (FD y2), (FD y3), (FD y4), (FN 47%N), (FD m1), (FD m2), (FN 47%N), (FD d1), (FD d2), (FN 32%N), (FD h1), (FD h2), (FN 58%N), (FD i1),
      (FD i2), (FN 58%N), (FD s1), (FD s2) by (assumption || reflexivity).
    cbn [filter firstn length Nat.ltb Nat.leb Nat.add sub skipn].
    rewrite YY, MM, DD, HH, II, SS. cbn [int_or].
    replace (tm_year c + 1900 - 1900) with (tm_year c) by lia. replace (tm_mon c + 1 - 1) with (tm_mon c) by lia.
    rewrite timegm_fields.
    unfold c. rewrite timegm_gmtime. reflexivity.
  Qed.

  (** RFC 1123. *)
  Lemma rfc_zone_read td f : td mod 60 = 0 -> Z.abs td < 360000 -> rfc_zone_at (skip (fun c => (c <=? 32)%N) (32%N :: rfc_zone td)) f = f td.
  Proof.
    intros M A. unfold rfc_zone. assert (Q : td = 60 * Z.quot td 60) by (Z.to_euclidean_division_equations; lia).
    set (m := Z.quot td 60) in *. destruct (Z.eqb_spec m 0) as [E | E].
    - replace td with 0 by lia. reflexivity.
    - rewrite Z.quot_div_nonneg, Z.rem_mod_nonneg by lia.
      destruct (pad2 (Z.abs m / 60)) as (h1 & h2 & -> & _ & _ & HH). { Z.to_euclidean_division_equations; lia. }
      destruct (pad2 (Z.abs m mod 60)) as (m1 & m2 & -> & _ & DM & MM). { Z.to_euclidean_division_equations; lia. }
      assert (T : Z.abs m / 60 * 3600 + Z.abs m mod 60 * 60 = Z.abs td) by (Z.to_euclidean_division_equations; lia).
      destruct (Z.ltb_spec m 0); cbn [app skip]; change (32 <=? 32)%N with true; cbv iota;
        [change (45 <=? 32)%N with false | change (43 <=? 32)%N with false]; cbv iota; unfold rfc_zone_at; cbn [length Nat.leb at_ nth sub firstn skipn];
        [change (is_sign 45) with true | change (is_sign 43) with true]; cbn [andb]; rewrite HH; cbn [int_or].
      all: rewrite DM; rewrite MM; cbn [int_or]; try change (45 =? 45)%N with true; try change (43 =? 45)%N with false; cbv iota; f_equal; lia.
  Qed.
  Definition all_months := map (fun n => nth n month_names []) (seq 0 12).
  Definition month_ok (n : nat) : bool :=
    match nth n month_names [] with
    | [a; b; c] => negb (is_digit a) && negb (is_sp a) && match index_of [a; b; c] months 0 with Some k => k =? Z.of_nat n | None => false end
    | _ => false
    end.
  Lemma month_read m : 0 <= m < 12 -> exists a b c, nth (Z.to_nat m) month_names [] = [a; b; c] /\ is_digit a = false /\ is_sp a = false
    /\ index_of [a; b; c] months 0 = Some m.
  Proof.
    intros H. assert (A : forallb month_ok (seq 0 12) = true) by (vm_compute; reflexivity). rewrite forallb_forall in A.
    specialize (A (Z.to_nat m) ltac:(apply in_seq; lia)). unfold month_ok in A. destruct (nth _ _ _) as [|a [|b [|c [|]]]]; try discriminate.
    apply andb_prop in A. destruct A as [A B]. apply andb_prop in A. destruct A as [A1 A2]. rewrite negb_true_iff in A1, A2. exists a, b, c.
    repeat split; auto. revert B. destruct (index_of _ _ _); [|discriminate]. intros E. apply Z.eqb_eq in E. f_equal. lia.
  Qed.
  Lemma day_read w : 0 <= w < 7 -> exists a b c, nth (Z.to_nat w) day_names [] = [a; b; c] /\ blank a = false /\ is_sign a = false /\ is_digit a = false
    /\ (a =? 46)%N = false /\ (a =? 48)%N = false.
  Proof.
    intros H. assert (C : w = 0 \/ w = 1 \/ w = 2 \/ w = 3 \/ w = 4 \/ w = 5 \/ w = 6) by lia.
    destruct C as [-> | [-> | [-> | [-> | [-> | [-> | ->]]]]]]; do 3 eexists; repeat split; reflexivity.
  Qed.
  (** The day and the year are read up to the end of their digits. *)
  Lemma int_then a s r : is_digit a = true -> str_to_int (a :: s) = Some r -> forallb is_digit s = true -> forall c t, is_digit c = false ->
    str_to_int ((a :: s) ++ c :: t) = Some r.
  Proof.
    intros A E S c t C. unfold str_to_int in *. cbn [app skip_space] in *. rewrite (dg_le _ A) in *. unfold read_sign in *.
    assert (S1 : (a =? 45)%N = false) by (apply dg_range in A; nn). assert (S2 : (a =? 43)%N = false) by (apply dg_range in A; nn).
    rewrite S1, S2 in *. cbn [skip_space] in *. rewrite (dg_le _ A) in *.
    destruct (dec_loop (a :: s) 0) as [n|] eqn:L; [|discriminate].
    assert (G : forall l x m, forallb is_digit l = true -> dec_loop l x = Some m -> dec_loop (l ++ c :: t) x = Some m).
    { induction l as [|b l IH]; cbn [app dec_loop forallb]; intros x m F G1; [rewrite C; exact G1|]. apply andb_prop in F. destruct F as [F1 F2].
      rewrite F1 in *. destruct (_ && _); [|discriminate]. apply IH; auto. }
    change (a :: s ++ c :: t) with ((a :: s) ++ c :: t).
    rewrite (G (a :: s) 0 n); [exact E | cbn [forallb]; rewrite A; exact S | exact L].
  Qed.
  Lemma rfc_round t td after : 1969 <= tm_year (gmtime t) + 1900 < 10000 -> td mod 60 = 0 -> Z.abs td < 360000 ->
    parse_date conv (rfc_text (gmtime t) ++ rfc_zone td) after = PTime (t - td) (FNum 0).
  Proof.
    intros Y M A. pose proof (gm_ranges t) as (MO & D & H & I & S & W). set (c := gmtime t) in *. unfold rfc_text, hms.
    assert (Y' : 0 <= tm_year c + 1900 < 10000) by lia. assert (D' : 0 <= tm_mday c < 100) by lia.
    assert (H' : 0 <= tm_hour c < 100) by lia. assert (I' : 0 <= tm_min c < 100) by lia. assert (S' : 0 <= tm_sec c < 100) by lia.
    destruct (pad4 _ Y') as (y1 & y2 & y3 & y4 & -> & Y1 & Y2 & Y3 & Y4 & YY).
    destruct (month_read _ MO) as (n1 & n2 & n3 & -> & N1 & N2 & NN). destruct (pad2 _ D') as (d1 & d2 & -> & D1 & D2 & DD).
    destruct (day_read _ W) as (w1 & w2 & w3 & -> & W1 & W2 & W3 & W4 & W5).
    destruct (pad2 _ H') as (h1 & h2 & -> & H1 & H2 & HH). destruct (pad2 _ I') as (i1 & i2 & -> & I1 & I2 & II).
    destruct (pad2 _ S') as (s1 & s2 & -> & S1 & S2 & SS).
    pose proof (rfc_zone_read td (fun td => PTime (timegm c - td) (FNum 0)) M A) as ZR. set (z := rfc_zone td) in *. clearbody z.
    unfold parse_date. cbn [app skip]. rewrite W1. cbv iota. cbn [at_ nth]. rewrite W5, andb_false_r. cbn [andb]. cbv iota.
    replace (parse_unit _ after) with (@None (option Z)).
    2:{ unfold parse_unit. rewrite W2. cbv iota. rewrite W3, W4. reflexivity. }
    cbn [at_ nth]. change (is_sep 32) with false. rewrite andb_false_r. cbn [andb]. cbv iota. cbn [length Nat.leb andb].
    change (44 =? 44)%N with true. cbv iota. unfold parse_rfc. cbn [skipn skip]. change (is_sp 32) with true. cbv iota. rewrite (dg_sp _ D1). cbv iota.
    assert (R1 : forall t, str_to_int (d1 :: d2 :: 32%N :: t) = Some (tm_mday c)).
    { intros t'. apply (int_then d1 [d2] _ D1 DD); [cbn [forallb]; rewrite D2|]; reflexivity. }
    rewrite R1.
    cbn [int_or]. assert (F : forall k, 0 <= k < 10000 -> i32z k = k).
    { intros k K. unfold i32z. apply wrap_id; [cbn; tauto|]. unfold in_ity, t_min, t_max; cbn; lia. }
    rewrite F by lia. destruct (Z.ltb_spec (tm_mday c) 1); [lia|].
    cbn [skip]. rewrite D1, D2. cbn [orb]. change (is_digit 32 || is_sp 32) with true. rewrite N1, N2. cbn [orb]. cbv iota. cbn [length Nat.ltb Nat.leb firstn].
    rewrite NN. cbn [skipn skip]. change (is_sp 32) with true. cbv iota. rewrite (dg_sp _ Y1). cbv iota.
    assert (R2 : forall t, str_to_int (y1 :: y2 :: y3 :: y4 :: 32%N :: t) = Some (tm_year c + 1900)).
    { intros t'. apply (int_then y1 [y2; y3; y4] _ Y1 YY); [cbn [forallb]; rewrite Y2, Y3, Y4|]; reflexivity. }
    rewrite R2.
    cbn [int_or]. rewrite F by lia. destruct (Z.leb_spec 1969 (tm_year c + 1900)); [|lia].
    cbn [skip]. rewrite Y1, Y2, Y3, Y4. change (is_digit 32) with false. cbv iota. cbn [skip]. change (is_sp 32) with true. cbv iota. rewrite (dg_sp _ H1). cbv iota.
    cbn [length Nat.leb at_ nth]. change (58 =? 58)%N with true. cbn [andb]. cbv iota. cbn [sub firstn skipn]. rewrite HH, II, SS. cbn [int_or].
    replace (tm_year c + 1900 - 1900) with (tm_year c) by lia. rewrite timegm_fields. rewrite ZR. unfold c. rewrite timegm_gmtime. reflexivity.
  Qed.
End Parse.
