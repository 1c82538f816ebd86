(** C58: dates as strings (tkrzw_time_util.h). *)
From Coq Require Import QArith.
From Coq Require Import List NArith ZArith Bool Lia.
Import ListNotations.
From Verif Require Import Bytes CodecModel StrSerialModel ComparatorModel TimeModel TimeCal TimeProofs TimeFrac.
Open Scope Z_scope.

(** The first second of the year 0, that of 1969, and that of 10000. *)
Definition YEAR0 : Z := -62167219200.
Definition YEAR1969 : Z := -31536000.
Definition YEAR10000 : Z := 253402300800.

(** ** The calendar: a date and its time determine each other. *)
Definition date_ok (c : tm) : Prop :=
  0 <= tm_mon c < 12 /\ 1 <= tm_mday c <= nth (Z.to_nat (tm_mon c)) (month_lens (leap (tm_year c + 1900))) 0
  /\ 0 <= tm_hour c < 24 /\ 0 <= tm_min c < 60 /\ 0 <= tm_sec c < 60.
Lemma find_month_inv (l : bool) (m d : Z) : 0 <= m < 12 -> 1 <= d <= nth (Z.to_nat m) (month_lens l) 0 ->
  find_month (month_lens l) 0 (month_start l m + d - 1) = (m, d) /\ 0 <= month_start l m + d - 1 < (if l then 366 else 365).
Proof.
  intros M D. assert (C : m = 0 \/ m = 1 \/ m = 2 \/ m = 3 \/ m = 4 \/ m = 5 \/ m = 6 \/ m = 7 \/ m = 8 \/ m = 9 \/ m = 10 \/ m = 11) by lia.
  destruct C as [C|[C|[C|[C|[C|[C|[C|[C|[C|[C|[C|C]]]]]]]]]]]; subst m; destruct l;
    match goal with |- context [month_start ?l ?m] => let x := eval vm_compute in (month_start l m) in change (month_start l m) with x end;
    match type of D with 1 <= d <= ?e => let x := eval vm_compute in e in change e with x in D end;
    (split; [|lia]); cbn [find_month month_lens];
    repeat match goal with |- context [if ?a <? ?b then _ else _] => destruct (Z.ltb_spec a b); [try (exfalso; lia) | try (exfalso; lia)] end;
    f_equal; lia.
Qed.
Theorem C58_calendar : (forall t, timegm (gmtime t) = t /\ date_ok (gmtime t)) /\
  (forall c, date_ok c -> exists wday, gmtime (timegm c) = mkTm (tm_year c) (tm_mon c) (tm_mday c) (tm_hour c) (tm_min c) (tm_sec c) wday).
Proof.
  split.
  - intros t. split; [apply timegm_gmtime|]. pose proof (gm_ranges t) as G. cbv zeta in G. unfold date_ok.
    repeat split; try lia. unfold gmtime. pose proof (year_of_spec (t / 86400 + epoch)) as Y. set (y := year_of (t / 86400 + epoch)) in *.
    rewrite days_next in Y. set (d := t / 86400 + epoch - days_before y) in *. assert (Hd : 0 <= d < (if leap y then 366 else 365)) by lia. clearbody d. clear Y G.
    destruct (find_month (month_lens (leap y)) 0 d) as [m md] eqn:F. cbn [tm_year tm_mon tm_mday]. replace (y - 1900 + 1900) with y by lia.
    revert F Hd. destruct (leap y); cbn [find_month month_lens]; intros F Hd; revert F;
      repeat match goal with |- context [if ?a <? ?b then _ else _] => destruct (Z.ltb_spec a b) end; intros F; injection F as <- <-;
      match goal with |- _ <= ?e => let x := eval vm_compute in e in change e with x end || cbn; lia.
  - intros c (M & D & H & I & S). unfold timegm. rewrite (Z.div_small (tm_mon c)), (Z.mod_small (tm_mon c)) by lia.
    replace (tm_year c + 1900 + 0) with (tm_year c + 1900) by lia. set (y := tm_year c + 1900) in *.
    destruct (find_month_inv (leap y) _ _ M D) as [F B]. set (k := month_start (leap y) (tm_mon c) + tm_mday c - 1) in *.
    replace (days_before y + month_start (leap y) (tm_mon c) + tm_mday c - 1 - epoch) with (days_before y + k - epoch) by (unfold k; lia).
    unfold gmtime. set (t := (days_before y + k - epoch) * 86400 + tm_hour c * 3600 + tm_min c * 60 + tm_sec c).
    assert (T : t / 86400 = days_before y + k - epoch).
    { unfold t. symmetry. apply (Z.div_unique _ _ _ (tm_hour c * 3600 + tm_min c * 60 + tm_sec c)); lia. }
    assert (R : t mod 86400 = tm_hour c * 3600 + tm_min c * 60 + tm_sec c).
    { symmetry. apply (Z.mod_unique _ _ (days_before y + k - epoch)); unfold t; lia. }
    rewrite T, R. replace (days_before y + k - epoch + epoch) with (days_before y + k) by lia.
    rewrite (year_of_unique (days_before y + k) y) by (rewrite days_next; lia).
    replace (days_before y + k - days_before y) with k by lia. rewrite F. eexists. f_equal; [unfold y; lia| | |].
    + symmetry. apply (Z.div_unique _ _ _ (tm_min c * 60 + tm_sec c)); lia.
    + replace ((tm_hour c * 3600 + tm_min c * 60 + tm_sec c) / 60) with (tm_hour c * 60 + tm_min c).
      * symmetry. apply (Z.mod_unique _ _ (tm_hour c)); lia.
      * apply (Z.div_unique _ _ _ (tm_sec c)); lia.
    + symmetry. apply (Z.mod_unique _ _ (tm_hour c * 60 + tm_min c)); lia.
Qed.

(** ** GetDayOfWeek is the day of week of a date of the years 1 to a billion. *)
Theorem C58_day_of_week_partial : forall year mon day, 1 <= year <= 10 ^ 9 -> 1 <= mon <= 12 -> 1 <= day <= 31 ->
  get_day_of_week year mon day = Some (tm_wday (gmtime (timegm (mkTm (year - 1900) (mon - 1) day 0 0 0 0)))).
Proof. exact dow_ok. Qed.
Example C58_day_of_week_case : get_day_of_week 2000 2 29 = Some 2 /\ get_day_of_week 1970 1 1 = Some 4. Proof. vm_compute. auto. Qed.
(** Not of all dates that the calendar has: C's division makes it wrong before the year 1, and negative. *)
Theorem C58_day_of_week_refuted : exists year mon day r, date_ok (mkTm (year - 1900) (mon - 1) day 0 0 0 0) /\ get_day_of_week year mon day = Some r
  /\ tm_wday (gmtime (timegm (mkTm (year - 1900) (mon - 1) day 0 0 0 0))) <> r /\ r < 0.
Proof. exists (-400), 3, 1, (-4). vm_compute. repeat split; congruence. Qed.

Lemma year_range t a b : days_before a <= t / 86400 + epoch < days_before b -> a <= tm_year (gmtime t) + 1900 < b.
Proof.
  intros H. unfold gmtime. destruct (find_month _ _ _). cbn [tm_year]. pose proof (year_of_spec (t / 86400 + epoch)) as S.
  set (y := year_of (t / 86400 + epoch)) in *. split.
  - destruct (Z.le_gt_cases a y) as [|L]; [lia|]. pose proof (days_mono (y + 1) a). lia.
  - destruct (Z.lt_ge_cases y b) as [|L]; [lia|]. pose proof (days_mono b y). lia.
Qed.
Lemma year_0_9999 t : YEAR0 <= t < YEAR10000 -> 0 <= tm_year (gmtime t) + 1900 < 10000.
Proof.
  unfold YEAR0, YEAR10000. intros H. apply year_range. change (days_before 0) with (-366). change (days_before 10000) with 3652059. change epoch with 719162.
  Z.to_euclidean_division_equations; lia.
Qed.
Lemma year_1969_9999 t : YEAR1969 <= t < YEAR10000 -> 1969 <= tm_year (gmtime t) + 1900 < 10000.
Proof.
  unfold YEAR1969, YEAR10000. intros H. apply year_range. change (days_before 1969) with 718797. change (days_before 10000) with 3652059. change epoch with 719162.
  Z.to_euclidean_division_equations; lia.
Qed.
Lemma with_tm_ok t f : YEAR0 <= t < YEAR10000 -> with_tm t f = f (gmtime t).
Proof.
  intros H. pose proof (year_0_9999 t H) as Y. unfold with_tm, int64_ok, int32_ok. unfold YEAR0, YEAR10000 in H.
  destruct (Z.leb_spec (- 2 ^ 63) t); [|lia]. destruct (Z.leb_spec t (2 ^ 63 - 1)); [|lia]. cbn [andb].
  destruct (Z.leb_spec (- 2 ^ 31) (tm_year (gmtime t))); [|lia]. destruct (Z.leb_spec (tm_year (gmtime t)) (2 ^ 31 - 1)); [|lia].
  destruct (Z.leb_spec (- 2 ^ 31) (tm_year (gmtime t) + 1900)); [|lia]. destruct (Z.leb_spec (tm_year (gmtime t) + 1900) (2 ^ 31 - 1)); [|lia]. reflexivity.
Qed.
Lemma the_zone_ok local td : Z.abs td < 360000 -> the_zone local td = td.
Proof. intros H. unfold the_zone, INT32MIN. destruct (Z.eqb_spec td (- 2 ^ 31)); lia. Qed.
Lemma the_time_ok now td w : Z.abs td < 360000 -> YEAR0 <= w + td -> the_time now w = w.
Proof. intros H T. unfold the_time, INT64MIN, YEAR0 in *. destruct (Z.eqb_spec w (- 2 ^ 63)); lia. Qed.

(** ** What is written is read back, whatever is in the memory after the text.
    [td]: any zone of whole minutes of less than 100 hours. *)
Theorem C58_w3cdtf_partial : forall conv now local w td after, td mod 60 = 0 -> Z.abs td < 360000 -> YEAR0 <= w + td < YEAR10000 ->
  exists s, format_w3c now local w td = FText s (N.of_nat (length s)) /\ parse_date conv s after = PTime w (FNum 0).
Proof.
  intros conv now local w td after M A T. unfold format_w3c. rewrite (the_time_ok now td), the_zone_ok by lia. rewrite with_tm_ok by exact T.
  eexists. split; [reflexivity|]. rewrite w3c_round by (try assumption; apply year_0_9999; exact T). f_equal. lia.
Qed.
Example C58_w3cdtf_case : -34200 mod 60 = 0 /\ Z.abs (-34200) < 360000 /\ YEAR0 <= 951782400 + -34200 < YEAR10000
  /\ format_w3c 0 0 951782400 (-34200) = f_text [50; 48; 48; 48; 45; 48; 50; 45; 50; 56; 84; 49; 52; 58; 51; 48; 58; 48; 48; 45; 48; 57; 58; 51; 48]%N.
Proof. vm_compute. repeat split; congruence. Qed.
Theorem C58_simple_partial : forall conv now local w td after, Z.abs td < 360000 -> YEAR0 <= w + td < YEAR10000 ->
  exists s, format_simple now local w td = FText s 19 /\ length s = 19%nat
    /\ parse_date conv s after = PTime (w + td) (FNum 0) /\ parse_ymd local s td = PTime w (FNum 0).
Proof.
  intros conv now local w td after A T. unfold format_simple. rewrite (the_time_ok now td), the_zone_ok by lia. rewrite with_tm_ok by exact T.
  pose proof (year_0_9999 _ T) as Y. pose proof (gm_ranges (w + td)) as G. cbv zeta in G.
  assert (L : length (simple_text (gmtime (w + td))) = 19%nat) by (apply simple_length; lia).
  exists (simple_text (gmtime (w + td))). rewrite L, <- L, firstn_all. split; [rewrite L; reflexivity|]. split; [reflexivity|].
  split; [apply simple_round; exact Y|]. rewrite (ymd_round (fun _ _ _ _ => FNan)) by exact Y. rewrite the_zone_ok by lia. f_equal. lia.
Qed.
Example C58_simple_case : Z.abs 32400 < 360000 /\ YEAR0 <= -1 + 32400 < YEAR10000
  /\ format_simple 0 0 (-1) 32400 = FText [49; 57; 55; 48; 47; 48; 49; 47; 48; 49; 32; 48; 56; 58; 53; 57; 58; 53; 57]%N 19.
Proof. vm_compute. repeat split; congruence. Qed.
Theorem C58_rfc1123_partial : forall conv now local w td after, td mod 60 = 0 -> Z.abs td < 360000 -> 0 <= w -> w + td < YEAR10000 ->
  exists s, format_rfc now local w td = FText s (N.of_nat (length s)) /\ parse_date conv s after = PTime w (FNum 0)
    /\ firstn 3 s = nth (Z.to_nat (((w + td) / 86400 + 4) mod 7)) day_names [].
Proof.
  intros conv now local w td after M A W T. unfold format_rfc. rewrite the_zone_ok by lia. destruct (Z.ltb_spec w 0); [lia|].
  assert (R : YEAR1969 <= w + td < YEAR10000) by (unfold YEAR1969 in *; lia).
  rewrite with_tm_ok by (unfold YEAR0, YEAR1969 in *; lia).
  eexists. split; [reflexivity|]. split; [rewrite rfc_round by (try assumption; apply year_1969_9999; exact R); f_equal; lia|].
  assert (E : tm_wday (gmtime (w + td)) = ((w + td) / 86400 + 4) mod 7) by (unfold gmtime; destruct (find_month _ _ _); reflexivity).
  unfold rfc_text. rewrite E. destruct (day_read conv (((w + td) / 86400 + 4) mod 7)) as (a & b & c & -> & _); [apply Z.mod_pos_bound; lia|]. reflexivity.
Qed.
Example C58_rfc1123_case : exists s, format_rfc 5 0 951782400 (-34200) = FText s 31 /\ firstn 16 s = [77; 111; 110; 44; 32; 50; 56; 32; 70; 101; 98; 32; 50; 48; 48; 48]%N.
Proof. eexists. split; vm_compute; reflexivity. Qed.
(** With a fraction: its first digits, of the fraction rounded to twelve, are what is read. *)
Theorem C58_w3cdtf_frac_partial : forall conv local w f td cols after, td mod 60 = 0 -> Z.abs td < 360000 -> 0 <= w -> w + td < YEAR10000 ->
  1 <= cols <= 12 -> (round12 f < 10 ^ 12)%N ->
  exists s ds, format_w3c_frac local w f td cols = FText s (N.of_nat (length s))
    /\ parse_date conv s (0%N :: after) = PTime w (conv 1 [] ds (Some 0))
    /\ digits ds /\ length ds = Z.to_nat cols /\ dec_val ds = (round12 f / 10 ^ N.of_nat (12 - Z.to_nat cols))%N.
Proof.
  intros conv local w f td cols after M A W T C R. unfold format_w3c_frac. rewrite the_zone_ok by lia. destruct (Z.ltb_spec w 0); [lia|].
  assert (RY : YEAR0 <= w + td < YEAR10000) by (unfold YEAR0; lia). rewrite with_tm_ok by exact RY.
  destruct (Z.ltb_spec (Z.min cols 12) 1); [lia|].
  destruct (w3c_frac_round conv (w + td) td f cols after (year_0_9999 _ RY) M A C R) as (ds & D & L & V & P).
  eexists. exists ds. split; [reflexivity|]. split; [rewrite P; f_equal; lia|]. auto.
Qed.
Example C58_w3cdtf_frac_case : (round12 (1 # 8) < 10 ^ 12)%N /\ frac_text (1 # 8) 6 = [46; 49; 50; 53; 48; 48; 48]%N. Proof. vm_compute. auto. Qed.
(** A fraction that rounds up to 1 makes the text end in "001.00000" with two digits of seconds before: 5.9999999999996 is written as
    1970-01-01T00:00:051.00000Z, of which the fraction is not read. *)
Theorem C58_w3cdtf_frac_refuted : exists w f s n, 0 <= w /\ (0 <= f < 1)%Q /\ format_w3c_frac 0 w f 0 6 = FText s n /\
  nth 19 s 0%N = 49%N /\ forall conv, parse_date conv s [0%N] = PTime w (FNum 0).
Proof.
  exists 5, (9999999999996 # 10000000000000)%Q. eexists. eexists. repeat split; try (vm_compute; congruence).
Qed.

(** ** ParseDateStr reads no memory but its argument if a null code follows, as after a std::string. *)
Lemma c_string_some s t : exists r, c_string (s ++ 0%N :: t) = Some r.
Proof. induction s as [|c s [r IH]]; cbn [app c_string]; [eexists; reflexivity|]. destruct (c =? 0)%N; [eexists; reflexivity|]. rewrite IH. eexists. reflexivity. Qed.
Theorem C58_string_inside : forall conv s after, parse_date conv s (0%N :: after) <> POutside.
Proof.
  intros conv str after. unfold parse_date. destruct (skip blank str) as [|c s'] eqn:Sk; [discriminate|]. set (s := c :: s') in *. clearbody s. clear Sk.
  assert (I : forall o f, (forall z, f z <> POutside) -> int_or o f <> POutside) by (intros [z|] f H; cbn; [apply H | discriminate]).
  destruct (_ && _ && _); [discriminate|].
  destruct (parse_unit s (0%N :: after)) as [[u|]|] eqn:U; [discriminate| |].
  - exfalso. revert U. unfold parse_unit. cbv zeta. destruct (negb _); [discriminate|]. destruct (skip blank _) as [|q [|]]; [discriminate| |];
      change (blank 0) with true; cbv iota; repeat match goal with |- context [if ?b then _ else _] => destruct b end; discriminate.
  - destruct (_ && _ && _).
    + unfold parse_w3c. assert (ZZ : forall x f, (forall z, f z <> POutside) -> w3c_zone x f <> POutside).
      { intros x f H. unfold w3c_zone. destruct (_ && _); [|apply H]. apply I. intros h. apply I. intros m. apply H. }
      do 3 (apply I; intros ?). destruct (_ && _ && _ && _); [|discriminate]. do 3 (apply I; intros ?). cbv zeta.
      destruct (skipn 19 s) as [|a r]; [apply ZZ; discriminate|]. destruct (a =? 46)%N; [|apply ZZ; discriminate].
      unfold frac_at. destruct (c_string_some (a :: r) after) as [x ->]. apply ZZ. discriminate.
    + destruct (_ && _); [|discriminate]. unfold parse_rfc. apply I. intros d. destruct (_ <? 1); [discriminate|]. destruct (Nat.ltb _ _); [discriminate|].
      destruct (index_of _ _ _); [|discriminate]. apply I. intros y. destruct (_ && _ && _); [|discriminate]. do 3 (apply I; intros ?).
      unfold rfc_zone_at. destruct (_ && _); [apply I; intros ?; apply I; intros ?; discriminate|]. destruct (Nat.leb _ _); discriminate.
Qed.
(** But in general it reads outside of the argument, a std::string_view: the byte after "5d" decides whether that is a date; digits after a
    fraction count as if they were part of the argument; and a point without digits counts as one second, the rest of the length. *)
Theorem C58_view_refuted : forall conv,
  (exists s a1 a2, parse_date conv s a1 = PNum (str_to_double conv s) 86400 /\ parse_date conv s a2 = PNan /\ parse_date conv s [] = POutside) /\
  (exists s t a1 a2, parse_date conv s a1 = PTime t (conv 1 [] [53]%N (Some 0)) /\ parse_date conv s a2 = PTime t (conv 1 [] [53; 57]%N (Some 0))
     /\ parse_date conv s [] = POutside) /\
  (exists s t, parse_date conv (s ++ [46]%N) [0%N] = PTime t (FNum 1) /\ parse_date conv s [0%N] = PTime t (FNum 0)).
Proof.
  intros conv. split; [|split].
  - exists [53; 100]%N, [0%N], [120%N]. vm_compute. auto.
  - exists [49; 57; 55; 48; 45; 48; 49; 45; 48; 49; 84; 48; 48; 58; 48; 48; 58; 48; 48; 46; 53]%N, 0, [0%N], [57%N; 0%N]. vm_compute. auto.
  - exists [49; 57; 55; 48; 45; 48; 49; 45; 48; 49; 84; 48; 48; 58; 48; 48; 58; 48; 48]%N, 0. vm_compute. auto.
Qed.

(** ** Times before 1970 and years before 1969 in RFC 1123. *)
Theorem C58_rfc1123_refuted : forall conv now, 0 <= now < YEAR10000 ->
  (exists w s n, w < 0 /\ format_rfc now 0 w 0 = FText s n /\ parse_date conv s [0%N] = PTime now (FNum 0)) /\
  (exists s t, parse_date conv s [0%N] = PTime t (FNum 0) /\ tm_year (gmtime t) + 1900 = 3850
     /\ s = [83; 117; 110; 44; 32; 48; 49; 32; 74; 97; 110; 32; 49; 57; 53; 48; 32; 48; 48; 58; 48; 48; 58; 48; 48; 32; 71; 77; 84]%N).
Proof.
  intros conv now N. split.
  - destruct (C58_rfc1123_partial conv now 0 now 0 [0%N]) as (s & F & P & _); [reflexivity | reflexivity | lia | lia |].
    exists (-1), s, (N.of_nat (length s)). split; [lia|]. split; [|exact P]. revert F. unfold format_rfc. destruct (Z.ltb_spec now 0); [lia|]. intros F. exact F.
  - exists [83; 117; 110; 44; 32; 48; 49; 32; 74; 97; 110; 32; 49; 57; 53; 48; 32; 48; 48; 58; 48; 48; 58; 48; 48; 32; 71; 77; 84]%N, 59327078400.
    vm_compute. repeat split; reflexivity.
Qed.

(** ** The buffers: 48 bytes, as documented, hold any text with its null code. *)
Lemma pad_len n z k : (1 <= k)%nat -> Z.abs z < 10 ^ Z.of_nat k -> Z.abs z < 10 ^ 20 -> (length (pad n z) <= Nat.max n (S k))%nat
  /\ (0 <= z -> (length (pad n z) <= Nat.max n k)%nat).
Proof.
  intros K B B2. assert (P : (N.of_nat (Z.to_nat (10 ^ Z.of_nat k)) = 10 ^ N.of_nat k)%N).
  { rewrite Z_nat_N. apply N2Z.inj. rewrite Z2N.id by (apply Z.pow_nonneg; lia). rewrite N2Z.inj_pow, nat_N_Z. reflexivity. }
  assert (D : forall x, 0 <= x -> x < 10 ^ Z.of_nat k -> x < 10 ^ 20 -> (length (digs 20 (Z.to_N x) []) <= k)%nat).
  { intros x X1 X2 X3. destruct (digs_spec 20 (Z.to_N x) []) as (d & E & _ & _ & _ & L).
    - change (10 ^ N.of_nat 21)%N with (10 * 10 ^ 20)%N. lia.
    - rewrite E, app_nil_r. apply L; [lia|]. rewrite <- P. pose proof (Z.pow_nonneg 10 (Z.of_nat k) ltac:(lia)). lia. }
  assert (Z0 : forall m s, length (zeros m s) = Nat.max m (length s)) by (intros m s; unfold zeros; rewrite app_length, repeat_length; lia).
  unfold pad. destruct (Z.ltb_spec z 0).
  - cbn [length]. rewrite Z0. specialize (D (- z)). split; lia.
  - rewrite Z0. specialize (D z). split; lia.
Qed.
Theorem C58_buffer : forall now local w td s n, - 2 ^ 31 <= td < 2 ^ 31 -> - 2 ^ 31 <= local < 2 ^ 31 ->
  format_simple now local w td = FText s n \/ format_w3c now local w td = FText s n \/ format_rfc now local w td = FText s n -> (length s + 1 <= 48)%nat.
Proof.
  intros now local w td s n TD LO.
  assert (TZ : - 2 ^ 31 <= the_zone local td < 2 ^ 31) by (unfold the_zone; destruct (_ =? _); lia). set (z := the_zone local td) in *.
  assert (WT : forall t f, with_tm t f = FText s n -> (forall c, c = gmtime t -> - 2 ^ 31 <= tm_year c + 1900 < 2 ^ 31 -> f c = FText s n -> (length s + 1 <= 48)%nat) -> (length s + 1 <= 48)%nat).
  { intros t f E G. unfold with_tm in E. destruct (int64_ok t); [|discriminate]. destruct (int32_ok _ && int32_ok _) eqn:O; [|discriminate].
    apply andb_prop in O. destruct O as [_ O]. unfold int32_ok in O. apply andb_prop in O. rewrite !Z.leb_le in O. apply (G _ eq_refl); [lia | exact E]. }
  assert (P2 : forall x, 0 <= x < 100 -> length (pad 2 x) = 2%nat) by (intros x X; destruct (pad2 x X) as (a & b & -> & _); reflexivity).
  assert (PY : forall x, - 2 ^ 31 <= x < 2 ^ 31 -> (length (pad 4 x) <= 11)%nat) by (intros x X; apply (pad_len 4 x 10); lia).
  assert (PZ : forall x, 0 <= x < 10 ^ 6 -> (length (pad 2 x) <= 6)%nat) by (intros x X; apply (pad_len 2 x 6); lia).
  assert (Q : 0 <= Z.quot (Z.abs (Z.quot z 60)) 60 < 10 ^ 6) by (Z.to_euclidean_division_equations; lia).
  assert (R : 0 <= Z.rem (Z.abs (Z.quot z 60)) 60 < 100) by (Z.to_euclidean_division_equations; lia).
  intros [F | [F | F]]; apply (WT _ _ F); intros c -> Y E.
  - apply (f_equal (fun x => match x with FText a _ => a | _ => [] end)) in E; cbv beta iota in E; rewrite <- E; clear E. rewrite firstn_length. lia.
  - unfold f_text in E. apply (f_equal (fun x => match x with FText a _ => a | _ => [] end)) in E; cbv beta iota in E; rewrite <- E; clear E. match goal with |- context [gmtime ?t] => pose proof (gm_ranges t) as G; cbv zeta in G; set (c := gmtime t) in * end. clearbody c.
    assert (LZ : (length (zone z) <= 10)%nat).
    { unfold zone. destruct (_ =? 0); [cbn; lia|]. cbn [length]. rewrite app_length. cbn [length]. rewrite (P2 _ R). specialize (PZ _ Q). lia. }
    unfold w3c_text, hms. repeat (rewrite app_length || cbn [length app]). rewrite !P2 by lia. specialize (PY _ Y). fold z. lia.
  - unfold f_text in E. apply (f_equal (fun x => match x with FText a _ => a | _ => [] end)) in E; cbv beta iota in E; rewrite <- E; clear E. match goal with |- context [gmtime ?t] => pose proof (gm_ranges t) as G; cbv zeta in G; set (c := gmtime t) in * end. clearbody c.
    assert (LZ : (length (rfc_zone z) <= 9)%nat).
    { unfold rfc_zone. destruct (_ =? 0); [cbn; lia|]. cbn [length]. rewrite app_length. rewrite (P2 _ R). specialize (PZ _ Q). lia. }
    destruct (day_read (fun _ _ _ _ => FNan) (tm_wday c)) as (a1 & a2 & a3 & DN & _); [lia|]. destruct (month_read (fun _ _ _ _ => FNan) (tm_mon c)) as (b1 & b2 & b3 & MN & _); [lia|].
    unfold rfc_text, hms. rewrite DN, MN. repeat (rewrite app_length || cbn [length app]). rewrite !P2 by lia. specialize (PY _ Y). fold z. lia.
Qed.
(** Not with a fraction: 48 bytes and the null code. *)
Theorem C58_buffer_refuted : exists w td s n, format_w3c_frac 0 w 0 td 12 = FText s n /\ length s = 48%nat.
Proof. exists 40000000000000000, (-2147483640). eexists. eexists. split; vm_compute; reflexivity. Qed.
(** FormatDateSimple returns the size of a text that it cut. *)
Theorem C58_simple_refuted : exists w s, format_simple 0 0 w 0 = FText s 20 /\ length s = 19%nat.
Proof. exists YEAR10000. eexists. split; vm_compute; reflexivity. Qed.

Print Assumptions C58_calendar.
Print Assumptions C58_day_of_week_partial.
Print Assumptions C58_day_of_week_refuted.
Print Assumptions C58_w3cdtf_partial.
Print Assumptions C58_simple_partial.
Print Assumptions C58_rfc1123_partial.
Print Assumptions C58_w3cdtf_frac_partial.
Print Assumptions C58_w3cdtf_frac_refuted.
Print Assumptions C58_string_inside.
Print Assumptions C58_view_refuted.
Print Assumptions C58_rfc1123_refuted.
Print Assumptions C58_buffer.
Print Assumptions C58_buffer_refuted.
Print Assumptions C58_simple_refuted.
