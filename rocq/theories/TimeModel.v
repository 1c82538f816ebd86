(** Dates as strings.  Source: /repo/tkrzw_time_util.cc (declared and documented in tkrzw_time_util.h:29-155). *)
From Coq Require Import QArith.
From Coq Require Import List NArith ZArith Bool Lia.
Import ListNotations.
From Verif Require Import Bytes CodecModel StrSerialModel ComparatorModel.
Open Scope Z_scope.

(** * The calendar *)
(** gmtime_r and timegm of the C library, which GetUniversalCalendar and MakeUniversalTime call on Linux (tkrzw_time_util.cc:45-67): the proleptic
    Gregorian calendar in UTC without leap seconds.  [days_before y]: the days from the first of January of the year 1 to that of the year [y]. *)
Definition leap (y : Z) : bool := (y mod 4 =? 0) && (negb (y mod 100 =? 0) || (y mod 400 =? 0)).
Definition days_before (y : Z) : Z := 365 * (y - 1) + (y - 1) / 4 - (y - 1) / 100 + (y - 1) / 400.
Definition month_lens (l : bool) : list Z := [31; (if l then 29 else 28); 31; 30; 31; 30; 31; 31; 30; 31; 30; 31].
Definition month_start (l : bool) (m : Z) : Z := fold_left Z.add (firstn (Z.to_nat m) (month_lens l)) 0.
(** The year of a day: what the length of 400 years suggests, corrected by one. *)
Definition year_of (d : Z) : Z :=
  let y := 400 * d / 146097 + 1 in if d <? days_before y then y - 1 else if days_before (y + 1) <=? d then y + 1 else y.
Fixpoint find_month (ms : list Z) (m d : Z) : Z * Z :=
  match ms with [] => (m, d + 1) | l :: r => if d <? l then (m, d + 1) else find_month r (m + 1) (d - l) end.
(** struct tm: the fields that are used.  As in C, years count from 1900 and months from 0. *)
Record tm := mkTm { tm_year : Z; tm_mon : Z; tm_mday : Z; tm_hour : Z; tm_min : Z; tm_sec : Z; tm_wday : Z }.
Definition epoch : Z := days_before 1970.
Definition gmtime (t : Z) : tm :=
  let d := t / 86400 + epoch in
  let s := t mod 86400 in
  let y := year_of d in
  let '(m, md) := find_month (month_lens (leap y)) 0 (d - days_before y) in
  mkTm (y - 1900) m md (s / 3600) (s / 60 mod 60) (s mod 60) ((t / 86400 + 4) mod 7).
(** Fields outside of their ranges carry over, as timegm does. *)
Definition timegm (c : tm) : Z :=
  let y := tm_year c + 1900 + tm_mon c / 12 in
  (days_before y + month_start (leap y) (tm_mon c mod 12) + tm_mday c - 1 - epoch) * 86400 + tm_hour c * 3600 + tm_min c * 60 + tm_sec c.

Definition i32z (z : Z) : Z := wrap (mkity 32 true) z.
Definition int32_ok (v : Z) : bool := (- 2 ^ 31 <=? v) && (v <=? 2 ^ 31 - 1).
(** GetDayOfWeek, tkrzw_time_util.cc:84-90, in int32_t with C's division.  None: overflow. *)
Definition get_day_of_week (year mon day : Z) : option Z :=
  let '(y, m) := if mon <? 3 then (year - 1, mon + 12) else (year, mon) in
  let a := Z.quot (8 + 13 * m) 5 in
  let b := y + Z.quot y 4 in
  let c := b - Z.quot y 100 in
  let e := c + Z.quot y 400 in
  if forallb int32_ok [year; mon; day; y; m; 13 * m; 8 + 13 * m; day + a; b; c; e; day + a + e] then Some (Z.rem (day + a + e) 7) else None.

(** * Formats *)
(** Decimal digits of a number below 10^20, as "%d" makes them. *)
Fixpoint digs (fuel : nat) (n : N) (acc : bytes) : bytes :=
  let acc' := (48 + n mod 10)%N :: acc in
  match fuel with O => acc' | S fu => if (n <? 10)%N then acc' else digs fu (n / 10)%N acc' end.
Definition zeros (n : nat) (s : bytes) : bytes := repeat 48%N (n - length s) ++ s.
(** "%0nd". *)
Definition pad (n : nat) (z : Z) : bytes := if z <? 0 then 45%N :: zeros (n - 1) (digs 20 (Z.to_N (- z)) []) else zeros n (digs 20 (Z.to_N z) []).
(** What a format function ends with: the text in the buffer and the size returned, undefined behaviour (overflow of int64_t), or a throw of
    GetUniversalCalendar as the year is not one of an int. *)
Inductive fout := FText (s : bytes) (size : N) | FOverflow | FThrow.
Definition f_text (s : bytes) : fout := FText s (N.of_nat (length s)).
Definition with_tm (t : Z) (f : tm -> fout) : fout :=
  if int64_ok t then let c := gmtime t in if int32_ok (tm_year c) && int32_ok (tm_year c + 1900) then f c else FThrow else FOverflow.
Definition INT64MIN : Z := - 2 ^ 63.
Definition INT32MIN : Z := - 2 ^ 31.
Definition hms (c : tm) : bytes := pad 2 (tm_hour c) ++ 58%N :: pad 2 (tm_min c) ++ 58%N :: pad 2 (tm_sec c).
Definition simple_text (c : tm) : bytes :=
  pad 4 (tm_year c + 1900) ++ 47%N :: pad 2 (tm_mon c + 1) ++ 47%N :: pad 2 (tm_mday c) ++ 32%N :: hms c.
Definition w3c_text (c : tm) : bytes :=
  pad 4 (tm_year c + 1900) ++ 45%N :: pad 2 (tm_mon c + 1) ++ 45%N :: pad 2 (tm_mday c) ++ 84%N :: hms c.
(** The zone of W3CDTF, tkrzw_time_util.cc:153-166, 187-200. *)
Definition zone (td : Z) : bytes :=
  let m := Z.quot td 60 in
  if m =? 0 then [90%N] else (if m <? 0 then 45%N else 43%N) :: pad 2 (Z.quot (Z.abs m) 60) ++ 58%N :: pad 2 (Z.rem (Z.abs m) 60).

Section Formats.
  (** The current time (GetWallTime, cut to seconds) and the local zone (GetLocalTimeDifference), tkrzw_time_util.cc:69-82. *)
  Variables now local : Z.
  Definition the_time (w : Z) : Z := if w =? INT64MIN then now else w.
  Definition the_zone (td : Z) : Z := if td =? INT32MIN then local else td.
  (** FormatDateSimple, tkrzw_time_util.cc:92-107: snprintf keeps 19 bytes and returns the size of the whole. *)
  Definition format_simple (w td : Z) : fout :=
    with_tm (the_time w + the_zone td) (fun c => FText (firstn 19 (simple_text c)) (N.of_nat (length (simple_text c)))).
  (** FormatDateW3CDTF, tkrzw_time_util.cc:141-170. *)
  Definition format_w3c (w td : Z) : fout :=
    with_tm (the_time w + the_zone td) (fun c => f_text (w3c_text c ++ zone (the_zone td))).
  (** FormatDateW3CDTFWithFrac, tkrzw_time_util.cc:172-216.  The time is [w] seconds and [f] (0 <= f < 1) as an exact number; [cols] columns.
      "%.12f" rounds to the nearest (to the even one of two). *)
  Definition round12 (f : Q) : N :=
    let n := Z.to_N (Qnum f * 10 ^ 12) in let d := Npos (Qden f) in
    let q := (n / d)%N in let r := (n mod d)%N in
    match (2 * r ?= d)%N with Lt => q | Gt => q + 1 | Eq => if N.even q then q else q + 1 end%N.
  Definition frac_text (f : Q) (cols : Z) : bytes :=
    let r := round12 f in
    let dec := digs 20 (r / 10 ^ 12)%N [] ++ 46%N :: zeros 12 (digs 20 (r mod 10 ^ 12)%N []) in
    let dec1 := match dec with c :: t => if (c =? 48)%N then t else dec | [] => [] end in
    firstn (Z.to_nat (Z.min cols 12 + 1)) dec1.
  Definition format_w3c_frac (w : Z) (f : Q) (td cols : Z) : fout :=
    if w <? 0 then FOverflow (* the current time is taken: left out *)
    else with_tm (w + the_zone td) (fun c =>
      f_text (w3c_text c ++ (if Z.min cols 12 <? 1 then [] else frac_text f cols) ++ zone (the_zone td))).
  (** FormatDateRFC1123, tkrzw_time_util.cc:218-269: any negative time stands for the current one.  The sign of the zone is added to the null code
      that sprintf left there. *)
  Definition day_names : list bytes :=
    [[83; 117; 110]; [77; 111; 110]; [84; 117; 101]; [87; 101; 100]; [84; 104; 117]; [70; 114; 105]; [83; 97; 116]]%N.
  Definition month_names : list bytes :=
    [[74; 97; 110]; [70; 101; 98]; [77; 97; 114]; [65; 112; 114]; [77; 97; 121]; [74; 117; 110];
     [74; 117; 108]; [65; 117; 103]; [83; 101; 112]; [79; 99; 116]; [78; 111; 118]; [68; 101; 99]]%N.
  Definition rfc_zone (td : Z) : bytes :=
    let m := Z.quot td 60 in
    if m =? 0 then [71; 77; 84]%N else (if m <? 0 then 45%N else 43%N) :: pad 2 (Z.quot (Z.abs m) 60) ++ pad 2 (Z.rem (Z.abs m) 60).
  Definition rfc_text (c : tm) : bytes :=
    nth (Z.to_nat (tm_wday c)) day_names [] ++ [44; 32]%N ++ pad 2 (tm_mday c) ++ 32%N ::
    nth (Z.to_nat (tm_mon c)) month_names [] ++ 32%N :: pad 4 (tm_year c + 1900) ++ 32%N :: hms c ++ [32%N].
  Definition format_rfc (w td : Z) : fout :=
    with_tm ((if w <? 0 then now else w) + the_zone td) (fun c => f_text (rfc_text c ++ rfc_zone (the_zone td))).
End Formats.

(** * Parsing *)
(** The result of ParseDateStr: a read outside of the memory of the argument, overflow of int64_t, NaN, a hexadecimal number, a number read by
    StrToDouble times a unit, or a time: seconds plus a fraction, the exact sum.  Simplified: the rounding of the product and the sum to double is left
    out (whole seconds below 2^53 are exact). *)
Inductive pout := POutside | POverflow | PNan | PHex (n : N) | PNum (x : fl) (unit : Z) | PTime (secs : Z) (frac : fl).
(** "c <= ' '" for a char, which is signed here. *)
Definition blank (c : N) : bool := (c <=? 32)%N || (128 <=? c)%N.
Fixpoint skip (f : N -> bool) (s : bytes) : bytes := match s with c :: r => if f c then skip f r else s | [] => [] end.
Definition at_ (s : bytes) (i : nat) : N := nth i s 0%N.
Definition sub (s : bytes) (i n : nat) : bytes := firstn n (skipn i s).
Definition is_sep (c : N) : bool := (c =? 45)%N || (c =? 47)%N || (c =? 58)%N.
Definition is_sp (c : N) : bool := (c =? 32)%N.
Definition is_sign (c : N) : bool := (c =? 43)%N || (c =? 45)%N.
Definition int_or (o : option Z) (f : Z -> pout) : pout := match o with Some z => f z | None => POverflow end.
Definition is_letter (c a : N) : bool := (ComparatorModel.lower c =? a)%N.

Section Parse.
  Variable conv : Z -> bytes -> bytes -> option Z -> fl.

  (** A C string: the bytes before the null code.  None: there is none in the memory. *)
  Fixpoint c_string (s : bytes) : option bytes :=
    match s with [] => None | c :: r => if (c =? 0)%N then Some [] else match c_string r with Some t => Some (c :: t) | None => None end end.
  (** "StrToDouble(rp, len)", tkrzw_time_util.cc:343: the pointer is taken as a C string, and the length as the default.  [s] begins with a point. *)
  Definition frac_at (s after : bytes) : option fl :=
    match c_string (s ++ after) with
    | None => None
    | Some t => Some (match t with
        | _ :: c :: _ => if is_digit c then str_to_double conv t else FNum (inject_Z (Z.of_nat (length s)))
        | _ => FNum (inject_Z (Z.of_nat (length s))) end)
    end.
  (** The zone after a time, tkrzw_time_util.cc:355-363. *)
  Definition w3c_zone (s : bytes) (f : Z -> pout) : pout :=
    if (3 <=? length s)%nat && is_sign (at_ s 0) then
      int_or (str_to_int (sub s 1 2)) (fun h =>
      int_or (if (6 <=? length s)%nat && (at_ s 3 =? 58)%N then str_to_int (sub s 4 2) else Some 0) (fun m =>
      let td := h * 3600 + m * 60 in f (if (at_ s 0 =? 45)%N then - td else td)))
    else f 0.
  (** W3CDTF and the like, tkrzw_time_util.cc:327-366. *)
  Definition parse_w3c (s after : bytes) : pout :=
    int_or (str_to_int (sub s 0 4)) (fun y => int_or (str_to_int (sub s 5 2)) (fun mo => int_or (str_to_int (sub s 8 2)) (fun d =>
    if (19 <=? length s)%nat && ((at_ s 10 =? 84)%N || (at_ s 10 =? 32)%N) && is_sep (at_ s 13) && is_sep (at_ s 16) then
      int_or (str_to_int (sub s 11 2)) (fun h => int_or (str_to_int (sub s 14 2)) (fun mi => int_or (str_to_int (sub s 17 2)) (fun se =>
      let t := timegm (mkTm (y - 1900) (mo - 1) d h mi se 0) in
      let r := skipn 19 s in
      let zone_of (r1 : bytes) (fr : fl) := w3c_zone (skip (fun c => (c <=? 32)%N) r1) (fun td => PTime (t - td) fr) in
      match r with
      | c :: r' => if (c =? 46)%N then match frac_at r after with None => POutside | Some fr => zone_of (skip is_digit r') fr end else zone_of r (FNum 0)
      | [] => zone_of r (FNum 0)
      end)))
    else PTime (timegm (mkTm (y - 1900) (mo - 1) d 0 0 0 0)) (FNum 0)))).
  (** StrCaseCompare with the names of the months and of the zones, tkrzw_time_util.cc:385-412, 451-478. *)
  Fixpoint index_of (s : bytes) (l : list bytes) (i : Z) : option Z :=
    match l with [] => None | a :: r => match case_compare s a with Eq => Some i | _ => index_of s r (i + 1) end end.
  Definition months : list bytes := map (map ComparatorModel.lower) month_names.
  Definition zones : list (bytes * Z) :=
    [([106; 115; 116]%N, 9); ([99; 99; 116]%N, 8); ([107; 115; 116]%N, 9); ([101; 100; 116]%N, -4); ([101; 115; 116]%N, -5); ([99; 100; 116]%N, -5);
     ([99; 115; 116]%N, -6); ([109; 100; 116]%N, -6); ([109; 115; 116]%N, -7); ([112; 100; 116]%N, -7); ([112; 115; 116]%N, -8); ([104; 100; 116]%N, -9);
     ([104; 115; 116]%N, -10)].
  Definition zone_hours (s : bytes) : Z :=
    match find (fun a => match case_compare s (fst a) with Eq => true | _ => false end) zones with Some a => snd a | None => 0 end.
  (** The zone of RFC 1123, tkrzw_time_util.cc:442-479. *)
  Definition rfc_zone_at (s : bytes) (f : Z -> pout) : pout :=
    if (3 <=? length s)%nat && is_sign (at_ s 0) then
      int_or (str_to_int (sub s 1 2)) (fun h =>
      int_or (if (5 <=? length s)%nat && is_digit (at_ s 4) then str_to_int (sub s 3 2) else Some 0) (fun m =>
      let td := h * 3600 + m * 60 in f (if (at_ s 0 =? 45)%N then - td else td)))
    else if (3 <=? length s)%nat then f (zone_hours (firstn 3 s) * 3600)
    else f 0.
  (** RFC 1123, tkrzw_time_util.cc:367-482.  Numbers are converted to int. *)
  Definition parse_rfc (s : bytes) : pout :=
    let s1 := skip is_sp (skipn 4 s) in
    int_or (str_to_int s1) (fun d0 =>
    let d := i32z d0 in
    if d <? 1 then PNan else
    let s2 := skip (fun c => is_digit c || is_sp c) s1 in
    if (length s2 <? 3)%nat then PNan else
    match index_of (firstn 3 s2) months 0 with
    | None => PNan
    | Some mo =>
        let s3 := skip is_sp (skipn 3 s2) in
        int_or (str_to_int s3) (fun y0 =>
        let y := i32z y0 in
        let yr := if 1969 <=? y then y - 1900 else y in
        let s4 := skip is_sp (skip is_digit s3) in
        if (8 <=? length s4)%nat && (at_ s4 2 =? 58)%N && (at_ s4 5 =? 58)%N then
          int_or (str_to_int (sub s4 0 2)) (fun h => int_or (str_to_int (sub s4 3 2)) (fun mi => int_or (str_to_int (sub s4 6 2)) (fun se =>
          rfc_zone_at (skip (fun c => (c <=? 32)%N) (skipn 8 s4)) (fun td => PTime (timegm (mkTm yr mo d h mi se 0) - td) (FNum 0)))))
        else PTime (timegm (mkTm yr mo d 0 0 0 0)) (FNum 0))
    end).
  (** A number with a unit, tkrzw_time_util.cc:284-316.  "pv[1]" is read although there may be one byte left only; None: no number.  [Some None]: the
      read is outside of the memory. *)
  Definition parse_unit (s after : bytes) : option (option Z) :=
    let p := skip (fun c => is_digit c || (c =? 46)%N) (match s with c :: r => if is_sign c then r else s | [] => [] end) in
    let has_num := match (match s with c :: r => if is_sign c then r else s | [] => [] end) with c :: _ => is_digit c || (c =? 46)%N | [] => false end in
    let q := skip blank p in
    if negb has_num then None else
    match q with
    | [] => Some (Some 1)
    | c :: q' =>
        let unit : option (option Z) :=
          if is_letter c 115 then Some (Some 1) else if is_letter c 109 then Some (Some 60)
          else if is_letter c 104 then Some (Some 3600) else if is_letter c 100 then Some (Some 86400) else None in
        match q' with
        | _ :: _ => unit
        | [] => match after with [] => Some None | a :: _ => if blank a then unit else None end
        end
    end.
  (** ParseDateStr, tkrzw_time_util.cc:271-484.  [after]: the bytes of the memory after the argument; just a null code for a std::string. *)
  Definition parse_date (str after : bytes) : pout :=
    let s := skip blank str in
    match s with
    | [] => PNan
    | _ =>
        if (2 <=? length s)%nat && (at_ s 0 =? 48)%N && ((at_ s 1 =? 120)%N || (at_ s 1 =? 88)%N) then PHex (str_to_int_hex (skipn 2 s))
        else
          match parse_unit s after with
          | Some None => POutside
          | Some (Some u) => PNum (str_to_double conv s) u
          | None =>
              if (10 <=? length s)%nat && is_sep (at_ s 4) && is_sep (at_ s 7) then parse_w3c s after
              else if (4 <=? length s)%nat && (at_ s 3 =? 44)%N then parse_rfc s
              else PNan
          end
    end.
End Parse.

(** ParseDateStrYYYYMMDD, tkrzw_time_util.cc:486-529: 16 digits are kept. *)
Definition parse_ymd (local : Z) (str : bytes) (td : Z) : pout :=
  let b := firstn 16 (filter is_digit str) in
  let n := length b in
  let field (i : nat) (d : Z) (f : Z -> pout) := if (i + 2 <=? n)%nat then int_or (str_to_int (sub b i 2)) f else f d in
  if (n <? 4)%nat then PNan else
  int_or (str_to_int (sub b 0 4)) (fun y =>
  field 4%nat 1 (fun mo => field 6%nat 1 (fun d => field 8%nat 0 (fun h => field 10%nat 0 (fun mi => field 12%nat 0 (fun se =>
  PTime (timegm (mkTm (y - 1900) (mo - 1) d h mi se 0) - the_zone local td) (FNum 0))))))).
