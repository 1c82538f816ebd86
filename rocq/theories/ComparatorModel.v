(** Key comparators.  Source: /repo/tkrzw_key_comparators.h:43-251 and the
    conversions of /repo/tkrzw_str_util.cc they call. *)
From Coq Require Import QArith.
From Verif Require Import Bytes BytesOrder CodecModel StrSerialModel.
Open Scope N_scope.

(** The sign of the result of a comparator (tkrzw_key_comparators.h:36): negative
    Lt, zero Eq, positive Gt.  None: undefined behaviour. *)
Definition kcmp := bytes -> bytes -> option comparison.

(** LexicalKeyComparator, tkrzw_key_comparators.h:44-46: string_view::compare. *)
Definition cmp_lexical : kcmp := fun a b => Some (bcmp a b).

(** StrCaseCompare, tkrzw_str_util.cc:832-854.  The number of compared bytes is
    the smaller size converted to int32_t. *)
Definition lower (c : N) : N := if (c <=? 90) && (65 <=? c) then c + 32 else c.
Fixpoint case_loop (n : nat) (a b : bytes) : comparison :=
  match n with
  | O => Eq
  | S n' => match a, b with
            | x :: a', y :: b' =>
                if lower x =? lower y then case_loop n' a' b'
                else if lower x <? lower y then Lt else Gt
            | _, _ => Eq
            end
  end.
Definition case_compare (a b : bytes) : comparison :=
  match case_loop (Z.to_nat (i32 (N.min (blen a) (blen b)))) a b with
  | Eq => if blen a <? blen b then Lt else if blen b <? blen a then Gt else Eq
  | c => c
  end.
(** LexicalCaseKeyComparator, tkrzw_key_comparators.h:54-56. *)
Definition cmp_case : kcmp := fun a b => Some (case_compare a b).

(** Skipping bytes up to the space, tkrzw_str_util.cc:75-77. *)
Fixpoint skip_space (s : bytes) : bytes :=
  match s with c :: s' => if c <=? 32 then skip_space s' else s | [] => [] end.
Definition read_sign (s : bytes) : Z * bytes :=
  match s with
  | c :: s' => if c =? 45 then ((-1)%Z, s') else if c =? 43 then (1%Z, s') else (1%Z, s)
  | [] => (1%Z, [])
  end.
Definition is_digit (c : N) : bool := (48 <=? c) && (c <=? 57).
Definition int64_ok (v : Z) : bool := ((- 2 ^ 63 <=? v) && (v <=? 2 ^ 63 - 1))%Z.
(** The digit loop, tkrzw_str_util.cc:92-97: num * 10 + c - '0' in int64_t, from left to
    right.  None: overflow. *)
Fixpoint dec_loop (s : bytes) (num : Z) : option Z :=
  match s with
  | c :: s' =>
      if is_digit c then
        if int64_ok (num * 10) && int64_ok (num * 10 + Z.of_N c)
        then dec_loop s' (num * 10 + Z.of_N c - 48) else None
      else Some num
  | [] => Some num
  end.
(** StrToInt with default 0, tkrzw_str_util.cc:72-102; without digits the number is 0 too. *)
Definition str_to_int (s : bytes) : option Z :=
  let '(sign, s1) := read_sign (skip_space s) in
  match dec_loop (skip_space s1) 0 with Some n => Some (n * sign)%Z | None => None end.

(** StrToIntHex with default 0, tkrzw_str_util.cc:221-249, in uint64_t. *)
Definition hex_val (c : N) : option N :=
  if (48 <=? c) && (c <=? 57) then Some (c - 48)
  else if (97 <=? c) && (c <=? 102) then Some (c - 97 + 10)
  else if (65 <=? c) && (c <=? 70) then Some (c - 65 + 10)
  else None.
Fixpoint hex_loop (s : bytes) (num : N) : N :=
  match s with
  | c :: s' => match hex_val c with Some d => hex_loop s' ((num * 16 + d) mod two64) | None => num end
  | [] => num
  end.
Definition skip_0x (s : bytes) : bytes :=
  match s with
  | a :: b :: s' => if (a =? 48) && ((b =? 120) || (b =? 88)) then s' else s
  | _ => s
  end.
Definition str_to_int_hex (s : bytes) : N := hex_loop (skip_0x (skip_space s)) 0.
(** Conversion of uint64_t to int64_t. *)
Definition to_i64 (n : N) : Z := wrap (mkity 64 true) (Z.of_N n).

(** a_num < b_num ? -1 : (a_num > b_num ? 1 : 0). *)
Definition cmp_int (ca cb : option Z) : option comparison :=
  match ca, cb with
  | Some x, Some y => Some (if (x <? y)%Z then Lt else if (y <? x)%Z then Gt else Eq)
  | _, _ => None
  end.
(** DecimalKeyComparator, tkrzw_key_comparators.h:64-68. *)
Definition cmp_decimal : kcmp := fun a b => cmp_int (str_to_int a) (str_to_int b).
(** HexadecimalKeyComparator, tkrzw_key_comparators.h:76-80. *)
Definition cmp_hex : kcmp := fun a b =>
  cmp_int (Some (to_i64 (str_to_int_hex a))) (Some (to_i64 (str_to_int_hex b))).
(** The cast of SignedBigEndianKeyComparator, tkrzw_key_comparators.h:101-115. *)
Definition be_cast (s : bytes) : Z :=
  let n := be_to_int s in
  let t := match length s with
           | 1%nat => mkity 8 true | 2%nat => mkity 16 true | 4%nat => mkity 32 true
           | _ => mkity 64 true
           end in
  wrap t (Z.of_N n).
(** SignedBigEndianKeyComparator, tkrzw_key_comparators.h:100-119. *)
Definition cmp_signed_be : kcmp := fun a b => cmp_int (Some (be_cast a)) (Some (be_cast b)).

(** Floating-point numbers: not a number, infinities and finite numbers.  The
    rounding of the machine is left open: see [conv] and [dec] below. *)
Inductive fl := FNan | FNegInf | FNum (q : Q) | FPosInf.
Definition flt (a b : fl) : bool :=
  match a, b with
  | FNan, _ | _, FNan => false
  | FNegInf, FNegInf => false
  | FNegInf, _ => true
  | FNum _, FNegInf => false
  | FNum p, FNum q => match Qcompare p q with Lt => true | _ => false end
  | FNum _, FPosInf => true
  | FPosInf, _ => false
  end.
Definition fcmp (a b : fl) : comparison := if flt a b then Lt else if flt b a then Gt else Eq.

(** The number read by StrToDouble, tkrzw_str_util.cc:251-312, before the
    machine arithmetic: sign, integer part, fraction digits, exponent.  [conv]
    stands for the long double arithmetic and the conversion to double on these
    (its exact values are not modelled); "inf" and "nan" are decided by the code
    itself. *)
Definition up3 (a b c : N) (s : bytes) : bool :=
  match s with
  | x :: y :: z :: _ => (lower x =? a) && (lower y =? b) && (lower z =? c)
  | _ => false
  end.
Fixpoint span_digits (s : bytes) : bytes * bytes :=
  match s with
  | c :: s' => if is_digit c then let '(d, r) := span_digits s' in (c :: d, r) else ([], s)
  | [] => ([], [])
  end.
(** The fraction loop stops after 16 columns, counted from the first digit which
    makes the number positive, tkrzw_str_util.cc:283-303. *)
Fixpoint span_frac (n : nat) (s : bytes) : bytes * bytes :=
  match n, s with
  | S n', c :: s' => if is_digit c then let '(d, r) := span_frac n' s' in (c :: d, r) else ([], s)
  | _, _ => ([], s)
  end.
Fixpoint columns (ip : bytes) : nat :=
  match ip with c :: ip' => if c =? 48 then columns ip' else length ip | [] => O end.
Definition str_to_double (conv : Z -> bytes -> bytes -> option Z -> fl) (s : bytes) : fl :=
  let '(sign, s1) := read_sign (skip_space s) in
  if up3 105 110 102 s1 then (if (sign =? 1)%Z then FPosInf else FNegInf)
  else if up3 110 97 110 s1 then FNan
  else
    let '(ip, s2) := span_digits (skip_space s1) in
    let '(fp, s3) := match s2 with
                     | c :: s2' => if c =? 46 then span_frac (16 - columns ip) s2' else ([], s2)
                     | [] => ([], [])
                     end in
    match ip, fp with
    | [], [] => FNum 0
    | _, _ => match s3 with
              | c :: s3' => if (c =? 101) || (c =? 69) then conv sign ip fp (str_to_int s3')
                            else conv sign ip fp (Some 0%Z)
              | [] => conv sign ip fp (Some 0%Z)
              end
    end.
(** RealNumberKeyComparator, tkrzw_key_comparators.h:88-92: no test for NaN. *)
Definition cmp_real conv : kcmp := fun a b => Some (fcmp (str_to_double conv a) (str_to_double conv b)).

(** StrToFloatBigEndian, tkrzw_str_util.cc:322-339: the widest of long double
    (16 bytes), double and float fitting into the string; [dec w] is the
    meaning of [w] bytes. *)
Definition str_to_float_be (dec : nat -> bytes -> fl) (s : bytes) : fl :=
  if 16 <=? blen s then dec 16%nat (firstn 16 s)
  else if 8 <=? blen s then dec 8%nat (firstn 8 s)
  else if 4 <=? blen s then dec 4%nat (firstn 4 s)
  else FNan.
(** FloatBigEndianKeyComparator, tkrzw_key_comparators.h:127-133. *)
Definition is_nan (a : fl) : bool := match a with FNan => true | _ => false end.
Definition cmp_float_be dec : kcmp := fun a b =>
  let x := str_to_float_be dec a in
  let y := str_to_float_be dec b in
  Some (if is_nan x then (if is_nan y then Eq else Lt) else if is_nan y then Gt else fcmp x y).

(** The Pair...KeyComparator functions, tkrzw_key_comparators.h:141-251: the
    first elements by the plain comparator, then the second ones lexically. *)
Definition cmp_pair (kc : kcmp) : kcmp := fun a b =>
  match deserialize_pair a, deserialize_pair b with
  | Some (ak, av), Some (bk, bv) =>
      match kc ak bk with
      | None => None
      | Some Eq => Some (bcmp av bv)
      | r => r
      end
  | _, _ => None
  end.
