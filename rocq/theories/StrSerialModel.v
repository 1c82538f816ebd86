(** Serialization of string pairs, string vectors, string maps and integer
    vectors.
    Source: /repo/tkrzw_str_util.cc:2061-2198, /repo/tkrzw_str_util.h:899-1098. *)
From Verif Require Import Bytes BytesOrder CodecModel.
Open Scope N_scope.

(** ReadVarNum as its callers see it: on failure the number and the step are 0. *)
Definition rv (l : bytes) : N * N := match read_var l with Some r => r | None => (0, 0) end.

(** * Pairs *)
(** SerializeStrPair, tkrzw_str_util.cc:2061-2072. *)
Definition serialize_pair (a b : bytes) : bytes := write_var (blen a) ++ a ++ write_var (blen b) ++ b.

(** DeserializeStrPair, tkrzw_str_util.cc:2074-2090.  None: a view reaching
    outside of the input is made (undefined when read).  The code has no check. *)
Definition deserialize_pair (s : bytes) : option (bytes * bytes) :=
  let '(n1, step1) := rv s in
  let s1 := skipn (N.to_nat step1) s in
  if blen s1 <? n1 then None
  else
    let s2 := skipn (N.to_nat n1) s1 in
    let '(n2, step2) := rv s2 in
    let s3 := skipn (N.to_nat step2) s2 in
    if blen s3 <? n2 then None
    else Some (firstn (N.to_nat n1) s1, firstn (N.to_nat n2) s3).

(** GetFirstFromSerializedStrPair, tkrzw_str_util.cc:2092-2096. *)
Definition first_of_pair (s : bytes) : option bytes :=
  let '(n1, step1) := rv s in
  let s1 := skipn (N.to_nat step1) s in
  if blen s1 <? n1 then None else Some (firstn (N.to_nat n1) s1).

(** * Vectors of strings *)
(** SerializeStrVector, tkrzw_str_util.cc:2098-2111. *)
Definition serialize_vec (l : list bytes) : bytes := flat_map (fun v => write_var (blen v) ++ v) l.

(** The int32_t in which the size is kept, tkrzw_str_util.cc:2116 and 2173. *)
Definition i32 (n : N) : Z :=
  let m := n mod 4294967296 in if m <? 2147483648 then Z.of_N m else (Z.of_N m - 4294967296)%Z.

(** The outcome of a deserialization after a number of loop iterations: the
    result, std::length_error thrown by the string constructor, or still
    looping. *)
Inductive dres (A : Type) := DDone (a : A) | DThrow | DRunning.
Arguments DDone {A}. Arguments DThrow {A}. Arguments DRunning {A}.

(** DeserializeStrVector, tkrzw_str_util.cc:2113-2130: [fuel] iterations of the
    loop on the unread bytes [s]. *)
Fixpoint vec_loop (fuel : nat) (s : bytes) (acc : list bytes) : dres (list bytes) :=
  match fuel with
  | O => DRunning
  | S fuel' =>
      match s with
      | [] => DDone acc
      | _ =>
          let '(n, step) := rv s in
          let s1 := skipn (N.to_nat step) s in
          if 2 ^ 63 <=? n then DThrow
          else if blen s1 <? n then DDone acc
          else vec_loop fuel' (skipn (N.to_nat n) s1) (acc ++ [firstn (N.to_nat n) s1])
      end
  end.
Definition deserialize_vec (fuel : nat) (s : bytes) : dres (list bytes) :=
  vec_loop fuel (firstn (Z.to_nat (i32 (blen s))) s) [].

(** * Maps of strings *)
(** std::map<std::string, std::string> as the list of its records in ascending
    order of keys; emplace keeps an existing record. *)
Definition smap := list (bytes * bytes).
Fixpoint smap_emplace (k v : bytes) (l : smap) : smap :=
  match l with
  | [] => [(k, v)]
  | (x, w) :: l' => match bcmp k x with
                    | Lt => (k, v) :: (x, w) :: l'
                    | Eq => (x, w) :: l'
                    | Gt => (x, w) :: smap_emplace k v l'
                    end
  end.

(** SerializeStrMap, tkrzw_str_util.cc:2151-2168. *)
Definition serialize_map (l : smap) : bytes :=
  flat_map (fun kv => write_var (blen (fst kv)) ++ fst kv ++ write_var (blen (snd kv)) ++ snd kv) l.

(** DeserializeStrMap, tkrzw_str_util.cc:2170-2198. *)
Fixpoint map_loop (fuel : nat) (s : bytes) (acc : smap) : dres smap :=
  match fuel with
  | O => DRunning
  | S fuel' =>
      match s with
      | [] => DDone acc
      | _ =>
          let '(n1, step1) := rv s in
          let s1 := skipn (N.to_nat step1) s in
          if 2 ^ 63 <=? n1 then DThrow
          else if blen s1 <? n1 then DDone acc
          else
            let k := firstn (N.to_nat n1) s1 in
            let s2 := skipn (N.to_nat n1) s1 in
            let '(n2, step2) := rv s2 in
            let s3 := skipn (N.to_nat step2) s2 in
            if 2 ^ 63 <=? n2 then DThrow
            else if blen s3 <? n2 then DDone acc
            else map_loop fuel' (skipn (N.to_nat n2) s3) (smap_emplace k (firstn (N.to_nat n2) s3) acc)
      end
  end.
Definition deserialize_map (fuel : nat) (s : bytes) : dres smap :=
  map_loop fuel (firstn (Z.to_nat (i32 (blen s))) s) [].

(** * Vectors of integers *)
(** An integer type T: bits and signedness. *)
Record ity := mkity { t_bits : Z; t_signed : bool }.
Definition t_min (t : ity) : Z := if t_signed t then - 2 ^ (t_bits t - 1) else 0.
Definition t_max (t : ity) : Z := if t_signed t then 2 ^ (t_bits t - 1) - 1 else 2 ^ t_bits t - 1.
Definition in_ity (t : ity) (v : Z) : Prop := (t_min t <= v <= t_max t)%Z.
(** Conversion to T (modulo 2^bits, two's complement). *)
Definition wrap (t : ity) (v : Z) : Z :=
  let m := (v mod 2 ^ t_bits t)%Z in
  if t_signed t then (if (m <? 2 ^ (t_bits t - 1))%Z then m else m - 2 ^ t_bits t)%Z else m.
(** Arithmetic is done in the promoted type: int below 32 bits, else T. *)
Definition prom (t : ity) : ity := if (t_bits t <? 32)%Z then mkity 32 true else t.
(** The result [v] of an arithmetic operation in type [t]: wraps for unsigned
    types, is undefined (None) when a signed type overflows. *)
Definition arith (t : ity) (v : Z) : option Z :=
  if t_signed t then (if (t_min t <=? v) && (v <=? t_max t) then Some v else None)%Z else Some (wrap t v).
Definition tou64 (v : Z) : N := Z.to_N (v mod 2 ^ 64)%Z.

(** The number written for a value, tkrzw_str_util.h:977-987.  The product with
    the int -2 is computed in the promoted type. *)
Definition delta_num (t : ity) (zigzag : bool) (v : Z) : option N :=
  if zigzag then
    if 2 ^ 63 - 1 <? tou64 v then
      match arith (prom t) (v + 1) with
      | None => None
      | Some a => match arith (prom t) (a * -2) with
                  | None => None
                  | Some b => Some ((tou64 b + 1) mod two64)
                  end
      end
    else match arith (prom t) (v * 2) with None => None | Some b => Some (tou64 b) end
  else Some (tou64 v).

(** SerializeIntVectorDelta, tkrzw_str_util.h:973-1058; the ten size cases are
    those of WriteVarNum.  None: signed overflow. *)
Fixpoint serialize_delta (t : ity) (zigzag : bool) (l : list Z) : option bytes :=
  match l with
  | [] => Some []
  | v :: l' => match delta_num t zigzag v, serialize_delta t zigzag l' with
               | Some n, Some rest => Some (write_var n ++ rest)
               | _, _ => None
               end
  end.

(** The inner loop of DeserializeIntVectorDelta, tkrzw_str_util.h:1074-1081. *)
Fixpoint delta_read (s : bytes) (num : N) : N * bytes :=
  match s with
  | [] => (num, [])
  | c :: s' =>
      let num' := (N.shiftl num 7 + N.land c 127) mod two64 in
      if 128 <=? c then delta_read s' num' else (num', s')
  end.
(** The value pushed for a number, tkrzw_str_util.h:1082-1090.  The conversion to
    T comes before the multiplication, which is done in the promoted type. *)
Definition delta_value (t : ity) (zigzag : bool) (n : N) : option Z :=
  if zigzag then
    if N.odd n then
      match arith (prom t) (wrap t (Z.of_N ((n - 1) / 2)) * -1) with
      | None => None
      | Some a => match arith (prom t) (a - 1) with None => None | Some b => Some (wrap t b) end
      end
    else Some (wrap t (Z.of_N (n / 2)))
  else Some (wrap t (Z.of_N n)).
(** DeserializeIntVectorDelta, tkrzw_str_util.h:1067-1092; each iteration
    consumes a byte, so the length is enough fuel. *)
Fixpoint delta_loop (fuel : nat) (t : ity) (zigzag : bool) (s : bytes) : option (list Z) :=
  match fuel with
  | O => Some []
  | S fuel' =>
      match s with
      | [] => Some []
      | _ =>
          let '(n, s') := delta_read s 0 in
          match delta_value t zigzag n, delta_loop fuel' t zigzag s' with
          | Some v, Some l => Some (v :: l)
          | _, _ => None
          end
      end
  end.
Definition deserialize_delta (t : ity) (zigzag : bool) (s : bytes) : option (list Z) :=
  delta_loop (length s) t zigzag s.

(** SerializeBasicVector and DeserializeBasicVector for an integer type,
    tkrzw_str_util.h:933-964: big-endian two's complement. *)
Definition t_width (t : ity) : nat := Z.to_nat (t_bits t / 8).
Definition serialize_basic (t : ity) (l : list Z) : bytes :=
  flat_map (fun v => write_fix (t_width t) (Z.to_N (v mod 2 ^ t_bits t))) l.
Fixpoint basic_loop (n : nat) (t : ity) (s : bytes) : list Z :=
  match n with
  | O => []
  | S n' => wrap t (Z.of_N (read_fix (t_width t) s)) :: basic_loop n' t (skipn (t_width t) s)
  end.
Definition deserialize_basic (t : ity) (s : bytes) : list Z :=
  basic_loop (length s / t_width t) t s.

(** IntToStrDelta and StrToIntDelta, tkrzw_str_util.cc:521-532 and 341-352, on
    uint64_t; the signed multiplication by -1 cannot overflow. *)
Definition int_to_delta (data : N) (zigzag : bool) : bytes :=
  write_var (if zigzag then
               if 2 ^ 63 - 1 <? data then tou64 ((Z.of_N data + 1) * -2 + 1) else (data * 2) mod two64
             else data).
Definition delta_to_int (s : bytes) (zigzag : bool) : N :=
  let n := fst (rv s) in
  if zigzag then
    if N.odd n then tou64 (Z.of_N ((n - 1) / 2) * -1 - 1) else n / 2
  else n.
(** IntToStrBigEndian and StrToIntBigEndian, tkrzw_str_util.cc:497-505, 314-320. *)
Definition int_to_be (data : N) (size : nat) : bytes := write_fix (Nat.min size 8) data.
Definition be_to_int (s : bytes) : N := read_fix (Nat.min (length s) 8) s.
