(** C-style escaping, Base64, URL encoding and UTF-8.
    Source: /repo/tkrzw_str_util.cc:1518-1786 and 1884-1975. *)
From Verif Require Import Bytes.
Open Scope N_scope.

(** * Escaping *)
(** SPrintF("\\x%02x", c) of a byte, tkrzw_str_util.cc:1550-1553. *)
Definition hexlow (d : N) : N := if d <? 10 then 48 + d else 97 + (d - 10).
Definition esc_hex (c : N) : bytes := [92; 120; hexlow (c / 16); hexlow (c mod 16)].
(** The body of the loop of StrEscapeC, tkrzw_str_util.cc:1523-1559, for the byte
    [c] before the bytes [rest]. *)
Definition esc_byte (esc_nonasc : bool) (c : N) (rest : bytes) : bytes :=
  if c =? 0 then
    match rest with
    | [] => [92; 48]
    | n :: _ => if (48 <=? n) && (n <=? 55) then [92; 120; 48; 48] else [92; 48]
    end
  else if c =? 7 then [92; 97]
  else if c =? 8 then [92; 98]
  else if c =? 9 then [92; 116]
  else if c =? 10 then [92; 110]
  else if c =? 11 then [92; 118]
  else if c =? 12 then [92; 102]
  else if c =? 13 then [92; 114]
  else if c =? 92 then [92; 92]
  else if (c <? 32) || (c =? 127) then esc_hex c
  else if esc_nonasc && (128 <=? c) then esc_hex c
  else [c].
(** StrEscapeC, tkrzw_str_util.cc:1518-1561. *)
Fixpoint escape_c (esc_nonasc : bool) (s : bytes) : bytes :=
  match s with
  | [] => []
  | c :: rest => esc_byte esc_nonasc c rest ++ escape_c esc_nonasc rest
  end.

(** A hexadecimal digit, tkrzw_str_util.cc:1590-1597. *)
Definition hexdigit (c : N) : option N :=
  if (48 <=? c) && (c <=? 57) then Some (c - 48)
  else if (65 <=? c) && (c <=? 70) then Some (c - 65 + 10)
  else if (97 <=? c) && (c <=? 102) then Some (c - 97 + 10)
  else None.
(** The loops reading at most [n] more digits, tkrzw_str_util.cc:1587-1601 and
    1608-1618: the number and the unread bytes. *)
Fixpoint take_hex (n : nat) (s : bytes) (num : N) : N * bytes :=
  match n, s with
  | S n', c :: s' => match hexdigit c with Some d => take_hex n' s' (num * 16 + d) | None => (num, s) end
  | _, _ => (num, s)
  end.
Fixpoint take_oct (n : nat) (s : bytes) (num : N) : N * bytes :=
  match n, s with
  | S n', c :: s' => if (48 <=? c) && (c <=? 55) then take_oct n' s' (num * 8 + (c - 48)) else (num, s)
  | _, _ => (num, s)
  end.
(** StrUnescapeC, tkrzw_str_util.cc:1563-1629.  Every iteration consumes a byte:
    the length is enough fuel.  push_back stores the low byte of the number. *)
Fixpoint unesc_loop (fuel : nat) (s : bytes) : bytes :=
  match fuel with
  | O => []
  | S f =>
      match s with
      | [] => []
      | c :: s1 =>
          if c =? 92 then
            match s1 with
            | [] => []
            | d :: s2 =>
                if d =? 97 then 7 :: unesc_loop f s2
                else if d =? 98 then 8 :: unesc_loop f s2
                else if d =? 116 then 9 :: unesc_loop f s2
                else if d =? 110 then 10 :: unesc_loop f s2
                else if d =? 118 then 11 :: unesc_loop f s2
                else if d =? 102 then 12 :: unesc_loop f s2
                else if d =? 114 then 13 :: unesc_loop f s2
                else if (d =? 120) || (d =? 88) then
                  let '(num, s3) := take_hex 2 s2 0 in num mod 256 :: unesc_loop f s3
                else if (48 <=? d) && (d <=? 56) then
                  let '(num, s3) := take_oct 2 s2 (d - 48) in num mod 256 :: unesc_loop f s3
                else d :: unesc_loop f s2
            end
          else c :: unesc_loop f s1
      end
  end.
Definition unescape_c (s : bytes) : bytes := unesc_loop (length s) s.

(** * Base64 *)
(** The table of StrEncodeBase64, tkrzw_str_util.cc:1632. *)
Definition b64_char (n : N) : N :=
  if n <? 26 then 65 + n
  else if n <? 52 then 97 + (n - 26)
  else if n <? 62 then 48 + (n - 52)
  else if n =? 62 then 43 else 47.
(** StrEncodeBase64, tkrzw_str_util.cc:1631-1663. *)
Fixpoint base64_encode (s : bytes) : bytes :=
  match s with
  | [] => []
  | [a] => [b64_char (N.shiftr a 2); b64_char (N.shiftl (N.land a 3) 4); 61; 61]
  | [a; b] => [b64_char (N.shiftr a 2); b64_char (N.shiftl (N.land a 3) 4 + N.shiftr b 4);
               b64_char (N.shiftl (N.land b 15) 2); 61]
  | a :: b :: c :: s' =>
      [b64_char (N.shiftr a 2); b64_char (N.shiftl (N.land a 3) 4 + N.shiftr b 4);
       b64_char (N.shiftl (N.land b 15) 2 + N.shiftr c 6); b64_char (N.land c 63)] ++ base64_encode s'
  end.
(** The value of a character, tkrzw_str_util.cc:1674-1689. *)
Definition b64_val (c : N) : option N :=
  if (65 <=? c) && (c <=? 90) then Some (c - 65)
  else if (97 <=? c) && (c <=? 122) then Some (c - 97 + 26)
  else if (48 <=? c) && (c <=? 57) then Some (c - 48 + 52)
  else if c =? 43 then Some 62
  else if c =? 47 then Some 63
  else None.
(** The inner loop, tkrzw_str_util.cc:1673-1696: at most 4 - step characters
    which count; others are skipped. *)
Fixpoint b64_group (s : bytes) (bits step eqs : N) : N * N * N * bytes :=
  match s with
  | [] => (bits, step, eqs, [])
  | c :: s' =>
      if step <? 4 then
        match b64_val c with
        | Some v => b64_group s' (N.lor (N.shiftl bits 6) v) (step + 1) eqs
        | None => if c =? 61 then b64_group s' (N.shiftl bits 6) (step + 1) (eqs + 1)
                  else b64_group s' bits step eqs
        end
      else (bits, step, eqs, s)
  end.
(** StrDecodeBase64, tkrzw_str_util.cc:1665-1716. *)
Fixpoint b64_loop (fuel : nat) (s : bytes) : bytes :=
  match fuel with
  | O => []
  | S f =>
      match s with
      | [] => []
      | _ =>
          let '(bits, step, eqs, s') := b64_group s 0 0 0 in
          if (step =? 0) && (match s' with [] => true | _ => false end) then []
          else
            let out := if eqs =? 0 then [N.land (N.shiftr bits 16) 255; N.land (N.shiftr bits 8) 255; N.land bits 255]
                       else if eqs =? 1 then [N.land (N.shiftr bits 16) 255; N.land (N.shiftr bits 8) 255]
                       else if eqs =? 2 then [N.land (N.shiftr bits 16) 255]
                       else [] in
            if eqs =? 0 then out ++ b64_loop f s' else out
      end
  end.
Definition base64_decode (s : bytes) : bytes := b64_loop (length s) s.

(** * URL encoding *)
Definition url_plain (c : N) : bool :=
  ((65 <=? c) && (c <=? 90)) || ((97 <=? c) && (c <=? 122)) || ((48 <=? c) && (c <=? 57)) ||
  (c =? 95) || (c =? 45) || (c =? 46) || (c =? 126).
(** StrEncodeURL, tkrzw_str_util.cc:1718-1744. *)
Fixpoint url_encode (s : bytes) : bytes :=
  match s with
  | [] => []
  | c :: s' => (if url_plain c then [c] else [37; hexlow (N.shiftr c 4); hexlow (N.land c 15)]) ++ url_encode s'
  end.
(** StrDecodeURL, tkrzw_str_util.cc:1746-1786.  The characters are signed: bytes
    from 128 are below the space and are dropped, like control characters.  A
    character after % which is no digit leaves the number as it is. *)
Definition url_num (num c : N) : N :=
  if (48 <=? c) && (c <=? 57) then num * 16 + (c - 48)
  else if (97 <=? c) && (c <=? 102) then num * 16 + (c - 97 + 10)
  else if (65 <=? c) && (c <=? 70) then num * 16 + (c - 65 + 10)
  else num.
Fixpoint url_decode (s : bytes) : bytes :=
  match s with
  | [] => []
  | c :: s1 =>
      if c =? 37 then
        match s1 with
        | a :: b :: s3 => url_num (url_num 0 a) b mod 256 :: url_decode s3
        | _ => []
        end
      else if c =? 43 then 32 :: url_decode s1
      else if (c <=? 32) || (128 <=? c) || (c =? 127) then url_decode s1
      else c :: url_decode s1
  end.

(** * UTF-8 *)
(** ConvertUCS4ToUTF8, tkrzw_str_util.cc:1933-1975, for one code. *)
Definition utf8_of (c : N) : bytes :=
  if c <? 128 then [c]
  else if c <? 2048 then [N.lor 192 (N.shiftr c 6); N.lor 128 (N.land c 63)]
  else if c <? 65536 then
    [N.lor 224 (N.shiftr c 12); N.lor 128 (N.shiftr (N.land c 4095) 6); N.lor 128 (N.land c 63)]
  else if c <? 2097152 then
    [N.lor 240 (N.shiftr c 18); N.lor 128 (N.shiftr (N.land c 262143) 12);
     N.lor 128 (N.shiftr (N.land c 4095) 6); N.lor 128 (N.land c 63)]
  else if c <? 67108864 then
    [N.lor 248 (N.shiftr c 24); N.lor 128 (N.shiftr (N.land c 16777215) 18);
     N.lor 128 (N.shiftr (N.land c 262143) 12); N.lor 128 (N.shiftr (N.land c 4095) 6);
     N.lor 128 (N.land c 63)]
  else if c <? 2147483648 then
    [N.lor 252 (N.shiftr c 30); N.lor 128 (N.shiftr (N.land c 1073741823) 24);
     N.lor 128 (N.shiftr (N.land c 16777215) 18); N.lor 128 (N.shiftr (N.land c 262143) 12);
     N.lor 128 (N.shiftr (N.land c 4095) 6); N.lor 128 (N.land c 63)]
  else [].
Definition utf8_encode (l : list N) : bytes := flat_map utf8_of l.

(** ConvertUTF8ToUCS4, tkrzw_str_util.cc:1884-1931.  A sequence cut by the end
    loses its first byte only; an overlong one gives nothing. *)
Definition emit (lo c : N) (l : list N) : list N := if lo <=? c then c :: l else l.
Fixpoint utf8_decode (s : bytes) : list N :=
  match s with
  | [] => []
  | c :: s1 =>
      if c <? 128 then c :: utf8_decode s1
      else if c <? 224 then
        if 192 <=? c then
          match s1 with
          | b1 :: s2 => emit 128 (N.lor (N.shiftl (N.land c 31) 6) (N.land b1 63)) (utf8_decode s2)
          | _ => utf8_decode s1
          end
        else utf8_decode s1
      else if c <? 240 then
        match s1 with
        | b1 :: b2 :: s3 =>
            emit 2048 (N.lor (N.lor (N.shiftl (N.land c 15) 12) (N.shiftl (N.land b1 63) 6)) (N.land b2 63))
              (utf8_decode s3)
        | _ => utf8_decode s1
        end
      else if c <? 248 then
        match s1 with
        | b1 :: b2 :: b3 :: s4 =>
            emit 65536 (N.lor (N.lor (N.lor (N.shiftl (N.land c 7) 18) (N.shiftl (N.land b1 63) 12))
                                     (N.shiftl (N.land b2 63) 6)) (N.land b3 63))
              (utf8_decode s4)
        | _ => utf8_decode s1
        end
      else if c <? 252 then
        match s1 with
        | b1 :: b2 :: b3 :: b4 :: s5 =>
            emit 2097152 (N.lor (N.lor (N.lor (N.lor (N.shiftl (N.land c 3) 24) (N.shiftl (N.land b1 63) 18))
                                     (N.shiftl (N.land b2 63) 12)) (N.shiftl (N.land b3 63) 6)) (N.land b4 63))
              (utf8_decode s5)
        | _ => utf8_decode s1
        end
      else if c <? 254 then
        match s1 with
        | b1 :: b2 :: b3 :: b4 :: b5 :: s6 =>
            emit 67108864 (N.lor (N.lor (N.lor (N.lor (N.lor (N.shiftl (N.land c 1) 30) (N.shiftl (N.land b1 63) 24))
                                     (N.shiftl (N.land b2 63) 18)) (N.shiftl (N.land b3 63) 12))
                                     (N.shiftl (N.land b4 63) 6)) (N.land b5 63))
              (utf8_decode s6)
        | _ => utf8_decode s1
        end
      else utf8_decode s1
  end.
