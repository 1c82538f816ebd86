(** The block cipher of tkrzw_sys_compress_aes.h.  A uint32_t is an [N] below 2^32; the round keys are the array [rk] as a list.  Indices of the tables are
    masked by 0xff or come from [>> 24] of a uint32_t, so no access is outside of a table; [tab] gives 0 there. *)
From Verif Require Import Bytes AesTables.
Local Open Scope N_scope.

Definition tab (t : list N) (i : N) : N := nth (N.to_nat i) t 0.
(** The four bytes of a word as the code takes them: [w >> 24], [(w >> 16) & 0xff], [(w >> 8) & 0xff], [w & 0xff]. *)
Definition b3 (w : N) : N := N.shiftr w 24.
Definition b2 (w : N) : N := N.land (N.shiftr w 16) 0xff.
Definition b1 (w : N) : N := N.land (N.shiftr w 8) 0xff.
Definition b0 (w : N) : N := N.land w 0xff.

(** AES_GETU32 at an offset, tkrzw_sys_compress_aes.h:692-694. *)
Definition getu32 (p : bytes) (o : nat) : N :=
  N.lxor (N.lxor (N.lxor (N.shiftl (nth o p 0) 24) (N.shiftl (nth (o + 1) p 0) 16)) (N.shiftl (nth (o + 2) p 0) 8)) (nth (o + 3) p 0).
(** AES_PUTU32, tkrzw_sys_compress_aes.h:696-698: the conversions to uint8_t keep the low eight bits. *)
Definition putu32 (w : N) : bytes :=
  [N.land (N.shiftr w 24) 0xff; N.land (N.shiftr w 16) 0xff; N.land (N.shiftr w 8) 0xff; N.land w 0xff].

(** The expression of rk[4], rk[6] and rk[8] without rk[0], tkrzw_sys_compress_aes.h:710-712, 727-729, 746-748. *)
Definition setup_temp (r0 temp : N) (i : nat) : N :=
  N.lxor (N.lxor (N.lxor (N.lxor (N.lxor r0 (N.land (tab aes_te4 (b2 temp)) 0xff000000)) (N.land (tab aes_te4 (b1 temp)) 0x00ff0000))
    (N.land (tab aes_te4 (b0 temp)) 0x0000ff00)) (N.land (tab aes_te4 (b3 temp)) 0x000000ff)) (nth i aes_rcon 0).
(** The expression of rk[12], tkrzw_sys_compress_aes.h:756-758. *)
Definition setup_temp2 (r4 temp : N) : N :=
  N.lxor (N.lxor (N.lxor (N.lxor r4 (N.land (tab aes_te4 (b3 temp)) 0xff000000)) (N.land (tab aes_te4 (b2 temp)) 0x00ff0000))
    (N.land (tab aes_te4 (b1 temp)) 0x0000ff00)) (N.land (tab aes_te4 (b0 temp)) 0x000000ff).
(** The loops of AESKeySetupEnc, tkrzw_sys_compress_aes.h:707-721, 724-740, 743-765, with [n] passes to go: r0.. are rk[0].. at the current rk, the result is
    what the loop stores after them. *)
Fixpoint setup128 (n i : nat) (r0 r1 r2 r3 : N) : list N :=
  match n with
  | O => []
  | S n' =>
      let r4 := setup_temp r0 r3 i in
      let r5 := N.lxor r1 r4 in
      let r6 := N.lxor r2 r5 in
      let r7 := N.lxor r3 r6 in
      [r4; r5; r6; r7] ++ setup128 n' (S i) r4 r5 r6 r7
  end.
Fixpoint setup192 (n i : nat) (r0 r1 r2 r3 r4 r5 : N) : list N :=
  match n with
  | O => []
  | S n' =>
      let r6 := setup_temp r0 r5 i in
      let r7 := N.lxor r1 r6 in
      let r8 := N.lxor r2 r7 in
      let r9 := N.lxor r3 r8 in
      [r6; r7; r8; r9] ++
      match n' with
      | O => []
      | S _ => let r10 := N.lxor r4 r9 in let r11 := N.lxor r5 r10 in [r10; r11] ++ setup192 n' (S i) r6 r7 r8 r9 r10 r11
      end
  end.
Fixpoint setup256 (n i : nat) (r0 r1 r2 r3 r4 r5 r6 r7 : N) : list N :=
  match n with
  | O => []
  | S n' =>
      let r8 := setup_temp r0 r7 i in
      let r9 := N.lxor r1 r8 in
      let r10 := N.lxor r2 r9 in
      let r11 := N.lxor r3 r10 in
      [r8; r9; r10; r11] ++
      match n' with
      | O => []
      | S _ => let r12 := setup_temp2 r4 r11 in let r13 := N.lxor r5 r12 in let r14 := N.lxor r6 r13 in let r15 := N.lxor r7 r14 in
               [r12; r13; r14; r15] ++ setup256 n' (S i) r8 r9 r10 r11 r12 r13 r14 r15
      end
  end.
(** AESKeySetupEnc, tkrzw_sys_compress_aes.h:700-768: the stored words and the number of rounds. *)
Definition key_setup_enc (key : bytes) (key_bits : nat) : list N * nat :=
  let r o := getu32 key o in
  let k4 := [r 0; r 4; r 8; r 12]%nat in
  if Nat.eqb key_bits 128 then (k4 ++ setup128 10 0 (r 0%nat) (r 4%nat) (r 8%nat) (r 12%nat), 10%nat) else
  let k6 := k4 ++ [r 16; r 20]%nat in
  if Nat.eqb key_bits 192 then (k6 ++ setup192 8 0 (r 0%nat) (r 4%nat) (r 8%nat) (r 12%nat) (r 16%nat) (r 20%nat), 12%nat) else
  let k8 := k6 ++ [r 24; r 28]%nat in
  if Nat.eqb key_bits 256 then
    (k8 ++ setup256 7 0 (r 0%nat) (r 4%nat) (r 8%nat) (r 12%nat) (r 16%nat) (r 20%nat) (r 24%nat) (r 28%nat), 14%nat)
  else (k8, 0%nat).

Fixpoint set_word (l : list N) (i : nat) (x : N) : list N :=
  match l, i with [], _ => [] | _ :: r, O => x :: r | y :: r, S i' => y :: set_word r i' x end.
Definition rk_at (rk : list N) (i : nat) : N := nth i rk 0.
(** The exchange of two words, a line of tkrzw_sys_compress_aes.h:774-777. *)
Definition swap_words (rk : list N) (i j : nat) : list N := set_word (set_word rk i (rk_at rk j)) j (rk_at rk i).
(** The loop of tkrzw_sys_compress_aes.h:773-778. *)
Fixpoint reverse_loop (fuel i j : nat) (rk : list N) : list N :=
  match fuel with
  | O => rk
  | S f => if Nat.ltb i j
           then reverse_loop f (i + 4) (j - 4)
                  (swap_words (swap_words (swap_words (swap_words rk i j) (i + 1) (j + 1)) (i + 2) (j + 2)) (i + 3) (j + 3))
           else rk
  end.
(** The new value of a word, tkrzw_sys_compress_aes.h:779-794. *)
Definition dec_key_word (w : N) : N :=
  N.lxor (N.lxor (N.lxor (tab aes_td0 (N.land (tab aes_te4 (b3 w)) 0xff)) (tab aes_td1 (N.land (tab aes_te4 (b2 w)) 0xff)))
    (tab aes_td2 (N.land (tab aes_te4 (b1 w)) 0xff))) (tab aes_td3 (N.land (tab aes_te4 (b0 w)) 0xff)).
(** The loop of tkrzw_sys_compress_aes.h:779-795, with [n] passes to go: it changes the words from rk[4] on, four in each pass. *)
Definition dec_words (rk : list N) (n : nat) : list N :=
  firstn 4 rk ++ map dec_key_word (firstn (4 * n) (skipn 4 rk)) ++ skipn (4 + 4 * n) rk.
(** AESKeySetupDec, tkrzw_sys_compress_aes.h:770-797. *)
Definition key_setup_dec (key : bytes) (key_bits : nat) : list N * nat :=
  let '(rk, nr) := key_setup_enc key key_bits in
  (dec_words (reverse_loop nr 0 (4 * nr) rk) (nr - 1), nr).

(** The state s0..s3, or t0..t3. *)
Notation quad := (N * N * N * N)%type.
(** One word of a round, as in tkrzw_sys_compress_aes.h:804-805. *)
Definition enc_word (a b c d k : N) : N :=
  N.lxor (N.lxor (N.lxor (N.lxor (tab aes_te0 (b3 a)) (tab aes_te1 (b2 b))) (tab aes_te2 (b1 c))) (tab aes_te3 (b0 d))) k.
(** A round, as in tkrzw_sys_compress_aes.h:804-811.  The code has the rounds written out, from s to t and from t to s by turns. *)
Definition enc_round (rk : list N) (s : quad) (r : nat) : quad :=
  let '(s0, s1, s2, s3) := s in
  (enc_word s0 s1 s2 s3 (rk_at rk (4 * r)), enc_word s1 s2 s3 s0 (rk_at rk (4 * r + 1)),
   enc_word s2 s3 s0 s1 (rk_at rk (4 * r + 2)), enc_word s3 s0 s1 s2 (rk_at rk (4 * r + 3))).
(** The words of the last round, tkrzw_sys_compress_aes.h:913-914 and the same below. *)
Definition enc_last (a b c d k : N) : N :=
  N.lxor (N.lxor (N.lxor (N.lxor (N.land (tab aes_te4 (b3 a)) 0xff000000) (N.land (tab aes_te4 (b2 b)) 0x00ff0000))
    (N.land (tab aes_te4 (b1 c)) 0x0000ff00)) (N.land (tab aes_te4 (b0 d)) 0x000000ff)) k.
(** AESEncrypt, tkrzw_sys_compress_aes.h:799-925. *)
Definition aes_encrypt (rk : list N) (nr : nat) (pt : bytes) : bytes :=
  let s := (N.lxor (getu32 pt 0) (rk_at rk 0), N.lxor (getu32 pt 4) (rk_at rk 1),
            N.lxor (getu32 pt 8) (rk_at rk 2), N.lxor (getu32 pt 12) (rk_at rk 3)) in
  let '(t0, t1, t2, t3) := fold_left (enc_round rk) (seq 1 (nr - 1)) s in
  putu32 (enc_last t0 t1 t2 t3 (rk_at rk (4 * nr))) ++ putu32 (enc_last t1 t2 t3 t0 (rk_at rk (4 * nr + 1))) ++
  putu32 (enc_last t2 t3 t0 t1 (rk_at rk (4 * nr + 2))) ++ putu32 (enc_last t3 t0 t1 t2 (rk_at rk (4 * nr + 3))).

(** The words of AESDecrypt, as in tkrzw_sys_compress_aes.h:932-933 and 1041-1042. *)
Definition dec_word (a b c d k : N) : N :=
  N.lxor (N.lxor (N.lxor (N.lxor (tab aes_td0 (b3 a)) (tab aes_td1 (b2 b))) (tab aes_td2 (b1 c))) (tab aes_td3 (b0 d))) k.
Definition dec_round (rk : list N) (s : quad) (r : nat) : quad :=
  let '(s0, s1, s2, s3) := s in
  (dec_word s0 s3 s2 s1 (rk_at rk (4 * r)), dec_word s1 s0 s3 s2 (rk_at rk (4 * r + 1)),
   dec_word s2 s1 s0 s3 (rk_at rk (4 * r + 2)), dec_word s3 s2 s1 s0 (rk_at rk (4 * r + 3))).
Definition dec_last (a b c d k : N) : N :=
  N.lxor (N.lxor (N.lxor (N.lxor (N.land (tab aes_td4 (b3 a)) 0xff000000) (N.land (tab aes_td4 (b2 b)) 0x00ff0000))
    (N.land (tab aes_td4 (b1 c)) 0x0000ff00)) (N.land (tab aes_td4 (b0 d)) 0x000000ff)) k.
(** AESDecrypt, tkrzw_sys_compress_aes.h:927-1053. *)
Definition aes_decrypt (rk : list N) (nr : nat) (ct : bytes) : bytes :=
  let s := (N.lxor (getu32 ct 0) (rk_at rk 0), N.lxor (getu32 ct 4) (rk_at rk 1),
            N.lxor (getu32 ct 8) (rk_at rk 2), N.lxor (getu32 ct 12) (rk_at rk 3)) in
  let '(t0, t1, t2, t3) := fold_left (dec_round rk) (seq 1 (nr - 1)) s in
  putu32 (dec_last t0 t3 t2 t1 (rk_at rk (4 * nr))) ++ putu32 (dec_last t1 t0 t3 t2 (rk_at rk (4 * nr + 1))) ++
  putu32 (dec_last t2 t1 t0 t3 (rk_at rk (4 * nr + 2))) ++ putu32 (dec_last t3 t2 t1 t0 (rk_at rk (4 * nr + 3))).
