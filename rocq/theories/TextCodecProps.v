(** C27: text encodings round-trip. *)
From Verif Require Import Bytes CodecModel CodecProofs StrSerialModel StrSerialProofs ComparatorModel ComparatorProofs
  TextCodecModel TextCodecProofs.
Open Scope N_scope.

(** Escaping: any byte string comes back, with non-ASCII bytes escaped or not;
    the escaped text has no control character (with the option: only ASCII). *)
Theorem C27_escape : forall (s : bytes) (nonasc : bool), bytes_ok s ->
  unescape_c (escape_c nonasc s) = s /\
  forall x, In x (escape_c nonasc s) -> 32 <= x /\ x <> 127 /\ (nonasc = true -> x < 128).
Proof. intros s na H. split; [apply escape_round; exact H|]. intros x. apply escape_printable. exact H. Qed.

(** Base64: any byte string comes back; the encoded text has four characters for
    every started group of three bytes. *)
Theorem C27_base64 : forall s : bytes, bytes_ok s ->
  base64_decode (base64_encode s) = s /\
  blen (base64_encode s) = 4 * ((blen s + 2) / 3).
Proof.
  intros s H. split; [apply base64_round; exact H|]. clear H.
  induction s as [|a|a b|a b c s IH] using list_ind3; try reflexivity.
  cbn [base64_encode app]. rewrite !blen_cons, IH.
  replace (1 + (1 + (1 + blen s)) + 2) with (blen s + 2 + 1 * 3) by lia. rewrite N.div_add by lia. lia.
Qed.

(** URL encoding: any byte string comes back; the encoded text has only
    unreserved characters and %. *)
Theorem C27_url : forall s : bytes, bytes_ok s ->
  url_decode (url_encode s) = s /\
  forall x, In x (url_encode s) ->
    65 <= x <= 90 \/ 97 <= x <= 122 \/ 48 <= x <= 57 \/ In x [95; 45; 46; 126; 37].
Proof.
  intros s H. split; [apply url_round; exact H|]. induction H as [|c s Hc Hs IH]; [intros x []|].
  intros x. cbn [url_encode]. rewrite in_app_iff. intros [Hx|Hx]; [|exact (IH x Hx)].
  destruct (url_plain c) eqn:P.
  - destruct Hx as [<-|[]]. unfold url_plain in P.
    rewrite !orb_true_iff, !andb_true_iff, !N.leb_le, !N.eqb_eq in P. clear - P. cbn [In]. lia.
  - unfold byte_ok in Hc. assert (L : forall d, d < 16 -> 48 <= hexlow d <= 57 \/ 97 <= hexlow d <= 102).
    { intros d Hd. unfold hexlow. destruct (N.ltb_spec d 10); lia. }
    destruct Hx as [<-|[<-|[<-|[]]]]; cbn [In].
    + tauto.
    + bits. pose proof (L (c / 16) ltac:(lia)). lia.
    + bits. pose proof (L (c mod 16) ltac:(lia)). lia.
Qed.

(** UTF-8: any sequence of codes below 2^31 comes back. *)
Theorem C27_utf8 : forall l : list N, Forall (fun c => c < 2 ^ 31) l -> utf8_decode (utf8_encode l) = l.
Proof. intros l H. apply utf8_round. exact H. Qed.
(** Larger codes are dropped. *)
Theorem C27_utf8_large_dropped : forall c l, 2 ^ 31 <= c -> utf8_encode (c :: l) = utf8_encode l.
Proof.
  intros c l H. change (2 ^ 31) with 2147483648 in H. cbn [utf8_encode flat_map]. fold (utf8_encode l).
  replace (utf8_of c) with (@nil N); [reflexivity|]. unfold utf8_of.
  repeat match goal with |- context [?a <? ?b] => destruct (N.ltb_spec a b); [lia|] end. reflexivity.
Qed.

(** Decimal: an integer read from its decimal expression, also after spaces and
    before anything which is not a digit. *)
Theorem C27_decimal : forall v : Z, (Z.abs v <= 2 ^ 63 - 49)%Z -> str_to_int (dec_expr v) = Some v.
Proof. exact str_to_int_expr. Qed.

(** Cases. *)
Example C27_escape_case :
  escape_c true [0; 55; 0; 97; 10; 92; 200] = [92;120;48;48; 55; 92;48; 97; 92;110; 92;92; 92;120;99;56] /\
  unescape_c (escape_c true [0; 55; 0; 97; 10; 92; 200]) = [0; 55; 0; 97; 10; 92; 200].
Proof. split; reflexivity. Qed.
Example C27_base64_case : base64_encode [77; 97] = [84; 87; 69; 61] /\ base64_decode [84; 87; 69; 61] = [77; 97].
Proof. split; reflexivity. Qed.
Example C27_url_case : url_encode [97; 32; 43; 255] = [97; 37; 50; 48; 37; 50; 98; 37; 102; 102].
Proof. reflexivity. Qed.
Example C27_utf8_case : utf8_encode [65; 233; 8364; 128512; 2147483647] =
  [65; 195; 169; 226; 130; 172; 240; 159; 152; 128; 253; 191; 191; 191; 191; 191].
Proof. reflexivity. Qed.

Print Assumptions C27_escape.
Print Assumptions C27_base64.
Print Assumptions C27_url.
Print Assumptions C27_utf8.
Print Assumptions C27_utf8_large_dropped.
Print Assumptions C27_decimal.
