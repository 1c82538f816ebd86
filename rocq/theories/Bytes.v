(** Common ground of all models: bytes, byte strings and small list facts.
    Strings of /repo (std::string, std::string_view) are lists of bytes; a byte
    is an [N] below 256.  Nothing in this file models code. *)
From Coq Require Export List NArith ZArith Lia Bool Arith.
From Coq Require Export ZifyBool ZifyNat ZifyN.
Export ListNotations.
Ltac Zify.zify_post_hook ::= Z.div_mod_to_equations.

Global Arguments N.add : simpl never.
Global Arguments N.sub : simpl never.
Global Arguments N.mul : simpl never.
Global Arguments N.div : simpl never.
Global Arguments N.modulo : simpl never.
Global Arguments N.pow : simpl never.
Global Arguments N.shiftr : simpl never.
Global Arguments N.shiftl : simpl never.
Global Arguments N.land : simpl never.
Global Arguments N.lor : simpl never.
Global Arguments N.lxor : simpl never.
Global Arguments N.eqb : simpl never.
Global Arguments N.ltb : simpl never.
Global Arguments N.leb : simpl never.
Global Arguments N.of_nat : simpl never.
Global Arguments N.to_nat : simpl never.
Global Arguments Z.add : simpl never.
Global Arguments Z.sub : simpl never.
Global Arguments Z.mul : simpl never.
Global Arguments Z.div : simpl never.
Global Arguments Z.modulo : simpl never.
Global Arguments Z.pow : simpl never.

Definition byte := N.
Definition bytes := list N.

Definition byte_ok (b : N) : Prop := (b < 256)%N.
Definition bytes_ok (l : bytes) : Prop := Forall byte_ok l.

Definition two64 : N := 18446744073709551616%N.

(** Length of a string as the size_t/int64_t used by the code. *)
Definition blen (l : bytes) : N := N.of_nat (length l).

(** Equality of strings (std::string_view::operator==). *)
Fixpoint beqb (a b : bytes) : bool :=
  match a, b with
  | [], [] => true
  | x :: a', y :: b' => (x =? y)%N && beqb a' b'
  | _, _ => false
  end.

Lemma beqb_spec a b : reflect (a = b) (beqb a b).
Proof.
  revert b; induction a as [|x a IH]; intros [|y b]; cbn [beqb]; try (constructor; congruence).
  destruct (N.eqb_spec x y) as [->|Hne]; cbn [andb].
  - destruct (IH b) as [->|Hne]; constructor; congruence.
  - constructor; congruence.
Qed.

Lemma beqb_eq a b : beqb a b = true <-> a = b.
Proof. destruct (beqb_spec a b); split; congruence. Qed.

Lemma beqb_refl a : beqb a a = true.
Proof. apply beqb_eq; reflexivity. Qed.

Lemma beqb_neq a b : beqb a b = false <-> a <> b.
Proof. destruct (beqb_spec a b); split; congruence. Qed.

Lemma bytes_eq_dec (a b : bytes) : {a = b} + {a <> b}.
Proof. apply list_eq_dec, N.eq_dec. Defined.

Lemma bytes_ok_app a b : bytes_ok (a ++ b) <-> bytes_ok a /\ bytes_ok b.
Proof. apply Forall_app. Qed.

Lemma blen_app a b : blen (a ++ b) = (blen a + blen b)%N.
Proof. unfold blen; rewrite app_length; lia. Qed.

Lemma blen_nil : blen [] = 0%N.
Proof. reflexivity. Qed.

Lemma blen_cons x a : blen (x :: a) = (1 + blen a)%N.
Proof. unfold blen; cbn [length]; lia. Qed.

Lemma to_nat_blen a : N.to_nat (blen a) = length a.
Proof. unfold blen; lia. Qed.

(** [take_exact n l] is the first n bytes and the rest, or None when l is too
    short: a checked memcpy out of a buffer. *)
Definition take_exact (n : nat) (l : bytes) : option (bytes * bytes) :=
  if (n <=? length l)%nat then Some (firstn n l, skipn n l) else None.

Lemma take_exact_app a b : take_exact (length a) (a ++ b) = Some (a, b).
Proof.
  unfold take_exact. rewrite app_length.
  destruct (Nat.leb_spec (length a) (length a + length b)); [|lia].
  rewrite firstn_app, skipn_app, Nat.sub_diag, firstn_all, skipn_all, app_nil_r.
  reflexivity.
Qed.

Lemma take_exact_app_n n a b : n = length a -> take_exact n (a ++ b) = Some (a, b).
Proof. intros ->; apply take_exact_app. Qed.

Lemma take_exact_Some n l a b : take_exact n l = Some (a, b) -> l = a ++ b /\ length a = n.
Proof.
  unfold take_exact. destruct (Nat.leb_spec n (length l)); [|discriminate].
  intros E; inversion E; subst. rewrite firstn_skipn, firstn_length. split; lia || reflexivity.
Qed.

(** Abstract finite maps used by the specifications: a partial function from
    byte strings, with [upd] and [del]. *)
Definition amap := bytes -> option bytes.
Definition aempty : amap := fun _ => None.
Definition aset (m : amap) (k v : bytes) : amap := fun k' => if beqb k k' then Some v else m k'.
Definition adel (m : amap) (k : bytes) : amap := fun k' => if beqb k k' then None else m k'.

(** [acount m n]: the map [m] has exactly [n] keys. *)
Definition acount (m : amap) (n : nat) : Prop :=
  exists l : list bytes, NoDup l /\ length l = n /\ forall k, In k l <-> m k <> None.

Lemma aset_eq m k v : aset m k v k = Some v.
Proof. unfold aset; rewrite beqb_refl; reflexivity. Qed.
Lemma aset_neq m k v k' : k <> k' -> aset m k v k' = m k'.
Proof. intros H; unfold aset. apply beqb_neq in H; rewrite H; reflexivity. Qed.
Lemma adel_eq m k : adel m k k = None.
Proof. unfold adel; rewrite beqb_refl; reflexivity. Qed.
Lemma adel_neq m k k' : k <> k' -> adel m k k' = m k'.
Proof. intros H; unfold adel. apply beqb_neq in H; rewrite H; reflexivity. Qed.

Lemma acount_unique m n1 n2 : acount m n1 -> acount m n2 -> n1 = n2.
Proof.
  intros (l1 & Hn1 & Hl1 & H1) (l2 & Hn2 & Hl2 & H2). subst.
  apply Nat.le_antisymm; apply NoDup_incl_length; auto; intros k Hk; [apply H2, H1|apply H1, H2]; auto.
Qed.
