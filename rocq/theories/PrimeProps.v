(** C30: bucket counts are prime. *)
From Coq Require Import NArith ZArith Znumtheory Bool Lia.
From Verif Require Import PrimeModel.
Local Open Scope N_scope.

(** Prime: more than one, with no divisors but one and itself. *)
Definition prime_number (n : N) : Prop := 1 < n /\ forall d, 1 < d -> d < n -> ~ (exists q, n = d * q).

Lemma mod0_div n d : d <> 0 -> n mod d = 0 <-> exists q, n = d * q.
Proof. intros H. rewrite N.mod_divide by exact H. unfold N.divide. split; intros [q E]; exists q; rewrite E; apply N.mul_comm. Qed.
(** A composite number has a divisor of at most its square root. *)
Lemma small_divisor n : 1 < n -> ~ prime_number n -> exists d, 1 < d /\ d <= N.sqrt n /\ exists q, n = d * q.
Proof.
  intros Hn NP.
  assert (X : exists d, 1 < d /\ d < n /\ exists q, n = d * q).
  { assert (G : forall k, (forall d, 1 < d -> d < k -> ~ (exists q, n = d * q)) \/ exists d, 1 < d /\ d < k /\ exists q, n = d * q).
    { induction k as [|k IH] using N.peano_ind; [left; intros; lia|]. destruct IH as [IH|(d & A & B & C)]; [|right; exists d; repeat split; [lia|lia|exact C]].
      destruct (N.ltb_spec 1 k) as [K|K]; [|left; intros d A B; lia]. destruct (N.eqb_spec (n mod k) 0) as [E|E].
      - right. exists k. repeat split; [lia|lia|]. apply mod0_div; [lia|exact E].
      - left. intros d A B. destruct (N.eq_dec d k) as [->|]; [|apply IH; lia]. intros C. apply E. apply mod0_div; [lia|exact C]. }
    destruct (G n) as [H|H]; [exfalso; apply NP; split; auto|exact H]. }
  destruct X as (d & A & B & q & E).
  destruct (N.leb_spec d (N.sqrt n)) as [H|H]; [exists d; eauto|]. exists q.
  assert (S1 := N.sqrt_spec n ltac:(lia)). set (s := N.sqrt n) in *. clearbody s. assert (Q : q <= s).
  { destruct (N.leb_spec q s) as [Y|Y]; [exact Y|]. assert (W : N.succ s * N.succ s <= d * q) by (apply N.mul_le_mono; lia). destruct S1 as [_ S1]. rewrite E in S1. exfalso. apply (N.lt_irrefl (d * q)). eapply N.lt_le_trans; eassumption. }
  split; [|split; [exact Q|exists d; rewrite E; apply N.mul_comm]].
  destruct (N.eq_dec q 0) as [->|]; [rewrite N.mul_0_r in E; lia|]. destruct (N.eq_dec q 1) as [->|]; [rewrite N.mul_1_r in E; lia|lia].
Qed.

Section C30.
  Variable fsqrt : N -> N.
  Hypothesis fsqrt_ok : forall n, 2 < n -> N.sqrt n <= fsqrt n < n.

  Lemma no_divisor_ok num sq fuel : forall d, d mod 2 = 1 -> 3 <= d -> sq < num -> sq < d + 2 * N.of_nat fuel ->
    no_divisor fuel num sq d = true <-> forall e, d <= e -> e <= sq -> e mod 2 = 1 -> ~ exists q, num = e * q.
  Proof.
    induction fuel as [|fu IH]; intros d Od Hd Hs Hf; cbn [no_divisor].
    - split; [|reflexivity]. intros _ e A B. lia.
    - destruct (N.leb_spec d sq) as [L|L].
      + destruct (N.eqb_spec (num mod d) 0) as [E|E].
        * split; [discriminate|]. intros H. exfalso. apply (H d); [lia|lia|exact Od|]. apply mod0_div; [lia|exact E].
        * rewrite IH; [| |lia|exact Hs|lia].
          -- split; intros H e A B Oe; [|apply H; [lia|exact B|exact Oe]]. destruct (N.eq_dec e d) as [->|ND]; [intros C; apply E; apply mod0_div; [lia|exact C]|].
             destruct (N.eq_dec e (d + 1)) as [->|ND2]; [|apply H; [lia|exact B|exact Oe]]. exfalso. rewrite N.add_mod, Od in Oe by lia. cbn in Oe. discriminate.
          -- rewrite N.add_mod, Od by lia. reflexivity.
      + split; [|reflexivity]. intros _ e A B. lia.
  Qed.
  (** IsPrimeNumber is right for every number. *)
  Theorem C30_is_prime num : is_prime fsqrt num = true <-> prime_number num.
  Proof.
    unfold is_prime. destruct (N.ltb_spec num 2) as [A|A]; [split; [discriminate|intros [X _]; lia]|].
    destruct (N.eqb_spec num 2) as [->|B].
    - split; [|reflexivity]. intros _. split; [lia|]. intros d X Y. lia.
    - destruct (N.eqb_spec (num mod 2) 0) as [E|E].
      + split; [discriminate|]. intros [_ H]. exfalso. apply (H 2); [lia|lia|]. apply mod0_div; [lia|exact E].
      + destruct (fsqrt_ok num ltac:(lia)) as [S1 S2]. rewrite no_divisor_ok; [|reflexivity|lia|exact S2|rewrite N2Nat.id; lia]. split.
        * intros H. assert (NN : ~ ~ prime_number num).
          { intros NP. destruct (small_divisor num ltac:(lia) NP) as (d & D1 & D2 & q & Q). assert (Od : d mod 2 = 1).
            { assert (M := N.mod_lt d 2 ltac:(lia)). destruct (N.eq_dec (d mod 2) 0) as [Z|Z]; [|revert M Z; generalize (d mod 2); clear; lia]. exfalso. apply E. rewrite Q, N.mul_mod, Z by lia. reflexivity. }
            apply (H d); [|exact (N.le_trans _ _ _ D2 S1)|exact Od|exists q; exact Q]. clear - D1 Od. destruct (N.eq_dec d 2) as [->|]; [discriminate|lia]. }
          split; [lia|]. intros d D1 D2 D3. apply NN. intros [_ P]. exact (P d D1 D2 D3).
        * intros [_ P] e X Y _. apply P; lia.
  Qed.

  (** GetHashBucketSize: small sizes are kept (at least one), otherwise it is the least prime
      number from the size on that an int64_t below its maximum can hold. *)
  Theorem C30_bucket_size min_size :
    let n := hash_bucket_size fsqrt min_size in
    0 < n /\ min_size <= n /\
    (min_size <= 100 -> n = N.max min_size 1) /\
    (100 < min_size -> forall p, prime_number p -> min_size <= p -> p < 2^63 - 1 -> prime_number n /\ n <= p).
  Proof.
    unfold hash_bucket_size. destruct (N.leb_spec min_size 100) as [A|A]; cbv zeta.
    - repeat split; try lia.
    - assert (G : forall fuel num, min_size <= num -> INT64MAX <= num + N.of_nat fuel ->
        let n := next_prime fsqrt fuel num min_size in min_size <= n /\ forall p, prime_number p -> num <= p -> p < 2^63 - 1 -> prime_number n /\ n <= p).
      { change (2^63 - 1) with INT64MAX. induction fuel as [|fu IH]; intros num L F; cbn [next_prime]; cbv zeta; [split; [lia|intros; lia]|].
        destruct (N.ltb_spec num INT64MAX) as [X|X]; [|split; [lia|intros; lia]].
        destruct (is_prime fsqrt num) eqn:P; [apply C30_is_prime in P; auto|].
        destruct (IH (num + 1) ltac:(lia) ltac:(lia)) as (I1 & I2). split; [exact I1|]. intros p PP Lp Hp. apply I2; auto.
        destruct (N.eq_dec p num) as [->|]; [|lia]. apply C30_is_prime in PP. congruence. }
      destruct (G (N.to_nat (INT64MAX - min_size)) min_size (N.le_refl _) ltac:(rewrite N2Nat.id; lia)) as (G1 & G2). split; [lia|]. split; [exact G1|]. split; [lia|]. intros _. exact G2.
  Qed.
  (** A smaller request never gives more buckets. *)
  Theorem C30_monotone a b : a <= b -> hash_bucket_size fsqrt a <= hash_bucket_size fsqrt b.
  Proof.
    intros H. destruct (C30_bucket_size a) as (_ & A1 & A2 & A3), (C30_bucket_size b) as (_ & B1 & B2 & B3). destruct (N.leb_spec a 100) as [X|X]; [rewrite A2 by exact X; destruct (N.leb_spec b 100) as [Y|Y]; [rewrite B2 by exact Y|]; lia|].
    destruct (N.leb_spec (hash_bucket_size fsqrt a) (hash_bucket_size fsqrt b)) as [Y|Y]; [exact Y|]. exfalso.
    (* the result for a is a prime number from b on, so the one for b is prime and not larger than it *)
    assert (P : prime_number (hash_bucket_size fsqrt a) /\ hash_bucket_size fsqrt a < 2^63 - 1).
    { clear A2 A3 B2 B3. unfold hash_bucket_size at 1 2. destruct (N.leb_spec a 100); [lia|]. revert A1 Y. unfold hash_bucket_size at 1 3. destruct (N.leb_spec a 100); [lia|]. intros _ Y.
      assert (G : forall fuel num, next_prime fsqrt fuel num a = a \/ prime_number (next_prime fsqrt fuel num a) /\ next_prime fsqrt fuel num a < 2^63 - 1).
      { clear - fsqrt_ok. induction fuel as [|fu IH]; intros num; cbn [next_prime]; [auto|]. destruct (N.ltb_spec num INT64MAX) as [X|X]; [|auto]. destruct (is_prime fsqrt num) eqn:P; [apply C30_is_prime in P; auto|apply IH]. }
      destruct (G (N.to_nat (INT64MAX - a)) a) as [E|E]; [rewrite E in Y; lia|exact E]. }
    destruct P as [P1 P2]. destruct (N.leb_spec b (hash_bucket_size fsqrt a)) as [Z|Z]; [|lia]. destruct (B3 ltac:(lia) _ P1 Z P2) as [P3 P4].
    assert (Hb : a <= hash_bucket_size fsqrt b) by lia. assert (L : hash_bucket_size fsqrt b < 2^63 - 1) by lia. destruct (A3 X _ P3 Hb L). lia.
  Qed.
End C30.
Print Assumptions C30_is_prime.
Print Assumptions C30_bucket_size.
Print Assumptions C30_monotone.

(** The exact square root meets the hypothesis. *)
Lemma sqrt_meets n : 2 < n -> N.sqrt n <= N.sqrt n < n.
Proof. intros H. split; [lia|]. apply N.sqrt_lt_lin. lia. Qed.
Lemma fuel_more fs fuel fuel' num m n : next_prime fs fuel num m = n -> n <> m -> (fuel <= fuel')%nat -> next_prime fs fuel' num m = n.
Proof.
  revert fuel' num. induction fuel as [|fu IH]; intros fuel' num E NE H; [cbn in E; congruence|]. destruct fuel' as [|fu']; [lia|]. cbn [next_prime] in E |- *. destruct (num <? INT64MAX); [|exact E]. destruct (is_prime fs num); [exact E|]. apply IH; [exact E|exact NE|lia].
Qed.
Example C30_ex : is_prime N.sqrt 1000003 = true /\ is_prime N.sqrt 1018081 = false /\ hash_bucket_size N.sqrt 1000000 = 1000003 /\ hash_bucket_size N.sqrt 0 = 1 /\ hash_bucket_size N.sqrt 91 = 91.
Proof.
  split; [vm_compute; reflexivity|]. split; [vm_compute; reflexivity|]. split; [|split; reflexivity].
  change (hash_bucket_size N.sqrt 1000000) with (next_prime N.sqrt (N.to_nat (INT64MAX - 1000000)) 1000000 1000000). apply (fuel_more _ 10); [vm_compute; reflexivity|discriminate|].
  change 10%nat with (N.to_nat 10). unfold INT64MAX. lia.
Qed.
