(** Bucket counts.  Source: /repo/tkrzw_dbm_common_impl.cc. *)
From Coq Require Import NArith Bool.
Local Open Scope N_scope.

(** static_cast<uint64_t>(std::sqrt(num)) is a parameter: any value from the integer square root
    up, but less than num (floating point arithmetic is not modelled). *)
Section Prime.
  Variable fsqrt : N -> N.
  (** The loop of IsPrimeNumber, tkrzw_dbm_common_impl.cc:36-40: no divisor from d, by steps of 2, up to sq. *)
  Fixpoint no_divisor (fuel : nat) (num sq d : N) : bool :=
    match fuel with
    | O => true
    | S fu => if d <=? sq then if num mod d =? 0 then false else no_divisor fu num sq (d + 2) else true
    end.
  (** IsPrimeNumber, tkrzw_dbm_common_impl.cc:25-42. *)
  Definition is_prime (num : N) : bool :=
    if num <? 2 then false else if num =? 2 then true else if num mod 2 =? 0 then false
    else no_divisor (N.to_nat (fsqrt num)) num (fsqrt num) 3.
  Definition INT64MAX := 2^63 - 1.
  (** The loop of GetHashBucketSize, tkrzw_dbm_common_impl.cc:48-54. *)
  Fixpoint next_prime (fuel : nat) (num min_size : N) : N :=
    match fuel with
    | O => min_size
    | S fu => if num <? INT64MAX then if is_prime num then num else next_prime fu (num + 1) min_size else min_size
    end.
  (** GetHashBucketSize, tkrzw_dbm_common_impl.cc:44-56, for a size that is not negative. *)
  Definition hash_bucket_size (min_size : N) : N :=
    if min_size <=? 100 then N.max min_size 1 else next_prime (N.to_nat (INT64MAX - min_size)) min_size min_size.
End Prime.
