(** C41: merging and comparing statuses.  Source: /repo/tkrzw_lib_common.h:290-640. *)
From Verif Require Import Bytes BytesOrder StatusModel.
Local Open Scope N_scope.

Lemma cstr_idem m : cstr (cstr m) = cstr m.
Proof. induction m as [|c m IH]; cbn; [reflexivity|]. destruct (c =? 0) eqn:E; cbn; [reflexivity|]. rewrite E, IH. reflexivity. Qed.

(** * Specification *)
(** What a user sees of a status. *)
Definition seen (s : status) : code * bytes := (s_code s, st_message s).
(** The first failure of a list. *)
Fixpoint first_failure (l : list status) : option status :=
  match l with
  | [] => None
  | s :: l' => match s_code s with SUCCESS => first_failure l' | _ => Some s end
  end.

Lemma seen_copy r : seen (st_copy r) = seen r.
Proof. destruct r as [c [m|]]; unfold seen, st_copy, st_message; cbn; [rewrite cstr_idem|]; reflexivity. Qed.
Lemma or_failed a l : s_code a <> SUCCESS -> st_or_all a l = a.
Proof.
  intros H. revert a H; induction l as [|b l IH]; intros a H; cbn [st_or_all]; [reflexivity|].
  assert (E : st_or a b = a) by (unfold st_or; destruct (code_eqb_spec (s_code a) SUCCESS); [congruence|reflexivity]).
  rewrite E. apply IH, H.
Qed.

(** "status |= s1; status |= s2; ..." from a success: the outcome is a success
    only if all of them are; otherwise it has the code and the message of the
    first failure.  Both for lvalue and rvalue operands. *)
Theorem C41_merge : forall c l, s_code c = SUCCESS ->
  match first_failure l with
  | None => st_or_all c l = c /\ st_or_move_all c l = c /\ Forall (fun s => s_code s = SUCCESS) l
  | Some f => seen (st_or_all c l) = seen f /\ seen (st_or_move_all c l) = seen f /\
              In f l /\ s_code f <> SUCCESS
  end.
Proof.
  intros c l Hc. induction l as [|s l IH]; cbn [first_failure]; [cbn; auto|].
  cbn [st_or_all st_or_move_all].
  destruct (code_eqb_spec (s_code s) SUCCESS) as [E|E].
  - assert (E1 : st_or c s = c) by (unfold st_or; rewrite Hc, E; reflexivity).
    assert (E2 : fst (st_or_move c s) = c) by (unfold st_or_move; rewrite Hc, E; reflexivity).
    rewrite E, E1, E2. destruct (first_failure l) as [f|].
    + destruct IH as (H1 & H2 & H3 & H4). repeat split; auto. right; exact H3.
    + destruct IH as (H1 & H2 & H3). repeat split; auto.
  - assert (E1 : st_or c s = st_copy s) by (unfold st_or; rewrite Hc; destruct (s_code s); [congruence|reflexivity..]).
    assert (E2 : fst (st_or_move c s) = s) by (unfold st_or_move; rewrite Hc; destruct s as [[] ms]; cbn in *; [congruence|reflexivity..]).
    assert (E3 : forall a l', s_code a <> SUCCESS -> st_or_move_all a l' = a).
    { intros a l'; revert a; induction l' as [|b l' IH']; intros a Ha; cbn [st_or_move_all]; [reflexivity|].
      assert (X : fst (st_or_move a b) = a) by (unfold st_or_move; destruct (code_eqb_spec (s_code a) SUCCESS); [congruence|reflexivity]).
      rewrite X. apply IH', Ha. }
    rewrite E1, E2. rewrite or_failed by exact E. rewrite E3 by exact E.
    destruct (s_code s) eqn:Es; [congruence|..]; (split; [apply seen_copy|split; [reflexivity|split; [left; reflexivity|congruence]]]).
Qed.
(** A failure is never lost or replaced. *)
Theorem C41_merge_keeps_failure : forall a l, s_code a <> SUCCESS -> seen (st_or_all a l) = seen a.
Proof. intros a l H. rewrite or_failed by exact H. reflexivity. Qed.
(** Copying keeps what is seen. *)
Theorem C41_copy : forall r, seen (st_copy r) = seen r /\ st_copy (st_copy r) = st_copy r.
Proof.
  intros r. split; [apply seen_copy|]. destruct r as [c [m|]]; unfold st_copy; cbn; [rewrite cstr_idem|]; reflexivity.
Qed.

(** operator < is irreflexive and orders statuses of different codes... *)
Theorem C41_order_partial : forall a b c,
  st_ltb a a = false /\
  (s_code a <> s_code b -> st_ltb a b = true -> st_ltb b a = false) /\
  (s_code a <> s_code b -> st_ltb a b = true \/ st_ltb b a = true) /\
  (s_code a <> s_code b -> s_code b <> s_code c -> st_ltb a b = true -> st_ltb b c = true -> st_ltb a c = true).
Proof.
  assert (L : forall a b, s_code a <> s_code b -> st_ltb a b = (code_num (s_code a) <? code_num (s_code b))).
  { intros a b H. unfold st_ltb. destruct (code_eqb_spec (s_code a) (s_code b)); [congruence|reflexivity]. }
  intros a b c. split; [|split; [|split]].
  - unfold st_ltb. destruct (code_eqb_spec (s_code a) (s_code a)); [|congruence]. cbn [negb]. rewrite bcmp_refl. reflexivity.
  - intros H. rewrite !L by congruence. lia.
  - intros H. rewrite !L by congruence. assert (code_num (s_code a) <> code_num (s_code b)) by (intros E; apply H, code_num_inj, E). lia.
  - intros H1 H2. rewrite (L a b H1), (L b c H2). intros L1 L2.
    assert (code_num (s_code a) < code_num (s_code c)) by lia.
    rewrite L; [lia|]. intros E. rewrite E in H. lia.
Qed.
(** ... but it is no order of statuses of one code: any two different messages
    are less than each other, so that a std::set or std::sort of statuses has
    no defined meaning. *)
Theorem C41_order_refuted : forall a b, s_code a = s_code b -> st_message a <> st_message b ->
  st_ltb a b = true /\ st_ltb b a = true.
Proof.
  assert (G : forall a b, s_code a = s_code b -> st_message a <> st_message b -> st_ltb a b = true).
  { intros a b E H. unfold st_ltb. rewrite E. destruct (code_eqb_spec (s_code b) (s_code b)); [|congruence]. cbn [negb].
    destruct (bcmp (st_message a) (st_message b)) eqn:C; try reflexivity. apply bcmp_eq in C. congruence. }
  intros a b E H. split; apply G; congruence.
Qed.

Example C41_case :
  let f := st_new_msg NOT_FOUND_ERROR [97; 0; 98]%N in
  seen (st_or_all (st_new SUCCESS) [st_new SUCCESS; f; st_new SYSTEM_ERROR]) = (NOT_FOUND_ERROR, [97]%N) /\
  first_failure [st_new SUCCESS; f; st_new SYSTEM_ERROR] = Some f /\
  st_ltb f (st_new NOT_FOUND_ERROR) = true /\ st_ltb (st_new NOT_FOUND_ERROR) f = true.
Proof. vm_compute. repeat split. Qed.

Print Assumptions C41_merge.
Print Assumptions C41_merge_keeps_failure.
Print Assumptions C41_copy.
Print Assumptions C41_order_partial.
Print Assumptions C41_order_refuted.
