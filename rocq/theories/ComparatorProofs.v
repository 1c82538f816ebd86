From Coq Require Import QArith.
From Verif Require Import Bytes BytesOrder CodecModel CodecProofs StrSerialModel StrSerialProofs ComparatorModel.
Open Scope N_scope.

(** A total preorder on the keys of [D]: always defined, changing sign when the
    arguments are exchanged, and transitive. *)
Definition le (f : kcmp) (a b : bytes) : Prop := f a b = Some Lt \/ f a b = Some Eq.
Definition preorder_on (D : bytes -> Prop) (f : kcmp) : Prop :=
  (forall a b, D a -> D b -> f a b <> None) /\
  (forall a b, D a -> D b -> f a b = option_map CompOpp (f b a)) /\
  (forall a b c, D a -> D b -> D c -> le f a b -> le f b c -> le f a c).

(** The same for a comparison of values. *)
Definition vpreorder {K} (c : K -> K -> comparison) : Prop :=
  (forall x y, c x y = CompOpp (c y x)) /\
  (forall x y z, c x y <> Gt -> c y z <> Gt -> c x z <> Gt).
Lemma by_value {K} (c : K -> K -> comparison) (key : bytes -> option K) (f : kcmp) (D : bytes -> Prop) :
  vpreorder c ->
  (forall a, D a -> exists k, key a = Some k) ->
  (forall a b x y, key a = Some x -> key b = Some y -> f a b = Some (c x y)) ->
  preorder_on D f.
Proof.
  intros [C1 C2] HD Hf. split; [|split].
  - intros a b Ha Hb. destruct (HD a Ha) as [x Hx], (HD b Hb) as [y Hy]. rewrite (Hf a b x y Hx Hy). discriminate.
  - intros a b Ha Hb. destruct (HD a Ha) as [x Hx], (HD b Hb) as [y Hy].
    rewrite (Hf a b x y Hx Hy), (Hf b a y x Hy Hx). cbn [option_map]. f_equal. apply C1.
  - intros a b d Ha Hb Hd. destruct (HD a Ha) as [x Hx], (HD b Hb) as [y Hy], (HD d Hd) as [z Hz].
    unfold le. rewrite (Hf a b x y Hx Hy), (Hf b d y z Hy Hz), (Hf a d x z Hx Hz).
    intros H1 H2. assert (c x z <> Gt) as H3.
    { apply (C2 x y z); intros E; rewrite E in *; destruct H1, H2; discriminate. }
    destruct (c x z); [right|left|congruence]; reflexivity.
Qed.

Lemma bcmp_pre : vpreorder bcmp.
Proof.
  split; [exact bcmp_opp|]. intros x y z H1 H2 H3. apply bcmp_gt in H3.
  destruct (blt_total x y) as [L|[L|L]].
  - pose proof (blt_trans _ _ _ H3 L) as H4. apply bcmp_gt in H4. congruence.
  - subst y. apply bcmp_gt in H3. congruence.
  - apply bcmp_gt in L. congruence.
Qed.
Definition zc (x y : Z) : comparison := if (x <? y)%Z then Lt else if (y <? x)%Z then Gt else Eq.
Lemma zc_compare x y : zc x y = Z.compare x y.
Proof. unfold zc. destruct (Z.ltb_spec x y), (Z.ltb_spec y x), (Z.compare_spec x y); try lia; reflexivity. Qed.
Lemma zc_pre : vpreorder zc.
Proof.
  split; intros; unfold zc in *;
  repeat match goal with |- context [(?a <? ?b)%Z] => destruct (Z.ltb_spec a b) end; cbn [CompOpp]; try lia; try congruence.
  repeat match goal with H : context [(?a <? ?b)%Z] |- _ => destruct (Z.ltb_spec a b) end; try lia; congruence.
Qed.

(** Floats without NaN, and with NaN as the least one. *)
Definition fnc (x y : fl) : comparison :=
  if is_nan x then (if is_nan y then Eq else Lt) else if is_nan y then Gt else fcmp x y.
Lemma flt_irr x : flt x x = false.
Proof. destruct x; cbn; auto. rewrite (proj1 (Qeq_alt q q)); [reflexivity|apply Qeq_refl]. Qed.
Lemma flt_asym x y : flt x y = true -> flt y x = false.
Proof.
  destruct x, y; cbn; auto; try congruence. destruct (Qcompare q q0) eqn:E; try discriminate.
  intros _. rewrite <- Qcompare_antisym, E. reflexivity.
Qed.
Lemma flt_num p q : flt (FNum p) (FNum q) = true <-> (p < q)%Q.
Proof. cbn. rewrite Qlt_alt. destruct (Qcompare p q); split; congruence. Qed.
Lemma fle_trans x y z :
  is_nan y = false -> flt y x = false -> flt z y = false -> is_nan x = false -> is_nan z = false -> flt z x = false.
Proof.
  destruct x as [| |p|], y as [| |q|], z as [| |r|]; cbn [is_nan flt]; try congruence.
  intros _ H1 H2 _ _.
  destruct (Qcompare r p) eqn:E; auto. exfalso. rewrite <- Qlt_alt in E.
  assert (~ (q < p)%Q) as N1. { intros L. rewrite Qlt_alt in L. rewrite L in H1. discriminate. }
  assert (~ (r < q)%Q) as N2. { intros L. rewrite Qlt_alt in L. rewrite L in H2. discriminate. }
  apply Qnot_lt_le in N1, N2. apply (Qlt_irrefl r). apply Qlt_le_trans with p; [exact E|].
  apply Qle_trans with q; assumption.
Qed.
Lemma fcmp_opp x y : fcmp x y = CompOpp (fcmp y x).
Proof.
  unfold fcmp. destruct (flt x y) eqn:A, (flt y x) eqn:B; cbn; try reflexivity.
  apply flt_asym in A. congruence.
Qed.
Lemma fcmp_gt x y : fcmp x y <> Gt <-> flt y x = false.
Proof.
  unfold fcmp. destruct (flt x y) eqn:A.
  - split; [intros _; apply flt_asym; exact A|discriminate].
  - destruct (flt y x); split; congruence.
Qed.
Lemma fnc_pre : vpreorder fnc.
Proof.
  split.
  - intros x y. unfold fnc. destruct (is_nan x) eqn:X, (is_nan y) eqn:Y; try reflexivity. apply fcmp_opp.
  - intros x y z. unfold fnc.
    destruct (is_nan x) eqn:X, (is_nan y) eqn:Y, (is_nan z) eqn:Z; try congruence.
    rewrite !fcmp_gt. intros H1 H2. exact (fle_trans x y z Y H1 H2 X Z).
Qed.
Lemma fnc_num x y : is_nan x = false -> is_nan y = false -> fnc x y = fcmp x y.
Proof. intros X Y. unfold fnc. rewrite X, Y. reflexivity. Qed.

(** Case-insensitive comparison is the lexical one of the lower-cased strings. *)
Lemma case_loop_spec n a b :
  n = Nat.min (length a) (length b) ->
  match case_loop n a b with
  | Eq => if blen a <? blen b then Lt else if blen b <? blen a then Gt else Eq
  | c => c
  end = bcmp (map lower a) (map lower b).
Proof.
  revert a b; induction n as [|n IH]; intros a b En.
  - cbn [case_loop]. destruct a as [|x a], b as [|y b]; try discriminate; cbn [map bcmp]; try reflexivity.
  - destruct a as [|x a], b as [|y b]; try discriminate. cbn [case_loop map bcmp].
    destruct (N.compare_spec (lower x) (lower y)) as [E|L|L].
    + rewrite E, N.eqb_refl. rewrite !blen_cons. rewrite <- (IH a b) by (cbn [length] in En; lia).
      destruct (case_loop n a b); try reflexivity.
      destruct (N.ltb_spec (1 + blen a) (1 + blen b)), (N.ltb_spec (blen a) (blen b)); try lia; try reflexivity.
      destruct (N.ltb_spec (1 + blen b) (1 + blen a)), (N.ltb_spec (blen b) (blen a)); try lia; reflexivity.
    + destruct (N.eqb_spec (lower x) (lower y)); [lia|]. destruct (N.ltb_spec (lower x) (lower y)); [reflexivity|lia].
    + destruct (N.eqb_spec (lower x) (lower y)); [lia|]. destruct (N.ltb_spec (lower x) (lower y)); [lia|reflexivity].
Qed.
Lemma case_compare_spec a b :
  N.min (blen a) (blen b) < 2147483648 -> case_compare a b = bcmp (map lower a) (map lower b).
Proof.
  intros H. unfold case_compare. apply case_loop_spec. rewrite i32_small by exact H. unfold blen. lia.
Qed.

(** Pairs: lexicographic combination. *)
Lemma pair_pre (kc : kcmp) (D : bytes -> Prop) :
  preorder_on D kc ->
  preorder_on (fun s => exists k v, deserialize_pair s = Some (k, v) /\ D k) (cmp_pair kc).
Proof.
  intros (P1 & P2 & P3). destruct bcmp_pre as [B1 B2]. split; [|split].
  - intros a b (ak & av & Ea & Da) (bk & bv & Eb & Db). unfold cmp_pair. rewrite Ea, Eb.
    pose proof (P1 ak bk Da Db). destruct (kc ak bk) as [[]|]; congruence.
  - intros a b (ak & av & Ea & Da) (bk & bv & Eb & Db). unfold cmp_pair. rewrite Ea, Eb.
    rewrite (P2 ak bk Da Db). pose proof (P1 bk ak Db Da). destruct (kc bk ak) as [[]|]; cbn [option_map CompOpp]; try congruence.
  - intros a b c (ak & av & Ea & Da) (bk & bv & Eb & Db) (ck & cv & Ec & Dc). unfold cmp_pair, le. rewrite Ea, Eb, Ec.
    pose proof (P1 ak bk Da Db) as N1. pose proof (P1 bk ck Db Dc) as N2. pose proof (P1 ak ck Da Dc) as N3.
    intros H1 H2.
    assert (L1 : le kc ak bk) by (unfold le; destruct (kc ak bk) as [[]|]; destruct H1; auto; discriminate).
    assert (L2 : le kc bk ck) by (unfold le; destruct (kc bk ck) as [[]|]; destruct H2; auto; discriminate).
    pose proof (P3 ak bk ck Da Db Dc L1 L2) as L3.
    destruct L3 as [L3|L3]; rewrite L3; [left; reflexivity|].
    (* the first and third are equivalent: so are the two others *)
    assert (L4 : le kc ck ak). { right. rewrite (P2 ck ak Dc Da), L3. reflexivity. }
    pose proof (P3 bk ck ak Db Dc Da L2 L4) as L5. pose proof (P3 ck ak bk Dc Da Db L4 L1) as L6.
    assert (E1 : kc ak bk = Some Eq).
    { destruct L1 as [E|E]; [|exact E]. exfalso. unfold le in L5. rewrite (P2 bk ak Db Da), E in L5. cbn in L5. destruct L5; discriminate. }
    assert (E2 : kc bk ck = Some Eq).
    { destruct L2 as [E|E]; [|exact E]. exfalso. unfold le in L6. rewrite (P2 ck bk Dc Db), E in L6. cbn in L6. destruct L6; discriminate. }
    rewrite E1 in H1. rewrite E2 in H2.
    assert (bcmp av cv <> Gt) as H3.
    { apply (B2 av bv cv); intros E; rewrite E in *; destruct H1, H2; discriminate. }
    destruct (bcmp av cv); [right|left|congruence]; reflexivity.
Qed.

(** Decimal expressions: the digits of a number. *)
Fixpoint dec_digits (fuel : nat) (n : N) : bytes :=
  match fuel with
  | O => []
  | S f => if n <? 10 then [48 + n] else dec_digits f (n / 10) ++ [48 + n mod 10]
  end.
Definition digit_ok (c : N) : Prop := 48 <= c <= 57.
Definition dval (ds : bytes) (acc : Z) : Z := fold_left (fun a c => a * 10 + Z.of_N c - 48)%Z ds acc.

Lemma dval_app a b acc : dval (a ++ b) acc = dval b (dval a acc).
Proof. apply fold_left_app. Qed.
Lemma dec_digits_ok f n : (N.to_nat n < f)%nat -> Forall digit_ok (dec_digits f n) /\ dval (dec_digits f n) 0 = Z.of_N n.
Proof.
  revert n; induction f as [|f IH]; intros n Hf; [lia|]. cbn [dec_digits].
  destruct (N.ltb_spec n 10).
  - split; [constructor; [unfold digit_ok; lia|constructor]|]. cbn. lia.
  - destruct (IH (n / 10)) as [H1 H2]. { assert (n / 10 < n) by (apply N.div_lt; lia). lia. }
    split.
    + apply Forall_app. split; [exact H1|]. constructor; [unfold digit_ok; lia|constructor].
    + rewrite dval_app, H2. cbn [dval fold_left]. lia.
Qed.
Lemma dec_digits_nonempty f n : (0 < f)%nat -> dec_digits f n <> [].
Proof.
  intros Hf. destruct f; [lia|]. cbn [dec_digits]. destruct (n <? 10); [discriminate|].
  intros E. apply app_eq_nil in E. destruct E; discriminate.
Qed.
Lemma dval_mono ds acc : Forall digit_ok ds -> (0 <= acc)%Z -> (acc <= dval ds acc)%Z.
Proof.
  revert acc; induction ds as [|c ds IH]; intros acc H Ha; [cbn; lia|].
  inversion H as [|? ? Hc Hd]; subst. cbn [dval fold_left]. fold (dval ds (acc * 10 + Z.of_N c - 48)%Z).
  unfold digit_ok in Hc. pose proof (IH (acc * 10 + Z.of_N c - 48)%Z Hd). lia.
Qed.
Lemma dec_loop_digits ds acc :
  Forall digit_ok ds -> (0 <= acc)%Z -> (dval ds acc <= 2 ^ 63 - 49)%Z -> dec_loop ds acc = Some (dval ds acc).
Proof.
  revert acc; induction ds as [|c ds IH]; intros acc H Ha Hv; [reflexivity|].
  inversion H as [|? ? Hc Hd]; subst. cbn [dec_loop]. unfold digit_ok in Hc.
  replace (is_digit c) with true by (unfold is_digit; destruct (N.leb_spec 48 c), (N.leb_spec c 57); try lia; reflexivity).
  cbn [dval fold_left] in Hv |- *. fold (dval ds (acc * 10 + Z.of_N c - 48)%Z) in Hv |- *.
  pose proof (dval_mono ds (acc * 10 + Z.of_N c - 48)%Z Hd) as M.
  rewrite IH; [|exact Hd|lia|exact Hv].
  unfold int64_ok. zpow.
  repeat match goal with |- context [(?a <=? ?b)%Z] => destruct (Z.leb_spec a b) end; cbn [andb]; try lia; reflexivity.
Qed.
Lemma skip_space_digit c s : digit_ok c -> skip_space (c :: s) = c :: s.
Proof. intros H. unfold digit_ok in H. cbn. destruct (N.leb_spec c 32); [lia|reflexivity]. Qed.

(** The decimal expression of an integer, a minus sign before a negative one. *)
Definition dec_expr (v : Z) : bytes :=
  (if (v <? 0)%Z then [45] else []) ++ dec_digits (S (Z.to_nat (Z.abs v))) (Z.to_N (Z.abs v)).
Lemma str_to_int_expr v : (Z.abs v <= 2 ^ 63 - 49)%Z -> str_to_int (dec_expr v) = Some v.
Proof.
  intros H. unfold str_to_int, dec_expr.
  set (ds := dec_digits (S (Z.to_nat (Z.abs v))) (Z.to_N (Z.abs v))).
  destruct (dec_digits_ok (S (Z.to_nat (Z.abs v))) (Z.to_N (Z.abs v))) as [D1 D2]; [lia|]. fold ds in D1, D2.
  pose proof (dec_digits_nonempty (S (Z.to_nat (Z.abs v))) (Z.to_N (Z.abs v)) ltac:(lia)) as D3. fold ds in D3.
  assert (D4 : dec_loop ds 0 = Some (Z.abs v)).
  { rewrite dec_loop_digits; [f_equal; lia|exact D1|lia|lia]. }
  destruct ds as [|c ds']; [congruence|]. inversion D1 as [|? ? Hc _]; subst.
  destruct (Z.ltb_spec v 0) as [Hn|Hp].
  - cbn [app]. cbn [skip_space]. change (45 <=? 32) with false. cbn iota. cbn [read_sign].
    change (45 =? 45) with true. cbn iota. rewrite skip_space_digit, D4 by exact Hc. f_equal. lia.
  - cbn [app]. rewrite skip_space_digit by exact Hc. cbn [read_sign]. unfold digit_ok in Hc.
    destruct (N.eqb_spec c 45); [lia|]. destruct (N.eqb_spec c 43); [lia|].
    rewrite skip_space_digit, D4 by exact Hc. f_equal. lia.
Qed.
