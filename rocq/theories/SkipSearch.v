(** Searching a skip file, with the cache of records, finds what a look through the list of records finds. *)
From Coq Require Import List NArith ZArith Bool Lia Arith.
Import ListNotations.
From Verif Require Import Bytes BytesOrder CodecModel CodecProofs StatusModel FlatModel MqProofs FlatProofs SkipModel SkipLayout SkipWrite.
Open Scope N_scope.

Definition cache_ok (p : sp) (l : list krec) (c : scache) : Prop :=
  (0 < c_unit c)%nat /\ forall q r, nth_error (c_recs c) q = Some (Some r) -> good p l (q * c_unit c) r.
Lemma cached_good p l i r : fits p l -> good p l i r -> good p l i (cached p r).
Proof.
  intros [F _] (k & v & E & G1 & G2 & G3 & G4 & G5 & G6 & G7). exists k, v. unfold cached. cbn. repeat split; auto.
  rewrite G3. rewrite <- (app_nil_r (write_fix _ _)). apply read_write_fix.
  assert (L : (i < length l)%nat) by (apply nth_error_Some; rewrite E; discriminate). assert (X := off_lt p l i (length l) L (le_n _)). lia.
Qed.
Lemma unit_pos u cap num : (2 <= u)%nat -> forall fuel unit, (0 < unit)%nat -> (0 < cache_unit fuel u cap num unit)%nat.
Proof. intros U. induction fuel as [|fu IH]; intros unit P; cbn [cache_unit]; [exact P|]. destruct (Nat.ltb _ _); [apply IH; nia|exact P]. Qed.
Lemma cache_new_ok p l u cap num : (2 <= u)%nat -> cache_ok p l (cache_new u cap num).
Proof.
  intros U. split; [apply unit_pos; [exact U|lia]|]. intros q r H. unfold cache_new in H. cbn [c_recs] in H. exfalso.
  apply nth_error_In in H. apply repeat_spec in H. discriminate H.
Qed.
Lemma cache_add_ok p l c i r : fits p l -> cache_ok p l c -> good p l i r -> cache_ok p l (cache_add p c r).
Proof.
  intros F [U C] G. assert (E : r_idx r = i) by (destruct G as (k & v & _ & _ & X & _); exact X). unfold cache_add. rewrite E.
  destruct (Nat.eqb_spec (i mod c_unit c) 0) as [M|_]; [|split; assumption].
  destruct (nth_error (c_recs c) (i / c_unit c)) as [[r0|]|] eqn:N; [split; assumption| |split; assumption].
  split; [exact U|]. cbn [c_unit c_recs]. intros q r' H. assert (L : (i / c_unit c < length (c_recs c))%nat) by (apply nth_error_Some; rewrite N; discriminate).
  rewrite set_nth_error in H by exact L. destruct (Nat.eqb_spec q (i / c_unit c)) as [->|_]; [|apply C; exact H].
  assert (r' = cached p r) as -> by congruence. assert (DV := Nat.div_mod i (c_unit c) ltac:(lia)). replace (i / c_unit c * c_unit c)%nat with i by lia. apply cached_good; assumption.
Qed.

Section Files.
Variable p : sp.
Variable f : bytes.
Variable l : list krec.
Hypothesis PO : sp_ok p.
Hypothesis ST : stored p f l.
Hypothesis FT : fits p l.
Let n := length l.

Lemma fetch_ok c i : cache_ok p l c -> (i < n)%nat -> exists c' r, fetch p f c (off_of p l i) i = SOk (c', r) /\ cache_ok p l c' /\ good p l i r.
Proof.
  intros C L. unfold fetch, cache_get. destruct (Nat.eqb_spec (i mod c_unit c) 0) as [M|_].
  - destruct (nth_error (c_recs c) (i / c_unit c)) as [[r|]|] eqn:E.
    + exists c, r. split; [reflexivity|]. split; [exact C|]. destruct C as [U C]. assert (DV := Nat.div_mod i (c_unit c) ltac:(lia)).
      replace i with (i / c_unit c * c_unit c)%nat by lia. apply C. exact E.
    + destruct (read_key_ok p f l i PO ST FT L) as (r & -> & G). cbn. exists (cache_add p c r), r. split; [reflexivity|]. split; [eapply cache_add_ok; eassumption|exact G].
    + destruct (read_key_ok p f l i PO ST FT L) as (r & -> & G). cbn. exists (cache_add p c r), r. split; [reflexivity|]. split; [eapply cache_add_ok; eassumption|exact G].
  - destruct (read_key_ok p f l i PO ST FT L) as (r & -> & G). cbn. exists (cache_add p c r), r. split; [reflexivity|]. split; [eapply cache_add_ok; eassumption|exact G].
Qed.
Definition keyat (i : nat) : bytes := fst (nth i l ([], [])).
Lemma good_key i r : good p l i r -> r_key r = keyat i.
Proof. intros (k & v & E & _ & _ & _ & _ & K & _). unfold keyat. rewrite (nth_error_nth _ _ _ E). exact K. Qed.
Lemma good_lt i r : good p l i r -> (i < n)%nat.
Proof. intros (k & v & E & _). apply nth_error_Some. rewrite E. discriminate. Qed.
Lemma good_next i r : good p l i r -> off_of p l i + whole p r = off_of p l (S i).
Proof. intros G. assert (G' := G). destruct G' as (k & v & E & _). rewrite (whole_ok p l i r k v G E). symmetry. apply off_S. exact E. Qed.
Lemma good_off i r : good p l i r -> r_off r = off_of p l i.
Proof. intros (k & v & _ & _ & _ & X & _). exact X. Qed.
Lemma good_idx i r : good p l i r -> r_idx r = i.
Proof. intros (k & v & _ & _ & X & _). exact X. Qed.
Lemma flen : blen f = off_of p l n.
Proof. apply stored_len. exact ST. Qed.
Lemma off_le_iff i j : (i <= n)%nat -> (j <= n)%nat -> (off_of p l i <=? off_of p l j) = Nat.leb i j.
Proof.
  intros A B. destruct (Nat.leb_spec i j) as [X|X]; [apply N.leb_le; apply off_le; lia|]. apply N.leb_gt. apply off_lt; [exact X|fold n; lia].
Qed.
Lemma n_fuel : (n <= length f)%nat.
Proof.
  assert (X : forall k, (k <= n)%nat -> 128 + N.of_nat k <= off_of p l k).
  { induction k as [|k IH]; intros K; [rewrite off_0; lia|]. assert (Y := off_lt p l k (S k) ltac:(lia) ltac:(fold n; lia)). assert (Z := IH ltac:(lia)). lia. }
  assert (Y := X n (le_n _)). rewrite <- flen in Y. unfold blen in Y. lia.
Qed.

Section Loop.
Variable here : nat -> bytes -> comparison.
Variable there : nat -> bytes -> comparison.
Hypothesis mono : forall i j, (j < i < n)%nat -> there i (keyat i) = Gt -> here j (keyat j) = Gt.
(** [end_ok e]: what the end offset may be. *)
Definition end_ok (e : nat) : Prop := (e <= n)%nat /\ (e = n \/ there e (keyat e) = Lt).
Lemma try_ok r cur : good p l cur r -> forall m c e, (m <= r_lev r)%nat -> cache_ok p l c -> end_ok e -> (cur < e)%nat ->
  exists c' e' nx, try_levels p f there r cur m c (off_of p l e) = SOk (c', off_of p l e', nx) /\ cache_ok p l c' /\ end_ok e' /\ (cur < e')%nat /\
    match nx with
    | None => True
    | Some (no, ni, nr) => no = off_of p l ni /\ good p l ni nr /\ (cur < ni < e')%nat /\ there ni (keyat ni) = Gt
    end.
Proof.
  intros G. induction m as [|m IH]; intros c e M C E L.
  - exists c, e, None. cbn [try_levels]. auto.
  - cbn [try_levels]. assert (G' := G). destruct G' as (k & v & _ & G1 & _ & _ & G4 & _). rewrite G4. unfold links.
    assert (NE : nth m (map (link p l cur) (seq 0 (lev p cur))) 0 = link p l cur m).
    { apply nth_error_nth. rewrite nth_error_map, (nth_error_nth' (seq 0 (lev p cur)) 0%nat) by (rewrite seq_length; lia). rewrite seq_nth by lia. reflexivity. }
    rewrite NE. unfold link. fold n. destruct (Nat.ltb_spec (cur + step p ^ S m) n) as [LN|LN]; [|cbn [N.eqb orb]; apply IH; auto; lia].
    set (ni := (cur + step p ^ S m)%nat) in *. assert (B := off_base p l ni). destruct (N.eqb_spec (off_of p l ni) 0) as [X|_]; [lia|]. cbn [orb].
    destruct E as [E1 E2]. rewrite off_le_iff by lia. destruct (Nat.leb_spec e ni) as [Q|Q]; [apply IH; auto; [lia|split; auto]|].
    destruct (fetch_ok c ni C LN) as (c' & nr & -> & C' & GN). cbn [sbind]. rewrite (good_key ni nr GN).
    assert (SP : (0 < step p ^ S m)%nat) by (destruct PO as (_ & U & _); assert ((step p ^ S m <> 0)%nat) by (apply Nat.pow_nonzero; lia); lia).
    destruct (there ni (keyat ni)) eqn:T.
    + apply IH; auto; [lia|split; auto].
    + apply IH; auto; [lia| |unfold ni; lia]. split; [lia|right; exact T].
    + exists c', e, (Some (off_of p l ni, ni, nr)). split; [reflexivity|]. split; [exact C'|]. split; [split; auto|]. split; [exact L|]. split; [reflexivity|]. split; [exact GN|]. split; [unfold ni in *; lia|exact T].
Qed.
Definition found (i : nat) : Prop := (i < n)%nat /\ here i (keyat i) = Eq /\ forall j, (j < i)%nat -> here j (keyat j) = Gt.
Definition stopped (i : nat) : Prop := (i <= n)%nat /\ (forall j, (j < i)%nat -> here j (keyat j) = Gt) /\ (i = n \/ here i (keyat i) = Lt \/ there i (keyat i) = Lt).
Lemma loop_ok fuel : forall c cur e ready, cache_ok p l c -> end_ok e -> (cur <= e)%nat -> (forall j, (j < cur)%nat -> here j (keyat j) = Gt) ->
  match ready with Some r => good p l cur r | None => True end -> (n - cur < fuel)%nat ->
  exists c' x, search_loop p f here there fuel c (off_of p l cur) cur (off_of p l e) ready = SOk (c', x) /\ cache_ok p l c' /\
    match x with inl r => exists i, good p l i r /\ found i | inr (o, i) => o = off_of p l i /\ stopped i end.
Proof.
  induction fuel as [|fu IH]; intros c cur e ready C E L B R F; [lia|]. cbn [search_loop]. destruct E as [E1 E2]. rewrite off_le_iff by lia.
  destruct (Nat.leb_spec e cur) as [Q|Q].
  { exists c, (inr (off_of p l cur, cur)). split; [reflexivity|]. split; [exact C|]. split; [reflexivity|]. assert (cur = e) as -> by lia. split; [exact E1|]. split; [exact B|].
    destruct E2; auto. }
  assert (X : exists c1 r, match ready with Some r => SOk (c, r) | None => fetch p f c (off_of p l cur) cur end = SOk (c1, r) /\ cache_ok p l c1 /\ good p l cur r).
  { destruct ready as [r|]; [exists c, r; auto|]. apply fetch_ok; [exact C|lia]. }
  destruct X as (c1 & r & -> & C1 & G). cbn [sbind]. rewrite (good_key cur r G). destruct (here cur (keyat cur)) eqn:Hr.
  - exists c1, (inl r). split; [reflexivity|]. split; [exact C1|]. exists cur. split; [exact G|]. split; [lia|]. split; assumption.
  - exists c1, (inr (off_of p l cur, cur)). split; [reflexivity|]. split; [exact C1|]. split; [reflexivity|]. split; [lia|]. split; auto.
  - destruct (try_ok r cur G (r_lev r) c1 e (le_n _) C1 (conj E1 E2) Q) as (c2 & e' & nx & -> & C2 & EE & LE & NX). cbn [sbind].
    destruct nx as [[[no ni] nr]|].
    + destruct NX as (-> & GN & LN & T). apply IH; auto; [lia| |lia]. intros j J. apply (mono ni); [|exact T]. destruct EE. lia.
    + rewrite (good_next cur r G). apply IH; auto; [|lia]. intros j J. destruct (Nat.eq_dec j cur) as [->|]; [exact Hr|]. apply B. lia.
Qed.
Lemma search_loop_ok c : cache_ok p l c -> exists c' x, search_loop p f here there (S (length f)) c 128 0 (blen f) None = SOk (c', x) /\ cache_ok p l c' /\
    match x with inl r => exists i, good p l i r /\ found i | inr (o, i) => o = off_of p l i /\ stopped i end.
Proof.
  intros C. assert (NF := n_fuel). rewrite flen, <- (off_0 p l). apply loop_ok; auto; try lia. split; auto.
Qed.
End Loop.

Lemma search_index_ok c i : cache_ok p l c -> exists c', cache_ok p l c' /\
  if Nat.ltb i n then exists r, good p l i r /\ search_index p f c i = SOk (c', Some r) else search_index p f c i = SOk (c', None).
Proof.
  intros C. unfold search_index.
  destruct (search_loop_ok (fun i0 _ => if Nat.eqb i0 i then Eq else Gt) (fun i0 _ => if Nat.leb i0 i then Gt else Lt)) with (c := c) as (c' & x & -> & C' & X); auto.
  { intros a b H. destruct (Nat.leb_spec a i); [|discriminate]. intros _. destruct (Nat.eqb_spec b i); [lia|reflexivity]. }
  exists c'. split; [exact C'|]. cbn [sbind]. destruct x as [r|[o j]].
  - destruct X as (j & G & L & Hj & _). destruct (Nat.eqb_spec j i) as [->|]; [|discriminate]. destruct (Nat.ltb_spec i n); [|lia]. exists r. auto.
  - destruct X as (-> & L & A & B). destruct (Nat.ltb_spec i n) as [I|I]; [|reflexivity]. exfalso.
    assert (D : (i < j)%nat -> False). { intros Q. specialize (A i Q). rewrite Nat.eqb_refl in A. discriminate. }
    destruct B as [B|[B|B]]; [apply D; lia|destruct (Nat.eqb j i); discriminate|]. destruct (Nat.leb_spec j i); [discriminate|]. apply D. lia.
Qed.

(** The keys do not descend. *)
Definition ascending : Prop := forall i j, (i < j < n)%nat -> bcmp (keyat j) (keyat i) <> Lt.
Hypothesis AS : ascending.
Lemma search_ok c K upper : cache_ok p l c -> exists c' o, cache_ok p l c' /\ search p f c K upper = SOk (c', o) /\
  match o with
  | Some r => exists i, good p l i r /\ (forall j, (j < i)%nat -> bcmp K (keyat j) = Gt) /\ (bcmp K (keyat i) = Eq \/ upper = true /\ bcmp K (keyat i) = Lt)
  | None => if upper then forall j, (j < n)%nat -> bcmp K (keyat j) = Gt else forall j, (j < n)%nat -> bcmp K (keyat j) <> Eq
  end.
Proof.
  intros C. unfold search.
  destruct (search_loop_ok (fun _ k => bcmp K k) (fun _ k => bcmp K k)) with (c := c) as (c' & x & -> & C' & X); auto.
  { intros i j H T. assert (A := AS j i ltac:(lia)). rewrite bcmp_gt in T. apply bcmp_gt. destruct (bcmp (keyat j) (keyat i)) eqn:Q.
    - apply bcmp_eq in Q. rewrite Q. exact T.
    - eapply blt_trans; eassumption.
    - exfalso. apply A. apply bcmp_gt. exact Q. }
  cbn [sbind]. destruct x as [r|[o i]].
  - destruct X as (i & G & L & Hi & B). exists c', (Some r). split; [exact C'|]. split; [reflexivity|]. exists i. auto.
  - destruct X as (-> & L & A & B). rewrite flen, N.ltb_antisym, off_le_iff by lia. destruct upper; cbn [andb].
    + destruct (Nat.leb_spec n i) as [Q|Q]; cbn [negb].
      * exists c', None. split; [exact C'|]. split; [reflexivity|]. intros j J. apply A. lia.
      * destruct (fetch_ok c' i C' Q) as (c2 & r & -> & C2 & G). exists c2, (Some r). split; [exact C2|]. split; [reflexivity|]. exists i. split; [exact G|]. split; [exact A|].
        right. split; [reflexivity|]. destruct B as [B|[B|B]]; auto. lia.
    + exists c', None. split; [exact C'|]. split; [reflexivity|]. intros j J. destruct (Nat.lt_ge_cases j i) as [Q|Q]; [rewrite A by exact Q; discriminate|].
      assert (LI : bcmp K (keyat i) = Lt) by (destruct B as [B|[B|B]]; auto; lia). intros Ej. apply bcmp_eq in Ej. subst K.
      destruct (Nat.eq_dec i j) as [->|NE]; [rewrite LI in *|]. 
      * assert (Z : bcmp (keyat j) (keyat j) = Eq) by (apply bcmp_eq; reflexivity). congruence.
      * apply (AS i j ltac:(lia)). exact LI.
Qed.
End Files.
