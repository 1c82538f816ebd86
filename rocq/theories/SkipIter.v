(** Iterators and lookups of a skip file under any sequence of calls, against positions in the list of records. *)
From Coq Require Import List NArith ZArith Bool Lia Arith.
Import ListNotations.
From Verif Require Import Bytes BytesOrder CodecModel CodecProofs StatusModel FlatModel DbmModel MqProofs FlatProofs SkipModel SkipLayout SkipWrite SkipSearch.
Open Scope N_scope.

(** * The specification: positions in a list of records *)
Fixpoint first_pos (P : bytes -> bool) (l : list krec) : option nat :=
  match l with [] => None | (k, _) :: l' => if P k then Some O else option_map S (first_pos P l') end.
Fixpoint last_pos (P : bytes -> bool) (l : list krec) : option nat :=
  match l with [] => None | (k, _) :: l' => match last_pos P l' with Some i => Some (S i) | None => if P k then Some O else None end end.
Definition lt_b (a b : bytes) : bool := match bcmp a b with Lt => true | _ => false end.
Definition le_b (a b : bytes) : bool := match bcmp a b with Gt => false | _ => true end.
(** The record of a key: the first one. *)
Definition first_val (k : bytes) (l : list krec) : option bytes := option_map snd (find (fun r => beqb (fst r) k) l).
(** The calls, on any number of iterators. *)
Inductive call :=
  | CGet (k : bytes) | CIndex (i : nat)
  | CFirst (t : nat) | CLast (t : nat) | CJump (t : nat) (k : bytes) | CLower (t : nat) (k : bytes) (incl : bool) | CUpper (t : nat) (k : bytes) (incl : bool)
  | CNext (t : nat) | CPrev (t : nat) | CRead (t : nat).
Inductive out := OStatus (c : code) | OValue (v : option bytes) | ORecord (r : option krec).
(** A position: none, at a record, or (the length of the list) past the last one. *)
Definition put {A} (t : nat) (x : A) (m : nat -> A) : nat -> A := fun u => if Nat.eqb u t then x else m u.
Definition spec_call (l : list krec) (c : call) (m : nat -> option nat) : out * (nat -> option nat) :=
  let n := length l in
  let go t x := (OStatus SUCCESS, put t x m) in
  match c with
  | CGet k => (OValue (first_val k l), m)
  | CIndex i => (ORecord (nth_error l i), m)
  | CFirst t => go t (Some O)
  | CLast t => go t (Some (n - 1)%nat)
  | CJump t k => go t (first_pos (le_b k) l)
  | CLower t k incl => go t (match (if incl then first_pos (beqb k) l else None) with Some i => Some i | None => last_pos (fun x => lt_b x k) l end)
  | CUpper t k incl => go t (first_pos (if incl then le_b k else lt_b k) l)
  | CNext t => match m t with Some i => if Nat.ltb i n then go t (Some (S i)) else (OStatus NOT_FOUND_ERROR, m) | None => (OStatus NOT_FOUND_ERROR, m) end
  | CPrev t => match m t with Some i => if Nat.ltb i n then go t (match i with O => None | S j => Some j end) else (OStatus NOT_FOUND_ERROR, m) | None => (OStatus NOT_FOUND_ERROR, m) end
  | CRead t => (ORecord (match m t with Some i => nth_error l i | None => None end), m)
  end.
Fixpoint spec_calls (l : list krec) (cs : list call) (m : nat -> option nat) : list out :=
  match cs with [] => [] | c :: cs' => let '(o, m1) := spec_call l c m in o :: spec_calls l cs' m1 end.

(** * The model under the same calls *)
Definition it_result (t : nat) (d : sdb) (m : nat -> siter) (r : itres) : sres (out * (sdb * (nat -> siter))) :=
  let* (s, c, it) := r in SOk (OStatus s, (set_cache d c, put t it m)).
Definition do_call (g : scfg) (c : call) (d : sdb) (m : nat -> siter) : sres (out * (sdb * (nat -> siter))) :=
  let p := g_sp g in
  match c with
  | CGet k => let* (d1, v) := lookup g k d in SOk (OValue v, (d1, m))
  | CIndex i => let* (d1, r) := get_by_index g i d in SOk (ORecord r, (d1, m))
  | CFirst t => SOk (OStatus SUCCESS, (d, put t it_first m))
  | CLast t => it_result t d m (it_last p (d_file d) (d_num d) (d_cache d) (m t))
  | CJump t k => it_result t d m (it_jump p (d_file d) (d_cache d) k)
  | CLower t k incl => it_result t d m (it_lower p (d_file d) (d_num d) (d_cache d) (m t) k incl)
  | CUpper t k incl => it_result t d m (it_upper p (d_file d) (d_num d) (d_cache d) k incl)
  | CNext t => it_result t d m (it_next p (d_file d) (d_cache d) (m t))
  | CPrev t => it_result t d m (it_prev p (d_file d) (d_cache d) (m t))
  | CRead t => let* (s, r, it) := it_get p (d_file d) (m t) in SOk (match s with SUCCESS => ORecord r | NOT_FOUND_ERROR => ORecord None | _ => OStatus s end, (d, put t it m))
  end.
Fixpoint do_calls (g : scfg) (cs : list call) (d : sdb) (m : nat -> siter) : sres (list out * sdb) :=
  match cs with [] => SOk ([], d) | c :: cs' => let* (o, (d1, m1)) := do_call g c d m in let* (os, d2) := do_calls g cs' d1 m1 in SOk (o :: os, d2) end.

(** * Positions found *)
Lemma first_pos_some P l i : (i < length l)%nat -> P (keyat l i) = true -> (forall j, (j < i)%nat -> P (keyat l j) = false) -> first_pos P l = Some i.
Proof.
  revert i; induction l as [|[k v] l IH]; intros i L T B; cbn [length] in L; [lia|]. cbn [first_pos]. destruct i as [|i].
  - cbn in T. rewrite T. reflexivity.
  - assert (X := B 0%nat ltac:(lia)). cbn in X. rewrite X. rewrite (IH i); [reflexivity|lia|exact T|]. intros j J. apply (B (S j)). lia.
Qed.
Lemma first_pos_none P l : (forall j, (j < length l)%nat -> P (keyat l j) = false) -> first_pos P l = None.
Proof.
  induction l as [|[k v] l IH]; intros B; [reflexivity|]. cbn [first_pos]. assert (X := B 0%nat ltac:(cbn; lia)). cbn in X. rewrite X, IH; [reflexivity|].
  intros j J. apply (B (S j)). cbn. lia.
Qed.
Lemma last_pos_none P l : (forall j, (j < length l)%nat -> P (keyat l j) = false) -> last_pos P l = None.
Proof.
  induction l as [|[k v] l IH]; intros B; [reflexivity|]. cbn [last_pos]. assert (X := B 0%nat ltac:(cbn; lia)). cbn in X. rewrite IH, X; [reflexivity|].
  intros j J. apply (B (S j)). cbn. lia.
Qed.
Lemma last_pos_some P l i : (i < length l)%nat -> P (keyat l i) = true -> (forall j, (i < j < length l)%nat -> P (keyat l j) = false) -> last_pos P l = Some i.
Proof.
  revert i; induction l as [|[k v] l IH]; intros i L T B; cbn [length] in L; [lia|]. cbn [last_pos]. destruct i as [|i].
  - rewrite last_pos_none; [cbn in T; rewrite T; reflexivity|]. intros j J. apply (B (S j)). cbn. lia.
  - rewrite (IH i); [reflexivity|lia|exact T|]. intros j J. apply (B (S j)). cbn. lia.
Qed.
Lemma beqb_sym a b : beqb a b = beqb b a.
Proof. apply eq_true_iff_eq. rewrite !beqb_eq. split; congruence. Qed.
Lemma first_val_pos k l : first_val k l = match first_pos (beqb k) l with Some i => option_map snd (nth_error l i) | None => None end.
Proof.
  induction l as [|[x v] l IH]; [reflexivity|]. unfold first_val in *. cbn [find first_pos fst]. rewrite (beqb_sym k x). destruct (beqb x k); [reflexivity|].
  rewrite IH. destruct (first_pos (beqb k) l); reflexivity.
Qed.
Lemma beqb_bcmp a b : beqb a b = match bcmp a b with Eq => true | _ => false end.
Proof.
  destruct (bcmp a b) eqn:E.
  - apply bcmp_eq in E. subst. apply beqb_refl.
  - destruct (beqb a b) eqn:X; [|reflexivity]. apply beqb_eq in X. subst. rewrite bcmp_refl in E. discriminate.
  - destruct (beqb a b) eqn:X; [|reflexivity]. apply beqb_eq in X. subst. rewrite bcmp_refl in E. discriminate.
Qed.

Section Calls.
Variable g : scfg.
Let p := g_sp g.
Variable f : bytes.
Variable l : list krec.
Hypothesis PO : sp_ok p.
Hypothesis ST : stored p f l.
Hypothesis FT : fits p l.
Hypothesis AS : ascending l.
Let n := length l.

(** The position that an iterator stands for. *)
Definition stands (it : siter) (x : option nat) : Prop :=
  match i_off it, x with
  | None, None => True
  | Some o, Some i => o = off_of p l i /\ i_idx it = i /\ (i <= n)%nat /\ (i_size it = 0 \/ exists r, good p l i r /\ i_size it = whole p r)
  | _, _ => False
  end.
Lemma at_stands i r : good p l i r -> stands (it_at p r) (Some i).
Proof.
  intros G. unfold stands, it_at. cbn. split; [apply (good_off p l i r G)|]. split; [apply (good_idx p l i r G)|]. split; [assert (X := good_lt p l i r G); unfold n; lia|].
  right. exists r. auto.
Qed.
Lemma at_stands' i r : good p l i r -> stands (mkI (Some (r_off r)) i (whole p r)) (Some i).
Proof. intros G. assert (X := at_stands i r G). unfold it_at in X. rewrite (good_idx p l i r G) in X. exact X. Qed.
Lemma clear_stands : stands it_clear None. Proof. exact I. Qed.
Lemma first_stands : stands it_first (Some O).
Proof. unfold stands, it_first. cbn. rewrite off_0. repeat split; auto. lia. Qed.
Lemma last_ok c it x : cache_ok p l c -> stands it x -> exists c' it', it_last p f n c it = SOk (SUCCESS, c', it') /\ cache_ok p l c' /\ stands it' (Some (n - 1)%nat).
Proof.
  intros C S. unfold it_last. destruct (Nat.ltb_spec 0 n) as [L|L].
  - destruct (search_index_ok p f l PO ST FT c (n - 1) C) as (c' & C' & H). destruct (Nat.ltb_spec (n - 1) (length l)); [|unfold n in *; lia].
    destruct H as (r & G & E). cbv zeta in E. fold p. rewrite E. cbn. exists c', (it_at p r). split; [reflexivity|]. split; [exact C'|]. apply at_stands. exact G.
  - exists c, it_first. split; [reflexivity|]. split; [exact C|]. replace (n - 1)%nat with 0%nat by lia. apply first_stands.
Qed.
Lemma jump_ok c k : cache_ok p l c -> exists c' it', it_jump p f c k = SOk (SUCCESS, c', it') /\ cache_ok p l c' /\ stands it' (first_pos (le_b k) l).
Proof.
  intros C. unfold it_jump. destruct (search_ok p f l PO ST FT AS c k true C) as (c' & o & C' & E & H). rewrite E. cbn [on_err].
  destruct o as [r|].
  - destruct H as (i & G & B & D). exists c', (it_at p r). split; [reflexivity|]. split; [exact C'|].
    rewrite (first_pos_some (le_b k) l i); [apply at_stands; exact G|apply (good_lt p l i r G)| |].
    + unfold le_b. destruct D as [-> | [_ ->]]; reflexivity.
    + intros j J. unfold le_b. rewrite B by exact J. reflexivity.
  - exists c', it_clear. split; [reflexivity|]. split; [exact C'|]. rewrite first_pos_none; [apply clear_stands|]. intros j J. unfold le_b. rewrite H by exact J. reflexivity.
Qed.
Lemma asc_le i j : (i <= j < n)%nat -> bcmp (keyat l j) (keyat l i) <> Lt.
Proof. intros H. destruct (Nat.eq_dec i j) as [->|NE]; [rewrite bcmp_refl; discriminate|]. apply AS. unfold n in H. lia. Qed.
(** Backwards from a record before which all are less than the key, if the walk starts at an equal or greater one, or at the last one. *)
Lemma lower_loop_ok k (incl : bool) : forall fuel c i r it, cache_ok p l c -> good p l i r -> it = mkI (Some (r_off r)) i (whole p r) -> (i < fuel)%nat ->
  (forall j, (i < j < n)%nat -> lt_b (keyat l j) k = false) ->
  (incl = true -> (bcmp (keyat l i) k = Eq /\ forall j, (j < i)%nat -> beqb k (keyat l j) = false) \/ forall j, (j < n)%nat -> beqb k (keyat l j) = false) ->
  exists c' it', lower_loop p f k incl fuel c r it = SOk (SUCCESS, c', it') /\ cache_ok p l c' /\
    stands it' (match (if incl then first_pos (beqb k) l else None) with Some i => Some i | None => last_pos (fun x => lt_b x k) l end).
Proof.
  induction fuel as [|fu IH]; intros c i r it C G EI F A Q; [lia|]. cbn [lower_loop]. rewrite (good_key p l i r G). assert (L := good_lt p l i r G).
  destruct (bcmp (keyat l i) k) eqn:Ei.
  - destruct incl.
    + exists c, it. split; [reflexivity|]. split; [exact C|]. rewrite (first_pos_some (beqb k) l i).
      * rewrite EI. apply at_stands'. exact G.
      * exact L.
      * apply bcmp_eq in Ei. rewrite Ei. apply beqb_refl.
      * intros j J. destruct (Q eq_refl) as [[_ X]|X]; [apply X; exact J|apply X; unfold n; lia].
    + rewrite EI. cbn [i_idx]. destruct (Nat.eqb_spec i 0) as [->|NZ].
      * exists c, it_clear. split; [reflexivity|]. split; [exact C|]. rewrite last_pos_none; [exact I|]. intros j J.
        destruct (Nat.eq_dec j 0) as [->|]; [unfold lt_b; rewrite Ei; reflexivity|apply A; unfold n; lia].
      * destruct (search_index_ok p f l PO ST FT c (i - 1) C) as (c' & C' & H). destruct (Nat.ltb_spec (i - 1) (length l)); [|lia]. destruct H as (r1 & G1 & E1). rewrite E1. cbn [on_err].
        apply (IH c' (i - 1)%nat r1); auto; [lia| |discriminate]. intros j J. destruct (Nat.eq_dec j i) as [->|]; [unfold lt_b; rewrite Ei; reflexivity|apply A; lia].
  - exists c, it. split; [reflexivity|]. split; [exact C|].
    assert (FP : (if incl then first_pos (beqb k) l else None) = None).
    { destruct incl; [|reflexivity]. apply first_pos_none. destruct (Q eq_refl) as [[X _]|X]; [discriminate|exact X]. }
    rewrite FP, (last_pos_some _ l i); [rewrite EI; apply at_stands'; exact G|exact L|unfold lt_b; rewrite Ei; reflexivity|]. exact A.
  - assert (GT : forall j, (i <= j < n)%nat -> lt_b (keyat l j) k = false). { intros j J. destruct (Nat.eq_dec j i) as [->|]; [unfold lt_b; rewrite Ei; reflexivity|apply A; lia]. }
    assert (FP : incl = true -> forall j, (j < n)%nat -> beqb k (keyat l j) = false). { intros X. destruct (Q X) as [[Y _]|Y]; [discriminate|exact Y]. }
    rewrite EI. cbn [i_idx]. destruct (Nat.eqb_spec i 0) as [->|NZ].
    + exists c, it_clear. split; [reflexivity|]. split; [exact C|].
      assert (FN : (if incl then first_pos (beqb k) l else None) = None) by (destruct incl; [apply first_pos_none; apply FP; reflexivity|reflexivity]).
      rewrite FN, last_pos_none; [exact I|]. intros j J. apply GT. unfold n. lia.
    + destruct (search_index_ok p f l PO ST FT c (i - 1) C) as (c' & C' & H). destruct (Nat.ltb_spec (i - 1) (length l)); [|lia]. destruct H as (r1 & G1 & E1). rewrite E1. cbn [on_err].
      apply (IH c' (i - 1)%nat r1); auto; [lia|]. intros j J. apply GT. lia.
Qed.
Lemma lower_ok c it x k incl : cache_ok p l c -> stands it x -> exists c' it', it_lower p f n c it k incl = SOk (SUCCESS, c', it') /\ cache_ok p l c' /\
  stands it' (match (if incl then first_pos (beqb k) l else None) with Some i => Some i | None => last_pos (fun x => lt_b x k) l end).
Proof.
  intros C S. unfold it_lower. assert (NF := n_fuel p f l ST). destruct (search_ok p f l PO ST FT AS c k true C) as (c' & o & C' & E & H). rewrite E. cbn [on_err]. destruct o as [r|].
  - destruct H as (i & G & B & D). assert (L := good_lt p l i r G). apply (lower_loop_ok k incl) with (i := i); auto.
    + unfold it_at. rewrite (good_idx p l i r G). reflexivity.
    + lia.
    + intros j J. unfold lt_b. assert (X := asc_le i j ltac:(lia)). destruct (bcmp (keyat l j) k) eqn:Y; auto. exfalso. destruct D as [D|[_ D]].
      * apply bcmp_eq in D. subst k. contradiction.
      * apply X. eapply blt_trans; eassumption.
    + intros _. destruct D as [D|[_ D]].
      * left. split; [apply bcmp_eq; symmetry; apply bcmp_eq; exact D|]. intros j J. rewrite beqb_bcmp, B by exact J. reflexivity.
      * right. intros j J. rewrite beqb_bcmp. destruct (Nat.lt_ge_cases j i) as [Q|Q]; [rewrite B by exact Q; reflexivity|].
        assert (X := asc_le i j ltac:(unfold n in *; lia)). destruct (bcmp k (keyat l j)) eqn:Y; auto. exfalso. apply bcmp_eq in Y. subst k. apply X. exact D.
  - destruct (Nat.ltb_spec n 1) as [Q|Q].
    + exists c', it_clear. split; [reflexivity|]. split; [exact C'|]. rewrite last_pos_none by (intros j J; unfold n in Q; lia). destruct incl; [rewrite first_pos_none by (intros j J; unfold n in Q; lia)|]; exact I.
    + destruct (search_index_ok p f l PO ST FT c' (n - 1) C') as (c2 & C2 & H2). destruct (Nat.ltb_spec (n - 1) (length l)); [|unfold n in *; lia]. destruct H2 as (r & G & E2). rewrite E2. cbn [on_err].
      apply (lower_loop_ok k incl) with (i := (n - 1)%nat); auto.
      * unfold it_at. rewrite (good_idx p l _ r G). reflexivity.
      * unfold n in *; lia.
      * intros j J. lia.
      * intros _. right. intros j J. rewrite beqb_bcmp, H by exact J. reflexivity.
Qed.
Lemma upper_loop_ok k (incl : bool) : forall fuel c i r it, cache_ok p l c -> good p l i r -> it = it_at p r -> (n - i < fuel)%nat ->
  (forall j, (j < i)%nat -> (if incl then le_b k else lt_b k) (keyat l j) = false) ->
  exists c' it', upper_loop p f n k incl fuel c r it = SOk (SUCCESS, c', it') /\ cache_ok p l c' /\ stands it' (first_pos (if incl then le_b k else lt_b k) l).
Proof.
  induction fuel as [|fu IH]; intros c i r it C G EI F A; [lia|]. cbn [upper_loop]. rewrite (good_key p l i r G). assert (L := good_lt p l i r G).
  assert (CO := bcmp_opp k (keyat l i)).
  destruct (match bcmp (keyat l i) k with Eq => incl | Lt => false | Gt => true end) eqn:T.
  - exists c, it. split; [reflexivity|]. split; [exact C|]. rewrite (first_pos_some _ l i); [rewrite EI; apply at_stands; exact G|exact L| |exact A].
    destruct (bcmp (keyat l i) k), incl; cbn [CompOpp] in CO; try discriminate; unfold le_b, lt_b; rewrite CO; reflexivity.
  - assert (A' : forall j, (j < S i)%nat -> (if incl then le_b k else lt_b k) (keyat l j) = false).
    { intros j J. destruct (Nat.eq_dec j i) as [->|]; [|apply A; lia]. destruct (bcmp (keyat l i) k), incl; cbn [CompOpp] in CO; try discriminate; unfold le_b, lt_b; rewrite CO; reflexivity. }
    rewrite EI. cbn [i_idx i_off it_at]. rewrite (good_idx p l i r G), (good_off p l i r G). destruct (Nat.eqb_spec (S i) n) as [Q|Q].
    + exists c, it_clear. split; [reflexivity|]. split; [exact C|]. rewrite first_pos_none; [exact I|]. intros j J. apply A'. unfold n in Q. lia.
    + rewrite (good_next p l i r G). assert (SL : (S i < length l)%nat) by (unfold n in *; lia). destruct (read_key_ok p f l (S i) PO ST FT SL) as (r1 & E1 & G1). rewrite E1. cbn [on_err].
      apply (IH c (S i) r1); auto. unfold n in *. lia.
Qed.
Lemma upper_ok c k (incl : bool) : cache_ok p l c -> exists c' it', it_upper p f n c k incl = SOk (SUCCESS, c', it') /\ cache_ok p l c' /\ stands it' (first_pos (if incl then le_b k else lt_b k) l).
Proof.
  intros C. unfold it_upper. assert (NF := n_fuel p f l ST). destruct (search_ok p f l PO ST FT AS c k true C) as (c' & o & C' & E & H). rewrite E. cbn [on_err]. destruct o as [r|].
  - destruct H as (i & G & B & D). apply (upper_loop_ok k incl) with (i := i); auto; [unfold n; lia|]. intros j J. unfold le_b, lt_b. destruct incl; rewrite B by exact J; reflexivity.
  - exists c', it_clear. split; [reflexivity|]. split; [exact C'|]. rewrite first_pos_none; [exact I|]. intros j J. unfold le_b, lt_b. destruct incl; rewrite H by exact J; reflexivity.
Qed.
Lemma end_iff i : (i <= n)%nat -> (blen f <=? off_of p l i) = negb (Nat.ltb i n).
Proof.
  intros L. rewrite (flen p f l ST). rewrite off_le_iff by (fold n; lia). fold n. rewrite Nat.ltb_antisym, negb_involutive. reflexivity.
Qed.
Definition next_spec (x : option nat) : code * option nat :=
  match x with Some i => if Nat.ltb i n then (SUCCESS, Some (S i)) else (NOT_FOUND_ERROR, x) | None => (NOT_FOUND_ERROR, x) end.
Definition prev_spec (x : option nat) : code * option nat :=
  match x with Some i => if Nat.ltb i n then (SUCCESS, match i with O => None | S j => Some j end) else (NOT_FOUND_ERROR, x) | None => (NOT_FOUND_ERROR, x) end.
Lemma next_ok c it x : cache_ok p l c -> stands it x -> exists c' it', it_next p f c it = SOk (fst (next_spec x), c', it') /\ cache_ok p l c' /\ stands it' (snd (next_spec x)).
Proof.
  intros C S. unfold it_next, next_spec. assert (S' := S). unfold stands in S. destruct (i_off it) as [o|] eqn:EO, x as [i|]; try contradiction; [|exists c, it; auto].
  destruct S as (-> & EI & LE & SZ). rewrite end_iff by exact LE. destruct (Nat.ltb_spec i n) as [L|L]; cbn [negb fst snd]; [|exists c, it; auto].
  assert (RK : exists r, read_key p f (off_of p l i) i = SOk r /\ good p l i r) by (apply read_key_ok; auto).
  assert (POS : forall r, good p l i r -> stands (mkI (Some (off_of p l i + whole p r)) (S i) 0) (Some (S i))).
  { intros r G. unfold stands. cbn. rewrite (good_next p l i r G). repeat split; auto; unfold n; lia. }
  destruct (N.ltb_spec (i_size it) 1) as [Z|Z].
  - destruct RK as (r & E & G). rewrite EI, E. cbn [on_err]. eexists _, _. split; [reflexivity|]. split; [exact C|]. apply POS. exact G.
  - destruct SZ as [SZ|(r & G & SZ)]; [lia|]. rewrite EI, SZ. eexists _, _. split; [reflexivity|]. split; [exact C|]. apply POS. exact G.
Qed.
Lemma prev_ok c it x : cache_ok p l c -> stands it x -> exists c' it', it_prev p f c it = SOk (fst (prev_spec x), c', it') /\ cache_ok p l c' /\ stands it' (snd (prev_spec x)).
Proof.
  intros C S. unfold it_prev, prev_spec. assert (S' := S). unfold stands in S. destruct (i_off it) as [o|] eqn:EO, x as [i|]; try contradiction; [|exists c, it; auto].
  destruct S as (-> & EI & LE & SZ). rewrite end_iff by exact LE. destruct (Nat.ltb_spec i n) as [L|L]; cbn [negb fst snd]; [|exists c, it; auto].
  rewrite EI. destruct i as [|i]; [cbn; exists c, it_clear; split; [reflexivity|split; [exact C|exact I]]|]. cbn [Nat.ltb Nat.leb]. replace (S i - 1)%nat with i by lia.
  destruct (search_index_ok p f l PO ST FT c i C) as (c' & C' & H). destruct (Nat.ltb_spec i (length l)); [|unfold n in *; lia]. destruct H as (r & G & E). rewrite E. cbn [on_err].
  eexists _, _. split; [reflexivity|]. split; [exact C'|]. apply at_stands'. exact G.
Qed.
Lemma get_ok it x : stands it x -> exists s it', it_get p f it = SOk (s, match x with Some i => nth_error l i | None => None end, it') /\ stands it' x
  /\ s = match (match x with Some i => nth_error l i | None => None end) with Some _ => SUCCESS | None => NOT_FOUND_ERROR end.
Proof.
  intros S. unfold it_get. assert (S' := S). unfold stands in S. destruct (i_off it) as [o|] eqn:EO, x as [i|]; try contradiction; [|eexists _, _; repeat split; assumption].
  destruct S as (-> & EI & LE & SZ). rewrite end_iff by exact LE. destruct (Nat.ltb_spec i n) as [L|L]; cbn [negb].
  - destruct (read_key_ok p f l i PO ST FT L) as (r & E & G). assert (G' := G). destruct G' as (k & v & N & _). rewrite EI, E. cbn [sbind].
    rewrite (get_value_ok p f l i r k v ST G N). cbn [sbind]. eexists _, _. assert (K := good_key p l i r G). unfold keyat in K. rewrite (nth_error_nth _ _ _ N) in K. cbn in K. rewrite K, N.
    split; [reflexivity|]. split; [|reflexivity]. assert (X := at_stands' i r G). rewrite (good_off p l i r G) in X. exact X.
  - assert (N : nth_error l i = None) by (apply nth_error_None; unfold n in L; lia). rewrite N. eexists _, _. repeat split; assumption.
Qed.

(** A synchronized database: the file holds the records, and the other fields agree with it. *)
Definition synced (d : sdb) : Prop := d_file d = f /\ d_num d = n /\ cache_ok p l (d_cache d).
Lemma put_stands t it x (m : nat -> siter) (s : nat -> option nat) : (forall u, stands (m u) (s u)) -> stands it x -> forall u, stands (put t it m u) (put t x s u).
Proof. intros A B u. unfold put. destruct (Nat.eqb u t); auto. Qed.
Lemma put_same {A} t (m : nat -> A) u : put t (m t) m u = m u.
Proof. unfold put. destruct (Nat.eqb_spec u t); congruence. Qed.
Lemma set_cache_synced d c : synced d -> cache_ok p l c -> synced (set_cache d c).
Proof. intros (A & B & C) D. repeat split; auto; apply D. Qed.
Lemma call_ok c d m s : synced d -> (forall u, stands (m u) (s u)) ->
  exists d' m', do_call g c d m = SOk (fst (spec_call l c s), (d', m')) /\ synced d' /\ (forall c0, set_cache d' c0 = set_cache d c0) /\ (forall u, stands (m' u) (snd (spec_call l c s) u)).
Proof.
  intros SY M. assert (SY' := SY). destruct SY' as (E1 & E2 & C). destruct c; cbn [do_call spec_call]; fold p.
  - unfold lookup. fold p. rewrite E1. destruct (search_ok p f l PO ST FT AS (d_cache d) k false C) as (c' & o & C' & E & H). rewrite E. cbn [sbind]. rewrite first_val_pos. destruct o as [r|].
    + destruct H as (i & G & B & D). assert (G' := G). destruct G' as (k0 & v & N & _). rewrite (get_value_ok p f l i r k0 v ST G N). cbn [sbind].
      rewrite (first_pos_some (beqb k) l i); [|apply (good_lt p l i r G)| |].
      * rewrite N. cbn. eexists _, _. split; [reflexivity|]. split; [apply set_cache_synced; assumption|]. split; [reflexivity|exact M].
      * destruct D as [D|[D _]]; [|discriminate]. apply bcmp_eq in D. rewrite D. apply beqb_refl.
      * intros j J. rewrite beqb_bcmp, B by exact J. reflexivity.
    + rewrite first_pos_none; [cbn; eexists _, _; split; [reflexivity|]; split; [apply set_cache_synced; assumption|]; split; [reflexivity|exact M]|].
      intros j J. rewrite beqb_bcmp. specialize (H j J). destruct (bcmp k (keyat l j)); auto. congruence.
  - unfold get_by_index. fold p. rewrite E1. destruct (search_index_ok p f l PO ST FT (d_cache d) i C) as (c' & C' & H). destruct (Nat.ltb_spec i (length l)) as [L|L].
    + destruct H as (r & G & E). rewrite E. cbn [sbind]. assert (G' := G). destruct G' as (k & v & N & _). rewrite (get_value_ok p f l i r k v ST G N). cbn [sbind fst snd].
      assert (K := good_key p l i r G). unfold keyat in K. rewrite (nth_error_nth _ _ _ N) in K. cbn in K. rewrite K, N.
      eexists _, _. split; [reflexivity|]. split; [apply set_cache_synced; assumption|]. split; [reflexivity|exact M].
    + rewrite H. cbn [sbind fst snd]. rewrite (proj2 (nth_error_None l i) L). eexists _, _. split; [reflexivity|]. split; [apply set_cache_synced; assumption|]. split; [reflexivity|exact M].
  - eexists _, _. split; [reflexivity|]. split; [exact SY|]. split; [reflexivity|]. apply put_stands; [exact M|apply first_stands].
  - rewrite E1, E2. destruct (last_ok (d_cache d) (m t) (s t) C (M t)) as (c' & it' & E & C' & S). unfold it_result. fold n. rewrite E. cbn [sbind fst snd].
    eexists _, _. split; [reflexivity|]. split; [apply set_cache_synced; assumption|]. split; [reflexivity|]. apply put_stands; assumption.
  - rewrite E1. destruct (jump_ok (d_cache d) k C) as (c' & it' & E & C' & S). unfold it_result. rewrite E. cbn [sbind fst snd].
    eexists _, _. split; [reflexivity|]. split; [apply set_cache_synced; assumption|]. split; [reflexivity|]. apply put_stands; assumption.
  - rewrite E1, E2. destruct (lower_ok (d_cache d) (m t) (s t) k incl C (M t)) as (c' & it' & E & C' & S). unfold it_result. fold n. rewrite E. cbn [sbind fst snd].
    eexists _, _. split; [reflexivity|]. split; [apply set_cache_synced; assumption|]. split; [reflexivity|]. apply put_stands; assumption.
  - rewrite E1, E2. destruct (upper_ok (d_cache d) k incl C) as (c' & it' & E & C' & S). unfold it_result. fold n. rewrite E. cbn [sbind fst snd].
    eexists _, _. split; [reflexivity|]. split; [apply set_cache_synced; assumption|]. split; [reflexivity|]. apply put_stands; assumption.
  - rewrite E1. destruct (next_ok (d_cache d) (m t) (s t) C (M t)) as (c' & it' & E & C' & S). unfold it_result. rewrite E. cbn [sbind].
    assert (X := put_stands t it' _ m s M S).
    eexists _, _. split; [|split; [apply set_cache_synced; [exact SY|exact C']|split; [reflexivity|intros u; specialize (X u)]]].
    + unfold next_spec. fold n. destruct (s t) as [i|]; [|reflexivity]. destruct (Nat.ltb i n); reflexivity.
    + fold n. unfold next_spec in X. destruct (s t) as [i|] eqn:Es.
      * destruct (Nat.ltb i n); cbn [snd] in *; [exact X|]. rewrite <- Es in X. rewrite put_same in X. exact X.
      * cbn [snd] in *. rewrite <- Es in X. rewrite put_same in X. exact X.
  - rewrite E1. destruct (prev_ok (d_cache d) (m t) (s t) C (M t)) as (c' & it' & E & C' & S). unfold it_result. rewrite E. cbn [sbind].
    assert (X := put_stands t it' _ m s M S).
    eexists _, _. split; [|split; [apply set_cache_synced; [exact SY|exact C']|split; [reflexivity|intros u; specialize (X u)]]].
    + unfold prev_spec. fold n. destruct (s t) as [i|]; [|reflexivity]. destruct (Nat.ltb i n); reflexivity.
    + fold n. unfold prev_spec in X. destruct (s t) as [i|] eqn:Es.
      * destruct (Nat.ltb i n); cbn [snd] in *; [exact X|]. rewrite <- Es in X. rewrite put_same in X. exact X.
      * cbn [snd] in *. rewrite <- Es in X. rewrite put_same in X. exact X.
  - rewrite E1. destruct (get_ok (m t) (s t) (M t)) as (st & it' & E & S & EQ). rewrite E. cbn [sbind fst snd].
    eexists _, _. split; [|split; [exact SY|split; [reflexivity|]]].
    + rewrite EQ. destruct (match s t with Some i => nth_error l i | None => None end); reflexivity.
    + intros u. assert (X := put_stands t it' _ m s M S u). rewrite put_same in X. exact X.
Qed.
Lemma calls_ok cs : forall d m s, synced d -> (forall u, stands (m u) (s u)) ->
  exists d', do_calls g cs d m = SOk (spec_calls l cs s, d') /\ synced d' /\ forall c0, set_cache d' c0 = set_cache d c0.
Proof.
  induction cs as [|c cs IH]; intros d m s SY M; [exists d; cbn; auto|]. cbn [do_calls spec_calls].
  destruct (call_ok c d m s SY M) as (d1 & m1 & E & SY1 & SC & M1). rewrite E. destruct (spec_call l c s) as [o s1]. cbn [fst snd sbind] in *.
  destruct (IH d1 m1 s1 SY1 M1) as (d2 & E2 & SY2 & SC2). rewrite E2. cbn. exists d2. split; [reflexivity|]. split; [exact SY2|]. intros c0. rewrite SC2. apply SC.
Qed.
End Calls.
