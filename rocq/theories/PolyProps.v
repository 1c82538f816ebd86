(** C59: PolyDBM opens the database that the path and the parameters name.  The specification is the documentation of OpenAdvanced,
    /repo/tkrzw_dbm_poly.h:276-361. *)
From Coq Require Import List NArith ZArith Bool String Ascii Lia Arith.
Import ListNotations.
From Verif Require Import Bytes StatusModel SearchModel PathModel PolyModel PolyProofs.
Open Scope list_scope.
Open Scope nat_scope.

(** * Specification *)
Definition doc_extensions : list (string * dbclass) :=
  [("tkh", Hash); ("tkt", Tree); ("tks", Skip); ("tkmt", Tiny); ("tkmb", Baby); ("tkmc", Cache); ("tksh", StdHash); ("tkst", StdTree)]%string.
Definition doc_classes : list (string * dbclass) :=
  [("HashDBM", Hash); ("TreeDBM", Tree); ("SkipDBM", Skip); ("TinyDBM", Tiny); ("BabyDBM", Baby); ("CacheDBM", Cache); ("StdHashDBM", StdHash);
   ("StdTreeDBM", StdTree)]%string.
Definition doc_files : list (string * fclass) :=
  [("StdFile", StdFile); ("MemoryMapParallelFile", MemPara); ("MemoryMapAtomicFile", MemAtom); ("PositionalParallelFile", PosPara);
   ("PositionalAtomicFile", PosAtom)]%string.
(** The comparators of the documentation, and those for pairs; those that ignore case are apart. *)
Definition doc_comparators : list (string * comparator) :=
  [("LexicalKeyComparator", Lexical); ("DecimalKeyComparator", Decimal); ("HexadecimalKeyComparator", Hexadecimal); ("RealNumberKeyComparator", RealNumber);
   ("SignedBigEndianKeyComparator", SignedBigEndian); ("FloatBigEndianKeyComparator", FloatBigEndian); ("PairLexicalKeyComparator", PairLexical);
   ("PairDecimalKeyComparator", PairDecimal); ("PairHexadecimalKeyComparator", PairHexadecimal); ("PairRealNumberKeyComparator", PairRealNumber);
   ("PairSignedBigEndianKeyComparator", PairSignedBigEndian); ("PairFloatBigEndianKeyComparator", PairFloatBigEndian)]%string.
Definition short_comparators : list (string * comparator) :=
  [("lexical", Lexical); ("lexicalcase", LexicalCase); ("decimal", Decimal); ("hexadecimal", Hexadecimal); ("realnumber", RealNumber); ("signedbigendian", SignedBigEndian);
   ("floatbigendian", FloatBigEndian); ("pairlexical", PairLexical); ("pairlexicalcase", PairLexicalCase); ("pairdecimal", PairDecimal); ("pairhexadecimal", PairHexadecimal);
   ("pairrealnumber", PairRealNumber); ("pairsignedbigendian", PairSignedBigEndian); ("pairfloatbigendian", PairFloatBigEndian)]%string.
Definition doc_case_comparators : list (string * comparator) :=
  [("LexicalCaseKeyComparator", LexicalCase); ("PairLexicalCaseKeyComparator", PairLexicalCase)]%string.
(** The parameters of each class (num_buckets of StdHashDBM is not documented). *)
Definition doc_params (c : dbclass) : list string :=
  let hash := ["update_mode"; "record_crc_mode"; "record_comp_mode"; "offset_width"; "align_pow"; "num_buckets"; "restore_mode"; "fbp_capacity";
               "min_read_size"; "cache_buckets"; "cipher_key"]%string in
  match c with
  | Hash => hash
  | Tree => hash ++ ["max_page_size"; "max_branches"; "max_cached_pages"; "page_update_mode"; "key_comparator"]%string
  | Skip => ["offset_width"; "step_unit"; "max_level"; "restore_mode"; "sort_mem_size"; "insert_in_order"; "max_cached_records"]%string
  | Tiny => ["num_buckets"]%string
  | Baby => ["key_comparator"]%string
  | Cache => ["cap_rec_num"; "cap_mem_size"]%string
  | StdHash => ["num_buckets"]%string
  | StdTree => []
  end.
Definition doc_ulog : list string := ["ulog_prefix"; "ulog_max_file_size"; "ulog_server_id"; "ulog_dbm_index"]%string.
Definition doc_positional (f : fclass) : list string := match f with PosPara | PosAtom => ["block_size"; "access_options"]%string | _ => [] end.
(** A string in any letter case. *)
Definition spelt (s : string) (b : bytes) : Prop := lower_case b = lower_case (txt s).
Definition named {A} (table : list (string * A)) (b : bytes) (a : A) : Prop := exists s, In (s, a) table /\ spelt s b.
Definition about_log (n : bytes) : Prop := exists r, n = txt "ulog_" ++ r.
Definition known (c : dbclass) (f : fclass) (n : bytes) : Prop :=
  In n (map txt (["dbm"; "file"]%string ++ doc_params c ++ doc_positional f)).
Definition value (ps : params) (n : string) (v : bytes) : Prop := In (txt n, v) ps.
Definition absent (ps : params) (n : string) : Prop := ~ In (txt n) (map fst ps).
(** The class that the arguments ask for: by the parameter "dbm", else by the extension. *)
Definition asks_class (path : bytes) (ps : params) (c : dbclass) : Prop :=
  (exists v, value ps "dbm" v /\ named doc_classes v c) \/
  (absent ps "dbm" /\ exists dir name ext, path = dir ++ name ++ dot :: ext /\ (dir = [] \/ exists d, dir = d ++ [sep]) /\ ~ In sep name /\ named doc_extensions ext c).
Definition asks_file (ps : params) (f : fclass) : Prop :=
  (exists v, value ps "file" v /\ named doc_files v f) \/ (absent ps "file" /\ f = MemPara).
(** The comparator the database gets. *)
Definition asks_comparator (c : dbclass) (ps : params) (k : option comparator) : Prop :=
  match c with
  | Tree => (absent ps "key_comparator" /\ k = None) \/ exists v a, value ps "key_comparator" v /\ named doc_comparators v a /\ k = Some a
  | Baby => (absent ps "key_comparator" /\ k = Some Lexical) \/ exists v a, value ps "key_comparator" v /\ named doc_comparators v a /\ k = Some a
  | _ => k = None
  end.

(** * Facts *)
Lemma is_ulog_spec n : is_ulog n = true <-> about_log n.
Proof.
  unfold is_ulog, about_log. rewrite beqb_eq. split; [intros H; exists (skipn 5 n); rewrite <- H; symmetry; apply firstn_skipn|intros (r & ->); reflexivity].
Qed.
Lemma search_value ps n v d : NoDup (map fst ps) -> In (n, v) ps -> search_map ps n d = v.
Proof.
  induction ps as [|[a w] r IH]; cbn; [tauto|]. intros ND [E|I]; inversion ND as [|? ? Na ND']; subst.
  - inversion E; subst. destruct (beqb_spec n n); congruence.
  - destruct (beqb_spec a n) as [->|]; [exfalso; apply Na; apply in_map_iff; exists (n, v); auto|]. apply IH; auto.
Qed.
Lemma search_in ps n v : search_map ps n [] = v -> v <> [] -> In (n, v) ps.
Proof. induction ps as [|[a w] r IH]; cbn; [congruence|]. intros H N. destruct (beqb_spec a n); subst; auto. Qed.
Lemma search_none ps n d : absent ps n -> search_map ps (txt n) d = d.
Proof. apply search_absent. Qed.
Definition off_log (ps : params) : params := filter (fun a => negb (is_ulog (fst a))) ps.
Lemma off_log_search ps n d : is_ulog n = false -> search_map (off_log ps) n d = search_map ps n d.
Proof. intros H. unfold off_log. apply (search_filter (fun k => negb (is_ulog k))). rewrite H. reflexivity. Qed.
Lemma in_off_log ps a : In a (off_log ps) <-> In a ps /\ ~ about_log (fst a).
Proof. unfold off_log. rewrite filter_In, negb_true_iff, <- is_ulog_spec. destruct (is_ulog (fst a)); intuition congruence. Qed.
Lemma same_names c : tuning_names c = doc_params c.
Proof. destruct c; reflexivity. Qed.

(** Every name that is found is documented or a short one: the literals with a capital letter are never found. *)
Lemma lowered v : ~ In 67%N (lower_case v).
Proof. unfold lower_case. rewrite in_map_iff. intros (c & E & _). unfold lower in E. destruct ((65 <=? c) && (c <=? 90))%N eqn:B; [|subst c; discriminate]. apply andb_true_iff in B. destruct B as [B _]. apply N.leb_le in B. lia. Qed.
Lemma pick_in {A} v (l : list (list string * A)) a : pick v l = Some a -> exists xs x, In (xs, a) l /\ In x xs /\ v = txt x.
Proof.
  induction l as [|[xs b] l IH]; cbn [pick]; [discriminate|]. unfold any_of. destruct (existsb _ xs) eqn:E; intros H.
  - inversion H; subst b. apply existsb_exists in E. destruct E as (x & I & E). apply beqb_eq in E. exists xs, x. cbn. auto.
  - destruct (IH H) as (ys & y & I & J). exists ys, y. cbn. auto.
Qed.
Definition cmp_eq_dec (a b : comparator) : {a = b} + {a <> b}.
Proof. decide equality. Defined.
Lemma comparator_known v a : comparator_of v = Some a -> named (doc_comparators ++ short_comparators) v a.
Proof.
  unfold comparator_of. intros H. apply pick_in in H. match type of H with exists xs x, In (xs, a) ?t /\ _ => set (table := t) in H end.
  assert (C : forallb (fun e => forallb (fun x => existsb (N.eqb 67) (txt x) ||
            existsb (fun d => beqb (txt x) (lower_case (txt (fst d))) && if cmp_eq_dec (snd d) (snd e) then true else false) (doc_comparators ++ short_comparators)) (fst e)) table = true)
    by (vm_compute; reflexivity).
  destruct H as (xs & x & I & J & E). rewrite forallb_forall in C. specialize (C _ I). cbn [fst snd] in C. rewrite forallb_forall in C. specialize (C _ J). apply orb_true_iff in C.
  destruct C as [C|C]; apply existsb_exists in C.
  - destruct C as (c & Ic & Ec). apply N.eqb_eq in Ec. subst c. exfalso. apply (lowered v). rewrite E. exact Ic.
  - destruct C as ([s b] & Id & Ed). cbn [fst snd] in Ed. apply andb_true_iff in Ed. destruct Ed as [E1 E2]. apply beqb_eq in E1. destruct (cmp_eq_dec b a); [subst b|discriminate].
    exists s. split; [exact Id|]. unfold spelt. congruence.
Qed.

Section Env.
  Variables (db_open : dbclass -> fclass -> bytes -> code) (mq_open : bytes -> code) (metric : bytes -> Z).
  Notation opena := (open_advanced db_open mq_open metric).
  Lemma wanted_asked path ps c : NoDup (map fst ps) -> asks_class path ps c -> wanted_class path (off_log ps) = Some c.
  Proof.
    intros ND [(v & V & s & I & S)|(A & dir & name & ext & -> & D & N & s & I & S)]; unfold wanted_class; rewrite off_log_search by reflexivity.
    - rewrite (search_value ps _ v _ ND V). unfold spelt in S. rewrite S. cbn in I. repeat (destruct I as [I|I]; [inversion I; subst; reflexivity|]). destruct I.
    - rewrite search_none by auto. cbn [lower_case map].
      assert (X : ext <> [] /\ ~ In sep ext /\ ~ In dot ext).
      { assert (Y : lower_case ext <> [] /\ ~ In sep (lower_case ext) /\ ~ In dot (lower_case ext)).
        { unfold spelt in S. rewrite S. cbn in I. repeat (destruct I as [I|I]; [inversion I; subst; vm_compute; intuition discriminate|]). destruct I. }
        rewrite !in_lower in Y by (intros; apply lower_sep). destruct Y as (Y1 & Y2). split; auto. intros ->. apply Y1. reflexivity. }
      destruct X as (X1 & X2 & X3). unfold guess. rewrite guess_ext by auto. unfold spelt in S. rewrite S. cbn in I.
      repeat (destruct I as [I|I]; [inversion I; subst; reflexivity|]). destruct I.
  Qed.
  Lemma file_asked ps f : NoDup (map fst ps) -> asks_file ps f ->
    make_file (erase (txt "dbm") (off_log ps)) = (Some f, erase_all (doc_positional f) (erase (txt "file") (erase (txt "dbm") (off_log ps)))).
  Proof.
    intros ND H. unfold make_file. rewrite search_other by discriminate. rewrite off_log_search by reflexivity. destruct H as [(v & V & s & I & S)|(A & ->)].
    - rewrite (search_value ps _ v _ ND V). unfold spelt in S. rewrite S. cbn in I. repeat (destruct I as [I|I]; [inversion I; subst; reflexivity|]). destruct I.
    - rewrite search_none by auto. reflexivity.
  Qed.
  Lemma comparator_asked ps c f k : NoDup (map fst ps) -> asks_comparator c ps k ->
    let ps1 := erase_all (doc_positional f) (erase (txt "file") (erase (txt "dbm") (off_log ps))) in
    the_comparator c ps1 (erase_all (tuning_names c) ps1) = Some k.
  Proof.
    intros ND H ps1.
    assert (E : search_map ps1 (txt "key_comparator") [] = search_map ps (txt "key_comparator") []).
    { unfold ps1. rewrite search_others by (destruct f; vm_compute; intuition discriminate). rewrite !search_other by discriminate. apply off_log_search. reflexivity. }
    assert (L : c = Tree -> search_map (erase_all (tuning_names c) ps1) (txt "key_comparator") [] = []).
    { intros ->. apply search_absent. rewrite in_map_iff. intros (a & Ea & Ia). apply in_erase_all in Ia. destruct Ia as [_ Ia]. apply Ia. rewrite Ea. apply in_map.
      unfold tuning_names. rewrite in_app_iff. right. cbn. tauto. }
    unfold the_comparator. destruct c; cbn [asks_comparator] in H; try (subst k; reflexivity).
    - rewrite L by reflexivity. rewrite E. destruct H as [[A ->]|(v & a & V & (s & I & S) & ->)].
      + rewrite search_none by auto. reflexivity.
      + rewrite (search_value ps _ v _ ND V). unfold comparator_of. unfold spelt in S. rewrite S. cbn in I. repeat (destruct I as [I|I]; [inversion I; subst; reflexivity|]). destruct I.
    - rewrite E. destruct H as [[A ->]|(v & a & V & (s & I & S) & ->)].
      + rewrite search_none by auto. reflexivity.
      + rewrite (search_value ps _ v _ ND V). unfold comparator_of. unfold spelt in S.
        destruct v as [|x v]; [exfalso; cbn in I; repeat (destruct I as [I|I]; [inversion I; subst; discriminate|]); destruct I|]. rewrite S. cbn in I.
        repeat (destruct I as [I|I]; [inversion I; subst; reflexivity|]). destruct I.
  Qed.
  (** What is left of the parameters. *)
  Lemma left_known ps c f : erase_all (tuning_names c) (erase_all (doc_positional f) (erase (txt "file") (erase (txt "dbm") (off_log ps)))) = [] <->
    (forall n, In n (map fst ps) -> known c f n \/ about_log n).
  Proof.
    assert (M : forall a, In a (erase_all (tuning_names c) (erase_all (doc_positional f) (erase (txt "file") (erase (txt "dbm") (off_log ps))))) <->
                In a ps /\ ~ about_log (fst a) /\ ~ known c f (fst a)).
    { intros a. rewrite !in_erase_all, !in_erase, in_off_log, same_names. unfold known. rewrite !map_app, !in_app_iff. cbn [map In]. intuition. }
    destruct (erase_all (tuning_names c) _) as [|b l] eqn:E; rewrite ?E; split; auto.
    - intros _ n I. apply in_map_iff in I. destruct I as (a & <- & I).
      assert (D : {known c f (fst a)} + {~ known c f (fst a)}) by (unfold known; apply in_dec; apply (list_eq_dec N.eq_dec)).
      destruct D as [D|D]; auto. right. destruct (is_ulog (fst a)) eqn:U; [apply is_ulog_spec; auto|]. exfalso. apply (proj2 (M a)).
      repeat split; auto. rewrite <- is_ulog_spec. congruence.
    - discriminate.
    - intros H. exfalso. destruct (proj1 (M b) (or_introl eq_refl)) as (I & N1 & N2). destruct (H (fst b)); auto. apply in_map. exact I.
  Qed.
  Lemma make_file_left ps1 f l : make_file ps1 = (Some f, l) -> l = erase_all (doc_positional f) (erase (txt "file") ps1).
  Proof. unfold make_file. destruct (pick _ _) as [f'|]; [|discriminate]. intros E; inversion E; subst. destruct f; reflexivity. Qed.
  Lemma log_left ps cd lg e l : make_logger mq_open metric (filter (fun a => is_ulog (fst a)) ps) = (cd, lg, e, l) ->
    (l = [] <-> forall n, In n (map fst ps) -> about_log n -> In n (map txt doc_ulog)) /\ (cd = SUCCESS \/ exists prefix, cd = mq_open prefix /\ e = [ELog prefix] /\ value ps "ulog_prefix" prefix).
  Proof.
    intros H.
    assert (L : l = erase_all doc_ulog (filter (fun a => is_ulog (fst a)) ps) /\ (cd = SUCCESS \/ exists prefix, cd = mq_open prefix /\ e = [ELog prefix] /\ value ps "ulog_prefix" prefix)).
    { unfold make_logger in H. rewrite !(search_filter is_ulog) in H by reflexivity. destruct (search_map ps (txt "ulog_prefix") []) as [|x pf] eqn:S; [inversion H; auto|].
      destruct (0 <? metric _)%Z; inversion H; subst; split; auto. right. exists (x :: pf). repeat split. unfold value.
      apply search_in; [exact S|discriminate]. }
    destruct L as [-> L]. split; [|exact L].
    assert (M : forall a, In a (erase_all doc_ulog (filter (fun a => is_ulog (fst a)) ps)) <-> In a ps /\ about_log (fst a) /\ ~ In (fst a) (map txt doc_ulog))
      by (intros a; rewrite in_erase_all, filter_In, is_ulog_spec; tauto).
    destruct (erase_all doc_ulog _) as [|b q] eqn:E; split; auto; try discriminate.
    - intros _ n I U. apply in_map_iff in I. destruct I as (a & <- & I). destruct (in_dec (list_eq_dec N.eq_dec) (fst a) (map txt doc_ulog)) as [D|D]; auto.
      exfalso. apply (proj2 (M a)). auto.
    - intros H2. exfalso. destruct (proj1 (M b) (or_introl eq_refl)) as (I & U & N2). apply N2, H2; auto. apply in_map. exact I.
  Qed.

  (** * Theorems *)
  (** Arguments as documented are accepted, and the database that is opened is the one they ask for. *)
  Theorem C59_documented_partial : forall path ps p c f k, NoDup (map fst ps) -> p_dbm p = None ->
    asks_class path ps c -> asks_file ps f -> asks_comparator c ps k -> path <> [] ->
    (forall n, In n (map fst ps) -> known c f n \/ In n (map txt doc_ulog)) ->
    db_open c f path = SUCCESS -> (forall prefix, value ps "ulog_prefix" prefix -> mq_open prefix = SUCCESS) ->
    exists logger log, opena path ps p = (SUCCESS, mkPoly (Some (mkInst c f k true logger)) true, EOpen c f k path :: log).
  Proof.
    intros path ps p c f k ND P C F K NE Kn Do Mo. unfold open_advanced. rewrite P. fold (off_log ps). rewrite (wanted_asked path ps c ND C), (file_asked ps f ND F).
    rewrite (comparator_asked ps c f k ND K).
    assert (E : erase_all (tuning_names c) (erase_all (doc_positional f) (erase (txt "file") (erase (txt "dbm") (off_log ps)))) = []).
    { apply left_known. intros n I. destruct (Kn n I) as [H|H]; auto. right. cbn in H. repeat (destruct H as [<-|H]; [eexists; reflexivity|]). destruct H. }
    rewrite E. replace (match path with [] => false | _ => true end) with true by (destruct path; congruence). rewrite orb_true_r. rewrite Do. cbn [code_eqb negb].
    change (negb (code_eqb SUCCESS SUCCESS)) with false. cbv iota.
    destruct (make_logger mq_open metric (filter (fun a => is_ulog (fst a)) ps)) as [[[lcd lg] e] l] eqn:L. destruct (log_left ps lcd lg e l L) as [L1 L2].
    assert (l = []) as ->.
    { apply L1. intros n I U. destruct (Kn n I) as [H|H]; auto. exfalso. apply is_ulog_spec in U. unfold known in H.
      apply in_map_iff in H. destruct H as (s & <- & H). revert U. rewrite in_app_iff in H. destruct H as [H|H].
      { cbn in H. repeat (destruct H as [<-|H]; [discriminate|]). destruct H. }
      rewrite in_app_iff in H. destruct H as [H|H]; [destruct c|destruct f]; cbn in H; repeat (destruct H as [<-|H]; [discriminate|]); destruct H. }
    assert (lcd = SUCCESS) as -> by (destruct L2 as [?|(pf & -> & _ & V)]; auto). cbn. exists lg, e. reflexivity.
  Qed.
  (** The documented classes by extension alone. *)
  Theorem C59_extension : forall dir name ext c p, (dir = [] \/ exists d, dir = d ++ [sep]) -> ~ In sep name -> named doc_extensions ext c -> p_dbm p = None ->
    let path := dir ++ name ++ dot :: ext in let k := match c with Baby => Some Lexical | _ => None end in
    opena path [] p = match db_open c MemPara path with
                      | SUCCESS => (SUCCESS, mkPoly (Some (mkInst c MemPara k true false)) true, [EOpen c MemPara k path])
                      | cd => (cd, p, [EOpen c MemPara k path])
                      end.
  Proof.
    intros dir name ext c p D N I P path k. unfold open_advanced. rewrite P. cbn [filter].
    assert (W : wanted_class path [] = Some c) by (apply (wanted_asked path [] c); [apply NoDup_nil|right; split; [intros []|exists dir, name, ext; auto]]). rewrite W.
    replace (match path with [] => false | _ => true end) with true by (unfold path; destruct dir, name; reflexivity).
    rewrite orb_true_r. destruct c; cbn; match goal with |- context [db_open ?a ?b ?d] => destruct (db_open a b d) end; reflexivity.
  Qed.
  (** An argument that is not known: no database is opened if it is not about the update log; in any case none is open afterwards. *)
  Theorem C59_unknown_params : forall path ps p, p_dbm p = None ->
    match opena path ps p with (cd, p', log) =>
      (forall c f k q, In (EOpen c f k q) log -> q = path /\ forall n, In n (map fst ps) -> known c f n \/ about_log n) /\
      (cd <> SUCCESS -> p_dbm p' = None) /\
      (cd = SUCCESS -> exists i, p_dbm p' = Some i /\ forall n, In n (map fst ps) -> known (i_class i) (i_file i) n \/ In n (map txt doc_ulog))
    end.
  Proof.
    intros path ps p P. unfold open_advanced. rewrite P. fold (off_log ps). destruct (wanted_class path (off_log ps)) as [c|]; [|cbn; repeat split; auto; try tauto; discriminate].
    destruct (make_file (erase (txt "dbm") (off_log ps))) as [[f|] ps1] eqn:F; [|cbn; repeat split; auto; try tauto; discriminate]. apply make_file_left in F. subst ps1.
    set (ps1 := erase_all (doc_positional f) _).
    destruct (the_comparator c ps1 (erase_all (tuning_names c) ps1)) as [k|]; [|cbn; repeat split; auto; try tauto; discriminate].
    destruct (erase_all (tuning_names c) ps1) eqn:E; [|cbn; repeat split; auto; try tauto; discriminate]. pose proof (proj1 (left_known ps c f) E) as Kn.
    set (opens := always c || _).
    assert (G : forall e2 c0 f0 k0 q, In (EOpen c0 f0 k0 q) ((if opens then [EOpen c f k path] else []) ++ e2) -> (forall c1 f1 k1 q1, ~ In (EOpen c1 f1 k1 q1) e2) -> c0 = c /\ f0 = f /\ q = path).
    { intros e2 c0 f0 k0 q I N. apply in_app_iff in I. destruct I as [I|I]; [|exfalso; eapply N; eauto]. destruct opens; cbn in I; [|tauto]. destruct I as [I|[]]. inversion I; auto. }
    destruct (code_eqb_spec (if opens then db_open c f path else SUCCESS) SUCCESS) as [S|S]; cbn [negb].
    - destruct (make_logger mq_open metric (filter (fun a => is_ulog (fst a)) ps)) as [[[lcd lg] e] l] eqn:L. destruct (log_left ps lcd lg e l L) as [L1 L2].
      assert (Ne : forall c1 f1 k1 q1, ~ In (EOpen c1 f1 k1 q1) e).
      { intros c1 f1 k1 q1 I. unfold make_logger in L. destruct (search_map _ (txt "ulog_prefix") []); [inversion L; subst; destruct I|].
        destruct (0 <? metric _)%Z; inversion L; subst; cbn in I; [destruct I as [I|[]]; discriminate|destruct I]. }
      set (status := match lcd with SUCCESS => _ | _ => _ end). destruct (code_eqb_spec status SUCCESS) as [T|T]; (split; [|split]).
      + intros c0 f0 k0 q I. destruct (G e c0 f0 k0 q I Ne) as (-> & -> & ->). auto.
      + congruence.
      + intros _. eexists; split; [reflexivity|]. cbn [i_class i_file]. intros n I. destruct (Kn n I) as [|U]; auto. right. apply L1; auto.
        unfold status in T. destruct lcd; try discriminate. destruct l; [reflexivity|discriminate].
      + intros c0 f0 k0 q I. destruct (G e c0 f0 k0 q I Ne) as (-> & -> & ->). auto.
      + reflexivity.
      + contradiction.
    - split; [|split]; auto; [|contradiction]. intros c0 f0 k0 q I. destruct (G [] c0 f0 k0 q) as (-> & -> & ->); auto. rewrite app_nil_r. exact I.
  Qed.
  (** BabyDBM rejects a comparator whose name is neither documented nor one of the short names, and opens nothing. *)
  Theorem C59_unknown_comparator : forall path ps p v, NoDup (map fst ps) -> p_dbm p = None -> asks_class path ps Baby -> value ps "key_comparator" v -> v <> [] ->
    (forall a, ~ named (doc_comparators ++ short_comparators) v a) -> opena path ps p = (INVALID_ARGUMENT_ERROR, p, []).
  Proof.
    intros path ps p v ND P C V NE U. unfold open_advanced. rewrite P. fold (off_log ps). rewrite (wanted_asked path ps Baby ND C).
    destruct (make_file (erase (txt "dbm") (off_log ps))) as [[f|] ps1] eqn:F; [|reflexivity]. apply make_file_left in F. subst ps1.
    unfold the_comparator. rewrite search_others by (destruct f; vm_compute; intuition discriminate). rewrite !search_other by discriminate. rewrite off_log_search by reflexivity.
    rewrite (search_value ps _ v _ ND V). destruct v as [|x v]; [congruence|]. destruct (comparator_of (x :: v)) as [a|] eqn:E; [|reflexivity]. exfalso. eapply U, comparator_known, E.
  Qed.
  (** A comparator that ignores case has a name that BabyDBM rejects and TreeDBM takes for no name at all; so TreeDBM does with every name it does not know. *)
  Theorem C59_case_comparator_refuted : forall v, (exists a, named doc_case_comparators v a) -> forall path, path <> [] ->
    opena path [(txt "dbm", txt "BabyDBM"); (txt "key_comparator", v)] poly_new = (INVALID_ARGUMENT_ERROR, poly_new, []) /\
    (db_open Tree MemPara path = SUCCESS ->
     opena path [(txt "dbm", txt "TreeDBM"); (txt "key_comparator", v)] poly_new =
       (SUCCESS, mkPoly (Some (mkInst Tree MemPara None true false)) true, [EOpen Tree MemPara None path])).
  Proof.
    intros v (a & s & I & S) path NE.
    assert (E : comparator_of v = None).
    { unfold comparator_of. unfold spelt in S. rewrite S. cbn in I. repeat (destruct I as [I|I]; [inversion I; subst; reflexivity|]). destruct I. }
    assert (V : v <> []) by (intros ->; cbn in I; repeat (destruct I as [I|I]; [inversion I; subst; discriminate|]); destruct I).
    split.
    - unfold open_advanced. cbn [p_dbm poly_new]. change (wanted_class path _) with (Some Baby). cbv iota. change (make_file _) with (Some MemPara, [(txt "key_comparator", v)]). cbv iota.
      unfold the_comparator. change (search_map [(txt "key_comparator", v)] (txt "key_comparator") []) with v. destruct v; [congruence|]. rewrite E. reflexivity.
    - intros Do. unfold open_advanced. cbn [p_dbm poly_new]. change (wanted_class path _) with (Some Tree). cbv iota. change (make_file _) with (Some MemPara, [(txt "key_comparator", v)]). cbv iota.
      unfold the_comparator. change (search_map [(txt "key_comparator", v)] (txt "key_comparator") []) with v. rewrite E. cbn. rewrite Do. reflexivity.
  Qed.
  Theorem C59_tree_comparator_refuted : forall v path, comparator_of v = None -> db_open Tree MemPara path = SUCCESS ->
    opena path [(txt "dbm", txt "TreeDBM"); (txt "key_comparator", v)] poly_new =
      (SUCCESS, mkPoly (Some (mkInst Tree MemPara None true false)) true, [EOpen Tree MemPara None path]).
  Proof.
    intros v path E Do. unfold open_advanced. cbn [p_dbm poly_new]. change (wanted_class path _) with (Some Tree). cbv iota.
    change (make_file _) with (Some MemPara, [(txt "key_comparator", v)]). cbv iota.
    unfold the_comparator. change (search_map [(txt "key_comparator", v)] (txt "key_comparator") []) with v. rewrite E. cbn. rewrite Do. reflexivity.
  Qed.
End Env.

(** Sessions: any calls of OpenAdvanced and Close, each with what the database and the queue answer. *)
Inductive pcall :=
  | POpen (db_open : dbclass -> fclass -> bytes -> code) (mq_open : bytes -> code) (metric : bytes -> Z) (path : bytes) (ps : params)
  | PClose (db_close mq_close : code).
Definition pstep (p : poly) (c : pcall) : poly :=
  match c with POpen d m z path ps => snd (fst (open_advanced d m z path ps p)) | PClose d m => snd (close d m p) end.
(** The update log, if any, is opened, and its parameters are documented. *)
Definition log_fine (c : pcall) : Prop :=
  match c with
  | POpen d m z path ps => (forall n, In n (map fst ps) -> about_log n -> In n (map txt doc_ulog)) /\ forall prefix, m prefix = SUCCESS
  | PClose _ _ => True
  end.
(** Then Close gives what closing the database gives, or succeeds if the database is in memory only. *)
Theorem C59_close_partial : forall calls db_close, Forall log_fine calls ->
  let p := fold_left pstep calls poly_new in
  match p_dbm p with
  | None => close db_close SUCCESS p = (PRECONDITION_ERROR, p)
  | Some i => close db_close SUCCESS p = (if is_open p then db_close else SUCCESS, poly_new)
  end.
Proof.
  intros calls db_close Fi p.
  assert (I : p_open p = is_open p).
  { unfold p. clear p. assert (H : p_open poly_new = is_open poly_new) by reflexivity. revert H. generalize poly_new as p. induction Fi as [|c r Fc _ IH]; intros p H; cbn [fold_left]; auto.
    apply IH. clear IH. destruct c as [d m z path ps|d m]; cbn [pstep].
    - unfold open_advanced. destruct (p_dbm p) eqn:P; [exact H|]. assert (O : p_open p = false) by (rewrite H; unfold is_open; rewrite P; reflexivity).
      destruct (wanted_class _ _) as [c|]; [|exact H]. destruct (make_file _) as [[f|] ps1]; [|exact H]. destruct (the_comparator _ _ _); [|exact H].
      destruct (erase_all (tuning_names c) ps1); [|exact H]. destruct (negb _); [exact H|].
      destruct (make_logger m z (filter (fun a => is_ulog (fst a)) ps)) as [[[lcd lg] e] l] eqn:L. destruct (log_left m z ps lcd lg e l L) as [L1 L2]. destruct Fc as [F1 F2].
      assert (l = []) as -> by (apply L1; auto). assert (lcd = SUCCESS) as -> by (destruct L2 as [?|(pf & -> & _)]; auto). cbn. rewrite O, orb_false_r. reflexivity.
    - unfold close. destruct (p_dbm p) eqn:P; [reflexivity|exact H]. }
  unfold close. destruct (p_dbm p) as [i|] eqn:P; [|reflexivity]. rewrite I. unfold is_open. rewrite P. destruct (i_logger i), (i_opened i); reflexivity.
Qed.
(** Without that: a call rejected for a parameter of the update log has opened the database, and after it closing another one that is in memory only fails. *)
Definition yes : dbclass -> fclass -> bytes -> code := fun _ _ _ => SUCCESS.
Theorem C59_rejected_refuted :
  let calls := [POpen yes (fun _ => SUCCESS) (fun _ => 1%Z) (txt "casket.tkh") [(txt "ulog_prefx", txt "log")]; POpen yes (fun _ => SUCCESS) (fun _ => 1%Z) [] []] in
  fst (fst (open_advanced yes (fun _ => SUCCESS) (fun _ => 1%Z) (txt "casket.tkh") [(txt "ulog_prefx", txt "log")] poly_new)) = INVALID_ARGUMENT_ERROR /\
  snd (open_advanced yes (fun _ => SUCCESS) (fun _ => 1%Z) (txt "casket.tkh") [(txt "ulog_prefx", txt "log")] poly_new) = [EOpen Hash MemPara None (txt "casket.tkh")] /\
  is_open (fold_left pstep calls poly_new) = false /\ p_dbm (fold_left pstep calls poly_new) <> None /\
  fst (close SUCCESS SUCCESS (fold_left pstep calls poly_new)) = PRECONDITION_ERROR /\
  fst (close SUCCESS SUCCESS (fold_left pstep (tl calls) poly_new)) = SUCCESS.
Proof. vm_compute. repeat split; discriminate. Qed.
(** The default file is documented to be a MemoryMapAtomicFile. *)
Theorem C59_default_file_refuted : forall db_open mq_open metric path c f k q log cd p',
  open_advanced db_open mq_open metric path [] poly_new = (cd, p', EOpen c f k q :: log) -> f = MemPara /\ f <> MemAtom.
Proof.
  intros db_open mq_open metric path c f k q log cd p' H. unfold open_advanced in H. cbn [p_dbm poly_new filter] in H. destruct (wanted_class path []) as [c'|]; [|inversion H].
  assert (X : f = MemPara); [|subst; split; [reflexivity|discriminate]].
  destruct c'; cbn in H; destruct path; cbn in H; try match type of H with context [db_open ?a ?b ?d] => destruct (db_open a b d) end; cbn in H; inversion H; reflexivity.
Qed.
(** Reducers. *)
Definition doc_reducers : list (string * reducer) :=
  [("ReduceRemove", RRemove); ("ReduceToFirst", RFirst); ("ReduceToSecond", RSecond); ("ReduceToLast", RLast); ("ReduceConcat", RConcat); ("ReduceConcatWithNull", RConcatNull);
   ("ReduceConcatWithTab", RConcatTab); ("ReduceConcatWithLine", RConcatLine); ("ReduceToTotal", RTotal); ("ReduceToTotalBigEndian", RTotalBigEndian);
   ("First", RFirst); ("Second", RSecond); ("Last", RLast); ("Concat", RConcat); ("Total", RTotal)]%string.
Theorem C59_reducer_partial : forall v a, named doc_reducers v a -> reducer_of v = Some a.
Proof.
  intros v a (s & I & S). unfold spelt in S. unfold reducer_of. rewrite S. destruct (any_of v ["remove"]%string) eqn:E.
  - exfalso. cbn in E. rewrite orb_false_r in E. apply beqb_eq in E. subst v. cbn in I. repeat (destruct I as [I|I]; [inversion I; subst; discriminate|]). destruct I.
  - cbn in I. repeat (destruct I as [I|I]; [inversion I; subst; reflexivity|]). destruct I.
Qed.
Theorem C59_reducer_refuted : reducer_of (txt "remove") = Some RRemove /\ reducer_of (txt "Remove") = None /\ reducer_of (txt "First") = Some RFirst.
Proof. vm_compute. auto. Qed.

(** "/data/Sales.2020.TKT" with a comparator, a positional file and an update log. *)
Definition case_path : bytes := txt "/data/Sales.2020.TKT".
Definition case_params : params :=
  [(txt "file", txt "PositionalAtomicFile"); (txt "block_size", txt "512"); (txt "key_comparator", txt "decimalKEYcomparator"); (txt "ulog_prefix", txt "log")].
Example C59_documented_case : NoDup (map fst case_params) /\ asks_class case_path case_params Tree /\ asks_file case_params PosAtom /\
  asks_comparator Tree case_params (Some Decimal) /\ (forall n, In n (map fst case_params) -> known Tree PosAtom n \/ In n (map txt doc_ulog)) /\
  open_advanced yes (fun _ => SUCCESS) (fun _ => 1%Z) case_path case_params poly_new =
    (SUCCESS, mkPoly (Some (mkInst Tree PosAtom (Some Decimal) true true)) true, [EOpen Tree PosAtom (Some Decimal) case_path; ELog (txt "log")]).
Proof.
  split; [|split; [|split; [|split; [|split]]]].
  - repeat constructor; cbn; intuition discriminate.
  - right. split; [vm_compute; intuition discriminate|]. exists (txt "/data/"), (txt "Sales.2020"), (txt "TKT"). split; [reflexivity|]. split; [right; exists (txt "/data"); reflexivity|].
    split; [vm_compute; intuition discriminate|]. exists "tkt"%string. split; [cbn; auto|reflexivity].
  - left. exists (txt "PositionalAtomicFile"). split; [left; reflexivity|]. exists "PositionalAtomicFile"%string. split; [cbn; auto 10|reflexivity].
  - right. exists (txt "decimalKEYcomparator"), Decimal. split; [right; right; left; reflexivity|]. split; [|reflexivity]. exists "DecimalKeyComparator"%string. split; [cbn; auto|reflexivity].
  - intros n I. cbn in I. destruct I as [<-|[<-|[<-|[<-|[]]]]]; vm_compute; auto 40.
  - reflexivity.
Qed.
Example C59_unknown_case :
  open_advanced yes (fun _ => SUCCESS) (fun _ => 1%Z) (txt "a.tkh") [(txt "max_page_size", txt "100")] poly_new = (INVALID_ARGUMENT_ERROR, poly_new, []) /\
  open_advanced yes (fun _ => SUCCESS) (fun _ => 1%Z) (txt "a.txt") [] poly_new = (INVALID_ARGUMENT_ERROR, poly_new, []).
Proof. split; reflexivity. Qed.
Example C59_unknown_comparator_case : comparator_of (txt "lexicographic") = None /\ (forall a, ~ named (doc_comparators ++ short_comparators) (txt "lexicographic") a) /\
  open_advanced yes (fun _ => SUCCESS) (fun _ => 1%Z) (txt "a.tkmb") [(txt "key_comparator", txt "lexicographic")] poly_new = (INVALID_ARGUMENT_ERROR, poly_new, []).
Proof.
  split; [reflexivity|]. split; [|reflexivity]. intros a (s & I & S). unfold spelt in S. cbn in I. repeat (destruct I as [I|I]; [inversion I; subst; vm_compute in S; discriminate|]). destruct I.
Qed.
Example C59_close_case :
  let calls := [POpen yes (fun _ => SUCCESS) (fun _ => 1%Z) case_path case_params; PClose SUCCESS SUCCESS; POpen yes (fun _ => SUCCESS) (fun _ => 1%Z) (txt "x.tkmb-tmp") []] in
  is_open (fold_left pstep calls poly_new) = true /\ close SYSTEM_ERROR SUCCESS (fold_left pstep calls poly_new) = (SYSTEM_ERROR, poly_new).
Proof. split; reflexivity. Qed.
Print Assumptions C59_documented_partial.
Print Assumptions C59_extension.
Print Assumptions C59_unknown_params.
Print Assumptions C59_unknown_comparator.
Print Assumptions C59_case_comparator_refuted.
Print Assumptions C59_tree_comparator_refuted.
Print Assumptions C59_close_partial.
Print Assumptions C59_rejected_refuted.
Print Assumptions C59_default_file_refuted.
Print Assumptions C59_reducer_partial.
Print Assumptions C59_reducer_refuted.
