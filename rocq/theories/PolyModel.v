(** PolyDBM: choosing and opening a database by the extension of the path and by parameters.  Source: /repo/tkrzw_dbm_poly.cc:66-588 and
    /repo/tkrzw_file_poly.cc:177-220.
    Simplified: parameters that are numbers or modes of HashDBM, TreeDBM, SkipDBM, TinyDBM, CacheDBM and StdHashDBM are read and handed to the database as
    they are; only their names are in the model, not their values.  What the databases and the message queue answer when they are opened and closed is
    a parameter.  std::map is a list of pairs with distinct names, in any order. *)
From Coq Require Import List NArith ZArith Bool String Ascii.
Import ListNotations.
From Verif Require Import Bytes StatusModel SearchModel PathModel.
Open Scope list_scope.

(** A literal of the source. *)
Definition txt (s : string) : bytes := map N_of_ascii (list_ascii_of_string s).
Definition params := list (bytes * bytes).
(** SearchMap, tkrzw_lib_common.h:262-267. *)
Fixpoint search_map (ps : params) (k d : bytes) : bytes := match ps with [] => d | (a, v) :: r => if beqb a k then v else search_map r k d end.
(** std::map::erase of a key, and of several. *)
Definition erase (k : bytes) (ps : params) : params := filter (fun a => negb (beqb (fst a) k)) ps.
Definition erase_all (ks : list string) (ps : params) : params := fold_left (fun ps k => erase (txt k) ps) ks ps.
Definition any_of (s : bytes) (l : list string) : bool := existsb (fun x => beqb s (txt x)) l.
(** A chain of "if (s == x || s == y) return a;". *)
Fixpoint pick {A} (s : bytes) (l : list (list string * A)) : option A :=
  match l with [] => None | (xs, a) :: r => if any_of s xs then Some a else pick s r end.

(** The classes of databases, of files and the comparators. *)
Inductive dbclass := Hash | Tree | Skip | Tiny | Baby | Cache | StdHash | StdTree.
Inductive fclass := StdFile | MemPara | MemAtom | PosPara | PosAtom.
Inductive comparator := Lexical | LexicalCase | Decimal | Hexadecimal | RealNumber | SignedBigEndian | FloatBigEndian
  | PairLexical | PairLexicalCase | PairDecimal | PairHexadecimal | PairRealNumber | PairSignedBigEndian | PairFloatBigEndian.

(** GuessClassNameFromPath, tkrzw_dbm_poly.cc:66-91.  The empty string is returned for None. *)
Definition guess (path : bytes) : option dbclass :=
  let base := lower_case (base_name path) in
  let ext0 := extension base in
  let ext := match find_char 45 ext0 with Some n => firstn n ext0 | None => ext0 end in
  pick ext [(["tkh"; "hash"], Hash); (["tkt"; "tree"], Tree); (["tks"; "skip"], Skip); (["tkmt"; "tiny"; "flat"], Tiny); (["tkmb"; "baby"], Baby);
    (["tkmc"; "cache"], Cache); (["tksh"; "stdhash"], StdHash); (["tkst"; "stdtree"], StdTree)]%string.
(** GetKeyComparatorByName, tkrzw_dbm_poly.cc:93-138, with its literals. *)
Definition comparator_of (name : bytes) : option comparator :=
  pick (lower_case name)
   [(["lexicalkeycomparator"; "lexical"], Lexical); (["lexicalCasekeycomparator"; "lexicalcase"], LexicalCase);
    (["decimalkeycomparator"; "decimal"], Decimal); (["hexadecimalkeycomparator"; "hexadecimal"], Hexadecimal);
    (["realnumberkeycomparator"; "realnumber"], RealNumber); (["signedbigendiankeycomparator"; "signedbigendian"], SignedBigEndian);
    (["floatbigendiankeycomparator"; "floatbigendian"], FloatBigEndian); (["pairlexicalkeycomparator"; "pairlexical"], PairLexical);
    (["pairlexicalCasekeycomparator"; "pairlexicalcase"], PairLexicalCase); (["pairdecimalkeycomparator"; "pairdecimal"], PairDecimal);
    (["pairhexadecimalkeycomparator"; "pairhexadecimal"], PairHexadecimal); (["pairrealnumberkeycomparator"; "pairrealnumber"], PairRealNumber);
    (["pairsignedbigendiankeycomparator"; "pairsignedbigendian"], PairSignedBigEndian);
    (["pairfloatbigendiankeycomparator"; "pairfloatbigendian"], PairFloatBigEndian)]%string.
(** PolyFile::MakeFileInstance, tkrzw_file_poly.cc:177-220: the class, and the parameters that are left. *)
Definition positional (f : fclass) : bool := match f with PosPara | PosAtom => true | _ => false end.
Definition make_file (ps : params) : option fclass * params :=
  let c := pick (lower_case (search_map ps (txt "file") []))
   [(["stdfile"; "std"], StdFile); ([""; "memorymapparallelfile"; "mmap-para"], MemPara); (["memorymapatomicfile"; "mmap-atom"], MemAtom);
    (["positionalparallelfile"; "pos-para"], PosPara); (["positionalatomicfile"; "pos-atom"], PosAtom)]%string in
  let ps1 := erase (txt "file") ps in
  match c with
  | None => (None, ps1)
  | Some f => (Some f, if positional f then erase_all ["block_size"; "access_options"]%string ps1 else ps1)
  end.
(** The names erased by SetHashTuningParams (tkrzw_dbm_poly.cc:255-265), SetTreeTuningParams (283-287), SetSkipTuningParams (325-331), and by OpenAdvanced
    itself for the other classes (448, 476, 497-498, 518). *)
Definition hash_names : list string :=
  ["update_mode"; "record_crc_mode"; "record_comp_mode"; "offset_width"; "align_pow"; "num_buckets"; "restore_mode"; "fbp_capacity"; "min_read_size";
   "cache_buckets"; "cipher_key"]%string.
Definition tuning_names (c : dbclass) : list string :=
  match c with
  | Hash => hash_names
  | Tree => hash_names ++ ["max_page_size"; "max_branches"; "max_cached_pages"; "page_update_mode"; "key_comparator"]%string
  | Skip => ["offset_width"; "step_unit"; "max_level"; "restore_mode"; "sort_mem_size"; "insert_in_order"; "max_cached_records"]%string
  | Tiny | StdHash => ["num_buckets"]%string
  | Baby => ["key_comparator"]%string
  | Cache => ["cap_rec_num"; "cap_mem_size"]%string
  | StdTree => []
  end.
(** Whether the object is opened though the path is empty: HashDBM, TreeDBM and SkipDBM always are. *)
Definition always (c : dbclass) : bool := match c with Hash | Tree | Skip => true | _ => false end.

(** A database object: its class, its file, the comparator it is given (nullptr is None: TreeDBM takes LexicalKeyComparator then,
    tkrzw_dbm_tree.cc:1158), whether it has been opened, and whether it has a logger. *)
Record inst := mkInst { i_class : dbclass; i_file : fclass; i_cmp : option comparator; i_opened : bool; i_logger : bool }.
(** PolyDBM: dbm_ and open_. *)
Record poly := mkPoly { p_dbm : option inst; p_open : bool }.
(** PolyDBM::PolyDBM, tkrzw_dbm_poly.cc:354. *)
Definition poly_new : poly := mkPoly None false.
(** What is done outside: opening the database, and the files of the update log. *)
Inductive effect := EOpen (c : dbclass) (f : fclass) (k : option comparator) (path : bytes) | ELog (prefix : bytes).

Section Open.
  (** What the database answers to being opened, what the message queue does, and StrToIntMetric. *)
  Variables (db_open : dbclass -> fclass -> bytes -> code) (mq_open : bytes -> code) (metric : bytes -> Z).

  (** The class, tkrzw_dbm_poly.cc:376-382 and the conditions of 384-549. *)
  Definition class_names : list (list string * dbclass) :=
    [(["hash"; "hashdbm"], Hash); (["tree"; "treedbm"], Tree); (["skip"; "skipdbm"], Skip); (["tiny"; "tinydbm"], Tiny); (["baby"; "babydbm"], Baby);
     (["cache"; "cachedbm"], Cache); (["stdhash"; "stdhashdbm"], StdHash); (["stdtree"; "stdtreedbm"], StdTree)]%string.
  Definition wanted_class (path : bytes) (ps : params) : option dbclass :=
    match lower_case (search_map ps (txt "dbm") []) with
    | [] => match guess path with Some c => Some c | None => match path with [] => Some Tiny | _ => None end end
    | name => pick name class_names
    end.
  (** StrBeginsWith(name, "ulog_"), tkrzw_dbm_poly.cc:369-375. *)
  Definition is_ulog (k : bytes) : bool := beqb (firstn 5 k) (txt "ulog_").
  (** The comparator, or an error: TreeDBM (tkrzw_dbm_poly.cc:281-282, 287, 409-412: the name is erased before it is looked for), BabyDBM (467-475). *)
  Definition the_comparator (c : dbclass) (ps ps_left : params) : option (option comparator) :=
    match c with
    | Tree =>
        let k := comparator_of (search_map ps (txt "key_comparator") []) in
        match search_map ps_left (txt "key_comparator") [], k with _ :: _, None => None | _, _ => Some k end
    | Baby =>
        match search_map ps (txt "key_comparator") [] with
        | [] => Some (Some Lexical)
        | name => match comparator_of name with None => None | Some k => Some (Some k) end
        end
    | _ => Some None
    end.
  (** MakeOwnedUpdateLogger, tkrzw_dbm_poly.cc:334-352: the status, whether there is a logger, what is done, and the parameters that are left. *)
  Definition make_logger (ps : params) : code * bool * list effect * params :=
    let prefix := search_map ps (txt "ulog_prefix") [] in
    let size := metric (search_map ps (txt "ulog_max_file_size") (txt "1Gi")) in
    let left_ := erase_all ["ulog_prefix"; "ulog_max_file_size"; "ulog_server_id"; "ulog_dbm_index"]%string ps in
    match prefix with
    | [] => (SUCCESS, false, [], left_)
    | _ => if (0 <? size)%Z then (mq_open prefix, true, [ELog prefix], left_) else (SUCCESS, false, [], left_)
    end.
  (** OpenAdvanced, tkrzw_dbm_poly.cc:362-568. *)
  Definition open_advanced (path : bytes) (ps : params) (p : poly) : code * poly * list effect :=
    match p_dbm p with
    | Some _ => (PRECONDITION_ERROR, p, [])
    | None =>
        let ulog_ps := filter (fun a => is_ulog (fst a)) ps in
        let mod_ps := filter (fun a => negb (is_ulog (fst a))) ps in
        match wanted_class path mod_ps with
        | None => (INVALID_ARGUMENT_ERROR, p, [])
        | Some c =>
            match make_file (erase (txt "dbm") mod_ps) with
            | (None, _) => (INVALID_ARGUMENT_ERROR, p, [])
            | (Some f, ps1) =>
                let ps2 := erase_all (tuning_names c) ps1 in
                match the_comparator c ps1 ps2 with
                | None => (INVALID_ARGUMENT_ERROR, p, [])
                | Some k =>
                    match ps2 with
                    | _ :: _ => (INVALID_ARGUMENT_ERROR, p, [])
                    | [] =>
                        let opens := always c || match path with [] => false | _ => true end in
                        let e1 := if opens then [EOpen c f k path] else [] in
                        let cd := if opens then db_open c f path else SUCCESS in
                        if negb (code_eqb cd SUCCESS) then (cd, p, e1) else
                        let open1 := opens || p_open p in
                        let '(lcd, logger, e2, left_) := make_logger ulog_ps in
                        let status := match lcd, left_ with SUCCESS, _ :: _ => INVALID_ARGUMENT_ERROR | _, _ => lcd end in
                        if code_eqb status SUCCESS then (SUCCESS, mkPoly (Some (mkInst c f k opens logger)) open1, e1 ++ e2)
                        else (status, mkPoly None open1, e1 ++ e2)
                    end
                end
            end
        end
    end.
  (** Close, tkrzw_dbm_poly.cc:570-588.  A database that is not open answers PRECONDITION_ERROR (e.g. tkrzw_dbm_tiny.cc:256-260). *)
  Definition close (db_close mq_close : code) (p : poly) : code * poly :=
    match p_dbm p with
    | None => (PRECONDITION_ERROR, p)
    | Some i =>
        let s1 := if i_logger i then mq_close else SUCCESS in
        let s2 := if p_open p then (if i_opened i then db_close else PRECONDITION_ERROR) else SUCCESS in
        (match s1 with SUCCESS => s2 | _ => s1 end, mkPoly None false)
    end.
  (** IsOpen, tkrzw_dbm_poly.cc:813-818. *)
  Definition is_open (p : poly) : bool := match p_dbm p with Some i => i_opened i | None => false end.
End Open.
(** GetReducerByName, tkrzw_dbm_poly.cc:140-165: one name is compared before it is lowered. *)
Inductive reducer := RRemove | RFirst | RSecond | RLast | RConcat | RConcatNull | RConcatTab | RConcatLine | RTotal | RTotalBigEndian.
Definition reducer_of (name : bytes) : option reducer :=
  let l := lower_case name in
  if any_of l ["reduceremove"]%string || any_of name ["remove"]%string then Some RRemove
  else pick l [(["reducetofirst"; "first"], RFirst); (["reducetosecond"; "second"], RSecond); (["reducetolast"; "last"], RLast); (["reduceconcat"; "concat"], RConcat);
    (["reduceconcatwithnull"; "concatnull"], RConcatNull); (["reduceconcatwithtab"; "concattab"], RConcatTab); (["reduceconcatwithline"; "concatline"], RConcatLine);
    (["reducetototal"; "total"], RTotal); (["reducetototalbigendian"; "totalbigendian"; "totalbe"], RTotalBigEndian)]%string.
