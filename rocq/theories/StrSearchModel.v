(** String search.  Source: /repo/tkrzw_str_util.cc:856-1311.
    Positions are unbounded natural numbers: the int32_t and size_t of the code
    are assumed not to overflow (texts and patterns below 2^31 bytes).  The
    loops of the StrSearchXXX function and of StrSearchWholeXXX are the same but
    for what they do on a hit: the former is the latter with max_results 1. *)
From Verif Require Import Bytes.
Local Open Scope nat_scope.

(** The outcome of a search: the positions found, or an access outside of an array. *)
Inductive sres := SHits (l : list nat) | SBad.
(** Whether max_results is reached: [max_results > 0 && result.size() >= max_results]. *)
Definition full (max : nat) (acc : list nat) : bool := (0 <? max) && (max <=? length acc).
(** The case of an empty pattern, e.g. tkrzw_str_util.cc:1056-1063. *)
Definition empty_hits (n max : nat) : list nat := seq 0 (if 0 <? max then Nat.min max n else n).
(** An StrSearchXXX function: 0 for an empty pattern, else the first hit, None for -1. *)
Definition first_hit (r : sres) : option (option nat) :=
  match r with SHits l => Some (match l with i :: _ => Some i | [] => None end) | SBad => None end.

(** StrSearchDoubleLoop, tkrzw_str_util.cc:860-876. *)
Fixpoint same_prefix (t p : bytes) : bool :=
  match p, t with
  | [], _ => true
  | c :: p', d :: t' => (d =? c)%N && same_prefix t' p'
  | _, [] => false
  end.
Fixpoint double_loop (fuel i : nat) (t p : bytes) : option nat :=
  match fuel with
  | O => None
  | S f => if same_prefix (skipn i t) p then Some i else double_loop f (S i) t p
  end.
Definition search_double (t p : bytes) : option nat :=
  if length t <? length p then None else double_loop (length t - length p + 1) 0 t p.

(** StrSearchMemchr, tkrzw_str_util.cc:878-901: [size] bytes from [cur] on are
    searched for the first character, then the rest of the pattern is compared. *)
Fixpoint memchr (fuel i : nat) (c : N) (t : bytes) : option nat :=
  match fuel with
  | O => None
  | S f => match nth_error t i with
           | Some d => if (d =? c)%N then Some i else memchr f (S i) c t
           | None => None
           end
  end.
Fixpoint memchr_loop (fuel cur size : nat) (t : bytes) (c : N) (p' : bytes) : option nat :=
  match fuel with
  | O => None
  | S f => if size =? 0 then None
           else match memchr size cur c t with
                | None => None
                | Some m => if same_prefix (skipn (S m) t) p' then Some m
                            else memchr_loop f (S m) (size - (S m - cur)) t c p'
                end
  end.
Definition search_memchr (t p : bytes) : option nat :=
  match p with
  | [] => Some 0
  | c :: p' => memchr_loop (S (length t)) 0 (length t + 1 - length p) t c p'
  end.

(** * Knuth-Morris-Pratt, tkrzw_str_util.cc:912-942 and 1079-1123 *)
(** An offset: None stands for -1.  The fall back along the table,
    tkrzw_str_util.cc:921-923 and 932-934. *)
Fixpoint kmp_fall (fuel : nat) (tbl : list (option nat)) (p : bytes) (c : N) (o : option nat) : option nat :=
  match fuel, o with
  | S f, Some k =>
      match nth_error p k with
      | Some d => if (c =? d)%N then Some k
                  else kmp_fall f tbl p c (match nth_error tbl k with Some x => x | None => None end)
      | None => None
      end
  | _, _ => None
  end.
Definition kmp_next (tbl : list (option nat)) (p : bytes) (c : N) (o : option nat) : nat :=
  match kmp_fall (S (S (length p))) tbl p c o with Some k => S k | None => 0 end.
(** The table, tkrzw_str_util.cc:916-927: [tbl] has the entries computed so far,
    [o] is the current offset and [rest] the pattern from pattern_index on. *)
Fixpoint kmp_table (rest p : bytes) (tbl : list (option nat)) (o : option nat) : list (option nat) :=
  match rest with
  | [] => tbl
  | c :: rest' => let o' := Some (kmp_next tbl p c o) in kmp_table rest' p (tbl ++ [o']) o'
  end.
(** The scan, tkrzw_str_util.cc:930-937: text_index and offset at its end. *)
Fixpoint kmp_scan (tbl : list (option nat)) (p rest : bytes) (i o : nat) : nat * nat :=
  match rest with
  | [] => (i, o)
  | c :: rest' => if o <? length p then kmp_scan tbl p rest' (S i) (kmp_next tbl p c (Some o)) else (i, o)
  end.
(** The loop of StrSearchWholeKMP, tkrzw_str_util.cc:1101-1121. *)
Fixpoint kmp_loop (fuel : nat) (tbl : list (option nat)) (t p : bytes) (max i : nat) (acc : list nat) : list nat :=
  match fuel with
  | O => acc
  | S f =>
      if length t <=? i then acc
      else
        let '(i', o) := kmp_scan tbl p (skipn i t) i 0 in
        if o =? length p then
          let acc' := acc ++ [i' - length p] in
          if full max acc' then acc' else kmp_loop f tbl t p max (i' - length p + 1) acc'
        else kmp_loop f tbl t p max i' acc
  end.
Definition whole_kmp (t p : bytes) (max : nat) : sres :=
  match p with
  | [] => SHits (empty_hits (length t) max)
  | _ => SHits (kmp_loop (S (length t)) (kmp_table p p [None] None) t p max 0 [])
  end.
Definition search_kmp (t p : bytes) : option nat :=
  match p with
  | [] => Some 0
  | _ => let '(i, o) := kmp_scan (kmp_table p p [None] None) p t 0 0 in
         if o =? length p then Some (i - length p) else None
  end.

(** * Boyer-Moore, tkrzw_str_util.cc:944-974 and 1125-1168 *)
Fixpoint set_nth {A} (i : nat) (x : A) (l : list A) : option (list A) :=
  match l, i with
  | [], _ => None
  | _ :: l', O => Some (x :: l')
  | y :: l', S i' => match set_nth i' x l' with Some r => Some (y :: r) | None => None end
  end.
(** The table has UINT8MAX = 255 entries, tkrzw_str_util.cc:948-957; a byte 255
    is outside of it (None). *)
Fixpoint bm_fill (p : bytes) (shift : nat) (tbl : list nat) : option (list nat) :=
  match p with
  | [] => Some tbl
  | c :: p' => match set_nth (N.to_nat c) (shift - 1) tbl with
               | Some tbl' => bm_fill p' (shift - 1) tbl'
               | None => None
               end
  end.
Definition bm_table (p : bytes) : option (list nat) := bm_fill p (length p) (repeat (length p) 255).
(** The comparison from the end of the pattern, tkrzw_str_util.cc:963-968: the
    index of the last mismatch, None when all match. *)
Fixpoint bm_compare (n : nat) (t p : bytes) (b : nat) : option nat :=
  match n with
  | O => None
  | S n' => match nth_error t (b + n'), nth_error p n' with
            | Some x, Some y => if (x =? y)%N then bm_compare n' t p b else Some n'
            | _, _ => Some n'
            end
  end.
(** The main loop; the step table[c] - pattern_end + pattern_index is positive
    when table[c] + pattern_index > pattern_end. *)
Fixpoint bm_loop (fuel : nat) (tbl : list nat) (t p : bytes) (max b : nat) (acc : list nat) : sres :=
  match fuel with
  | O => SHits acc
  | S f =>
      if b <? length t + 1 - length p then
        let pe := length p - 1 in
        let mis := bm_compare (length p) t p b in
        let pi := match mis with Some i => i | None => 0 end in
        let hit := match mis with None => true | _ => false end in
        let acc' := if hit then acc ++ [b] else acc in
        if hit && full max acc' then SHits acc'
        else match nth_error t (b + pi) with
             | None => SBad
             | Some c => match nth_error tbl (N.to_nat c) with
                         | None => SBad
                         | Some s => let step := if pe <? s + pi then s + pi - pe else if hit then 1 else 2 in
                                     bm_loop f tbl t p max (b + step) acc'
                         end
             end
      else SHits acc
  end.
Definition whole_bm (t p : bytes) (max : nat) : sres :=
  match p with
  | [] => SHits (empty_hits (length t) max)
  | _ => match bm_table p with
         | None => SBad
         | Some tbl => bm_loop (S (length t)) tbl t p max 0 []
         end
  end.
(** StrSearchBM; None: access outside of the table. *)
Definition search_bm (t p : bytes) : option (option nat) :=
  match p with [] => Some (Some 0) | _ => first_hit (whole_bm t p 1) end.

(** * Rabin-Karp, tkrzw_str_util.cc:976-1011 and 1170-1213 *)
Definition rk_base : N := 239.
Definition rk_mod : N := 1798201.
Fixpoint rk_power (n : nat) (pw : N) : N :=
  match n with O => pw | S n' => rk_power n' ((pw * rk_base) mod rk_mod)%N end.
Fixpoint rk_hash (s : bytes) (h : N) : N :=
  match s with [] => h | c :: s' => rk_hash s' ((h * rk_base + c) mod rk_mod)%N end.
(** One update of text_hash: [old] is the byte leaving the window.  int32_t
    holds all intermediate values. *)
Definition rk_roll (h c : N) (power : N) (old : option N) : N :=
  let h1 := ((h * rk_base + c) mod rk_mod)%N in
  match old with
  | None => h1
  | Some d => let s := ((power * d) mod rk_mod)%N in if (h1 <? s)%N then (h1 + rk_mod - s)%N else (h1 - s)%N
  end.
Fixpoint rk_loop (rest t p : bytes) (ph power : N) (max i : nat) (h : N) (acc : list nat) : list nat :=
  match rest with
  | [] => acc
  | c :: rest' =>
      let h' := rk_roll h c power (if length p <=? i then nth_error t (i - length p) else None) in
      if (ph =? h')%N && (length p - 1 <=? i) && same_prefix (skipn (i - (length p - 1)) t) p then
        let acc' := acc ++ [i - (length p - 1)] in
        if full max acc' then acc' else rk_loop rest' t p ph power max (S i) h' acc'
      else rk_loop rest' t p ph power max (S i) h' acc
  end.
Definition whole_rk (t p : bytes) (max : nat) : sres :=
  match p with
  | [] => SHits (empty_hits (length t) max)
  | _ => SHits (rk_loop t t p (rk_hash p 0) (rk_power (length p) 1) max 0 0 [])
  end.
Definition search_rk (t p : bytes) : option nat :=
  match p with
  | [] => Some 0
  | _ => match whole_rk t p 1 with SHits (i :: _) => Some i | _ => None end
  end.

(** * Z algorithm, tkrzw_str_util.cc:1013-1051 *)
(** while (right < size && concat[right - left] == concat[right]) right++ *)
Fixpoint z_extend (fuel : nat) (s : bytes) (lf rt : nat) : nat :=
  match fuel with
  | O => rt
  | S f => match nth_error s rt, nth_error s (rt - lf) with
           | Some a, Some b => if (a =? b)%N then z_extend f s lf (S rt) else rt
           | _, _ => rt
           end
  end.
(** One iteration for index [i]; [z] has the values of the indices below [i]. *)
Definition z_step (s : bytes) (i : nat) (st : list nat * nat * nat) : list nat * nat * nat :=
  let '(z, lf, rt) := st in
  if rt <? i then
    let r := z_extend (length s) s i i in (z ++ [r - i], i, r - 1)
  else
    let zk := nth (i - lf) z 0 in
    if zk <? rt - i + 1 then (z ++ [zk], lf, rt)
    else let r := z_extend (length s) s i rt in (z ++ [r - i], i, r - 1).
Fixpoint z_loop (n i : nat) (s : bytes) (st : list nat * nat * nat) : list nat * nat * nat :=
  match n with O => st | S n' => z_loop n' (S i) s (z_step s i st) end.
Definition z_array (s : bytes) : list nat := fst (fst (z_loop (length s - 1) 1 s ([0], 0, 0))).
Fixpoint z_find (n i : nat) (z : list nat) (m : nat) : option nat :=
  match n with
  | O => None
  | S n' => if nth i z 0 =? m then Some (i - 1 - m) else z_find n' (S i) z m
  end.
Definition search_z (t p : bytes) : option nat :=
  let s := p ++ [0%N] ++ t in z_find (length t) (length p + 1) (z_array s) (length p).

(** * std::string_view::find and StrSearchWhole, tkrzw_str_util.cc:856-858, 1053-1077 *)
(** The library function by its documentation: the first position not before
    [pos] where the pattern is. *)
Definition sv_find (t p : bytes) (pos : nat) : option nat :=
  find (fun i => same_prefix (skipn i t) p) (seq pos (length t + 1 - pos)).
Fixpoint whole_loop (fuel : nat) (t p : bytes) (max pos : nat) (acc : list nat) : list nat :=
  match fuel with
  | O => acc
  | S f => if pos =? length t then acc
           else match sv_find t p pos with
                | None => acc
                | Some i => let acc' := acc ++ [i] in
                            if full max acc' then acc' else whole_loop f t p max (S i) acc'
                end
  end.
Definition whole (t p : bytes) (max : nat) : sres :=
  match p with
  | [] => SHits (empty_hits (length t) max)
  | _ => SHits (whole_loop (S (length t)) t p max 0 [])
  end.
Definition search (t p : bytes) : option nat := sv_find t p 0.

(** * Batches, tkrzw_str_util.cc:1215-1311 *)
Definition batch (f : bytes -> bytes -> nat -> sres) (t : bytes) (ps : list bytes) (max : nat) : list sres :=
  map (fun p => f t p max) ps.
(** StrSearchBatchRK gathers the patterns by size and scans the text once per
    size; the results of one pattern depend on that pattern only: those of the
    scan of StrSearchWholeRK, but an empty pattern ignores max_results. *)
Definition batch_rk_one (t p : bytes) (max : nat) : sres :=
  match p with
  | [] => SHits (seq 0 (length t))
  | _ => SHits (rk_loop t t p (rk_hash p 0) (rk_power (length p) 1) max 0 0 [])
  end.
