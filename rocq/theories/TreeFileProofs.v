(** Proofs for TreeFileModel.v: the nodes over the file do what the nodes over a map of pages do. *)
From Coq Require Import List NArith ZArith Bool Lia.
Import ListNotations.
From Verif Require Import Bytes MapSpec CodecModel CodecProofs FileModel HashRecModel HashUtilModel HashDbModel HashDbLayout HashDbAppend HashDbProofs HashRebuildProofs TreePageModel TreePageProps TreeFileModel.
Open Scope N_scope.

(** A node whose page the hash database takes: bytes, and not longer than it can store. *)
Definition page_fits (n : pnode) : Prop :=
  match n with
  | PLeaf _ _ rs => Forall (fun r => bytes_ok (fst r) /\ bytes_ok (snd r)) rs /\ leaf_size rs <= VALUE_LIMIT
  | PInner _ ls => Forall (fun l => bytes_ok (fst l)) ls /\ inner_size ls <= VALUE_LIMIT
  end.
(** The operations use ids of six bytes and nodes whose pages can be stored. *)
Definition cop_ok (o : cop) : Prop :=
  match o with
  | CLoad x | CSave x | CEvict x | CRemove x => x < 2^48
  | CWrite x n | CNew x n => x < 2^48 /\ page_fits n
  end.

Lemma page_key_inj x y : x < 2^48 -> y < 2^48 -> page_key x = page_key y -> x = y.
Proof.
  intros Hx Hy E. assert (A := read_write_fix 6 x [] (six48 x Hx)). assert (B := read_write_fix 6 y [] (six48 y Hy)).
  unfold page_key in E. rewrite E in A. congruence.
Qed.
Lemma page_key_ok x : key_ok (page_key x).
Proof. split; [apply write_fix_ok|]. unfold page_key. rewrite blen_fix. unfold MAX_KEY_SIZE. cbn. lia. Qed.
Lemma concat_bytes_ok l : Forall bytes_ok l -> bytes_ok (concat l).
Proof. induction 1; cbn [concat]; [constructor|]. apply bytes_ok_app. split; auto. Qed.
Lemma in_leaf_size r rs : In r rs -> tr_size r <= leaf_size rs.
Proof. induction rs as [|a rs IH]; intros H; [destruct H|]. rewrite leaf_size_cons. destruct H as [<-|H]; [lia|]. specialize (IH H). lia. Qed.
Lemma in_inner_size l ls : In l ls -> tl_size l <= inner_size ls.
Proof.
  intros H. unfold inner_size. rewrite inner_size_fold. induction ls as [|a ls IH]; [destruct H|]. cbn [map concat]. rewrite blen_app, ser_link_len.
  destruct H as [<-|H]; [lia|]. specialize (IH H). lia.
Qed.
Lemma value_firstn k l : value_ok l -> value_ok (firstn k l).
Proof.
  intros [A B]. split.
  - revert k; induction A as [|b l Hb A IH]; intros k; [destruct k; constructor|]. destruct k as [|k]; cbn [firstn]; [constructor|]. constructor; [exact Hb|]. apply IH. unfold blen in *. cbn [length] in B. lia.
  - unfold blen in *. assert (length (firstn k l) <= length l)%nat by (rewrite firstn_length; lia). lia.
Qed.
Lemma saved_ok n l : page_fits n -> save_node n = POk l -> value_ok l.
Proof.
  destruct n as [p q rs|h ls]; intros [F1 F2]; cbn [save_node].
  - unfold save_leaf. match goal with |- context [if ?b then _ else _] => destruct b end; try discriminate. intros E. injection E as <-. apply value_firstn. split; [|now rewrite ser_leaf_len].
    unfold ser_leaf. apply bytes_ok_app. split; [apply write_fix_ok|]. apply bytes_ok_app. split; [apply write_fix_ok|]. apply concat_bytes_ok.
    apply Forall_forall. intros b Hb. apply in_map_iff in Hb. destruct Hb as (r & <- & Hr). rewrite Forall_forall in F1. destruct (F1 r Hr) as [G1 G2].
    assert (S := in_leaf_size r rs Hr). unfold tr_size, VALUE_LIMIT in *. unfold ser_rec.
    repeat (apply bytes_ok_app; split; auto); apply write_var_ok; unfold two64; lia.
  - unfold save_inner. match goal with |- context [if ?b then _ else _] => destruct b end; try discriminate. all: intros E; injection E as <-. all: try apply value_firstn. all: split; [|rewrite ?ser_inner_len; auto].
    unfold ser_inner. apply bytes_ok_app. split; [apply write_fix_ok|]. apply concat_bytes_ok.
    apply Forall_forall. intros b Hb. apply in_map_iff in Hb. destruct Hb as (r & <- & Hr). rewrite Forall_forall in F1. assert (G1 := F1 r Hr).
    assert (S := in_inner_size r ls Hr). unfold tl_size, VALUE_LIMIT in *. unfold ser_link.
    apply bytes_ok_app; split; [apply write_var_ok; unfold two64; lia|]. apply bytes_ok_app; split; [auto|apply write_fix_ok].
Qed.

(** A hash database that answers any further history, as long as its file stays within [cap], as the map [m] does. *)
Definition serves (d : hdb) (s : hst) (m : amap) (cap : N) : Prop :=
  forall later, ops_ok m later -> fsize (s_file (fst (h_run d s later))) <= cap ->
    snd (h_run d s later) = map (fun v => (HOk, Some v)) (snd (map_run m later)).
Lemma serves_inv d s m : hdb_ok d -> h_inv d s m -> serves d s m (capacity d).
Proof. intros Hd Hi later Hl Hc. exact (proj1 (h_history d later s m Hd Hi Hl Hc)). Qed.
Definition stp (d : hdb) (s : hst) (o : hop) : hres := h_process d s (o_key o) (o_proc o) (o_readable o) (o_writable o).
Definition mstp (m : amap) (o : hop) : amap := map_apply m (o_key o) (o_proc o (map_seen m (o_key o) (o_readable o))) (o_writable o).
Lemma h_run_cons d s o ops : h_run d s (o :: ops) = (fst (h_run d (h_st (stp d s o)) ops), (h_status (stp d s o), h_seen (stp d s o)) :: snd (h_run d (h_st (stp d s o)) ops)).
Proof. cbn [h_run]. fold (stp d s o). destruct (h_run d (h_st (stp d s o)) ops); reflexivity. Qed.
Lemma map_run_cons m o ops : map_run m (o :: ops) = (fst (map_run (mstp m o) ops), map_seen m (o_key o) (o_readable o) :: snd (map_run (mstp m o) ops)).
Proof. cbn [map_run]. fold (mstp m o). destruct (map_run (mstp m o) ops); reflexivity. Qed.
Lemma serves_call d s m cap o : serves d s m cap -> key_ok (o_key o) -> action_ok (o_proc o (map_seen m (o_key o) (o_readable o))) ->
  fsize (s_file (h_st (stp d s o))) <= cap ->
  f_call d s o = POk (map_seen m (o_key o) (o_readable o), h_st (stp d s o)) /\ serves d (h_st (stp d s o)) (mstp m o) cap.
Proof.
  intros H Hk Ha Hc. split.
  - assert (E := H [o]). rewrite h_run_cons, map_run_cons in E. cbn [h_run map_run fst snd map ops_ok] in E. specialize (E ltac:(auto) Hc).
    unfold f_call. fold (stp d s o). injection E as E1 E2. now rewrite E1, E2.
  - intros later Hl Hf. assert (E := H (o :: later)). rewrite h_run_cons, map_run_cons in E. cbn [fst snd map ops_ok] in E.
    specialize (E ltac:(auto) Hf). congruence.
Qed.

(** The map of the database and the pages of the machine over a map. *)
Definition agree (m : amap) (s : cstate) : Prop := forall x, x < 2^48 -> m (page_key x) = c_store s x.
Definition cinv (s : cstate) : Prop :=
  forall x e, c_cache s x = Some e -> (e_dirty e = true -> page_fits (e_node e)) /\ (e_disk e = true -> c_store s x <> None).
Lemma beqb_pages x y : x < 2^48 -> y < 2^48 -> beqb (page_key x) (page_key y) = (y =? x).
Proof.
  intros Hx Hy. destruct (N.eqb_spec y x) as [->|N]; [apply beqb_refl|]. destruct (beqb (page_key x) (page_key y)) eqn:E; [|reflexivity].
  apply beqb_eq in E. apply page_key_inj in E; auto. congruence.
Qed.
Lemma agree_set m s x l c : x < 2^48 -> agree m s -> agree (mstp m (set_hop x l)) (mkC c (upd (c_store s) x (Some l))).
Proof. intros Hx A y Hy. unfold mstp, set_hop, aset, upd. cbn. unfold aset. rewrite beqb_pages by auto. destruct (y =? x); auto. Qed.
Lemma agree_del m s x l c : x < 2^48 -> c_store s x = Some l -> agree m s -> agree (mstp m (del_hop x)) (mkC c (upd (c_store s) x None)).
Proof.
  intros Hx E A y Hy. unfold mstp, del_hop, upd. cbn. unfold map_seen. rewrite (A x Hx), E. cbn. unfold adel. rewrite beqb_pages by auto. destruct (y =? x); auto.
Qed.
Lemma mstp_load m x : mstp m (load_hop x) = m. Proof. reflexivity. Qed.

Section Track.
  Variable d : hdb.
  Variable cap : N.
  Definition fof (s : cstate) (h : hst) : fstate := mkF (c_cache s) h.
  (** What is carried along: the map of the file, and that it can be asked further. *)
  Definition tracks (s : cstate) (h : hst) (m : amap) : Prop := agree m s /\ cinv s /\ serves d h m cap.
  Definition after (h : hst) (ops : list hop) : hst := fst (h_run d h ops).

  Lemma after_app h a b : after h (a ++ b) = after (after h a) b.
  Proof. apply h_run_app. Qed.

  Lemma load_track x s h m n s1 : x < 2^48 -> tracks s h m -> c_load x s = POk (n, s1) -> fsize (s_file (after h (load_calls x s))) <= cap ->
    f_load d x (fof s h) = POk (n, fof s1 (after h (load_calls x s))) /\ tracks s1 (after h (load_calls x s)) m /\ ops_ok m (load_calls x s) /\
    fst (map_run m (load_calls x s)) = m /\ (exists e, c_cache s1 x = Some e) /\ c_store s1 = c_store s /\
    match c_cache s x with Some e => s1 = s | None => exists e, c_cache s1 x = Some e /\ e_disk e = true /\ c_store s x <> None end.
  Proof.
    intros Hx (A & C & V) E Hc. unfold c_load, f_load, load_calls, after in *. cbn [fof f_cache f_db] in *. destruct (c_cache s x) as [e|] eqn:Ec.
    - injection E as <- <-. cbn [h_run fst]. repeat (split; auto). eauto.
    - rewrite h_run_cons in *. cbn [h_run fst] in *. destruct (serves_call d h m cap (load_hop x) V (page_key_ok x) I Hc) as [F S]. rewrite F. cbn [pbind].
      change (o_key (load_hop x)) with (page_key x). cbn [o_readable load_hop]. unfold map_seen. rewrite (A x Hx). rewrite mstp_load in S.
      destruct (c_store s x) as [l|] eqn:Es; [|discriminate]. destruct (load_node x l) as [n0| |]; try discriminate. cbn [pbind] in *. injection E as <- <-.
      split; [reflexivity|]. split.
      + split; [exact A|]. split; [|exact S]. intros y e. cbn [c_cache c_store upd]. unfold upd. destruct (N.eqb_spec y x) as [->|N].
        * intros X. injection X as <-. cbn. split; [discriminate|]. intros _. congruence.
        * apply C.
      + split; [cbn [ops_ok]; repeat split; auto; apply page_key_ok|]. split; [reflexivity|].
        assert (X : c_cache (mkC (upd (c_cache s) x (Some (mkE n0 false true))) (c_store s)) x = Some (mkE n0 false true)) by (cbn; unfold upd; now rewrite N.eqb_refl).
        split; [eauto|]. split; [reflexivity|]. exists (mkE n0 false true). split; [exact X|]. split; [reflexivity|]. congruence.
  Qed.

  Lemma save_track x s h m s1 : x < 2^48 -> tracks s h m -> c_save x s = POk s1 -> fsize (s_file (after h (step_calls (CSave x) s))) <= cap ->
    f_save d x (fof s h) = POk (fof s1 (after h (step_calls (CSave x) s))) /\ ops_ok m (step_calls (CSave x) s) /\
    tracks s1 (after h (step_calls (CSave x) s)) (fst (map_run m (step_calls (CSave x) s))).
  Proof.
    intros Hx (A & C & V) E Hc. unfold c_save, f_save, step_calls, after in *. cbn [fof f_cache f_db] in *. destruct (c_cache s x) as [e|] eqn:Ec.
    2: injection E as <-; cbn [h_run map_run fst ops_ok]; repeat (split; auto).
    destruct (e_dirty e) eqn:Ed.
    2: injection E as <-; cbn [h_run map_run fst ops_ok]; repeat (split; auto).
    destruct (save_node (e_node e)) as [l| |] eqn:El; try discriminate. cbn [pbind] in *. injection E as <-. rewrite h_run_cons in *. cbn [h_run fst] in *.
    assert (Hv : value_ok l) by (apply (saved_ok (e_node e)); auto; apply (C x e Ec), Ed).
    destruct (serves_call d h m cap (set_hop x l) V (page_key_ok x) Hv Hc) as [F S]. rewrite F. cbn [pbind]. split; [reflexivity|]. split; [cbn [ops_ok]; split; [apply page_key_ok|split; [exact Hv|exact I]]|].
    rewrite map_run_cons. cbn [map_run fst]. split; [now apply agree_set|]. split; [|exact S].
    intros y e'. cbn [c_cache c_store]. unfold upd. destruct (N.eqb_spec y x) as [->|N].
    - intros X. injection X as <-. cbn. split; [discriminate|congruence].
    - apply C.
  Qed.

  Lemma step_track o s h m a s1 : cop_ok o -> tracks s h m -> c_step o s = POk (a, s1) -> fsize (s_file (after h (step_calls o s))) <= cap ->
    f_step d o (fof s h) = POk (a, fof s1 (after h (step_calls o s))) /\ ops_ok m (step_calls o s) /\
    tracks s1 (after h (step_calls o s)) (fst (map_run m (step_calls o s))).
  Proof.
    intros Ho T E Hc. destruct o as [x|x|x|x n|x n|x]; cbn [cop_ok c_step f_step] in *.
    - destruct (c_load x s) as [[n s']| |] eqn:El; try discriminate. cbn [pbind] in E. injection E as <- <-. cbn [step_calls] in *.
      destruct (load_track x s h m n s' Ho T El Hc) as (F & T' & O & M & _). rewrite F, M. cbn [pbind]. auto.
    - destruct (c_save x s) as [s'| |] eqn:El; try discriminate. cbn [pbind] in E. injection E as <- <-.
      destruct (save_track x s h m s' Ho T El Hc) as (F & O & T'). rewrite F. cbn [pbind]. auto.
    - unfold c_evict, f_evict in *. destruct (c_save x s) as [s'| |] eqn:El; try discriminate. cbn [pbind] in E. injection E as <- <-.
      change (step_calls (CEvict x) s) with (step_calls (CSave x) s) in *.
      destruct (save_track x s h m s' Ho T El Hc) as (F & O & T'). rewrite F. cbn [pbind]. split; [reflexivity|]. split; [exact O|].
      destruct T' as (A & C & V). split; [exact A|]. split; [|exact V]. intros y e. cbn [c_cache c_store]. unfold upd. destruct (y =? x); [discriminate|]. apply C.
    - destruct Ho as [Hx Hn]. destruct (c_load x s) as [[n0 s']| |] eqn:El; try discriminate. cbn [pbind] in E. cbn [step_calls] in *.
      destruct (load_track x s h m n0 s' Hx T El Hc) as (F & (A & C & V) & O & M & (e & Ee) & _). rewrite F, M. cbn [pbind]. unfold c_write, f_write in *. cbn [fof f_cache] in *. rewrite Ee in *. cbn [pbind] in *. injection E as <- <-.
      split; [reflexivity|]. split; [exact O|]. split; [exact A|]. split; [|exact V]. intros y e'. cbn [c_cache c_store]. unfold upd. destruct (N.eqb_spec y x) as [->|N].
      + intros X. injection X as <-. cbn. split; [auto|]. apply (C x e Ee).
      + apply C.
    - destruct Ho as [Hx Hn]. unfold c_new, f_new in *. cbn [pbind] in E. injection E as <- <-. cbn [step_calls] in *. cbn [pbind fof f_cache f_db after h_run fst map_run ops_ok] in *.
      split; [reflexivity|]. split; [exact I|]. destruct T as (A & C & V). split; [exact A|]. split; [|exact V]. intros y e'. cbn [c_cache c_store]. unfold upd. destruct (N.eqb_spec y x) as [->|N].
      + intros X. injection X as <-. cbn. split; [auto|discriminate].
      + apply C.
    - destruct (c_load x s) as [[n0 s']| |] eqn:El; try discriminate. cbn [pbind] in E. cbn [step_calls] in *. rewrite after_app in Hc.
      assert (G : fsize (s_file (after h (load_calls x s))) <= cap) by (eapply N.le_trans; [apply h_run_grows|exact Hc]).
      destruct (load_track x s h m n0 s' Ho T El G) as (F & (A & C & V) & O & M & (e & Ee) & St & K). rewrite F. cbn [pbind]. unfold c_remove, f_remove in *. cbn [fof f_cache f_db] in *. rewrite Ee in E |- *. cbn [pbind] in E. injection E as <- <-.
      rewrite after_app, map_run_app, ops_ok_app, M. cbn [fst].
      assert (R : match c_cache s x with Some e0 => if e_disk e0 then [del_hop x] else [] | None => [del_hop x] end = if e_disk e then [del_hop x] else []).
      { destruct (c_cache s x) as [e0|] eqn:Ec; [subst s'; replace e with e0 by congruence; reflexivity|]. destruct K as (e1 & K1 & K2 & _). replace e with e1 by congruence. now rewrite K2. }
      rewrite R in *. destruct (e_disk e) eqn:Ed.
      + assert (P : exists l, c_store s' x = Some l). { destruct (c_store s' x) as [l|] eqn:P; [eauto|]. destruct (C x e Ee) as [_ C2]. now specialize (C2 Ed). }
        destruct P as [l P]. assert (Z : forall h0, after h0 [del_hop x] = h_st (stp d h0 (del_hop x))) by (intros h0; unfold after; now rewrite h_run_cons). rewrite Z in *.
        assert (Ha : action_ok (o_proc (del_hop x) (map_seen m (o_key (del_hop x)) (o_readable (del_hop x))))) by (cbn; destruct (map_seen _ _ _); exact I).
        destruct (serves_call d _ m cap (del_hop x) V (page_key_ok x) Ha Hc) as [F' S]. rewrite F'. cbn [pbind]. change (o_key (del_hop x)) with (page_key x). unfold map_seen. rewrite (A x Ho), P. cbn [fof].
        split; [reflexivity|]. split; [split; [exact O|]; cbn [ops_ok]; split; [apply page_key_ok|auto]|]. rewrite map_run_cons. cbn [map_run fst].
        split; [eapply agree_del; eauto|]. split; [|exact S]. intros y e'. cbn [c_cache c_store]. unfold upd. destruct (N.eqb_spec y x) as [->|N]; [discriminate|]. apply C.
      + cbn [h_run map_run fst ops_ok]. split; [reflexivity|]. split; [auto|]. split; [exact A|]. split; [|exact V].
        intros y e'. cbn [c_cache c_store]. unfold upd. destruct (N.eqb_spec y x) as [->|N]; [discriminate|]. apply C.
  Qed.

  Lemma run_track : forall os s h m l s1, Forall cop_ok os -> tracks s h m -> c_run os s = POk (l, s1) -> fsize (s_file (after h (run_calls os s))) <= cap ->
    f_run d os (fof s h) = POk (l, fof s1 (after h (run_calls os s))) /\ ops_ok m (run_calls os s) /\
    tracks s1 (after h (run_calls os s)) (fst (map_run m (run_calls os s))).
  Proof.
    induction os as [|o os IH]; intros s h m l s1 F T E Hc; cbn [c_run f_run run_calls] in *.
    - injection E as <- <-. cbn [after h_run map_run fst ops_ok]. auto.
    - inversion F as [|? ? F1 F2]; subst. destruct (c_step o s) as [[a s2]| |] eqn:Es; try discriminate. cbn [pbind] in E.
      destruct (c_run os s2) as [[l2 s3]| |] eqn:Er; try discriminate. cbn [pbind] in E. injection E as <- <-.
      rewrite after_app in Hc.
      assert (G : fsize (s_file (after h (step_calls o s))) <= cap) by (eapply N.le_trans; [apply h_run_grows|exact Hc]).
      destruct (step_track o s h m a s2 F1 T Es G) as (S1 & S2 & S3). destruct (IH s2 _ _ l2 s3 F2 S3 Er Hc) as (R1 & R2 & R3).
      rewrite S1. cbn [pbind]. rewrite R1. cbn [pbind]. rewrite after_app, map_run_app, ops_ok_app. cbn [fst].
      split; [reflexivity|]. split; [auto|exact R3].
  Qed.
End Track.

Lemma c_run_app : forall os1 os2 s l s2, c_run (os1 ++ os2) s = POk (l, s2) ->
  exists l1 s1 l2, c_run os1 s = POk (l1, s1) /\ c_run os2 s1 = POk (l2, s2) /\ l = l1 ++ l2 /\ run_calls (os1 ++ os2) s = run_calls os1 s ++ run_calls os2 s1.
Proof.
  induction os1 as [|o os1 IH]; intros os2 s l s2 E; cbn [app c_run run_calls] in *.
  - exists [], s, l. auto.
  - destruct (c_step o s) as [[a s']| |]; try discriminate. cbn [pbind] in *. destruct (c_run (os1 ++ os2) s') as [[l' s'']| |] eqn:Er; try discriminate. cbn [pbind] in E. injection E as <- <-.
    destruct (IH os2 s' l' s'' Er) as (l1 & s1 & l2 & A & B & C & D). rewrite A, D. cbn [pbind]. exists (a :: l1), s1, l2. subst. rewrite app_assoc. auto.
Qed.
