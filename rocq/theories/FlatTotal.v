(** C23: reading flat records from any bytes, however broken.  Source: /repo/tkrzw_file_util.cc. *)
From Coq Require Import List NArith Bool Lia.
Import ListNotations.
From Verif Require Import Bytes CodecModel CodecProofs StatusModel FlatModel FlatProofs.
Local Open Scope N_scope.

(** The record that starts at [off] in the file: a byte of 255 or 254 (metadata), a variable-length number, and
    that number of bytes, all in the file. *)
Definition rec_at (f : bytes) (off : N) (r : frec) (off' : N) : Prop :=
  exists m rest n h, skipn (N.to_nat off) f = m :: rest /\ (m = 255 \/ m = 254) /\ read_var rest = Some (n, h) /\
    off' = off + 1 + h + n /\ off' <= blen f /\ r = (m =? 254, firstn (N.to_nat n) (skipn (N.to_nat (off + 1 + h)) f)).
(** Consecutive records from [off]. *)
Fixpoint recs_at (f : bytes) (off : N) (l : list frec) : Prop :=
  match l with [] => True | r :: l' => exists off', rec_at f off r off' /\ recs_at f off' l' end.

Definition rd_inv (f : bytes) (s : fr) : Prop :=
  fr_off s <= blen f /\ fr_idx s <= blen (fr_buf s) /\ exists q, skipn (N.to_nat (fr_off s)) f = skipn (N.to_nat (fr_idx s)) (fr_buf s) ++ q.
Lemma buf_rec f off b q r used : skipn (N.to_nat off) f = b ++ q -> off <= blen f -> from_buf b = FRec r used -> rec_at f off r (off + used) /\ 2 <= used /\ used <= blen b.
Proof.
  intros E O F. unfold from_buf, flat_head in F. destruct b as [|m b]; [discriminate|]. destruct ((m =? 255) || (m =? 254)) eqn:M; [|discriminate].
  destruct (read_var b) as [[n h]|] eqn:V; [|discriminate]. destruct (n <=? blen (m :: b) - (1 + h)) eqn:Q; [|discriminate]. injection F as <- <-.
  assert (B := read_var_loop_bound _ _ _ _ _ V). apply N.leb_le in Q. rewrite blen_cons in *.
  assert (L : blen f = off + (1 + blen b) + blen q). { apply (f_equal (@length N)) in E. rewrite skipn_length, app_length in E. unfold blen in *. cbn [length] in E. lia. }
  split; [|lia]. exists m, (b ++ q), n, h. split; [exact E|]. split. { apply orb_true_iff in M. rewrite !N.eqb_eq in M. exact M. }
  split; [apply read_var_loop_prefix, V|]. split; [lia|]. split; [lia|]. f_equal.
  replace (N.to_nat (off + 1 + h)) with (N.to_nat off + N.to_nat (1 + h))%nat by lia. rewrite <- skipn_skipn', E.
  rewrite skipn_app. rewrite firstn_app. replace (N.to_nat n - _)%nat with 0%nat; [rewrite firstn_O, app_nil_r; reflexivity|]. rewrite skipn_length. cbn [length]. unfold blen in *. lia.
Qed.
Lemma read_split f off n b : f_read f off n = Some b -> exists q, skipn (N.to_nat off) f = b ++ q /\ off <= blen f.
Proof.
  unfold f_read. destruct (blen f <? off + n) eqn:E; [discriminate|]. apply N.ltb_ge in E. intros [= <-]. exists (skipn (N.to_nat n) (skipn (N.to_nat off) f)). rewrite firstn_skipn. split; [reflexivity|lia].
Qed.
Lemma read_step f s c o s' : rd_inv f s -> fr_read f s = (c, o, s') ->
  match o with Some r => rd_inv f s' /\ rec_at f (fr_off s) r (fr_off s') /\ fr_off s + 2 <= fr_off s' /\ c = SUCCESS | None => c <> SUCCESS end.
Proof.
  intros (O & X & q & E) H.
  assert (RF : fr_refill f s = (c, o, s') -> match o with Some r => rd_inv f s' /\ rec_at f (fr_off s) r (fr_off s') /\ fr_off s + 2 <= fr_off s' /\ c = SUCCESS | None => c <> SUCCESS end).
  { clear H. unfold fr_refill. destruct (blen f <=? fr_off s + 2); [intros [= <- <- <-]; discriminate|].
    destruct (f_read f (fr_off s) _) as [b|] eqn:R; [|intros [= <- <- <-]; discriminate]. destruct (read_split _ _ _ _ R) as (q1 & E1 & _).
    destruct (from_buf b) as [|n room|r used] eqn:F; [intros [= <- <- <-]; discriminate| |].
    - destruct (f_read f (fr_off s) (fr_size s + (n - room))) as [b2|] eqn:R2; [|intros [= <- <- <-]; discriminate]. destruct (read_split _ _ _ _ R2) as (q2 & E2 & _).
      destruct (from_buf b2) as [|n2 room2|r used] eqn:F2; [intros [= <- <- <-]; discriminate..|]. intros [= <- <- <-]. destruct (buf_rec _ _ _ _ _ _ E2 O F2) as (A & B & C).
      split; [|split; [exact A|cbn; split; [lia|reflexivity]]]. assert (L : fr_off s + used <= blen f). { destruct A as (? & ? & ? & ? & _ & _ & _ & _ & A & _). exact A. }
      split; [exact L|]. split; [cbn; lia|]. cbn. eexists. reflexivity.
    - intros [= <- <- <-]. destruct (buf_rec _ _ _ _ _ _ E1 O F) as (A & B & C). split; [|split; [exact A|cbn; split; [lia|reflexivity]]].
      assert (L : fr_off s + used <= blen f). { destruct A as (? & ? & ? & ? & _ & _ & _ & _ & A & _). exact A. }
      split; [exact L|]. split; [exact C|]. exists q1. cbn [fr_off fr_idx fr_buf]. replace (N.to_nat (fr_off s + used)) with (N.to_nat (fr_off s) + N.to_nat used)%nat by lia. rewrite <- skipn_skipn', E1, skipn_app.
      replace (N.to_nat used - length b)%nat with 0%nat by (unfold blen in C; lia). reflexivity. }
  unfold fr_read in H. destruct (fr_idx s + 9 <=? blen (fr_buf s)); [|exact (RF H)]. destruct (from_buf (skipn (N.to_nat (fr_idx s)) (fr_buf s))) as [|n room|r used] eqn:F; [injection H as <- <- <-; discriminate|exact (RF H)|].
  injection H as <- <- <-. destruct (buf_rec _ _ _ _ _ _ E O F) as (A & B & C). split; [|split; [exact A|cbn; split; [lia|reflexivity]]].
  assert (L : fr_off s + used <= blen f). { destruct A as (? & ? & ? & ? & _ & _ & _ & _ & A & _). exact A. }
  assert (D : fr_idx s + used <= blen (fr_buf s)). { unfold blen in *. rewrite skipn_length in C. lia. }
  split; [exact L|]. split; [exact D|]. exists q. cbn [fr_off fr_idx fr_buf]. replace (N.to_nat (fr_off s + used)) with (N.to_nat (fr_off s) + N.to_nat used)%nat by lia.
  replace (N.to_nat (fr_idx s + used)) with (N.to_nat (fr_idx s) + N.to_nat used)%nat by lia. rewrite <- !skipn_skipn', E, skipn_app.
  replace (N.to_nat used - _)%nat with 0%nat; [reflexivity|]. unfold blen in C. lia.
Qed.
Lemma rd_new n f : rd_inv f (fr_new n).
Proof. unfold rd_inv, fr_new. cbn. split; [lia|]. split; [lia|]. exists f. reflexivity. Qed.
Lemma all_total f : forall fuel s, rd_inv f s -> (N.to_nat (blen f - fr_off s) < fuel)%nat ->
  exists c l, fr_all fuel f s = Some (c, l) /\ c <> SUCCESS /\ recs_at f (fr_off s) l /\ forall fuel', (N.to_nat (blen f - fr_off s) < fuel')%nat -> fr_all fuel' f s = Some (c, l).
Proof.
  induction fuel as [|fu IH]; intros s I L; [lia|]. destruct (fr_read f s) as [[c o] s'] eqn:R. assert (P := read_step _ _ _ _ _ I R). destruct o as [r|].
  - destruct P as (I' & A & B & ->). destruct I' as (I1 & I2). destruct (IH s') as (c & l & E & N & X & U); [split; assumption|lia|].
    exists c, (r :: l). cbn [fr_all]. rewrite R, E. split; [reflexivity|]. split; [exact N|]. split; [exists (fr_off s'); auto|].
    intros [|fu'] L'; [lia|]. cbn [fr_all]. rewrite R, U; [reflexivity|]. lia.
  - exists c, []. cbn [fr_all]. rewrite R.
    split; [destruct c; reflexivity|]. split; [exact P|]. split; [exact Logic.I|]. intros [|fu'] L'; [lia|]. cbn [fr_all]. rewrite R. destruct c; reflexivity.
Qed.
(** Reading a file of any bytes with any buffer size ends, after not more than as many calls as the
    file has bytes, with a status other than SUCCESS; and what was read are the records at the start of the file,
    one after the other: nothing is invented, skipped or read twice. *)
Theorem C23_reader_any_file f buffer_size : exists c l, (forall fuel, (length f < fuel)%nat -> fr_all fuel f (fr_new buffer_size) = Some (c, l)) /\ c <> SUCCESS /\ recs_at f 0 l.
Proof.
  destruct (all_total f (S (length f)) (fr_new buffer_size) (rd_new _ _)) as (c & l & _ & N & X & U); [unfold blen; cbn; lia|].
  exists c, l. split; [|auto]. intros fuel L. apply U. unfold blen. cbn. lia.
Qed.
Print Assumptions C23_reader_any_file.
(** So an import from any bytes ends, into any database. *)
Theorem C23_import_any_file T (t_set : T -> bytes -> bytes -> code * T) f buffer_size t :
  exists c t', forall fuel, (length f < fuel)%nat -> flat_import t_set fuel f (fr_new buffer_size) t = Some (c, t').
Proof.
  assert (G : forall n s t, (N.to_nat (blen f - fr_off s) < n)%nat -> rd_inv f s -> exists c t', forall fuel, (N.to_nat (blen f - fr_off s) < fuel)%nat -> flat_import t_set fuel f s t = Some (c, t')).
  { induction n as [|n IH]; intros s u L I; [lia|]. destruct (fr_read f s) as [[c o] s1] eqn:R. assert (P := read_step _ _ _ _ _ I R). destruct o as [[[] k]|].
    - destruct P as (I' & _ & B & ->). destruct (IH s1 u) as (c & t' & U); [destruct I'; lia|exact I'|]. exists c, t'. intros [|fu] L'; [lia|]. cbn [flat_import]. rewrite R. apply U. destruct I'. lia.
    - destruct P as (I' & _ & B & ->). destruct (fr_read f s1) as [[c1 o1] s2] eqn:R1. assert (P1 := read_step _ _ _ _ _ I' R1). destruct o1 as [[[] v]|].
      + destruct P1 as (_ & _ & _ & ->). eexists _, _. intros [|fu] L'; [lia|]. cbn [flat_import]. rewrite R, R1. reflexivity.
      + destruct P1 as (I2 & _ & B2 & ->). destruct (t_set u k v) as [c t2] eqn:T1. destruct (code_eqb c SUCCESS) eqn:CE.
        * destruct (IH s2 t2) as (c3 & t' & U); [destruct I', I2; lia|exact I2|]. exists c3, t'. intros [|fu] L'; [lia|]. cbn [flat_import]. rewrite R, R1, T1, CE. apply U. destruct I', I2. lia.
        * exists c, t2. intros [|fu] L'; [lia|]. cbn [flat_import]. rewrite R, R1, T1, CE. reflexivity.
      + exists (if code_eqb c1 NOT_FOUND_ERROR then BROKEN_DATA_ERROR else c1), u. intros [|fu] L'; [lia|]. cbn [flat_import]. rewrite R, R1. destruct c1; reflexivity.
    - exists (if code_eqb c NOT_FOUND_ERROR then SUCCESS else c), u. intros [|fu] L'; [lia|]. cbn [flat_import]. rewrite R. destruct c; reflexivity. }
  destruct (G (S (length f)) (fr_new buffer_size) t) as (c & t' & U); [unfold blen; cbn; lia|apply rd_new|]. exists c, t'. intros fuel L. apply U. unfold blen. cbn. lia.
Qed.
Print Assumptions C23_import_any_file.
(** Two records and garbage. *)
Example C23_any_ex : fr_all 20 (flat_write (false, [1; 2]) ++ flat_write (true, [3]) ++ [7; 7; 7]) (fr_new 8) = Some (BROKEN_DATA_ERROR, [(false, [1; 2]); (true, [3])]).
Proof. reflexivity. Qed.
Example C23_any_ex2 : recs_at (flat_write (false, [1; 2]) ++ flat_write (true, [3]) ++ [7; 7; 7]) 0 [(false, [1; 2]); (true, [3])].
Proof.
  cbn. eexists. split; [eexists _, _, _, _; split; [reflexivity|]; split; [left; reflexivity|]; split; [reflexivity|]; split; [reflexivity|]; split; [vm_compute; discriminate|reflexivity]|].
  eexists. split; [eexists _, _, _, _; split; [reflexivity|]; split; [right; reflexivity|]; split; [reflexivity|]; split; [reflexivity|]; split; [vm_compute; discriminate|reflexivity]|]. exact I.
Qed.
