(** The key expansion against FIPS 197, and the inverse cipher. *)
From Verif Require Import Bytes AesTables AesModel AesSpec AesProofs AesRounds.
From Coq Require Import Btauto.
Local Open Scope N_scope.
Local Opaque sbox inv_sbox gmul pk N.lxor.

Definition word_ok (w : list N) : Prop := length w = 4%nat /\ byt w.
Ltac list4 s := do 4 (destruct s as [|? s]; [discriminate|]); destruct s; [|discriminate].
Ltac exp4 := repeat match goal with
  | H : word_ok ?s |- _ => let L := fresh in let F := fresh in destruct H as [L F]; list4 s; clear L;
      repeat match type of F with Forall _ (_ :: _) => let F1 := fresh "B" in apply Forall_cons_iff in F as [F1 F] end; clear F end.
Lemma pkl_xor a b : word_ok a -> word_ok b -> N.lxor (pkl a) (pkl b) = pkl (xor_bytes a b).
Proof. intros Ha Hb. exp4. unfold pkl. cbn [nth]. rewrite pk_lxor. reflexivity. Qed.
Lemma xor_word a b : word_ok a -> word_ok b -> word_ok (xor_bytes a b).
Proof. intros Ha Hb. exp4. split; [reflexivity|]. cbn. repeat constructor; apply lxor_byte; assumption. Qed.
Lemma sub_word_ok a : word_ok a -> word_ok (sub_bytes a).
Proof. intros Ha. exp4. split; [reflexivity|]. cbn. repeat constructor; apply sbox_byte; assumption. Qed.
Lemma rot_word_ok a : word_ok a -> word_ok (rot_word a).
Proof. intros Ha. exp4. split; [reflexivity|]. cbn. repeat constructor; assumption. Qed.
Lemma rcon_ok i : (i < 10)%nat -> word_ok (rcon (S i)) /\ pkl (rcon (S i)) = nth i aes_rcon 0.
Proof.
  intros H. split.
  - split; [reflexivity|]. unfold rcon. repeat constructor. rewrite Nat.sub_succ, Nat.sub_0_r. destruct i; [reflexivity|]. cbn [gpow]. now apply gmul_byte.
  - do 10 (destruct i; [vm_compute; reflexivity|]). lia.
Qed.
Lemma rcon_word i : (i < 10)%nat -> word_ok (rcon (S i)).
Proof. intros H. exact (proj1 (rcon_ok i H)). Qed.
Lemma setup_temp_ok w0 t i : word_ok w0 -> word_ok t -> (i < 10)%nat ->
  setup_temp (pkl w0) (pkl t) i = pkl (xor_bytes w0 (xor_bytes (sub_bytes (rot_word t)) (rcon (S i)))).
Proof.
  intros H0 Ht Hi. destruct (rcon_ok i Hi) as [R1 R2]. unfold setup_temp. rewrite <- R2. generalize dependent (rcon (S i)). intros rc R1 _.
  exp4. unfold pkl. cbn [nth]. rewrite b3_pk, b2_pk, b1_pk, b0_pk, te4_3, te4_2, te4_1, te4_0 by assumption. rewrite !pk_lxor.
  cbn. rewrite !N.lxor_0_r, !N.lxor_assoc. reflexivity.
Qed.
Lemma setup_temp2_ok w0 t : word_ok w0 -> word_ok t -> setup_temp2 (pkl w0) (pkl t) = pkl (xor_bytes w0 (sub_bytes t)).
Proof.
  intros H0 Ht. unfold setup_temp2. exp4. unfold pkl. cbn [nth].
  rewrite b3_pk, b2_pk, b1_pk, b0_pk, te4_3, te4_2, te4_1, te4_0 by assumption. rewrite !pk_lxor. cbn. rewrite !N.lxor_0_r. reflexivity.
Qed.

(** ** The expansion *)
Definition temp (nk i : nat) (t : list N) : list N :=
  if Nat.eqb (i mod nk) 0 then xor_bytes (sub_bytes (rot_word t)) (rcon (i / nk))
  else if andb (Nat.ltb 6 nk) (Nat.eqb (i mod nk) 4) then sub_bytes t else t.
Lemma next_at nk pre w0 mid : S (length mid) = nk ->
  next_word nk (pre ++ w0 :: mid) = xor_bytes w0 (temp nk (length pre + nk) (last (w0 :: mid) [])).
Proof.
  intros H. unfold next_word. cbv zeta.
  replace (length (pre ++ w0 :: mid)) with (length pre + nk)%nat by (rewrite app_length; cbn; lia).
  replace (length pre + nk - nk)%nat with (length pre + 0)%nat by lia. rewrite app_nth2_plus. cbn [nth].
  replace (last (pre ++ w0 :: mid) []) with (last (w0 :: mid) []); [reflexivity|].
  clear H. induction pre as [|x pre IH]; [reflexivity|]. rewrite IH. cbn [app]. destruct (pre ++ w0 :: mid) eqn:E; [|reflexivity]. destruct pre; discriminate.
Qed.
Lemma expand_at nk n pre w0 mid : S (length mid) = nk ->
  expand nk (S n) (pre ++ w0 :: mid) =
  expand nk n ((pre ++ [w0]) ++ mid ++ [xor_bytes w0 (temp nk (length pre + nk) (last (w0 :: mid) []))]).
Proof.
  intros H. cbn [expand]. rewrite next_at by assumption. f_equal. rewrite <- !app_assoc. reflexivity.
Qed.
Lemma temp_0 nk i j t : (i mod nk = 0)%nat -> (i / nk = j)%nat -> temp nk i t = xor_bytes (sub_bytes (rot_word t)) (rcon j).
Proof. intros H <-. unfold temp. now rewrite H. Qed.
Lemma temp_n nk i t : (i mod nk <> 0)%nat -> (nk <= 6 \/ i mod nk <> 4)%nat -> temp nk i t = t.
Proof.
  intros H1 H2. unfold temp. destruct (Nat.eqb_spec (i mod nk) 0); [contradiction|].
  destruct (Nat.ltb_spec 6 nk), (Nat.eqb_spec (i mod nk) 4); cbn; try reflexivity. lia.
Qed.
Lemma temp_4 i t : (i mod 8 = 4)%nat -> temp 8 i t = sub_bytes t.
Proof. intros H. unfold temp. now rewrite H. Qed.
Ltac stepx := rewrite expand_at by reflexivity; rewrite ?app_length; cbn [length last app].
Ltac wok := repeat (apply xor_word || apply sub_word_ok || apply rot_word_ok); try assumption; try (apply rcon_word; lia).
Lemma setup128_ok n : forall i pre w0 w1 w2 w3, length pre = (4 * i)%nat -> (i + n <= 10)%nat -> Forall word_ok pre ->
  word_ok w0 -> word_ok w1 -> word_ok w2 -> word_ok w3 ->
  map pkl (expand 4 (4 * n) (pre ++ [w0; w1; w2; w3])) =
    map pkl (pre ++ [w0; w1; w2; w3]) ++ setup128 n i (pkl w0) (pkl w1) (pkl w2) (pkl w3) /\
  Forall word_ok (expand 4 (4 * n) (pre ++ [w0; w1; w2; w3])).
Proof.
  induction n as [|n IH]; intros i pre w0 w1 w2 w3 HL Hi Hp H0 H1 H2 H3.
  - cbn [Nat.mul expand setup128]. rewrite app_nil_r. split; [reflexivity|]. apply Forall_app; split; [assumption|]. repeat (apply Forall_cons; [assumption|]); constructor.
  - replace (4 * S n)%nat with (S (S (S (S (4 * n))))) by lia. cbn [setup128].
    do 4 stepx. rewrite !HL. rewrite (temp_0 4 _ (S i)) by lia. rewrite !temp_n by lia.
    rewrite setup_temp_ok by (assumption || lia).
    set (w4 := xor_bytes w0 _). assert (K4 : word_ok w4) by (unfold w4; wok).
    rewrite (pkl_xor w1 w4) by assumption. set (w5 := xor_bytes w1 w4). assert (K5 : word_ok w5) by (unfold w5; wok).
    rewrite (pkl_xor w2 w5) by assumption. set (w6 := xor_bytes w2 w5). assert (K6 : word_ok w6) by (unfold w6; wok).
    rewrite (pkl_xor w3 w6) by assumption. set (w7 := xor_bytes w3 w6). assert (K7 : word_ok w7) by (unfold w7; wok).
    destruct (IH (S i) ((((pre ++ [w0]) ++ [w1]) ++ [w2]) ++ [w3]) w4 w5 w6 w7) as [E1 E2]; try assumption.
    + rewrite !app_length. cbn. lia.
    + lia.
    + repeat (apply Forall_app; split); try assumption; (apply Forall_cons; [assumption|constructor]).
    + split; [|exact E2]. rewrite E1. rewrite <- !app_assoc. cbn [app]. rewrite !map_app, <- !app_assoc. reflexivity.
Qed.

Lemma setup192_ok n : forall i pre w0 w1 w2 w3 w4 w5, length pre = (6 * i)%nat -> (i + n < 10)%nat -> Forall word_ok pre ->
  word_ok w0 -> word_ok w1 -> word_ok w2 -> word_ok w3 -> word_ok w4 -> word_ok w5 ->
  map pkl (expand 6 (6 * n + 4) (pre ++ [w0; w1; w2; w3; w4; w5])) =
    map pkl (pre ++ [w0; w1; w2; w3; w4; w5]) ++ setup192 (S n) i (pkl w0) (pkl w1) (pkl w2) (pkl w3) (pkl w4) (pkl w5) /\
  Forall word_ok (expand 6 (6 * n + 4) (pre ++ [w0; w1; w2; w3; w4; w5])).
Proof.
  induction n as [|n IH]; intros i pre w0 w1 w2 w3 w4 w5 HL Hi Hp H0 H1 H2 H3 H4 H5; cbn [setup192].
  - change (6 * 0 + 4)%nat with 4%nat.
    do 4 stepx. rewrite !HL. rewrite (temp_0 6 _ (S i)) by lia. rewrite !temp_n by lia. cbn [expand].
    rewrite setup_temp_ok by (assumption || lia).
    set (w6 := xor_bytes w0 _). assert (K6 : word_ok w6) by (unfold w6; wok).
    rewrite (pkl_xor w1 w6) by assumption. set (w7 := xor_bytes w1 w6). assert (K7 : word_ok w7) by (unfold w7; wok).
    rewrite (pkl_xor w2 w7) by assumption. set (w8 := xor_bytes w2 w7). assert (K8 : word_ok w8) by (unfold w8; wok).
    rewrite (pkl_xor w3 w8) by assumption. set (w9 := xor_bytes w3 w8). assert (K9 : word_ok w9) by (unfold w9; wok).
    split; [rewrite <- !app_assoc; cbn [app]; rewrite !map_app; rewrite <- ?app_assoc; reflexivity|].
    repeat (apply Forall_app; split); try assumption; repeat (apply Forall_cons; [assumption|]); constructor.
  - replace (6 * S n + 4)%nat with (S (S (S (S (S (S (6 * n + 4))))))) by lia.
    do 6 stepx. rewrite !HL. rewrite (temp_0 6 _ (S i)) by lia. rewrite !temp_n by lia.
    rewrite setup_temp_ok by (assumption || lia).
    set (w6 := xor_bytes w0 _). assert (K6 : word_ok w6) by (unfold w6; wok).
    rewrite (pkl_xor w1 w6) by assumption. set (w7 := xor_bytes w1 w6). assert (K7 : word_ok w7) by (unfold w7; wok).
    rewrite (pkl_xor w2 w7) by assumption. set (w8 := xor_bytes w2 w7). assert (K8 : word_ok w8) by (unfold w8; wok).
    rewrite (pkl_xor w3 w8) by assumption. set (w9 := xor_bytes w3 w8). assert (K9 : word_ok w9) by (unfold w9; wok).
    rewrite (pkl_xor w4 w9) by assumption. set (w10 := xor_bytes w4 w9). assert (K10 : word_ok w10) by (unfold w10; wok).
    rewrite (pkl_xor w5 w10) by assumption. set (w11 := xor_bytes w5 w10). assert (K11 : word_ok w11) by (unfold w11; wok).
    destruct (IH (S i) ((((((pre ++ [w0]) ++ [w1]) ++ [w2]) ++ [w3]) ++ [w4]) ++ [w5]) w6 w7 w8 w9 w10 w11) as [E1 E2]; try assumption.
    + rewrite !app_length. cbn. lia.
    + lia.
    + repeat (apply Forall_app; split); try assumption; (apply Forall_cons; [assumption|constructor]).
    + split; [|exact E2]. rewrite E1. rewrite <- !app_assoc. cbn [app]. rewrite !map_app, <- !app_assoc. reflexivity.
Qed.
Lemma setup256_ok n : forall i pre w0 w1 w2 w3 w4 w5 w6 w7, length pre = (8 * i)%nat -> (i + n < 10)%nat -> Forall word_ok pre ->
  word_ok w0 -> word_ok w1 -> word_ok w2 -> word_ok w3 -> word_ok w4 -> word_ok w5 -> word_ok w6 -> word_ok w7 ->
  map pkl (expand 8 (8 * n + 4) (pre ++ [w0; w1; w2; w3; w4; w5; w6; w7])) =
    map pkl (pre ++ [w0; w1; w2; w3; w4; w5; w6; w7]) ++ setup256 (S n) i (pkl w0) (pkl w1) (pkl w2) (pkl w3) (pkl w4) (pkl w5) (pkl w6) (pkl w7) /\
  Forall word_ok (expand 8 (8 * n + 4) (pre ++ [w0; w1; w2; w3; w4; w5; w6; w7])).
Proof.
  induction n as [|n IH]; intros i pre w0 w1 w2 w3 w4 w5 w6 w7 HL Hi Hp H0 H1 H2 H3 H4 H5 H6 H7; cbn [setup256].
  - change (8 * 0 + 4)%nat with 4%nat.
    do 4 stepx. rewrite !HL. rewrite (temp_0 8 _ (S i)) by lia. rewrite !temp_n by lia. cbn [expand].
    rewrite setup_temp_ok by (assumption || lia).
    set (w8 := xor_bytes w0 _). assert (K8 : word_ok w8) by (unfold w8; wok).
    rewrite (pkl_xor w1 w8) by assumption. set (w9 := xor_bytes w1 w8). assert (K9 : word_ok w9) by (unfold w9; wok).
    rewrite (pkl_xor w2 w9) by assumption. set (w10 := xor_bytes w2 w9). assert (K10 : word_ok w10) by (unfold w10; wok).
    rewrite (pkl_xor w3 w10) by assumption. set (w11 := xor_bytes w3 w10). assert (K11 : word_ok w11) by (unfold w11; wok).
    split; [rewrite <- !app_assoc; cbn [app]; rewrite !map_app; rewrite <- ?app_assoc; reflexivity|].
    repeat (apply Forall_app; split); try assumption; repeat (apply Forall_cons; [assumption|]); constructor.
  - replace (8 * S n + 4)%nat with (S (S (S (S (S (S (S (S (8 * n + 4))))))))) by lia.
    do 8 stepx. rewrite !HL. rewrite (temp_0 8 _ (S i)) by lia.
    match goal with |- context [temp 8 ?j (xor_bytes w3 ?x)] => rewrite (temp_4 j (xor_bytes w3 x)) by lia end.
    rewrite !temp_n by lia.
    rewrite setup_temp_ok by (assumption || lia).
    set (w8 := xor_bytes w0 _). assert (K8 : word_ok w8) by (unfold w8; wok).
    rewrite (pkl_xor w1 w8) by assumption. set (w9 := xor_bytes w1 w8). assert (K9 : word_ok w9) by (unfold w9; wok).
    rewrite (pkl_xor w2 w9) by assumption. set (w10 := xor_bytes w2 w9). assert (K10 : word_ok w10) by (unfold w10; wok).
    rewrite (pkl_xor w3 w10) by assumption. set (w11 := xor_bytes w3 w10). assert (K11 : word_ok w11) by (unfold w11; wok).
    rewrite setup_temp2_ok by assumption. set (w12 := xor_bytes w4 _). assert (K12 : word_ok w12) by (unfold w12; wok).
    rewrite (pkl_xor w5 w12) by assumption. set (w13 := xor_bytes w5 w12). assert (K13 : word_ok w13) by (unfold w13; wok).
    rewrite (pkl_xor w6 w13) by assumption. set (w14 := xor_bytes w6 w13). assert (K14 : word_ok w14) by (unfold w14; wok).
    rewrite (pkl_xor w7 w14) by assumption. set (w15 := xor_bytes w7 w14). assert (K15 : word_ok w15) by (unfold w15; wok).
    destruct (IH (S i) ((((((((pre ++ [w0]) ++ [w1]) ++ [w2]) ++ [w3]) ++ [w4]) ++ [w5]) ++ [w6]) ++ [w7]) w8 w9 w10 w11 w12 w13 w14 w15) as [E1 E2]; try assumption.
    + rewrite !app_length. cbn. lia.
    + lia.
    + repeat (apply Forall_app; split); try assumption; (apply Forall_cons; [assumption|constructor]).
    + split; [|exact E2]. rewrite E1. rewrite <- !app_assoc. cbn [app]. rewrite !map_app, <- !app_assoc. reflexivity.
Qed.
