(** The order of byte strings (std::string::compare, std::string_view::compare
    and operator< of the standard library: lexicographic on unsigned bytes) and
    its laws. *)
From Coq Require Import Sorted.
From Verif Require Import Bytes.

Fixpoint bcmp (a b : bytes) : comparison :=
  match a, b with
  | [], [] => Eq
  | [], _ :: _ => Lt
  | _ :: _, [] => Gt
  | x :: a', y :: b' => match (x ?= y)%N with Eq => bcmp a' b' | c => c end
  end.
Definition blt (a b : bytes) : Prop := bcmp a b = Lt.

Lemma bcmp_eq a b : bcmp a b = Eq <-> a = b.
Proof.
  revert b; induction a as [|x a IH]; intros [|y b]; cbn [bcmp]; try (split; congruence).
  destruct (N.compare_spec x y) as [->|H|H].
  - rewrite IH. split; congruence.
  - split; [congruence|]. intros E; injection E as -> _. lia.
  - split; [congruence|]. intros E; injection E as -> _. lia.
Qed.
Lemma bcmp_refl a : bcmp a a = Eq.
Proof. apply bcmp_eq; reflexivity. Qed.
Lemma bcmp_opp a b : bcmp a b = CompOpp (bcmp b a).
Proof.
  revert b; induction a as [|x a IH]; intros [|y b]; cbn [bcmp CompOpp]; try reflexivity.
  rewrite (N.compare_antisym y x). destruct (y ?= x)%N eqn:E; cbn [CompOpp]; auto.
Qed.
Lemma bcmp_gt a b : bcmp a b = Gt <-> blt b a.
Proof. unfold blt. rewrite (bcmp_opp a b). destruct (bcmp b a); cbn [CompOpp]; split; congruence. Qed.
Lemma blt_irrefl a : ~ blt a a.
Proof. unfold blt. rewrite bcmp_refl. discriminate. Qed.
Lemma blt_trans a b c : blt a b -> blt b c -> blt a c.
Proof.
  unfold blt. revert b c; induction a as [|x a IH]; intros [|y b] [|z c]; cbn [bcmp]; try congruence.
  intros H1 H2. destruct (N.compare_spec x y) as [->|H|H]; [| |discriminate].
  - destruct (N.compare_spec y z) as [->|H'|H']; [eauto|reflexivity|discriminate].
  - destruct (N.compare_spec y z) as [->|H'|H']; [| |discriminate];
      destruct (N.compare_spec x z); try lia; reflexivity.
Qed.
Lemma blt_neq a b : blt a b -> a <> b.
Proof. intros H ->. exact (blt_irrefl _ H). Qed.
Lemma blt_total a b : blt a b \/ a = b \/ blt b a.
Proof.
  destruct (bcmp a b) eqn:E; [right; left; apply bcmp_eq, E|left; exact E|right; right; apply bcmp_gt, E].
Qed.
Lemma blt_asym a b : blt a b -> ~ blt b a.
Proof. intros H H'. exact (blt_irrefl _ (blt_trans _ _ _ H H')). Qed.

Definition bsorted (l : list bytes) : Prop := StronglySorted blt l.
Lemma bsorted_nodup l : bsorted l -> NoDup l.
Proof.
  induction 1 as [|x l _ IH H]; constructor; [|exact IH].
  intros Hi. rewrite Forall_forall in H. exact (blt_irrefl _ (H x Hi)).
Qed.
Lemma bsorted_unique l l' : bsorted l -> bsorted l' -> (forall x, In x l <-> In x l') -> l = l'.
Proof.
  intros H; revert l'; induction H as [|x l Hl IH Hx]; intros l' H' E.
  - destruct l' as [|y l']; [reflexivity|]. destruct (proj2 (E y) (or_introl eq_refl)).
  - destruct l' as [|y l']; [destruct (proj1 (E x) (or_introl eq_refl))|].
    inversion H' as [|? ? Hl' Hy]; subst. rewrite Forall_forall in Hx, Hy.
    assert (x = y) as <-.
    { destruct (proj1 (E x) (or_introl eq_refl)) as [->|A]; [reflexivity|].
      destruct (proj2 (E y) (or_introl eq_refl)) as [->|B]; [reflexivity|].
      destruct (blt_asym _ _ (Hx y B) (Hy x A)). }
    f_equal. apply IH; [exact Hl'|]. intros z. split; intros Hz.
    + destruct (proj1 (E z) (or_intror Hz)) as [<-|A]; [destruct (blt_irrefl _ (Hx x Hz))|exact A].
    + destruct (proj2 (E z) (or_intror Hz)) as [<-|A]; [destruct (blt_irrefl _ (Hy x Hz))|exact A].
Qed.
