(** * Proofs about the order of the links in the file of statistics *)

From Coq Require Import Ascii String.
From Coq Require Import List Arith NArith Bool Permutation Lia.
From Verif Require Import GoStr StatsModel StatsJsonModel.
Import ListNotations.
Local Open Scope list_scope.

Lemma less_trans : forall a b c, str_less a b = true -> str_less b c = true -> str_less a c = true.
Proof.
  induction a as [|x a IH]; intros [|y b] [|z c] H1 H2; cbn [str_less] in *; try discriminate; auto.
  apply orb_true_iff in H1. apply orb_true_iff in H2. apply orb_true_iff. destruct H1 as [H1|H1], H2 as [H2|H2]; rewrite ?N.ltb_lt, ?andb_true_iff, ?Ascii.eqb_eq in *.
  - left. lia.
  - left. destruct H2 as (<- & _). auto.
  - left. destruct H1 as (-> & _). auto.
  - right. destruct H1 as (-> & H1), H2 as (-> & H2). split; eauto.
Qed.
Lemma less_irrefl : forall a, str_less a a = false.
Proof. induction a as [|x a IH]; cbn [str_less]; auto. rewrite N.ltb_irrefl, IH, andb_false_r. reflexivity. Qed.
Lemma less_total : forall a b, a <> b -> str_less a b = true \/ str_less b a = true.
Proof.
  induction a as [|x a IH]; intros [|y b] H; cbn [str_less]; try (now (left; reflexivity)); try (now (right; reflexivity)); try congruence.
  destruct (N.lt_trichotomy (N_of_ascii x) (N_of_ascii y)) as [L|[L|L]].
  - left. apply N.ltb_lt in L. rewrite L. reflexivity.
  - assert (x = y) by (rewrite <- (ascii_N_embedding x), <- (ascii_N_embedding y), L; reflexivity). subst y.
    rewrite Ascii.eqb_refl, N.ltb_irrefl. cbn [orb andb]. apply IH. congruence.
  - right. apply N.ltb_lt in L. rewrite L. reflexivity.
Qed.

Lemma insert_comm : forall e f m, str_less (fst e) (fst f) = true -> insert_key e (insert_key f m) = insert_key f (insert_key e m).
Proof.
  intros e f m L. assert (A : str_less (fst f) (fst e) = false).
  { destruct (str_less (fst f) (fst e)) eqn:E; auto. pose proof (less_trans _ _ _ L E) as X. rewrite less_irrefl in X. discriminate. }
  induction m as [|x m IH]; cbn [insert_key].
  - rewrite L, A. reflexivity.
  - destruct (str_less (fst e) (fst x)) eqn:E.
    + cbn [insert_key]. rewrite A. destruct (str_less (fst f) (fst x)) eqn:F; cbn [insert_key]; [rewrite L|rewrite E]; rewrite ?F; reflexivity.
    + assert (F : str_less (fst f) (fst x) = false) by (destruct (str_less (fst f) (fst x)) eqn:F; auto; rewrite (less_trans _ _ _ L F) in E; discriminate).
      rewrite F. cbn [insert_key]. rewrite E, F, IH. reflexivity.
Qed.

Lemma sort_keys_order : forall m m', Permutation m m' -> NoDup (map fst m) -> sort_keys m = sort_keys m'.
Proof.
  intros m m' P. unfold sort_keys. induction P as [|x m m' P IH|x y m|m m1 m' P1 IH1 P2 IH2]; intros D; cbn [fold_right map] in *; auto.
  - inversion D; subst. rewrite IH; auto.
  - inversion D as [|? ? D1 D2]; subst. assert (N : fst y <> fst x) by (intros E; apply D1; left; auto).
    destruct (less_total _ _ N) as [L|L]; [apply insert_comm; auto|symmetry; apply insert_comm; auto].
  - rewrite IH1 by auto. apply IH2. eapply Permutation_NoDup; [apply Permutation_map; exact P1|exact D].
Qed.
