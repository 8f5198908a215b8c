(** * More facts about strings: decompositions and first occurrences *)

From Coq Require Import Ascii String.
From Coq Require Import List Arith Bool Lia.
From Verif Require Import GoStr GoStrFacts.
Import ListNotations.
Local Open Scope list_scope.

Lemma app_char_cases : forall {A} (c : A) a b a' b', a ++ c :: b = a' ++ c :: b' ->
  (a = a' /\ b = b') \/ (exists z, a' = a ++ c :: z /\ b = z ++ c :: b') \/ (exists z, a = a' ++ c :: z /\ b' = z ++ c :: b).
Proof.
  induction a as [|x a IH]; intros b [|x' a'] b' H; simpl in H; inversion H; subst.
  - left; auto.
  - right; left. exists a'. auto.
  - right; right. exists a. auto.
  - destruct (IH _ _ _ H2) as [[-> ->]|[(z & -> & ->)|(z & -> & ->)]].
    + left; auto.
    + right; left; exists z; auto.
    + right; right; exists z; auto.
Qed.

(** Two decompositions of the same list *)
Lemma app_app_cases : forall {A} (a b a' b' : list A), a ++ b = a' ++ b' ->
  (exists z, a' = a ++ z /\ b = z ++ b') \/ (exists z, a = a' ++ z /\ b' = z ++ b).
Proof.
  induction a as [|x a IH]; intros b [|x' a'] b' H; simpl in H; subst.
  - left; exists []; auto.
  - left; exists (x' :: a'); auto.
  - right; exists (x :: a); auto.
  - inversion H; subst. destruct (IH _ _ _ H2) as [(z & -> & ->)|(z & -> & ->)]; [left|right]; exists z; auto.
Qed.

(** The last character of the pattern [q ++ [d]] occurs only once in it, so it cannot overlap with itself. *)
Lemma index_fresh : forall d q r a b, ~ In d q -> contains (q ++ [d]) a = false ->
  index ((q ++ [d]) ++ r) (a ++ ((q ++ [d]) ++ r) ++ b) = Some (length a).
Proof.
  intros d q r a b N C. apply index_first. intros j J.
  destruct (has_prefix _ _) eqn:E; auto. exfalso.
  apply has_prefix_spec in E as (t & E).
  rewrite skipn_app in E. replace (j - length a) with 0 in E by lia. rewrite skipn_O in E.
  assert (NE : skipn j a <> []) by (intros K; apply (f_equal (@length ascii)) in K; rewrite skipn_length in K; simpl in K; lia).
  assert (Ea : a = firstn j a ++ skipn j a) by (symmetry; apply firstn_skipn).
  remember (skipn j a) as a2. rewrite <- !app_assoc in E. rewrite (app_assoc q [d] (r ++ b)), (app_assoc q [d] (r ++ t)) in E.
  destruct (app_app_cases _ _ _ _ E) as [(z & Z & Z2)|(z & Z & Z2)].
  - (* the pattern would overlap with itself *)
    destruct z as [|y z].
    + rewrite app_nil_r in *. apply contains_false with (a := firstn j a) (b := []) in C. apply C. rewrite app_nil_r, Z. exact Ea.
    + assert (L : length (y :: z) < length (q ++ [d])).
      { rewrite Z, app_length. destruct a2; [congruence|simpl; lia]. }
      destruct (app_app_cases _ _ _ _ Z2) as [(k & K & K2)|(k & K & K2)].
      * rewrite K in L. rewrite !app_length in L. simpl in L. lia.
      * assert (Lk : length k > 0) by (rewrite K, app_length in L; lia).
        assert (D : exists z', y :: z = z' ++ [d]).
        { destruct (rev (y :: z)) as [|d' z'] eqn:R.
          - apply (f_equal (@length ascii)) in R. rewrite rev_length in R. discriminate R.
          - exists (rev z'). apply (f_equal (@rev ascii)) in Z. rewrite !rev_app_distr, R in Z. simpl in Z. inversion Z; subst d'.
            rewrite <- (rev_involutive (y :: z)), R. reflexivity. }
        destruct D as (z' & D). rewrite D in K.
        destruct (rev k) as [|k1 k'] eqn:R.
        -- apply (f_equal (@rev ascii)) in R. rewrite rev_involutive in R. simpl in R. subst k. simpl in Lk. lia.
        -- apply (f_equal (@rev ascii)) in K. rewrite !rev_app_distr, R in K. simpl in K. inversion K.
           apply N. apply in_rev. rewrite H1. apply in_or_app. right. left. auto.
  - apply contains_false with (a := firstn j a) (b := z) in C. apply C. rewrite <- Z. exact Ea.
Qed.

(** The first character of the pattern occurs only once in it. *)
Lemma index_fresh_first : forall c q a b, ~ In c q -> contains (c :: q) a = false ->
  index (c :: q) (a ++ (c :: q) ++ b) = Some (length a).
Proof.
  intros c q a b N C. apply index_first. intros j J.
  destruct (has_prefix _ _) eqn:E; auto. exfalso.
  apply has_prefix_spec in E as (t & E).
  rewrite skipn_app in E. replace (j - length a) with 0 in E by lia. rewrite skipn_O in E.
  assert (NE : skipn j a <> []) by (intros K; apply (f_equal (@length ascii)) in K; rewrite skipn_length in K; simpl in K; lia).
  assert (Ea : a = firstn j a ++ skipn j a) by (symmetry; apply firstn_skipn).
  remember (skipn j a) as a2.
  destruct (app_app_cases _ _ _ _ E) as [(z & Z & Z2)|(z & Z & Z2)].
  - destruct a2 as [|x a2]; [congruence|]. simpl in Z. inversion Z; subst x q.
    destruct z as [|y z].
    + rewrite app_nil_r in *. apply contains_false with (a := firstn j a) (b := []) in C. apply C. rewrite app_nil_r. rewrite Ea at 1. reflexivity.
    + simpl in Z2. inversion Z2; subst. apply N, in_or_app. right; left; auto.
  - apply contains_false with (a := firstn j a) (b := z) in C. apply C. rewrite <- Z. exact Ea.
Qed.

Lemma index_fresh_last : forall d q a b, ~ In d q -> contains (q ++ [d]) a = false ->
  index (q ++ [d]) (a ++ (q ++ [d]) ++ b) = Some (length a).
Proof.
  intros d q a b N C. pose proof (index_fresh d q [] a b N C) as H. rewrite !app_nil_r in H. exact H.
Qed.

Lemma join_nil : forall l, join [] l = concat l.
Proof. induction l as [|a [|b l] IH]; auto. - simpl. rewrite app_nil_r. auto. - cbn [join concat] in *. rewrite IH. auto. Qed.

Lemma index_of_parts : forall p a b, index p (a ++ p ++ b) = Some (length a) ->
  firstn (length a) (a ++ p ++ b) = a /\ skipn (length a + length p) (a ++ p ++ b) = b.
Proof.
  intros p a b _. split.
  - rewrite firstn_app, Nat.sub_diag, firstn_all, firstn_O, app_nil_r. auto.
  - rewrite skipn_app, skipn_all2 by lia. replace (length a + length p - length a) with (length p) by lia.
    rewrite skipn_app, skipn_all, Nat.sub_diag. reflexivity.
Qed.
