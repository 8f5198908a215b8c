(** * Proofs about the worker pool *)

From Coq Require Import Ascii String.
From Coq Require Import List Arith Bool Lia Permutation.
From Verif Require Import GoStr GoStrFacts PoolModel PoolSpec.
Import ListNotations.
Local Open Scope list_scope.

Lemma set_nth_length : forall {A} n (x : A) l, List.length (set_nth n x l) = List.length l.
Proof. intros A n x l; revert n; induction l; intros [|n]; simpl; auto. Qed.

Lemma set_nth_same : forall {A} n (x : A) l, n < List.length l -> nth_error (set_nth n x l) n = Some x.
Proof. intros A n x l; revert n; induction l; intros [|n] H; simpl in *; try lia; auto. apply IHl; lia. Qed.

Lemma set_nth_other : forall {A} n m (x : A) l, n <> m -> nth_error (set_nth n x l) m = nth_error l m.
Proof. intros A n m x l; revert n m; induction l; intros [|n] [|m] H; simpl in *; try lia; auto. Qed.

Lemma articleNumber_spec : forall articles a, In a articles ->
  nth_error articles (articleNumber articles a) = Some a /\ first_occurrence articles (articleNumber articles a).
Proof.
  induction articles as [|b l IH]; intros a H; [destruct H|]. simpl. destruct (str_eqb a b) eqn:E.
  - apply str_eqb_eq in E. subst. split; auto. intros j L; lia.
  - apply str_eqb_neq in E. destruct H as [H|H]; [congruence|]. destruct (IH a H) as [A B]. split; auto.
    intros [|j] L.
    + simpl. rewrite A. congruence.
    + simpl. apply B. lia.
Qed.

Lemma articleNumber_lt : forall articles a, In a articles -> articleNumber articles a < List.length articles.
Proof. intros articles a H. apply articleNumber_spec in H as [H _]. apply nth_error_Some. congruence. Qed.

Definition busy (ws : list worker) : list str :=
  flat_map (fun w => match w with Working a => [a] | _ => [] end) ws.

Definition weight (w : worker) : nat := match w with Waiting => 1 | Working _ => 3 | Ended => 0 end.
Definition wsum (ws : list worker) : nat := fold_right (fun w s => weight w + s) 0 ws.

Lemma wsum_set : forall ws i w x, nth_error ws i = Some w -> wsum (set_nth i x ws) + weight w = wsum ws + weight x.
Proof.
  induction ws as [|v ws IH]; intros [|i] w x H; simpl in *; try discriminate.
  - inversion H; subst. lia.
  - specialize (IH i w x H). lia.
Qed.

Lemma busy_set_work : forall ws i a, nth_error ws i = Some Waiting -> Permutation (busy (set_nth i (Working a) ws)) (a :: busy ws).
Proof.
  induction ws as [|v ws IH]; intros [|i] a H; simpl in *; try discriminate.
  - inversion H; subst. simpl. auto.
  - rewrite (IH i a H). destruct v; simpl; auto. apply perm_swap.
Qed.

Lemma busy_set_wait : forall ws i a x, nth_error ws i = Some (Working a) -> (forall b, x <> Working b) ->
  Permutation (a :: busy (set_nth i x ws)) (busy ws).
Proof.
  induction ws as [|v ws IH]; intros [|i] a x H N; simpl in *; try discriminate.
  - inversion H; subst. destruct x; simpl; auto. exfalso; eapply N; eauto.
  - rewrite <- (IH i a x H N). destruct v; simpl; auto. apply perm_swap.
Qed.

Lemma busy_set_end : forall ws i, nth_error ws i = Some Waiting -> busy (set_nth i Ended ws) = busy ws.
Proof.
  induction ws as [|v ws IH]; intros [|i] H; simpl in *; try discriminate.
  - inversion H; subst. auto.
  - rewrite (IH i H). auto.
Qed.

Section Pool.
  Variable articles : list str.
  Variable threads : nat.
  Variable process : str -> str -> Prop.

  (** [fin]: articles whose processing has ended *)
  Definition pool_inv (fin : list str) (s : pool) : Prop :=
    Permutation (fin ++ busy (workers s) ++ queue s ++ to_send s) articles /\
    List.length (outputs s) = List.length articles /\
    List.length (workers s) = threads /\
    List.length (queue s) <= threads /\
    (closed s = true -> to_send s = []) /\
    (forall a, In a fin -> exists r, process a r /\ nth_error (outputs s) (articleNumber articles a) = Some r) /\
    (forall k, (forall a, In a fin -> articleNumber articles a <> k) -> k < List.length articles -> nth_error (outputs s) k = Some []) /\
    (In Ended (workers s) -> closed s = true /\ queue s = []).

  Definition measure (s : pool) : nat :=
    4 * List.length (to_send s) + (if closed s then 0 else 1) + 3 * List.length (queue s) + wsum (workers s).

  Lemma In_set_nth : forall {A} i (x y : A) l, In y (set_nth i x l) -> y = x \/ In y l.
  Proof.
    intros A i x y l; revert i; induction l as [|z l IH]; intros [|i] H; simpl in *; auto.
    - destruct H as [H|H]; auto.
    - destruct H as [H|H]; auto. apply IH in H. tauto.
  Qed.

  Lemma pool_step_inv : forall fin s s', pool_inv fin s -> pool_step articles threads process s s' ->
    exists fin', pool_inv fin' s'.
  Proof.
    intros fin s s' (P & LO & LW & LQ & CL & FIN & UN & EN) H. destruct H; cbn [workers queue to_send closed outputs] in *.
    - exists fin. repeat split; cbn [workers queue to_send closed outputs]; auto.
      + rewrite <- app_assoc. exact P.
      + rewrite app_length. simpl. lia.
      + discriminate.
      + apply EN in H0 as [X _]. auto.
      + apply EN in H0 as [X _]. discriminate.
    - exists fin. repeat split; cbn [workers queue to_send closed outputs]; auto. apply EN in H as [X _]. discriminate.
    - exists fin. repeat split; cbn [workers queue to_send closed outputs]; auto.
      + rewrite (busy_set_work ws i a H). etransitivity; [|exact P]. apply Permutation_app_head.
        simpl. apply Permutation_middle.
      + rewrite set_nth_length; auto.
      + simpl in LQ. lia.
      + apply In_set_nth in H0 as [X|X]; [discriminate|]. apply EN in X; tauto.
      + apply In_set_nth in H0 as [X|X]; [discriminate|]. apply EN in X as [_ X]. discriminate.
    - assert (AI : In a articles).
      { eapply Permutation_in; [exact P|]. apply in_app_iff; right; apply in_app_iff; left.
        apply (Permutation_in _ (busy_set_wait ws i a Waiting H ltac:(discriminate))). left; auto. }
      exists (a :: fin). repeat split; cbn [workers queue to_send closed outputs]; auto.
      + rewrite <- P, <- (busy_set_wait ws i a Waiting H) by discriminate. simpl. apply Permutation_middle.
      + rewrite set_nth_length; auto.
      + rewrite set_nth_length; auto.
      + intros b [<-|Hb].
        * exists r. split; auto. apply set_nth_same. rewrite LO. apply articleNumber_lt; auto.
        * destruct (Nat.eq_dec (articleNumber articles a) (articleNumber articles b)) as [E|N].
          -- assert (a = b).
             { assert (BI : In b articles) by (eapply Permutation_in; [exact P|]; apply in_app_iff; auto).
               destruct (articleNumber_spec articles a AI) as [Ea _]. destruct (articleNumber_spec articles b BI) as [Eb _].
               congruence. }
             subst b. exists r. split; auto. apply set_nth_same. rewrite LO. apply articleNumber_lt; auto.
          -- rewrite set_nth_other by auto. apply FIN; auto.
      + intros k NK LK. rewrite set_nth_other by (apply NK; left; auto). apply UN; auto. intros b Hb. apply NK; right; auto.
      + apply In_set_nth in H1 as [X|X]; [discriminate|]. apply EN in X; tauto.
      + apply In_set_nth in H1 as [X|X]; [discriminate|]. apply EN in X as [_ X]. auto.
    - exists fin. repeat split; cbn [workers queue to_send closed outputs]; auto.
      + rewrite busy_set_end; auto.
      + rewrite set_nth_length; auto.
  Qed.

  Lemma busy_repeat : forall n, busy (repeat Waiting n) = [].
  Proof. induction n; simpl; auto. Qed.

  Lemma pool_start_inv : pool_inv [] (pool_start articles threads).
  Proof.
    unfold pool_start. repeat split; cbn [workers queue to_send closed outputs]; auto.
    - rewrite busy_repeat. simpl. auto.
    - apply repeat_length.
    - apply repeat_length.
    - simpl; lia.
    - discriminate.
    - intros a [].
    - intros k _ L. rewrite nth_error_repeat; auto.
    - apply repeat_spec in H. discriminate.
  Qed.

  Lemma pool_reachable_inv : forall n s, nsteps (pool_step articles threads process) n (pool_start articles threads) s ->
    exists fin, pool_inv fin s.
  Proof.
    assert (G : forall n s s', nsteps (pool_step articles threads process) n s s' -> forall fin, pool_inv fin s -> exists fin', pool_inv fin' s').
    { intros n s s' H; induction H; intros fin I; eauto. destruct (pool_step_inv _ _ _ I H) as [fin' I']. eauto. }
    intros n s H. eapply G; eauto. apply pool_start_inv.
  Qed.

  Lemma pool_step_measure : forall s s', pool_step articles threads process s s' -> measure s' < measure s.
  Proof.
    intros s s' H; destruct H; unfold measure; cbn [workers queue to_send closed outputs].
    - rewrite app_length. simpl. lia.
    - simpl; lia.
    - pose proof (wsum_set ws i _ (Working a) H). simpl in *. lia.
    - pose proof (wsum_set ws i _ Waiting H). simpl in *. lia.
    - pose proof (wsum_set ws i _ Ended H). simpl in *. lia.
  Qed.

  Lemma wsum_repeat : forall n, wsum (repeat Waiting n) = n.
  Proof. induction n; simpl; auto. Qed.

  Lemma pool_bounded : forall n s, nsteps (pool_step articles threads process) n (pool_start articles threads) s ->
    n <= 4 * List.length articles + 1 + threads.
  Proof.
    assert (G : forall n s s', nsteps (pool_step articles threads process) n s s' -> n + measure s' <= measure s).
    { intros n s s' H; induction H; auto. apply pool_step_measure in H. lia. }
    intros n s H. apply G in H. unfold measure at 2, pool_start in H. cbn [workers queue to_send closed outputs] in H.
    rewrite wsum_repeat in H. cbn [List.length] in H. lia.
  Qed.

  Lemma pool_progress : forall n s, 1 <= threads -> (forall a, In a articles -> exists r, process a r) ->
    nsteps (pool_step articles threads process) n (pool_start articles threads) s ->
    pool_finished s \/ exists s', pool_step articles threads process s s'.
  Proof.
    intros n s T PR H. apply pool_reachable_inv in H as (fin & P & LO & LW & LQ & CL & FIN & UN & EN).
    destruct s as [rest c q ws out]; cbn [workers queue to_send closed outputs] in *.
    assert (W : (exists i, nth_error ws i = Some Waiting) \/ (exists i a, nth_error ws i = Some (Working a)) \/ Forall (eq Ended) ws).
    { clear. induction ws as [|w ws IH]; [right; right; constructor|].
      destruct w as [|a|]; [left; exists 0; auto|right; left; exists 0, a; auto|].
      destruct IH as [[i H]|[(i & a & H)|H]]; [left; exists (S i); auto|right; left; exists (S i), a; auto|].
      right; right. constructor; auto. }
    destruct W as [[i Wi]|[(i & a & Wi)|W]].
    - destruct q as [|a q].
      + destruct rest as [|a rest].
        * destruct c; right; eexists; [eapply step_end; eauto|apply step_close].
        * destruct c; [specialize (CL eq_refl); discriminate|]. right. eexists. apply step_send. simpl; lia.
      + right. eexists. eapply step_receive; eauto.
    - destruct (PR a) as [r Hr].
      + eapply Permutation_in; [exact P|]. apply in_app_iff; right; apply in_app_iff; left.
        apply (Permutation_in _ (busy_set_wait ws i a Waiting Wi ltac:(discriminate))). left; auto.
      + right. eexists. eapply step_finish; eauto.
    - left. split; auto. destruct ws as [|w ws]; [simpl in LW; lia|]. apply EN. inversion W; subst. left; auto.
  Qed.

  Lemma pool_result : forall n s k a, 1 <= threads ->
    nsteps (pool_step articles threads process) n (pool_start articles threads) s -> pool_finished s ->
    nth_error articles k = Some a ->
    (first_occurrence articles k -> exists r, process a r /\ nth_error (outputs s) k = Some r) /\
    (~ first_occurrence articles k -> nth_error (outputs s) k = Some []).
  Proof.
    intros n s k a T H [C F] Ek. apply pool_reachable_inv in H as (fin & P & LO & LW & LQ & CL & FIN & UN & EN).
    destruct s as [rest c q ws out]; cbn [workers queue to_send closed outputs] in *.
    assert (B : busy ws = []). { clear - F. induction F; simpl; auto. subst x. simpl. auto. }
    assert (Q : q = []). { destruct ws as [|w ws]; [simpl in LW; lia|]. apply EN. inversion F; subst. left; auto. }
    rewrite B, Q, (CL C) in P. simpl in P. rewrite app_nil_r in P.
    assert (AI : In a articles) by (eapply nth_error_In; eauto).
    split.
    - intros FO. destruct (articleNumber_spec articles a AI) as [Ea Fa].
      assert (E : articleNumber articles a = k).
      { destruct (Nat.lt_trichotomy (articleNumber articles a) k) as [L|[L|L]]; auto; exfalso.
        - apply (FO _ L). congruence.
        - apply (Fa _ L). congruence. }
      rewrite <- E. apply FIN. eapply Permutation_in; [symmetry; exact P|auto].
    - intros NF. apply UN; [|apply nth_error_Some; congruence]. intros b Hb E. apply NF. rewrite <- E.
      apply articleNumber_spec. eapply Permutation_in; [exact P|auto].
  Qed.

  Lemma pool_outputs_length : forall n s, nsteps (pool_step articles threads process) n (pool_start articles threads) s ->
    List.length (outputs s) = List.length articles.
  Proof. intros n s H. apply pool_reachable_inv in H as (fin & I). apply I. Qed.
End Pool.

Lemma Forall2_nth {A B} (R : A -> B -> Prop) : forall l1 l2, List.length l2 = List.length l1 ->
  (forall k a, nth_error l1 k = Some a -> exists r, R a r /\ nth_error l2 k = Some r) -> Forall2 R l1 l2.
Proof.
  induction l1 as [|a l1 IH]; intros l2 L H; destruct l2 as [|b l2]; simpl in L; try discriminate; constructor.
  - destruct (H 0 a eq_refl) as (r & Hr & E). simpl in E. congruence.
  - apply IH; [lia|]. intros k x Hx. exact (H (S k) x Hx).
Qed.

Lemma pool_order : forall articles threads (process : str -> str -> Prop) n s,
  1 <= threads -> NoDup articles ->
  nsteps (pool_step articles threads process) n (pool_start articles threads) s -> pool_finished s ->
  Forall2 process articles (outputs s).
Proof.
  intros articles threads process n s T ND H F. apply Forall2_nth; [eapply pool_outputs_length; eauto|].
  intros k a E. destruct (pool_result _ _ _ n s k a T H F E) as [R _]. apply R.
  intros j L X. rewrite NoDup_nth_error in ND. assert (K : k < List.length articles) by (apply nth_error_Some; congruence).
  assert (j = k); [|lia]. apply ND; [lia|auto].
Qed.

Lemma pool_duplicate : forall articles threads (process : str -> str -> Prop) n s k a,
  1 <= threads ->
  nsteps (pool_step articles threads process) n (pool_start articles threads) s -> pool_finished s ->
  nth_error articles k = Some a -> (exists j, j < k /\ nth_error articles j = Some a) ->
  nth_error (outputs s) k = Some [].
Proof.
  intros articles threads process n s k a T H F E (j & L & Ej).
  destruct (pool_result _ _ _ n s k a T H F E) as [_ R]. apply R. intros X. apply (X j L). congruence.
Qed.
