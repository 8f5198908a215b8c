(** * Runs that do not fail

    [holds] says what a run that ends with a result has done. [judge true] says in addition that the run does not fail: it has a result or
    needs more fuel. *)

From Coq Require Import Ascii String.
From Coq Require Import List Arith Bool Lia.
From Verif Require Import GoStr GoStrFacts TextFacts ConfigModel TokenModel TokenSpec TokenProofs PassSpec PassProofs.
Import ListNotations.
Local Open Scope list_scope.

Definition no_crash {A} (r : res A) : Prop := match r with Ok _ | OutOfFuel => True | _ => False end.

Definition judge {A} (strict : bool) (t : Tokenizer) (m : M A) (Q : Tokenizer -> A -> Prop) : Prop :=
  holds false t m Q /\ (strict = true -> no_crash (m t)).

Lemma judge_holds : forall A strict t (m : M A) Q, judge strict t m Q -> holds false t m Q.
Proof. intros A strict t m Q [H _]. exact H. Qed.

Lemma holds_judge : forall A t (m : M A) Q, holds false t m Q -> judge false t m Q.
Proof. intros A t m Q H. split; [exact H|discriminate]. Qed.

(** Runs that are known to end *)
Lemma judge_ends : forall A t (m : M A) Q, judge true t m Q -> m t <> OutOfFuel -> exists a t', m t = Ok (a, t') /\ ok false t' /\ grows t t' /\ Q t' a.
Proof.
  intros A t m Q [H C] F. specialize (C eq_refl). destruct (m t) as [[a t']| | |] eqn:E; try contradiction. exists a, t'. split; auto.
Qed.

Lemma judge_ret : forall A strict t (a : A) (Q : Tokenizer -> A -> Prop), ok false t -> Q t a -> judge strict t (ret a) Q.
Proof. intros A strict t a Q O H. split; [apply holds_ret; auto|]. intros _. exact I. Qed.

Lemma judge_bind : forall A C strict t (m : M A) (f : A -> M C) Q R, judge strict t m Q ->
  (forall a t', ok false t' -> grows t t' -> Q t' a -> judge strict t' (f a) R) -> judge strict t (bindM m f) R.
Proof.
  intros A C strict t m f Q R [H N] F. split.
  - eapply holds_bind; [exact H|]. intros a t' O G K. apply (F a t'); auto.
  - intros S. specialize (N S). unfold bindM. destruct (m t) as [[a t']| | |] eqn:E; cbn [bind]; auto. destruct (H a t' E) as (O & G & K). apply (F a t' O G K). exact S.
Qed.

Lemma judge_weaken : forall A strict t (m : M A) (Q R : Tokenizer -> A -> Prop), judge strict t m Q -> (forall a t', ok false t' -> grows t t' -> Q t' a -> R t' a) -> judge strict t m R.
Proof. intros A strict t m Q R [H N] W. split; auto. eapply holds_weaken; eauto. Qed.

Lemma judge_fuel : forall A strict t (Q : Tokenizer -> A -> Prop), judge strict t out_of_fuel Q.
Proof. intros A strict t Q. split; [apply holds_fuel|]. intros _. exact I. Qed.

Lemma judge_if : forall A strict t (c : bool) (m1 m2 : M A) Q, (c = true -> judge strict t m1 Q) -> (c = false -> judge strict t m2 Q) -> judge strict t (if c then m1 else m2) Q.
Proof. intros. destruct c; auto. Qed.

(** A key that is taken first and used after other tokens have been created *)
Lemma judge_reserve_in : forall A C strict t ty (m : M A) (v : A -> Token) Q (f : str -> A -> M C) R, ok false t -> type_ok ty ->
  (forall t', ok false t' -> grows t t' -> judge strict t' m Q) ->
  (forall t1 t' a n, ok false t' -> grows t t' -> ok false t1 -> keeps t1 t' -> Q t1 a -> In (token_key ty n, v a) (tokenMap t') -> judge strict t' (f (token_key ty n) a) R) ->
  judge strict t (bindM (getToken ty) (fun k => bindM m (fun a => bindM (setRawToken k (v a)) (fun _ => f k a)))) R.
Proof.
  intros A C strict t ty m v Q f R O T Hm Hf. split.
  - eapply holds_reserve_in; eauto.
    + intros t' O' G'. apply (Hm t'); auto.
    + intros. apply Forall_forall. intros x _. discriminate.
    + intros t1 t' a n O' G' O1 K Q1 I. apply (Hf t1 t' a n); auto.
  - intros S. unfold bindM, getToken, setRawToken. cbn [bind].
    set (t1 := mkTokenizer (tokenMap t) (Datatypes.S (tokenCounter t)) (images t)) in *. set (k := token_key ty (tokenCounter t)) in *.
    assert (O1 : ok false t1).
    { destruct O as ((F & N) & M). split; [split|]; auto. unfold t1, map_keys. cbn. eapply Forall_impl; [|exact F].
      intros x (ty' & i & T' & -> & L). exists ty', i. repeat split; auto; try apply T'. }
    assert (G1 : grows t t1) by (exists []; repeat split; [cbn; lia|constructor]).
    destruct (Hm t1 O1 G1) as [H1 H2]. specialize (H2 S). destruct (m t1) as [[a t3]| | |] eqn:Em; cbn [bind]; auto.
    destruct (H1 a t3 Em) as (O3 & (l & E3 & L3 & F3) & K3).
    assert (G3 : grows t t3) by (eapply grows_trans; [exact G1|]; exists l; auto).
    set (t4 := mkTokenizer ((k, v a) :: tokenMap t3) (tokenCounter t3) (images t3)) in *.
    assert (K : ~ In k (map_keys t3)).
    { unfold map_keys. rewrite E3, map_app, in_app_iff. intros [I|I].
      - rewrite Forall_forall in F3. destruct (F3 _ I) as (ty' & i & E' & L). unfold k in E'. apply token_key_inj in E' as [_ E'].
        unfold t1 in L. cbn in L. lia.
      - destruct O as (U & _). eapply (key_fresh t k (tokenCounter t) U); eauto. exists ty, (tokenCounter t). auto. }
    assert (O4 : ok false t4).
    { destruct O3 as ((F & N) & M). split; [split|].
      - unfold t4, map_keys. cbn. constructor; auto. exists ty, (tokenCounter t). repeat split; auto; try apply T.
      - unfold t4, map_keys. cbn. constructor; auto.
      - discriminate. }
    assert (G4 : grows t t4).
    { exists ((k, v a) :: l). unfold t4. cbn. rewrite E3. unfold t1 in *. cbn in *. repeat split; auto; [lia|]. constructor.
      - exists ty, (tokenCounter t). auto.
      - eapply Forall_impl; [|exact F3]. intros x (ty' & i & -> & L). exists ty', i. split; auto. lia. }
    assert (G34 : keeps t3 t4) by (exists [(k, v a)]; auto).
    destruct (Hf t3 t4 a _ O4 G4 O3 G34 K3 (or_introl eq_refl)) as [_ H]. apply H. exact S.
Qed.

(** A new token *)
Lemma judge_token_in : forall C strict t ty (v : Token) (f : str -> M C) R, ok false t -> type_ok ty ->
  (forall t' n, ok false t' -> grows t t' -> In (token_key ty n, v) (tokenMap t') -> judge strict t' (f (token_key ty n)) R) ->
  judge strict t (bindM (getToken ty) (fun k => bindM (setRawToken k v) (fun _ => f k))) R.
Proof.
  intros C strict t ty v f R O T Hf.
  pose proof (judge_reserve_in unit C strict t ty (ret tt) (fun _ => v) (fun _ _ => True) (fun k _ => f k) R O T) as H.
  apply H; auto.
  intros t' O' _. apply judge_ret; auto.
Qed.

Lemma judge_mapM2 : forall A B C strict (f : A -> M C) (P : Tokenizer -> B -> A -> Prop) (Q : Tokenizer -> B -> C -> Prop),
  (forall t t' x y, grows t t' -> P t x y -> P t' x y) -> (forall t t' x y, grows t t' -> Q t x y -> Q t' x y) ->
  (forall t x y, ok false t -> P t x y -> judge strict t (f y) (fun t' => Q t' x)) ->
  forall l0 l t, ok false t -> Forall2 (P t) l0 l -> judge strict t (mapM f l) (fun t' => Forall2 (Q t') l0).
Proof.
  intros A B C strict f P Q MP MQ H l0. induction l0 as [|x l0 IH]; intros l t O F; inversion F; subst; cbn [mapM]; [apply judge_ret; auto|].
  eapply judge_bind; [apply H; eauto|]. intros z t1 O1 G1 Q1. eapply judge_bind.
  - apply IH; auto. clear -MP G1 H4. induction H4; constructor; eauto.
  - intros zs t2 O2 G2 F2. apply judge_ret; auto. constructor; auto. eapply MQ; eauto.
Qed.

Lemma judge_lift : forall A strict t (r : res A) (Q : Tokenizer -> A -> Prop), ok false t -> (forall a, r = Ok a -> Q t a) -> (strict = true -> no_crash r) ->
  judge strict t (TableModel.lift r) Q.
Proof. intros A strict t r Q O H N. split; [apply holds_lift; auto|]. intros S. specialize (N S). unfold TableModel.lift. destruct r; auto. Qed.

Lemma Forall_all : forall A (P : A -> Prop), (forall x, P x) -> forall l, Forall P l.
Proof. intros A P H l. apply Forall_forall. auto. Qed.
