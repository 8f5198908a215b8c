(** * Proofs about the age of cached data: all operations since the cache was empty *)

From Coq Require Import Ascii String.
From Coq Require Import List ZArith Bool Lia.
From Verif Require Import GoStr UtilModel CacheModel CacheSpec CacheProofs CacheProofs2 AgeSpec AgeProofs.
Import ListNotations.
Local Open Scope list_scope.

(** ** Every cached file belongs to a write *)

Definition written (cfg : cache_config) (acts : list act) (f : file) : Prop :=
  (exists a, In a acts /\ a_path a = f_path f /\ a_data a = Some (f_data f) /\ (CacheEvictionStrategy cfg <> StrategyLru -> (f_mtime f <= a_end a)%Z)) /\
  (exists a, In a acts /\ a_path a = f_path f /\ (f_mtime f <= a_end a)%Z).

Lemma written_more : forall cfg a acts f, written cfg acts f -> written cfg (a :: acts) f.
Proof. intros cfg a acts f ((x & X) & (y & Y)). split; [exists x|exists y]; cbn [In]; tauto. Qed.

Lemma wf_wait : forall w w', files w' = files w \/ files w' = cached w -> wf w -> wf w'.
Proof.
  intros w w' [E|E] W; unfold wf; rewrite E; auto. unfold cached. unfold wf in W. clear E. induction (files w) as [|f fs IH]; cbn [filter map]; [constructor|].
  inversion W as [|? ? N D]; subst. destruct (negb (in_tmp (f_path f))); cbn [map]; [constructor|]; auto. intros I. apply N. apply in_map_iff in I as (g & G & I). apply filter_In in I as (I & _). rewrite <- G. apply in_map. exact I.
Qed.

Lemma In_wait : forall w w' f, files w' = files w \/ files w' = cached w -> In f (files w') -> In f (files w).
Proof. intros w w' f [E|E] I; rewrite E in I; auto. apply filter_In in I as (I & _). exact I. Qed.

Lemma life_written : forall cfg acts w, life cfg acts w -> wf w /\ forall f, In f (files w) -> in_tmp (f_path f) = false -> written cfg acts f.
Proof.
  intros cfg acts w H. induction H as [w E|acts w w' H (W & IH) E C|acts w folder name rest w' H (W & IH) F St|acts w fuel folder name chunks readOk rest w' H (W & IH) F St].
  - split; [unfold wf; rewrite E; constructor|]. rewrite E. intros f [].
  - split; [eapply wf_wait; eauto|]. intros f I. apply IH. eapply In_wait; eauto.
  - pose proof (in_tmp_cache_path folder name F) as N.
    pose proof (safe_inv _ _ _ _ _ (safe_steps _ _ _ _ _ _ _ St (get_safe cfg w (cache_path folder name) true folder name eq_refl W))) as (W' & B & D). split; auto.
    intros f I T. destruct (D f I) as [J|(L & P & (f0 & I0 & P0 & D0) & M)]; [apply written_more; auto|].
    split; [|eexists; split; [left; reflexivity|]; cbn [a_path a_end]; split; [auto|lia]].
    destruct (IH f0 I0) as ((x & X1 & X2 & X3 & X4) & _); [rewrite P0; exact N|]. exists x. split; [right; exact X1|]. split; [congruence|]. split; [congruence|]. congruence.
  - pose proof (in_tmp_cache_path folder name F) as N.
    pose proof (safe_inv _ _ _ _ _ (safe_steps _ _ _ _ _ _ _ St (put_safe w (cache_path folder name) (all_data chunks) N true cfg fuel folder name chunks readOk eq_refl eq_refl W))) as (W' & B & D). split; auto.
    intros f I T. destruct (D f I T) as [J|(P & D0 & M)]; [apply written_more; auto|].
    split; (eexists; split; [left; reflexivity|]; cbn [a_path a_end a_data]); (split; [auto|]); [|lia]. split; [congruence|]. intros _. lia.
Qed.

(** ** Every cached file has the time of its last use *)

Definition recent (acts : list act) (f : file) : Prop := exists a, last_use acts (f_path f) = Some a /\ (a_begin a <= f_mtime f <= a_end a)%Z.

Lemma recent_same : forall a acts f, a_path a = f_path f -> (a_begin a <= f_mtime f <= a_end a)%Z -> recent (a :: acts) f.
Proof. intros a acts f P B. exists a. split; auto. unfold last_use. cbn [find]. destruct (path_eq_dec (a_path a) (f_path f)); [auto|contradiction]. Qed.

Lemma recent_other : forall a acts f, a_path a <> f_path f -> recent acts f -> recent (a :: acts) f.
Proof. intros a acts f P (x & X & B). exists x. split; auto. unfold last_use. cbn [find]. destruct (path_eq_dec (a_path a) (f_path f)); [contradiction|auto]. Qed.

Lemma use_recent : forall cfg acts w, CacheEvictionStrategy cfg = StrategyLru -> (0 <= CacheMaxAge cfg)%Z -> use cfg acts w ->
  wf w /\ forall f, In f (files w) -> in_tmp (f_path f) = false -> recent acts f.
Proof.
  intros cfg acts w L A H. induction H as [w E|acts w w' H (W & IH) E C|acts w folder name w' H (W & IH) F St|acts w folder name r w' H (W & IH) F NR St
    |acts w fuel folder name chunks readOk w' H (W & IH) F St|acts w fuel folder name chunks readOk r w' H (W & IH) F NR St].
  - split; [unfold wf; rewrite E; constructor|]. rewrite E. intros f [].
  - split; [eapply wf_wait; eauto|]. intros f I. apply IH. eapply In_wait; eauto.
  - destruct (proj2 (safe_steps _ _ _ _ _ _ _ St (get_safe cfg w (cache_path folder name) false folder name eq_refl W))) as ((W' & B & D) & U). split; auto.
    intros f I T. destruct (path_eq_dec (f_path f) (cache_path folder name)) as [P|P].
    + destruct (U eq_refl eq_refl L f I P) as (_ & _ & _ & M). apply recent_same; auto.
    + destruct (D f I) as [J|(_ & Q & _)]; [|contradiction]. apply recent_other; [cbn [a_path]; congruence|auto].
  - destruct (proj2 (safe_steps _ _ _ _ _ _ _ St (get_safe cfg w (cache_path folder name) false folder name eq_refl W))) as ((W' & B & D) & _). split; auto.
    intros f I T. destruct (D f I) as [J|(_ & Q & _)]; auto. exfalso. destruct (GetFile_exact cfg folder name w r w' A St) as (hit & -> & _ & M). destruct hit; [contradiction|].
    destruct (M eq_refl) as (M1 & _). unfold content in M1. destruct (lookup (cache_path folder name) (files w')) eqn:K; [discriminate|]. apply lookup_none in K. apply K. rewrite <- Q. apply in_map. exact I.
  - destruct (proj2 (safe_steps _ _ _ _ _ _ _ St (put_safe w (cache_path folder name) (all_data chunks) (in_tmp_cache_path folder name F) false cfg fuel folder name chunks readOk eq_refl eq_refl W))) as ((W' & B & D) & U & _). split; auto.
    intros f I T. destruct (path_eq_dec (f_path f) (cache_path folder name)) as [P|P].
    + destruct (U eq_refl f I P) as (_ & _ & M). apply recent_same; auto.
    + destruct (D f I T) as [J|(Q & _)]; [|contradiction]. apply recent_other; [cbn [a_path]; congruence|auto].
  - destruct (proj2 (safe_steps _ _ _ _ _ _ _ St (put_safe w (cache_path folder name) (all_data chunks) (in_tmp_cache_path folder name F) false cfg fuel folder name chunks readOk eq_refl eq_refl W))) as ((W' & _) & _ & K). split; auto.
    intros f I T. apply IH; auto. apply (K NR); auto.
Qed.
