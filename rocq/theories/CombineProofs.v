(** * Proofs about the combined statistics *)

From Coq Require Import Ascii String.
From Coq Require Import List Arith NArith Bool Lia Permutation.
From Verif Require Import GoStr GoStrFacts StatsModel StatsSpec StatsProofs.
Import ListNotations.
Local Open Scope list_scope.

Lemma combine_all_ok : forall ss acc, combine_all (map Ok ss) acc = Ok (fold_left combine_one ss acc).
Proof. induction ss as [|s ss IH]; intros acc; auto. cbn [map combine_all bind fold_left]. apply IH. Qed.

Lemma combine_all_fails : forall files acc r, combine_all files acc = Ok r -> exists ss, files = map Ok ss.
Proof.
  induction files as [|f files IH]; intros acc r H; [exists []; auto|]. cbn [combine_all] in H. destruct f as [s| | |]; cbn [bind] in H; try discriminate.
  apply IH in H as [ss ->]. exists (s :: ss). auto.
Qed.

Lemma links_count : forall l st c, count (fold_left (fun combined e => add_link (fst e) (snd e) combined) l st) c = count st c.
Proof. induction l as [|e l IH]; intros st c; auto. cbn [fold_left]. rewrite IH. reflexivity. Qed.
Lemma links_entry : forall l st x, entry x (InternalLinks (fold_left (fun combined e => add_link (fst e) (snd e) combined) l st)) = entry x (InternalLinks st) + entry x l.
Proof.
  induction l as [|[k v] l IH]; intros st x; [cbn; lia|]. cbn [fold_left fst snd]. rewrite IH. cbn [add_link InternalLinks]. rewrite entry_add. unfold entry. cbn [filter fst].
  destruct (str_eqb k x); cbn [map snd]; unfold list_sum; cbn [fold_right]; lia.
Qed.
Lemma links_keys : forall l st x, In x (map fst (InternalLinks (fold_left (fun combined e => add_link (fst e) (snd e) combined) l st))) <-> In x (map fst l) \/ In x (map fst (InternalLinks st)).
Proof.
  induction l as [|[k v] l IH]; intros st x; [cbn; tauto|]. cbn [fold_left fst snd]. rewrite IH. cbn [add_link InternalLinks]. rewrite add_entry_keys. cbn [map fst In]. intuition.
Qed.
Lemma links_map : forall l st, is_map (InternalLinks st) -> is_map (InternalLinks (fold_left (fun combined e => add_link (fst e) (snd e) combined) l st)).
Proof. induction l as [|[k v] l IH]; intros st H; auto. cbn [fold_left fst snd]. apply IH. cbn [add_link InternalLinks]. apply add_entry_map; auto. Qed.

Lemma counters_count : forall stats st c, count (fold_left (fun combined c => add c (count stats c) combined) all_counters st) c = count st c + count stats c.
Proof. intros stats st c. destruct c; reflexivity. Qed.
Lemma counters_links : forall stats st, InternalLinks (fold_left (fun combined c => add c (count stats c) combined) all_counters st) = InternalLinks st.
Proof. reflexivity. Qed.

Lemma set_article_names : forall s l x, In x (map ArticleName (set_article s l)) <-> x = ArticleName s \/ In x (map ArticleName l).
Proof.
  intros s l x. induction l as [|a l IH]; [cbn; intuition|]. cbn [set_article]. destruct (str_eqb (ArticleName a) (ArticleName s)) eqn:E; cbn [map In].
  - apply str_eqb_eq in E. rewrite E. intuition.
  - rewrite IH. intuition.
Qed.
Lemma set_article_map : forall s l, NoDup (map ArticleName l) -> NoDup (map ArticleName (set_article s l)).
Proof.
  intros s l. induction l as [|a l IH]; intros H; [repeat constructor; auto|]. cbn [map] in H. inversion H as [|? ? N1 N2]; subst.
  cbn [set_article]. destruct (str_eqb (ArticleName a) (ArticleName s)) eqn:E; cbn [map]; constructor; auto.
  - apply str_eqb_eq in E. rewrite <- E. auto.
  - intros I. apply set_article_names in I. apply str_eqb_neq in E. destruct I; auto.
Qed.
(** The last statistics of an article are in the map. *)
Lemma set_article_in : forall s l a, In a (set_article s l) -> a = s \/ In a l.
Proof.
  intros s l a. induction l as [|b l IH]; intros I; [destruct I as [I|[]]; auto|]. cbn [set_article] in I. destruct (str_eqb _ _); destruct I as [I|I]; cbn; auto. apply IH in I. tauto.
Qed.

Lemma fold_combined : forall ss acc, let r := fold_left combine_one ss acc in
  (forall c, count (fst r) c = count (fst acc) c + list_sum (map (fun s => count s c) ss)) /\
  (forall x, entry x (InternalLinks (fst r)) = entry x (InternalLinks (fst acc)) + list_sum (map (fun s => entry x (InternalLinks s)) ss)) /\
  (forall x, In x (map fst (InternalLinks (fst r))) <-> In x (map fst (InternalLinks (fst acc))) \/ exists s, In s ss /\ In x (map fst (InternalLinks s))) /\
  (is_map (InternalLinks (fst acc)) -> is_map (InternalLinks (fst r))) /\
  (forall x, In x (map ArticleName (snd r)) <-> In x (map ArticleName (snd acc)) \/ In x (map ArticleName ss)) /\
  (NoDup (map ArticleName (snd acc)) -> NoDup (map ArticleName (snd r))) /\
  (forall a, In a (snd r) -> In a (snd acc) \/ In a ss).
Proof.
  induction ss as [|s ss IH]; intros acc.
  - cbn. repeat split; auto; try lia; try (intros [?|?]; auto; tauto); try (intros [?|(? & [] & _)]; auto); tauto.
  - cbn [fold_left]. destruct (IH (combine_one acc s)) as (I1 & I2 & I3 & I4 & I5 & I6 & I7). set (r := fold_left combine_one ss (combine_one acc s)) in *. clearbody r.
    unfold combine_one in *. cbn [fst snd] in *. split; [|split; [|split; [|split; [|split; [|split]]]]].
    + intros c. rewrite I1, links_count, counters_count. cbn [map]. unfold list_sum. cbn [fold_right]. lia.
    + intros x. rewrite I2, links_entry, counters_links. cbn [map]. unfold list_sum. cbn [fold_right]. lia.
    + intros x. rewrite I3, links_keys, counters_links. split.
      * intros [[H|H]|(s' & H1 & H2)]; auto; right; [exists s|exists s']; split; auto; [left|right]; auto.
      * intros [H|(s' & [<-|H1] & H2)]; auto. right. eauto.
    + intros H. apply I4. apply links_map. rewrite counters_links. auto.
    + intros x. rewrite I5, set_article_names. cbn [map In]. intuition.
    + intros H. apply I6. apply set_article_map. auto.
    + intros a H. apply I7 in H as [H|H]; [|right; right; auto]. apply set_article_in in H as [->|H]; auto. right. left. auto.
Qed.

Lemma is_article_spec : forall l x, is_article l x = true <-> In x (map ArticleName l).
Proof.
  intros l x. unfold is_article. rewrite existsb_exists, in_map_iff. split; intros (a & A & B); exists a; [apply str_eqb_eq in B|]; auto. split; auto. subst. apply str_eqb_refl.
Qed.

Lemma map_filter : forall f m, is_map m -> is_map (filter f m).
Proof.
  intros f m H. unfold is_map in *. induction m as [|e m IH]; auto. cbn [map] in H. inversion H; subst. cbn [filter]. destruct (f e); auto. cbn [map]. constructor; auto.
  intros I. apply in_map_iff in I as (e' & E & I). apply filter_In in I as [I _]. apply H2. apply in_map_iff. eauto.
Qed.

(** ** The first entries *)

Lemma descending_app : forall a b, descending (a ++ b) -> forall e f, In e a -> In f b -> snd f <= snd e.
Proof.
  induction a as [|x a IH]; intros b H e f I J; [destruct I|]. cbn [app] in H. inversion H; subst. destruct I as [<-|I]; [apply H2; apply in_or_app; auto|eauto].
Qed.
Lemma descending_firstn : forall n l, descending l -> descending (firstn n l).
Proof.
  induction n as [|n IH]; intros l H; [constructor|]. destruct H as [|e l F H]; [constructor|]. cbn [firstn]. constructor; auto. intros f I. apply F. rewrite <- (firstn_skipn n l). apply in_or_app. auto.
Qed.
