(** * Proofs that statistics can be made *)

From Coq Require Import Ascii String.
From Coq Require Import List Arith NArith Bool Lia.
From Verif Require Import GoStr GoStrFacts TextFacts TokenModel TokenSpec TokenProofs PassSpec ExpandModel ExpandSpec ExpandProofs HtmlProofs HtmlSpec HtmlTotalProofs
  StatsModel StatsSpec StatsProofs.
Import ListNotations.
Local Open Scope list_scope.

Definition works {R} (f : X articleStats R) : Prop := forall st, exists x st', f st = Ok (x, st').

Lemma works_bind : forall R T (f : X articleStats R) (k : R -> X articleStats T), works f -> (forall x, works (k x)) -> works (bindX f k).
Proof. intros R T f k F K st. destruct (F st) as (x & st1 & E). unfold bindX. rewrite E. apply K. Qed.
Lemma works_ret : forall R (r : R), works (retX r).
Proof. intros R r st. exists r, st. auto. Qed.
Lemma works_change : forall f, works (change f).
Proof. intros f st. exists tt, (f st). auto. Qed.
Lemma works_map : forall A R (f : A -> X articleStats R) l, Forall (fun a => works (f a)) l -> works (mapX f l).
Proof.
  intros A R f l F. induction F; cbn [mapX]; [apply works_ret|]. apply works_bind; auto. intros y. apply works_bind; auto. intros ys. apply works_ret.
Qed.

Lemma token_works : forall expand t, Forall (fun s => works (expand s)) (counted_texts t) -> works (statsToken expand t).
Proof.
  intros expand t F. destruct t; cbn [statsToken]; cbn in F;
    repeat (first [apply works_ret|exact (Forall_inv F)|apply works_bind; [apply works_change|intros _]]).
  - destruct l as [kind items]. apply works_bind; [|intros; apply works_ret]. apply works_map. clear -F.
    induction items as [|[ty c sl] items IH]; [constructor|]. cbn [map] in F. constructor; [exact (Forall_inv F)|apply IH; exact (Forall_inv_tail F)].
  - apply Forall_app in F as [F1 F2]. apply works_bind; [|intros; apply works_bind; [exact (Forall_inv F2)|intros; apply works_ret]]. apply works_map. clear -F1.
    induction Rows as [|row rows IH]; [constructor|]. cbn [flat_map] in F1. apply Forall_app in F1 as [F1 F2]. constructor; auto.
    apply works_bind; [|intros; apply works_ret]. apply works_map. clear -F1. induction row as [|c row IH]; [constructor|]. cbn [map] in F1.
    constructor; [exact (Forall_inv F1)|apply IH; exact (Forall_inv_tail F1)].
Qed.

Lemma counted_of_texts : forall (P : str -> Prop) v, Forall P (texts v) -> Forall P (counted_texts v).
Proof.
  intros P v F. destruct v; cbn [counted_texts ordered_texts]; auto.
  - destruct l as [kind items]. cbn [texts list_texts] in F. induction items as [|[ty c sl] items IH]; [constructor|].
    cbn [flat_map item_texts] in F. cbn [map]. constructor; [exact (Forall_inv F)|]. apply IH. apply Forall_app in F. apply F.
  - cbn [texts] in F. apply Forall_app. split; [exact (Forall_inv_tail F)|constructor; [exact (Forall_inv F)|constructor]].
Qed.
Lemma ordered_of_texts : forall (P : str -> Prop) v, Forall P (texts v) -> Forall P (ordered_texts v).
Proof.
  intros P v F. destruct v; auto. cbn [ordered_texts texts] in *. apply Forall_app. split; [exact (Forall_inv_tail F)|constructor; [exact (Forall_inv F)|constructor]].
Qed.

Lemma flat_texts : forall v, flat v -> counted_texts v = ordered_texts v.
Proof.
  intros v H. destruct v; auto; [destruct H|]. destruct l as [kind items]. cbn [flat] in H. cbn [counted_texts ordered_texts texts list_texts].
  induction H as [|[ty c sl] items E H IH]; auto. cbn [map flat_map]. rewrite IH. cbn [item_texts]. rewrite E. reflexivity.
Qed.

Lemma joined_keys : forall ms l s k, In k (map fst (snd (joined ms s l))) -> In k (map fst l).
Proof.
  intros ms l. induction l as [|[k u] l IH]; intros s x I; auto. cbn [joined] in I. destruct (mem_str k ms); cbn in *; [|destruct I as [I|I]]; eauto.
Qed.

Section Total.
Variable letter : N -> bool.
Variable M : list (str * Token).
Hypothesis nodup : NoDup (map fst M).
Hypothesis all_known : known_map M.
Let g := StatsGenerator letter M.

Lemma segments_works : forall et l s, (forall k, In k (map fst l) -> exists v, lookup_token k M = Some v /\ works (et v)) -> works (segments g et s l).
Proof.
  intros et l. induction l as [|[k u] l IH]; intros s H; cbn [segments].
  - destruct s; [apply works_ret|]. apply works_bind; [apply works_change|intros]. apply works_bind; [apply works_change|intros; apply works_ret].
  - apply works_bind.
    + destruct s; [apply works_ret|]. apply works_bind; [apply works_change|intros]. apply works_bind; [apply works_change|intros; apply works_ret].
    + intros b. change (handlerTokens g) with M. destruct (H k (or_introl eq_refl)) as (v & -> & W). apply works_bind; auto. intros x. apply works_bind; [|intros; apply works_ret].
      apply IH. intros k' I. apply H. right. auto.
Qed.

Lemma known_works : forall n pre m s, M = pre ++ m -> length m < n -> known m s -> works (expandString g n s).
Proof.
  intros n. induction n as [|n IH]; intros pre m s E L (d & O & -> & K); [lia|].
  destruct (stats_expand letter M n d O) as [K' X]. intros st. fold g in X. rewrite X. revert st. pose proof (fun k => joined_keys all_markers (snd d) (fst d) k) as J.
  destruct (joined all_markers (fst d) (snd d)) as [s' l']. cbn [fst snd] in *. destruct l' as [|p l'].
  - change (works (countString letter s')). apply works_bind; [apply works_change|intros]. apply works_bind; [apply works_change|intros; apply works_ret].
  - change (works (segments g (expandToken g n) s' (p :: l'))). apply segments_works. intros k I. rewrite Forall_forall in K. destruct (K k (J k I)) as [Y|Y].
    + exfalso. apply (marker_not_key k); auto.
    + destruct (older M nodup all_known pre m k E Y) as (pre' & v & m' & E' & Lk & Lt & Kv). exists v. split; auto. apply token_works.
      apply counted_of_texts. eapply Forall_impl; [|exact Kv]. intros s Ks. apply (IH (pre' ++ [(k, v)]) m' s); auto; [rewrite <- app_assoc; auto|lia].
Qed.

Lemma events_exist : forall follow, (forall P v, Forall P (texts v) -> Forall P (follow v)) ->
  forall n pre m s, M = pre ++ m -> length m < n -> known m s -> exists es, text_events follow M s es.
Proof.
  intros follow W n. induction n as [|n IH]; intros pre m s E L (d & O & -> & K); [lia|].
  assert (X : exists es, layout_events follow M (fst d) (snd d) es).
  { destruct O as [_ O]. revert O K. generalize (fst d) as u. generalize (snd d) as l. intros l. induction l as [|[k u] l IHl]; intros s O K; [exists [Run s]; constructor|].
    assert (O' := Forall_inv_tail O). cbn [map fst] in K. assert (K' := Forall_inv_tail K). apply Forall_inv in O, K. cbn [fst snd] in O. destruct O as [[I|I] _].
    - destruct (IHl (s ++ u) O' K') as [es T]. exists es. apply events_marker; auto.
    - destruct K as [J|J]; [exfalso; eapply marker_not_key; eauto|]. destruct (older M nodup all_known pre m k E J) as (pre' & v & m' & E' & Lk & Lt & Kv).
      destruct (IHl u O' K') as [es T]. assert (Y : exists inner, texts_events follow M (follow v) inner).
      { apply W in Kv. induction Kv as [|x xs Kx Kv [inner Y]]; [exists []; constructor|]. destruct (IH (pre' ++ [(k, v)]) m' x) as [e P]; auto; [rewrite <- app_assoc; auto|lia|].
        exists (e ++ inner). constructor; auto. }
      destruct Y as [inner Y]. exists (Run s :: Seen v :: inner ++ es). eapply events_token; eauto. }
  destruct X as [es X]. exists es. apply events_of_text; auto.
Qed.
End Total.

Lemma lookup_in : forall k v (m : list (str * Token)), lookup_token k m = Some v -> In (k, v) m.
Proof.
  intros k v m. induction m as [|[k' v'] m IH]; intros H; [discriminate|]. cbn [lookup_token] in H. destruct (str_eqb k k') eqn:E; [|right; auto].
  apply str_eqb_eq in E. injection H as <-. subst. left. auto.
Qed.

(** Following the same texts *)
Lemma events_same : forall f f' m, (forall k v, In (k, v) m -> f v = f' v) ->
  (forall s es, text_events f m s es -> text_events f' m s es).
Proof.
  intros f f' m H. apply (text_events_mind f m (text_events f' m) (layout_events f' m) (texts_events f' m)).
  - intros d es O _ L. apply events_of_text; auto.
  - intros s. apply events_end.
  - intros s k u l es I _ L. apply events_marker; auto.
  - intros s k u l v inner es K L _ T _ T'. apply events_token; auto. rewrite <- (H k v); auto using lookup_in.
  - apply events_none.
  - intros s ss es es' _ T _ T'. apply events_more; auto.
Qed.
