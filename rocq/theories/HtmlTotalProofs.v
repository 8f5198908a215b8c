(** * Proofs about the expansion of all tokens of a map *)

From Coq Require Import Ascii String.
From Coq Require Import List Arith NArith ZArith Bool Lia.
From Verif Require Import GoStr GoStrFacts TextFacts ConfigModel TokenModel TokenSpec TokenProofs PassSpec FormattingModel ExpandModel ExpandSpec ExpandProofs HtmlModel HtmlSpec HtmlProofs HtmlTokenProofs.
Import ListNotations.
Local Open Scope list_scope.

Lemma lookup_middle : forall k v (pre m : list (str * Token)), NoDup (map fst (pre ++ (k, v) :: m)) -> lookup_token k (pre ++ (k, v) :: m) = Some v.
Proof. intros k v pre m N. apply In_lookup; auto. apply in_or_app. right. left. auto. Qed.

Lemma known_map_suffix : forall pre m, known_map (pre ++ m) -> known_map m.
Proof. induction pre as [|p pre IH]; intros m H; auto. inversion H; subst. auto. Qed.

(** The tokens of a known text: their texts are known by the older tokens *)
Lemma known_split : forall (m : list (str * Token)) k, In k (map fst m) -> exists m1 v m2, m = m1 ++ (k, v) :: m2.
Proof. intros m k I. apply in_map_iff in I as ([k' v] & <- & I). apply in_split in I as (m1 & m2 & ->). exists m1, v, m2. auto. Qed.

Section Total.
Variable cfg : configuration.
Variable renderMath : str -> res (str * str * str * str).
Variable M : list (str * Token).
Hypothesis nodup : NoDup (map fst M).
Hypothesis all_known : known_map M.

Lemma older : forall pre m k, M = pre ++ m -> In k (map fst m) -> exists pre' v m', M = pre' ++ (k, v) :: m' /\ lookup_token k M = Some v /\ length m' < length m /\ Forall (known m') (texts v).
Proof.
  intros pre m k E I. apply known_split in I as (m1 & v & m2 & ->). exists (pre ++ m1), v, m2. rewrite <- app_assoc. split; auto. split.
  - rewrite E, app_assoc. apply lookup_middle. rewrite <- app_assoc, <- E. auto.
  - split; [rewrite app_length; cbn; lia|]. assert (K : known_map ((k, v) :: m2)) by (apply (known_map_suffix (pre ++ m1)); rewrite <- app_assoc, <- E; auto). inversion K; auto.
Qed.

Lemma known_total : rendered renderMath M -> forall n pre m s, M = pre ++ m -> length m < n -> known m s -> exists html, htmlExpand cfg renderMath M n s = Ok html.
Proof.
  intros R n. induction n as [|n IH]; intros pre m s E L (d & O & -> & K); [lia|].
  assert (F : exists hs, Forall2 (key_text M (token_html cfg renderMath M n)) (map fst (snd d)) hs).
  { assert (O' : Forall (fun k => In k all_markers \/ is_key k) (map fst (snd d))).
    { destruct O as [_ O]. clear -O. induction O as [|p l [H _] O IHO]; constructor; auto. }
    revert K O'. generalize (map fst (snd d)). intros ks K O'. induction ks as [|k ks IHk]; [exists []; constructor|].
    destruct IHk as [hs F]; [exact (Forall_inv_tail K)|exact (Forall_inv_tail O')|].
    assert (Mk : In k all_markers -> exists h, In (k, h) marker_html). { intros I. cbn [In all_markers] in I. destruct I as [<-|[<-|[<-|[<-|[<-|[]]]]]]; eexists; cbn; eauto 10. }
    apply Forall_inv in K, O'. destruct O' as [I|I]; [destruct (Mk I) as [h H]; exists (h :: hs); constructor; auto; apply text_of_marker; auto|].
    destruct K as [J|J]; [exfalso; eapply marker_not_key; eauto|]. destruct (older pre m k E J) as (pre' & v & m' & E' & Lk & Lt & Kv).
    destruct (token_total cfg renderMath (expandString (HtmlGenerator cfg renderMath M) n) v) as [h H].
    - eapply Forall_impl; [|exact Kv]. intros s Ks. destruct (IH (pre' ++ [(k, v)]) m' s) as [h H]; auto; [rewrite <- app_assoc; auto|lia|].
      exists h. apply expandString_state. auto.
    - intros f ->. apply (R k). rewrite E'. apply in_or_app. right. left. auto.
    - exists (h :: hs). constructor; auto. eapply text_of_token; eauto. }
  destruct F as [hs F]. exists (filled d hs). apply expandString_html; auto. eauto.
Qed.

(** ** Pieces of text *)

Lemma pieces_ordered : forall fuel s ps html, text_pieces M s ps -> htmlExpand cfg renderMath M fuel s = Ok html -> in_order ps html.
Proof.
  induction fuel as [|fuel IH]; intros s ps html T H; [discriminate|]. inversion T as [d inner O F]; subst. apply expandString_html in H as (hs & G & ->); auto.
  destruct d as [s l]. cbn [fst snd] in *. unfold filled. cbn [fst snd].
  assert (J : in_order (concat (map (fun p => fst p ++ [snd p]) (combine inner (map snd l)))) (concat (map (fun p => fst p ++ snd p) (combine hs (map snd l))))).
  { clear T O. revert hs G. generalize (map snd l). revert inner F. generalize (map fst l). intros ks inner F. induction F as [|k ps ks inner K F IHF]; intros us hs G.
    - inversion G; subst. constructor.
    - inversion G as [|? h ? hs' Kh G']; subst. destruct us as [|u us]; [constructor|]. cbn [combine map concat fst snd]. apply in_order_app; [|apply IHF; auto].
      apply in_order_app; [|apply in_order_self]. clear IHF G G'. inversion K as [? I|? v inner' I L N Fi]; subst; [constructor|].
      inversion Kh as [? ? J|? v' ? J L' E]; subst; [exfalso; apply (marker_not_key k); auto; apply marker_pair in J as (n & J & ->); eapply marker_in; eauto|].
      rewrite L in L'. injection L' as <-. unfold token_html, expandToken in E. cbn [handleToken HtmlGenerator] in E. eapply token_order; eauto.
      clear -Fi IH. induction Fi as [|x y xs ys T Fi IHi]; constructor; auto. intros h Hh. eapply IH; eauto. eapply expandString_state. exact Hh. }
  apply (in_order_app [s]); auto. apply in_order_self.
Qed.

Lemma pieces_exist : (forall k s, ~ In (k, StringToken s) M) -> forall n pre m s, M = pre ++ m -> length m < n -> known m s -> exists ps, text_pieces M s ps.
Proof.
  intros R n. induction n as [|n IH]; intros pre m s E L (d & O & -> & K); [lia|].
  assert (F : exists inner, Forall2 (key_pieces M) (map fst (snd d)) inner).
  { assert (O' : Forall (fun k => In k all_markers \/ is_key k) (map fst (snd d))).
    { destruct O as [_ O]. clear -O. induction O as [|p l [H _] O IHO]; constructor; auto. }
    revert K O'. generalize (map fst (snd d)). intros ks K O'. induction ks as [|k ks IHk]; [exists []; constructor|].
    destruct IHk as [hs F]; [exact (Forall_inv_tail K)|exact (Forall_inv_tail O')|].
    apply Forall_inv in K, O'. destruct O' as [I|I]; [exists ([] :: hs); constructor; auto; apply pieces_of_marker; auto|].
    destruct K as [J|J]; [exfalso; eapply marker_not_key; eauto|]. destruct (older pre m k E J) as (pre' & v & m' & E' & Lk & Lt & Kv).
    assert (Kv' : Forall (known m') (ordered_texts v)).
    { destruct v; auto. cbn [ordered_texts texts] in *. apply Forall_app. split; [exact (Forall_inv_tail Kv)|constructor; [exact (Forall_inv Kv)|constructor]]. }
    assert (X : exists inner, Forall2 (text_pieces M) (ordered_texts v) inner).
    { induction Kv' as [|s ss Ks Kv' [inner X]]; [exists []; constructor|]. destruct (IH (pre' ++ [(k, v)]) m' s) as [ps P]; auto; [rewrite <- app_assoc; auto|lia|].
      exists (ps :: inner). constructor; auto. }
    destruct X as [inner X]. exists ((shown v ++ concat inner) :: hs). constructor; auto. apply pieces_of_token; auto.
    intros s ->. apply (R k s). rewrite E'. apply in_or_app. right. left. auto. }
  destruct F as [inner F]. eexists. apply pieces_of_text; eauto.
Qed.
End Total.
