(** * Proofs about the HTML of tokens *)

From Coq Require Import Ascii String.
From Coq Require Import List Arith ZArith Bool Lia.
From Verif Require Import GoStr GoStrFacts TextFacts ConfigModel TokenModel TokenSpec TokenProofs PassSpec FormattingModel ExpandModel ExpandSpec ExpandProofs HtmlModel HtmlSpec HtmlProofs.
Import ListNotations.
Local Open Scope list_scope.

Lemma list_token_ind : forall (P : ListToken -> Prop) (Q : ListItemToken -> Prop),
  (forall kind items, Forall Q items -> P (AnyListToken kind items)) ->
  (forall type content subLists, Forall P subLists -> Q (mkListItemToken type content subLists)) ->
  (forall l, P l) /\ (forall i, Q i).
Proof.
  intros P Q H1 H2.
  assert (F : forall l, P l).
  { fix F 1. intros [kind items]. apply H1. induction items as [|[type content subLists] items IH]; constructor; auto.
    apply H2. induction subLists as [|l subLists IH2]; constructor; auto. }
  split; auto. intros [type content subLists]. apply H2. induction subLists; constructor; auto.
Qed.

Lemma bindX_ok : forall A R T (e : X A R) (f : R -> X A T) a r a', bindX e f a = Ok (r, a') -> exists x b, e a = Ok (x, b) /\ f x b = Ok (r, a').
Proof. intros A R T e f a r a' H. unfold bindX in H. destruct (e a) as [[x b]| | |]; try discriminate. eauto. Qed.

Lemma retX_ok : forall A R (x : R) (a : A) r a', retX x a = Ok (r, a') -> r = x /\ a' = a.
Proof. intros. injection H as <- <-. auto. Qed.

Lemma mapX_ok : forall R T (f : R -> X unit T) l ys u, mapX f l tt = Ok (ys, u) -> Forall2 (fun x y => f x tt = Ok (y, tt)) l ys.
Proof.
  intros R T f l. induction l as [|x l IH]; intros ys [] H; cbn [mapX] in H.
  - apply retX_ok in H as [-> _]. constructor.
  - apply bindX_ok in H as (y & [] & H1 & H). apply bindX_ok in H as (ys' & [] & H2 & H). apply retX_ok in H as [-> _]. constructor; eauto.
Qed.

Lemma mapX_total : forall R T (f : R -> X unit T) l, Forall (fun x => exists y, f x tt = Ok (y, tt)) l -> exists ys, mapX f l tt = Ok (ys, tt).
Proof.
  intros R T f l F. induction F as [|x l [y H] F [ys IH]]; cbn [mapX]; [eexists; reflexivity|]. unfold bindX. rewrite H. cbn [bind]. rewrite IH. eexists. reflexivity.
Qed.

Section Expand.
Variable cfg : configuration.
Variable renderMath : str -> res (str * str * str * str).
Variable expand : str -> X unit str.

Definition kind_template (kind : list_kind) : str -> str := match kind with Unordered => TEMPLATE_UL | Ordered => TEMPLATE_OL | Description => TEMPLATE_DL end.

Lemma expandList_eq : forall kind items a, expandList expand (AnyListToken kind items) a =
  bindX (mapX (expandListItem expand) items) (fun xs => retX (kind_template kind (join nl xs))) a.
Proof.
  intros kind items a. cbn [expandList]. unfold bindX at 1. unfold bindX at 2.
  assert (E : forall a, (fix expandListItems (items : list ListItemToken) : X unit (list str) :=
        match items with
        | [] => retX []
        | item :: items' =>
            let* expandedItem := expandListItem expand item in
            let* rest := expandListItems items' in
            retX (expandedItem :: rest)
        end) items a = mapX (expandListItem expand) items a).
  { clear a. induction items as [|i items IH]; intros a; auto. cbn [mapX]. apply bindX_ext. intros r b. unfold bindX. rewrite IH. reflexivity. }
  rewrite E. destruct kind; reflexivity.
Qed.

Lemma expandListItem_eq : forall type content subLists a, expandListItem expand (mkListItemToken type content subLists) a =
  bindX (expand content) (fun x => bindX (mapX (expandList expand) subLists) (fun xs => retX (item_template type (join nl (x :: xs))))) a.
Proof.
  intros type content subLists a. cbn [expandListItem]. apply bindX_ext. intros x b. unfold bindX.
  assert (E : forall a, (fix expandSubLists (subLists : list ListToken) : X unit (list str) :=
        match subLists with
        | [] => retX []
        | subList :: subLists' =>
            let* expandedSubList := expandList expand subList in
            let* rest := expandSubLists subLists' in
            retX (expandedSubList :: rest)
        end) subLists a = mapX (expandList expand) subLists a).
  { induction subLists as [|l subLists IH]; intros a'; auto. cbn [mapX]. apply bindX_ext. intros r b'. unfold bindX. rewrite IH. reflexivity. }
  rewrite E. reflexivity.
Qed.

(** ** Success *)

Definition succeeds (s : str) : Prop := exists h, expand s tt = Ok (h, tt).

Lemma list_total : (forall l, Forall succeeds (list_texts l) -> exists h, expandList expand l tt = Ok (h, tt)) /\
  (forall i, Forall succeeds (item_texts i) -> exists h, expandListItem expand i tt = Ok (h, tt)).
Proof.
  apply list_token_ind.
  - intros kind items IH F. cbn [list_texts] in F. rewrite expandList_eq.
    destruct (mapX_total _ _ (expandListItem expand) items) as [xs X].
    { rewrite Forall_forall in *. intros i I. apply IH; auto. apply Forall_forall. intros s J. apply F. apply in_flat_map. eauto. }
    unfold bindX. rewrite X. eexists. reflexivity.
  - intros type content subLists IH F. cbn [item_texts] in F. rewrite expandListItem_eq. destruct (Forall_inv F) as [x X]. apply Forall_inv_tail in F.
    destruct (mapX_total _ _ (expandList expand) subLists) as [xs Y].
    { rewrite Forall_forall in *. intros i I. apply IH; auto. apply Forall_forall. intros s J. apply F. apply in_flat_map. eauto. }
    unfold bindX. rewrite X. cbn [bind]. rewrite Y. eexists. reflexivity.
Qed.

Lemma token_total : forall v, Forall succeeds (texts v) -> (forall f, v = MathToken f -> exists r, renderMath f = Ok r) ->
  exists h, htmlToken cfg renderMath expand v tt = Ok (h, tt).
Proof.
  intros v F Hm. destruct v; cbn [texts] in F; cbn [htmlToken];
    try (apply Forall_inv in F as [x X]; unfold expandHeadings, expandImage, expandInternalLink, expandExternalLink, expandRefDefinition, bindX; rewrite X; eexists; reflexivity);
    try (eexists; reflexivity).
  - destruct (Hm _ eq_refl) as [[[[p w] h] st] E]. unfold expandMath, failX, bindX. rewrite E. eexists. reflexivity.
  - apply list_total. auto.
  - unfold expandTable. apply Forall_inv_tail in F as F2. apply Forall_inv in F as [x X].
    destruct (mapX_total _ _ (expandTableRow expand) Rows) as [xs Y].
    { apply Forall_forall. intros row I. unfold expandTableRow. destruct (mapX_total _ _ (expandTableColumn expand) row) as [ys Z].
      - apply Forall_forall. intros col J. unfold expandTableColumn. rewrite Forall_forall in F2. destruct (F2 (ColContent col)) as [y Y]; [apply in_flat_map; eexists; split; eauto; apply in_map; auto|].
        unfold bindX. rewrite Y. eexists. reflexivity.
      - unfold bindX. rewrite Z. eexists. reflexivity. }
    unfold expandTableCaption, bindX. rewrite Y. cbn [bind]. rewrite X. eexists. reflexivity.
Qed.

(** ** The order of texts *)

Lemma in_order_pre : forall ps a s, in_order ps s -> in_order ps (a ++ s).
Proof. intros ps a s H. inversion H; subst; [constructor|]. rewrite app_assoc. constructor. auto. Qed.

Lemma in_order_app : forall ps qs a b, in_order ps a -> in_order qs b -> in_order (ps ++ qs) (a ++ b).
Proof.
  intros ps qs a b H. revert qs b. induction H as [s|p ps x y H IH]; intros qs b K; cbn [app].
  - apply in_order_pre; auto.
  - rewrite <- !app_assoc. constructor. auto.
Qed.

Lemma in_order_post : forall ps a s, in_order ps a -> in_order ps (a ++ s).
Proof. intros ps a s H. rewrite <- (app_nil_r ps). apply in_order_app; auto. constructor. Qed.

Lemma in_order_self : forall p, in_order [p] p.
Proof. intros p. rewrite <- (app_nil_r p) at 2. apply (in_order_piece p [] [] []). constructor. Qed.

Lemma in_order_join : forall sep pss hs, Forall2 in_order pss hs -> in_order (concat pss) (join sep hs).
Proof.
  intros sep pss hs F. induction F as [|ps h pss hs H F IH]; [constructor|]. cbn [concat]. destruct hs as [|h' hs].
  - inversion F; subst. cbn. rewrite app_nil_r. auto.
  - change (join sep (h :: h' :: hs)) with (h ++ sep ++ join sep (h' :: hs)). apply in_order_app; auto. apply in_order_pre. auto.
Qed.

Definition ordered (s : str) (ps : list str) : Prop := forall h, expand s tt = Ok (h, tt) -> in_order ps h.

Ltac surrounded := repeat first [eassumption | apply in_order_post; eassumption | apply in_order_pre].

Lemma item_template_order : forall ps type h, in_order ps h -> in_order ps (item_template type h).
Proof.
  intros ps type h H. unfold item_template. destruct type.
  - destruct (has_prefix _ _); [apply in_order_post; auto|unfold TEMPLATE_LI; surrounded].
  - unfold TEMPLATE_DD. surrounded.
  - unfold TEMPLATE_DT. surrounded.
Qed.

Lemma kind_template_order : forall ps kind h, in_order ps h -> in_order ps (kind_template kind h).
Proof. intros ps [] h H; unfold kind_template, TEMPLATE_UL, TEMPLATE_OL, TEMPLATE_DL; surrounded. Qed.

Lemma Forall2_flat : forall A B C (f : A -> list B) (P : B -> C -> Prop) l cs, Forall2 P (flat_map f l) cs ->
  exists css, cs = concat css /\ Forall2 (fun x => Forall2 P (f x)) l css.
Proof.
  intros A B C f P l. induction l as [|x l IH]; intros cs F; cbn [flat_map] in F.
  - inversion F; subst. exists []. split; constructor.
  - apply Forall2_app_inv_l in F as (c1 & c2 & F1 & F2 & ->). apply IH in F2 as (css & -> & F2). exists (c1 :: css). split; auto.
Qed.

Lemma concat_concat : forall A (l : list (list (list A))), concat (concat l) = concat (map (@concat A) l).
Proof. induction l as [|x l IH]; auto. cbn [concat map]. rewrite concat_app, IH. reflexivity. Qed.

Lemma flat_order : forall A (f : A -> list str) (F : A -> X unit str) l pss hs,
  Forall (fun x => forall pss h, Forall2 ordered (f x) pss -> F x tt = Ok (h, tt) -> in_order (concat pss) h) l ->
  Forall2 ordered (flat_map f l) pss -> Forall2 (fun x y => F x tt = Ok (y, tt)) l hs -> forall sep, in_order (concat pss) (join sep hs).
Proof.
  intros A f F l pss hs H1 H2 H3 sep. apply Forall2_flat in H2 as (css & -> & H2). rewrite concat_concat. apply in_order_join.
  revert css H2. induction H3 as [|x h l hs Hx H3 IH]; intros css H2; inversion H2; subst; cbn [map]; constructor.
  - apply (Forall_inv H1); auto.
  - apply IH; auto. apply (Forall_inv_tail H1).
Qed.

Lemma list_order : (forall l pss h, Forall2 ordered (list_texts l) pss -> expandList expand l tt = Ok (h, tt) -> in_order (concat pss) h) /\
  (forall i pss h, Forall2 ordered (item_texts i) pss -> expandListItem expand i tt = Ok (h, tt) -> in_order (concat pss) h).
Proof.
  apply list_token_ind.
  - intros kind items IH pss h F H. rewrite expandList_eq in H. apply bindX_ok in H as (xs & [] & H1 & H). apply retX_ok in H as [-> _]. apply mapX_ok in H1.
    apply kind_template_order. eapply (flat_order _ item_texts (expandListItem expand)); eauto.
  - intros type content subLists IH pss h F H. rewrite expandListItem_eq in H. apply bindX_ok in H as (x & [] & H1 & H). apply bindX_ok in H as (xs & [] & H2 & H). apply retX_ok in H as [-> _].
    apply mapX_ok in H2. cbn [item_texts] in F. inversion F as [|? ps ? pss' O F']; subst. apply item_template_order. cbn [concat].
    pose proof (flat_order _ list_texts (expandList expand) subLists pss' xs IH F' H2 nl) as J. destruct xs as [|x' xs].
    + inversion H2; subst. cbn [list_texts flat_map] in F'. inversion F'; subst. cbn. rewrite app_nil_r. auto.
    + change (join nl (x :: x' :: xs)) with (x ++ nl ++ join nl (x' :: xs)). apply in_order_app; auto. apply in_order_pre. auto.
Qed.

Lemma table_order : forall rows caption pss h, Forall2 ordered (flat_map (map ColContent) rows ++ [caption]) pss ->
  expandTable expand rows caption tt = Ok (h, tt) -> in_order (concat pss) h.
Proof.
  intros rows caption pss h F H. apply Forall2_app_inv_l in F as (p1 & p2 & F1 & F2 & ->). inversion F2 as [|? ps ? pss' O F']; subst. inversion F'; subst.
  rewrite concat_app. cbn [concat]. rewrite app_nil_r. unfold expandTable in H. apply bindX_ok in H as (xs & [] & H1 & H). apply bindX_ok in H as (c & [] & H2 & H). apply retX_ok in H as [-> _].
  unfold expandTableCaption in H2. apply bindX_ok in H2 as (c' & [] & H2 & H). apply retX_ok in H as [-> _]. apply O in H2. apply mapX_ok in H1.
  assert (J : in_order (concat p1) (join nl xs)).
  { eapply (flat_order _ (map ColContent) (expandTableRow expand)); [|exact F1|exact H1]. apply Forall_forall. intros row _ pss h' Fr Hr. unfold expandTableRow in Hr.
    apply bindX_ok in Hr as (ys & [] & H3 & H). apply retX_ok in H as [-> _]. apply mapX_ok in H3. unfold TABLE_TEMPLATE_ROW.
    rewrite app_assoc. apply in_order_pre. apply in_order_post.
    replace (map ColContent row) with (flat_map (fun col => [ColContent col]) row) in Fr by (clear; induction row; cbn; congruence).
    eapply (flat_order _ (fun col => [ColContent col]) (expandTableColumn expand)); [|exact Fr|exact H3]. apply Forall_forall. intros col _ pss' h' Fc Hc.
    inversion Fc as [|? ps' ? pss1 O' F'']; subst. inversion F''; subst. cbn [concat]. rewrite app_nil_r. unfold expandTableColumn in Hc. apply bindX_ok in Hc as (z & [] & H4 & H).
    apply retX_ok in H as [-> _]. apply O' in H4. destruct (IsHeading col); unfold TABLE_TEMPLATE_HEAD, TABLE_TEMPLATE_COL; surrounded. }
  unfold TABLE_TEMPLATE, TABLE_TEMPLATE_CAPTION.
  do 6 apply in_order_pre. apply in_order_app; auto. do 2 apply in_order_pre. apply in_order_post. do 5 apply in_order_pre. apply in_order_post. auto.
Qed.

Lemma token_order : forall v pss h, (forall s, v <> StringToken s) -> Forall2 ordered (ordered_texts v) pss ->
  htmlToken cfg renderMath expand v tt = Ok (h, tt) -> in_order (shown v ++ concat pss) h.
Proof.
  intros v pss h N F H. destruct v as [content depth|name text|url text|text|file caption x y|file x y|index content|index|content|content|l|rows caption];
    cbn [ordered_texts texts] in F; cbn [htmlToken] in H; cbn [shown]; rewrite ?app_nil_l.
  - inversion F as [|? ps ? pss' O F']; subst. inversion F'; subst. cbn [concat]. rewrite app_nil_r.
    apply bindX_ok in H as (z & [] & H1 & H). apply retX_ok in H as [-> _]. unfold TEMPLATE_HEADING. apply O in H1. surrounded.
  - inversion F as [|? ps ? pss' O F']; subst. inversion F'; subst. cbn [concat]. rewrite app_nil_r. apply O in H. auto.
  - inversion F as [|? ps ? pss' O F']; subst. inversion F'; subst. cbn [concat]. rewrite app_nil_r.
    apply bindX_ok in H as (z & [] & H1 & H). apply retX_ok in H as [-> _]. unfold HREF_TEMPLATE, quoted. apply O in H1.
    apply in_order_pre. rewrite <- !app_assoc. apply in_order_pre. apply in_order_app; [apply in_order_self|]. surrounded.
  - exfalso. eapply N. reflexivity.
  - inversion F as [|? ps ? pss' O F']; subst. inversion F'; subst. cbn [concat]. rewrite app_nil_r.
    apply bindX_ok in H as (z & [] & H1 & H). apply retX_ok in H as [-> _]. unfold IMAGE_TEMPLATE. apply O in H1. surrounded.
  - inversion F; subst. constructor.
  - inversion F as [|? ps ? pss' O F']; subst. inversion F'; subst. cbn [concat]. rewrite app_nil_r.
    apply bindX_ok in H as (z & [] & H1 & H). apply retX_ok in H as [-> _]. unfold TEMPLATE_REF_DEF. apply O in H1.
    change (!"[" ++ itoa (S index) ++ !"] " ++ z ++ !"<br>") with (!"[" ++ itoa (S index) ++ !"]" ++ !" " ++ z ++ !"<br>").
    replace (!"[" ++ itoa (S index) ++ !"]" ++ !" " ++ z ++ !"<br>") with ((!"[" ++ itoa (S index) ++ !"]") ++ !" " ++ z ++ !"<br>") by (rewrite <- !app_assoc; reflexivity).
    apply in_order_app; [apply in_order_self|]. apply (in_order_pre _ !" "). apply in_order_post. auto.
  - inversion F; subst. apply retX_ok in H as [-> _]. apply in_order_self.
  - inversion F; subst. constructor.
  - inversion F; subst. apply retX_ok in H as [-> _]. apply in_order_self.
  - apply (proj1 list_order l); auto.
  - eapply table_order; eauto.
Qed.
End Expand.
