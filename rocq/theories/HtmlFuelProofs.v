(** * The fuel of the HTML generator: more of it does not change a result *)

From Coq Require Import Ascii String.
From Coq Require Import List Arith ZArith Bool Lia.
From Verif Require Import GoStr BracketModel ConfigModel TokenModel ExpandModel HtmlModel HtmlProofs HtmlTokenProofs.
Import ListNotations.
Local Open Scope list_scope.

Definition below {A R} (m1 m2 : X A R) : Prop := forall a r, m1 a = Ok r -> m2 a = Ok r.

Lemma below_refl : forall A R (m : X A R), below m m.
Proof. intros A R m a r H. exact H. Qed.

Lemma below_bind : forall A R T (m1 m2 : X A R) (f1 f2 : R -> X A T), below m1 m2 -> (forall x, below (f1 x) (f2 x)) -> below (bindX m1 f1) (bindX m2 f2).
Proof. intros A R T m1 m2 f1 f2 H1 H2 a r H. unfold bindX, bind in *. destruct (m1 a) as [[x b]| | |] eqn:E; try discriminate. rewrite (H1 _ _ E). apply H2. exact H. Qed.

Lemma below_map : forall A R T (f1 f2 : R -> X A T) l, (forall x, below (f1 x) (f2 x)) -> below (mapX f1 l) (mapX f2 l).
Proof.
  intros A R T f1 f2 l H. induction l as [|x l IH]; cbn [mapX]; [apply below_refl|]. apply below_bind; auto. intros y. apply below_bind; auto. intros ys. apply below_refl.
Qed.

Lemma below_go : forall A (g : ExpansionHandler A) t1 t2, (forall k, below (t1 k) (t2 k)) -> forall s skip text, below (expandString_go g t1 s skip text) (expandString_go g t2 s skip text).
Proof.
  intros A g t1 t2 H. induction s as [|c s IH]; intros skip text; cbn [expandString_go]; [apply below_refl|]. destruct skip; auto. destruct (has_prefix !"$$" (c :: s)); auto.
  apply below_bind; [apply below_refl|]. intros before. destruct (FindCorrespondingCloseToken (c :: s) 2 !"$$" !"$$") as [n|]; [|apply below_refl].
  destruct (lookup_token _ _) as [k|]; [|apply below_refl]. apply below_bind; auto. intros x. apply below_bind; auto. intros rest. apply below_refl.
Qed.

Lemma below_go2 : forall A (g1 g2 : ExpansionHandler A) t1 t2, handlerTokens g1 = handlerTokens g2 -> expandSimpleString g1 = expandSimpleString g2 -> (forall k, below (t1 k) (t2 k)) ->
  forall s skip text, below (expandString_go g1 t1 s skip text) (expandString_go g2 t2 s skip text).
Proof.
  intros A g1 g2 t1 t2 G1 G2 H. induction s as [|c s IH]; intros skip text; cbn [expandString_go]; unfold expandSegment; rewrite <- ?G1, <- ?G2; [apply below_refl|]. destruct skip; auto. destruct (has_prefix !"$$" (c :: s)); auto.
  apply below_bind; [apply below_refl|]. intros before. destruct (FindCorrespondingCloseToken (c :: s) 2 !"$$" !"$$") as [n|]; [|apply below_refl].
  destruct (lookup_token _ _) as [k|]; [|apply below_refl]. apply below_bind; auto. intros x. apply below_bind; auto. intros rest. apply below_refl.
Qed.

Lemma below_eq : forall A R (m1 m2 m1' m2' : X A R), (forall a, m1 a = m1' a) -> (forall a, m2 a = m2' a) -> below m1' m2' -> below m1 m2.
Proof. intros A R m1 m2 m1' m2' E1 E2 H a r X. rewrite E2. apply H. rewrite <- E1. exact X. Qed.

Lemma below_mapF : forall A R T (f1 f2 : R -> X A T) l, Forall (fun x => below (f1 x) (f2 x)) l -> below (mapX f1 l) (mapX f2 l).
Proof.
  intros A R T f1 f2 l H. induction H as [|x l H F IH]; cbn [mapX]; [apply below_refl|]. apply below_bind; auto. intros y. apply below_bind; auto. intros ys. apply below_refl.
Qed.

Lemma below_list : forall e1 e2, (forall s, below (e1 s) (e2 s)) -> forall l, below (expandList e1 l) (expandList e2 l).
Proof.
  intros e1 e2 H l.
  apply (proj1 (list_token_ind (fun l => below (expandList e1 l) (expandList e2 l)) (fun i => below (expandListItem e1 i) (expandListItem e2 i))
    ltac:(intros kind items F; eapply below_eq; [intros; apply expandList_eq|intros; apply expandList_eq|]; apply below_bind; [apply below_mapF; auto|intros; apply below_refl])
    ltac:(intros type content subs F; eapply below_eq; [intros; apply expandListItem_eq|intros; apply expandListItem_eq|]; apply below_bind; auto; intros x; apply below_bind; [apply below_mapF; auto|intros; apply below_refl]))).
Qed.

Section Html.
Variable cfg : configuration.

Section Two.
Variables render1 render2 : str -> res (str * str * str * str).
Hypothesis R : forall f x, render1 f = Ok x -> render2 f = Ok x.

Lemma below_token : forall e1 e2, (forall s, below (e1 s) (e2 s)) -> forall k, below (htmlToken cfg render1 e1 k) (htmlToken cfg render2 e2 k).
Proof.
  intros e1 e2 H k. destruct k; cbn [htmlToken]; try apply below_refl; try (apply below_bind; [solve [auto]|intros; apply below_refl]); auto.
  - unfold expandMath. apply below_bind; [|intros [[[x y] z] w]; apply below_refl]. intros a r E. unfold failX in *. destruct (render1 Content) as [x| | |] eqn:E1; cbn [bind] in E; try discriminate E. rewrite (R _ _ E1). exact E.
  - apply below_list; auto.
  - unfold expandTable. apply below_bind.
    + apply below_map. intros row. unfold expandTableRow. apply below_bind; [|intros; apply below_refl]. apply below_map. intros col. unfold expandTableColumn. apply below_bind; auto. intros; apply below_refl.
    + intros rows'. apply below_bind; [|intros; apply below_refl]. unfold expandTableCaption. apply below_bind; auto. intros; apply below_refl.
Qed.

Lemma below_expand2 : forall m n s, below (expandString (HtmlGenerator cfg render1 m) n s) (expandString (HtmlGenerator cfg render2 m) n s).
Proof.
  intros m n. induction n as [|n IH]; intros s; [intros a r H; discriminate|]. cbn [expandString]. cbn [expandMarker handleToken HtmlGenerator expandSimpleString] in *.
  destruct (has_token (htmlMarker s)); [|apply below_refl]. apply below_go2; auto. intros k. apply below_token. intros x. apply IH.
Qed.

(** With more pictures of formulas, a result stays the same. *)
Lemma generateHtml_render : forall m n style title s html, generateHtml cfg render1 m n style title s = Ok html -> generateHtml cfg render2 m n style title s = Ok html.
Proof.
  intros m n style title s html H. unfold generateHtml, htmlExpand in *. destruct (expandString (HtmlGenerator cfg render1 m) n s tt) as [[x u]| | |] eqn:E; try discriminate. rewrite (below_expand2 _ _ _ _ _ E). exact H.
Qed.
End Two.

Variable renderMath : str -> res (str * str * str * str).

Lemma below_expand : forall m n s, below (expandString (HtmlGenerator cfg renderMath m) n s) (expandString (HtmlGenerator cfg renderMath m) (S n) s).
Proof.
  intros m n. induction n as [|n IH]; intros s; [intros a r H; discriminate|]. cbn [expandString]. cbn [expandMarker handleToken HtmlGenerator expandSimpleString] in *.
  destruct (has_token (htmlMarker s)); [|apply below_refl]. apply below_go. intros k. apply below_token; auto.
Qed.

Lemma generateHtml_more : forall m n n' style title s html, n <= n' -> generateHtml cfg renderMath m n style title s = Ok html -> generateHtml cfg renderMath m n' style title s = Ok html.
Proof.
  intros m n n' style title s html L. induction L as [|n' L IH]; auto. intros H. specialize (IH H). unfold generateHtml, htmlExpand in *.
  destruct (expandString (HtmlGenerator cfg renderMath m) n' s tt) as [[x u]| | |] eqn:E; try discriminate. rewrite (below_expand _ _ _ _ _ E). exact IH.
Qed.
End Html.
