(** * The tags of the pages of documents *)

From Coq Require Import Ascii String.
From Coq Require Import List Arith Bool Lia.
From Verif Require Import GoStr GoStrFacts FormattingSpec PassSpec SafeSpec DocumentSpec EpubSpec EpubModel EpubProofs HtmlModel DocumentLineProofs DocumentPassProofs DocumentStartProofs DocumentPictureProofs DocumentImageProofs ShowProofs BookSpec BookImageSpec.
Import ListNotations.
Local Open Scope list_scope.

Ltac no_angle := let X := fresh in intros X; vm_compute in X; intuition discriminate.

Section Fine.
(** The tags that may be there *)
Variable fine : str -> Prop.

(** Text without tags, or one of these tags *)
Definition piece (p : str) : Prop :=
  ~ In "<"%char p \/ exists t, p = !"<" ++ t ++ !">" /\ ~ In "<"%char t /\ ~ In ">"%char t /\ fine t.
Definition tidy (s : str) : Prop := exists ps, Forall piece ps /\ s = concat ps.

Lemma tidy_piece : forall p, piece p -> tidy p.
Proof. intros p H. exists [p]. split; auto. cbn. rewrite app_nil_r. reflexivity. Qed.
Lemma tidy_app : forall a b, tidy a -> tidy b -> tidy (a ++ b).
Proof. intros a b (p & P & ->) (q & Q & ->). exists (p ++ q). split; [apply Forall_app; auto|]. rewrite concat_app. reflexivity. Qed.
Lemma tidy_nil : tidy [].
Proof. exists []. split; auto. Qed.
Lemma tidy_text : forall s, ~ In "<"%char s -> tidy s.
Proof. intros s H. apply tidy_piece. left. exact H. Qed.
Lemma tidy_tag : forall t, ~ In "<"%char t -> ~ In ">"%char t -> fine t -> tidy (!"<" ++ t ++ !">").
Proof. intros t H1 H2 H3. apply tidy_piece. right. exists t. auto. Qed.

Lemma tidy_fine : forall s x, tidy s -> ~ In "<"%char x -> ~ In ">"%char x -> occurs (!"<" ++ x ++ !">") s -> fine x.
Proof.
  intros s x (ps & P & ->) X1 X2 (a & b & E). revert a E. induction P as [|p ps P F IH]; intros a E; [destruct a; discriminate|]. cbn [concat] in E.
  destruct P as [N|(t & -> & N1 & N2 & N3)].
  - revert a E. induction p as [|c p IHp]; intros a E; [eapply IH; eauto|]. cbn [app] in E. destruct a as [|d a].
    + cbn in E. injection E as -> _. exfalso. apply N. left. reflexivity.
    + cbn [app] in E. injection E as _ E. eapply IHp; [|exact E]. intros X. apply N. right; auto.
  - destruct a as [|d a].
    + change ((!"<" ++ t ++ !">") ++ concat ps) with ("<"%char :: (t ++ !">") ++ concat ps) in E. change ([] ++ (!"<" ++ x ++ !">") ++ b) with ("<"%char :: (x ++ !">") ++ b) in E.
      injection E as E. rewrite <- !app_assoc in E.
      assert (G : forall (x y u v : str), ~ In ">"%char x -> ~ In ">"%char y -> x ++ !">" ++ u = y ++ !">" ++ v -> x = y).
      { clear. induction x as [|c x IH]; intros [|d y] u v N1 N2 E; auto.
        - cbn in E. injection E as <- _. exfalso. apply N2. left; auto.
        - cbn in E. injection E as -> _. exfalso. apply N1. left; auto.
        - cbn [app] in E. injection E as -> E. f_equal. apply (IH y u v); auto; intros X; [apply N1|apply N2]; right; auto. }
      rewrite <- (G _ _ _ _ N2 X2 E). exact N3.
    + change ((!"<" ++ t ++ !">") ++ concat ps) with ("<"%char :: (t ++ !">") ++ concat ps) in E. cbn [app] in E. injection E as _ E.
      assert (N : ~ In "<"%char (t ++ !">")) by (intros X; apply in_app_or in X as [X|X]; auto; vm_compute in X; intuition discriminate).
      revert N a E. generalize (t ++ !">"). clear - IH. intros p N. induction p as [|c p IHp]; intros a E; [eapply IH; eauto|]. cbn [app] in E. destruct a as [|d a].
      * cbn in E. injection E as -> _. exfalso. apply N. left. reflexivity.
      * cbn [app] in E. injection E as _ E. eapply IHp; [|exact E]. intros X. apply N. right; auto.
Qed.

(** All tags are fine, except for some images and, unless [lenient], the end of a heading of the first level. *)
Variable lenient : Prop.
Hypothesis fine_other : forall t, (forall x, t <> !"img " ++ x) -> t <> !"/h1" \/ lenient -> fine t.


Lemma words_no_angle : forall s c, words s -> In c !"<>" -> ~ In c s.
Proof. intros s c W I H. destruct W as [W _]. rewrite Forall_forall in W. apply (W c H). cbn in I. destruct I as [<-|[<-|[]]]; vm_compute; auto 20. Qed.

Ltac other := apply fine_other; [let x := fresh in let E := fresh in intros x E; vm_compute in E; discriminate|left; vm_compute; discriminate].

Lemma tidy_tags : forall ms, tidy (concat (map tag ms)).
Proof.
  induction ms as [|m ms IH]; [apply tidy_nil|]. cbn [map concat]. apply tidy_app; auto.
  destruct m as [[]|[]]; [apply (tidy_tag !"b")|apply (tidy_tag !"i")|apply (tidy_tag !"/b")|apply (tidy_tag !"/i")]; try no_angle; other.
Qed.

Lemma escaped_path_plain : forall file c, In c !"<>" -> ~ In c (HtmlModel.escapePathComponents file).
Proof.
  intros file c I H. apply join_In in H as [H|(x & X & H)]; [cbn in H, I; intuition (subst; discriminate)|]. apply in_map_iff in X as (y & <- & _).
  apply in_flat_map in H as (d & _ & H). apply escape_clean in H. apply H. cbn in I. destruct I as [<-|[<-|[]]]; vm_compute; auto 10.
Qed.

Section Pictures.
Context {cfg : ConfigModel.configuration}.
Variable pictures : str -> str * str * str * str.
(** There are no tags in the sizes of a picture. *)
Definition plain_picture (formula : str) : Prop := let '(_, width, height, style) := pictures formula in forall c, In c !"<>" -> ~ In c (width ++ height ++ style).
Definition formula_tag (formula : str) : str :=
  let '(file, width, height, style) := pictures formula in
  !"img alt=" ++ dq ++ !"image" ++ dq ++ !" src=" ++ dq ++ !"./" ++ HtmlModel.escapePathComponents file ++ dq ++ !" style=" ++ dq ++ !"width: " ++ width ++ !"; height: " ++ height ++ !"; " ++ style ++ dq.
Definition picture_tag (p : picture) : str :=
  let file := wiki_file (file_name p) in
  !"img alt=" ++ (dq ++ !"image" ++ dq ++ (if as_figure p then [] else !" class=" ++ dq ++ !"inline" ++ dq) ++ !" ") ++
  (!"src=" ++ dq ++ !"./" ++ HtmlModel.escapePathComponents (!"images/" ++ file ++ (if made_to_png cfg file then !".png" else [])) ++ dq) ++ !" " ++
  match size p with
  | Some (width, height) => !"style=" ++ dq ++ !"vertical-align: middle; width: " ++ itoa width ++ !"px; height: " ++ itoa height ++ !"px;" ++ dq
  | None => []
  end.

Variable formulas : list str.
Variable images : list picture.
Hypothesis plain : forall formula, In formula formulas -> plain_picture formula.
Hypothesis fine_formula : forall formula, In formula formulas -> fine (formula_tag formula).
Hypothesis fine_picture : forall p, In p images -> picture_ok cfg p -> fine (picture_tag p).

Lemma tidy_formula : forall formula, In formula formulas -> tidy (formula_html pictures formula).
Proof.
  intros formula I0. pose proof (plain formula I0) as P. pose proof (fine_formula formula I0) as Fi. unfold formula_html, plain_picture, formula_tag in *. destruct (pictures formula) as [[[file width] height] style].
  set (t := !"img alt=" ++ dq ++ !"image" ++ dq ++ !" src=" ++ dq ++ !"./" ++ HtmlModel.escapePathComponents file ++ dq ++ !" style=" ++ dq ++ !"width: " ++ width ++ !"; height: " ++ height ++ !"; " ++ style ++ dq) in *.
  assert (T : forall c, In c !"<>" -> ~ In c t).
  { intros c I X. unfold t in X. specialize (P c I). rewrite !in_app_iff in P. repeat (apply in_app_or in X as [X|X]); auto;
    try (apply (escaped_path_plain file c I X)); cbn in I; destruct I as [<-|[<-|[]]]; vm_compute in X; intuition discriminate. }
  match goal with |- tidy ?x => replace x with (!"<" ++ t ++ !">") end; [|unfold t; change !"<img alt=" with (!"<" ++ !"img alt="); rewrite <- !app_assoc; reflexivity].
  apply tidy_tag; [apply T; cbn; auto|apply T; cbn; auto|exact Fi].
Qed.

Lemma tidy_nl : tidy nl.
Proof. apply tidy_text. no_angle. Qed.

Lemma tidy_around : forall s, tidy s -> tidy (nl ++ s ++ nl).
Proof. intros s H. apply tidy_app; [apply tidy_nl|]. apply tidy_app; auto. apply tidy_nl. Qed.

Lemma tidy_class : forall class content, ~ In "<"%char class -> ~ In ">"%char class -> tidy content -> tidy (division class content).
Proof.
  intros class content N1 N2 C. unfold division. replace (!"<div class=" ++ dq ++ class ++ dq ++ !">" ++ content ++ !"</div>") with ((!"<" ++ (!"div class=" ++ dq ++ class ++ dq) ++ !">") ++ content ++ (!"<" ++ !"/div" ++ !">"))
    by (change !"<div class=" with (!"<" ++ !"div class="); rewrite <- !app_assoc; reflexivity).
  assert (T : forall c, In c !"<>" -> ~ In c (!"div class=" ++ dq ++ class ++ dq)).
  { intros c I X. cbn in I. repeat (apply in_app_or in X as [X|X]); destruct I as [<-|[<-|[]]]; auto; vm_compute in X; intuition discriminate. }
  apply tidy_app; [apply tidy_tag; [apply T; cbn; auto|apply T; cbn; auto|]|].
  { apply fine_other; [intros x E; vm_compute in E; discriminate|left; vm_compute; discriminate]. }
  apply tidy_app; auto. apply (tidy_tag !"/div"); try no_angle; other.
Qed.

Lemma tidy_picture : forall p, In p images -> picture_ok cfg p -> tidy (picture_html cfg p).
Proof.
  intros p I0 A. pose proof (fine_picture p I0 A) as Fi. unfold picture_html, picture_tag in *. cbv zeta in *.
  set (src := !"src=" ++ _) in *. set (style := match size p with Some _ => _ | None => _ end) in *.
  assert (Ns : forall c, In c !"<>" -> ~ In c (src ++ !" " ++ style)).
  { intros c I X. unfold src, style in X. rewrite !in_app_iff in X. destruct X as [[X|[X|[X|[X|X]]]]|[X|X]]; try (apply (escaped_path_plain _ c I X)); try (cbn in I, X; intuition (subst; discriminate)).
    destruct (size p) as [[w h]|]; [|destruct X]. rewrite !in_app_iff in X.
    destruct X as [X|[X|[X|[X|[X|[X|[X|X]]]]]]]; try (cbn in I, X; intuition (subst; discriminate)); revert X; apply itoa_letters; cbn in I |- *; intuition. }
  assert (T : forall t, (forall c, In c !"<>" -> ~ In c t) -> fine (!"img alt=" ++ t ++ src ++ !" " ++ style) -> tidy (!"<img alt=" ++ t ++ src ++ !" " ++ style ++ !">")).
  { intros t Nt Ft. replace (!"<img alt=" ++ t ++ src ++ !" " ++ style ++ !">") with (!"<" ++ (!"img alt=" ++ t ++ src ++ !" " ++ style) ++ !">") by (rewrite <- !app_assoc; reflexivity).
    assert (N : forall c, In c !"<>" -> ~ In c (!"img alt=" ++ t ++ src ++ !" " ++ style)).
    { intros c I X. apply in_app_iff in X as [X|X]; [cbn in I, X; intuition (subst; discriminate)|]. apply in_app_iff in X as [X|X]; [apply (Nt c I X)|apply (Ns c I X)]. }
    apply tidy_tag; [apply N; cbn; auto|apply N; cbn; auto|exact Ft]. }
  destruct (as_figure p).
  - apply tidy_class; [no_angle|no_angle|]. apply tidy_app; [apply tidy_nl|].
    replace (!"<img alt=" ++ dq ++ !"image" ++ dq ++ !" " ++ src ++ !" " ++ style ++ !">" ++ nl ++ division !"caption" (nl ++ shown_caption p ++ nl) ++ nl)
      with ((!"<img alt=" ++ (dq ++ !"image" ++ dq ++ [] ++ !" ") ++ src ++ !" " ++ style ++ !">") ++ nl ++ division !"caption" (nl ++ shown_caption p ++ nl) ++ nl) by (rewrite <- !app_assoc; reflexivity).
    apply tidy_app; [apply T; [intros c I X; cbn in I, X; intuition (subst; discriminate)|exact Fi]|]. apply tidy_around. apply tidy_class; [no_angle|no_angle|]. apply tidy_around. apply tidy_text. apply words_no_angle; [|cbn; auto]. eapply caption_words; eauto.
  - replace (!"<img alt=" ++ dq ++ !"image" ++ dq ++ !" class=" ++ dq ++ !"inline" ++ dq ++ !" " ++ src ++ !" " ++ style ++ !">")
      with (!"<img alt=" ++ (dq ++ !"image" ++ dq ++ (!" class=" ++ dq ++ !"inline" ++ dq) ++ !" ") ++ src ++ !" " ++ style ++ !">") by (rewrite <- !app_assoc; reflexivity).
    apply T; [|exact Fi]. intros c I X. cbn in I, X. intuition (subst; discriminate).
Qed.

Lemma tidy_line : forall l open, Forall inline_ok l -> incl (line_formulas l) formulas -> incl (line_pictures l) images -> tidy (line_html cfg pictures open l).
Proof.
  induction l as [|i l IH]; intros open F IF II; [apply tidy_nil|]. inversion F as [|? ? O F']; subst.
  assert (IF' : incl (line_formulas l) formulas) by (intros x X; apply IF; unfold line_formulas; cbn [map concat]; apply in_app_iff; right; exact X).
  assert (II' : incl (line_pictures l) images) by (intros x X; apply II; unfold line_pictures; cbn [map concat]; apply in_app_iff; right; exact X).
  destruct i; cbn [line_html inline_ok] in *.
  - apply tidy_app; auto. apply tidy_text. apply words_no_angle; [apply O|cbn; auto].
  - apply tidy_app; auto. apply tidy_tags.
  - apply tidy_app; auto. apply tidy_text. apply words_no_angle; [apply O|cbn; auto].
  - destruct O as (_ & _ & U & _ & W & _).
    assert (NU : forall c, In c !"<>" -> ~ In c url). { intros c I X. rewrite Forall_forall in U. apply (U c X). cbn in I. destruct I as [<-|[<-|[]]]; vm_compute; auto 20. }
    replace (!"<a href=" ++ dq ++ url ++ dq ++ !">" ++ label ++ !"</a>" ++ line_html cfg pictures open l)
      with ((!"<" ++ (!"a href=" ++ dq ++ url ++ dq) ++ !">") ++ label ++ (!"<" ++ !"/a" ++ !">") ++ line_html cfg pictures open l)
      by (change !"<a href=" with (!"<" ++ !"a href="); change !"</a>" with (!"<" ++ !"/a" ++ !">"); rewrite <- !app_assoc; reflexivity).
    assert (T : forall c, In c !"<>" -> ~ In c (!"a href=" ++ dq ++ url ++ dq)).
    { intros c I X. repeat (apply in_app_or in X as [X|X]); [| |apply (NU c); auto|]; cbn in I; destruct I as [<-|[<-|[]]]; vm_compute in X; intuition discriminate. }
    apply tidy_app; [apply tidy_tag; [apply T; cbn; auto|apply T; cbn; auto|]|].
    { apply fine_other; [intros x E; vm_compute in E; discriminate|left; vm_compute; discriminate]. }
    apply tidy_app; [apply tidy_text, words_no_angle; auto; cbn; auto|].
    apply tidy_app; auto. apply tidy_tag; try no_angle; other.
  - apply tidy_app; auto. apply tidy_formula. apply IF. left. reflexivity.
  - apply tidy_app; auto. apply tidy_picture; auto. apply II. left. reflexivity.
  - apply tidy_app; [apply tidy_text; no_angle|]. apply tidy_app; [apply tidy_text; apply itoa_letters; cbn; auto 20|]. apply tidy_app; [apply tidy_text; no_angle|]. auto.
Qed.

Lemma tidy_element : forall name content, ~ In "<"%char name -> ~ In ">"%char name -> name <> !"h1" \/ lenient -> (forall x, name <> !"/" ++ x) -> (forall x, name <> !"img " ++ x) ->
  tidy content -> tidy (element name content).
Proof.
  intros name content N1 N2 N3 N4 N5 C. unfold element. replace (!"<" ++ name ++ !">" ++ content ++ !"</" ++ name ++ !">") with ((!"<" ++ name ++ !">") ++ content ++ (!"<" ++ (!"/" ++ name) ++ !">"))
    by (change !"</" with (!"<" ++ !"/"); rewrite <- !app_assoc; reflexivity).
  apply tidy_app; [apply tidy_tag; auto|].
  - apply fine_other; auto. left. intros ->. apply (N4 !"h1"). reflexivity.
  - apply tidy_app; auto. apply tidy_tag.
    + intros X. apply in_app_or in X as [X|X]; auto. vm_compute in X. intuition discriminate.
    + intros X. apply in_app_or in X as [X|X]; auto. vm_compute in X. intuition discriminate.
    + apply fine_other; [intros x E; discriminate E|]. destruct N3 as [N3|N3]; [left|right; exact N3]. intros E. apply N3. change !"/h1" with (!"/" ++ !"h1") in E. apply app_inv_head in E. exact E.
Qed.

Lemma tidy_join : forall sep l, tidy sep -> Forall tidy l -> tidy (join sep l).
Proof.
  intros sep l S F. induction F as [|x l H F IH]; [apply tidy_nil|]. destruct l as [|y l]; [exact H|]. cbn [join]. apply tidy_app; auto. apply tidy_app; auto.
Qed.

Ltac a_tag := first [apply tidy_element; [no_angle|no_angle|left; vm_compute; discriminate|let x := fresh in let E := fresh in intros x E; vm_compute in E; discriminate|let x := fresh in let E := fresh in intros x E; vm_compute in E; discriminate|]|apply tidy_class; [no_angle|no_angle|]].

Lemma tidy_list_element : forall items content, tidy content -> tidy (list_element items content).
Proof. intros [|[[] x y] items] content H; cbn [list_element]; a_tag; auto. Qed.
Lemma tidy_item_element : forall m content, tidy content -> tidy (item_element m content).
Proof. intros [] content H; cbn [item_element]; a_tag; auto. Qed.

Lemma incl_parts : forall A B (g : A -> list B) l L x, incl (concat (map g l)) L -> In x l -> incl (g x) L.
Proof. intros A B g l L x H I y Y. apply H. apply in_concat. exists (g x). split; [apply in_map; exact I|exact Y]. Qed.
Lemma incl_left : forall A (a b L : list A), incl (a ++ b) L -> incl a L.
Proof. intros A a b L H y Y. apply H, in_app_iff. left; exact Y. Qed.
Lemma incl_right : forall A (a b L : list A), incl (a ++ b) L -> incl b L.
Proof. intros A a b L H y Y. apply H, in_app_iff. right; exact Y. Qed.

Lemma tidy_item : forall i, item_ok i -> incl (item_formulas i) formulas -> incl (item_pictures i) images -> tidy (item_html cfg pictures i).
Proof.
  fix IH 2. intros i [m text below L _ B _] IF II. cbn [item_html item_formulas item_pictures] in *. apply tidy_item_element. apply tidy_around. apply tidy_join; [apply tidy_nl|].
  constructor; [apply tidy_app; [apply tidy_text; no_angle|apply tidy_line; [apply L|eapply incl_left; eauto|eapply incl_left; eauto]]|].
  apply incl_right in IF. apply incl_right in II. clear L. revert below B IF II. fix IHb 2. intros below [|l ls H B] IF II; cbn [map concat] in *; constructor; [|apply IHb; [exact B|eapply incl_right; eauto|eapply incl_right; eauto]].
  apply tidy_list_element. apply tidy_around. apply tidy_join; [apply tidy_nl|]. apply incl_left in IF. apply incl_left in II.
  destruct H as [i0 items F _]. revert F IF II. generalize (i0 :: items). fix IHf 2. intros items' [|j js J F] IF II; cbn [map concat] in *;
  constructor; [apply IH; [exact J|eapply incl_left; eauto|eapply incl_left; eauto]|apply IHf; [exact F|eapply incl_right; eauto|eapply incl_right; eauto]].
Qed.

Lemma join_letters : forall l x (c : ascii), In x l -> In c x -> In c (join !" " l).
Proof.
  induction l as [|y l IH]; intros x c I J; [destruct I|]. destruct l as [|z l]; cbn [join]; [destruct I as [->|[]]; auto|]. rewrite !in_app_iff. destruct I as [->|I]; [auto|]. right. right. eapply IH; eauto.
Qed.
Lemma source_letters : forall l a c, words (attributes_source l) -> In a l -> In c (TableSpec.attribute_source a) -> letter c.
Proof. intros l a c W I J. destruct W as [W _]. rewrite Forall_forall in W. apply W. eapply join_letters; [apply in_map; exact I|exact J]. Qed.
Lemma kept_letters : forall l c, words (attributes_source l) -> In c (attributes_html l) -> In c !"<>" -> False.
Proof.
  intros l c W I A. assert (Nl : letter c -> False) by (intros N; apply N; cbn in A |- *; intuition). assert (L : forall s, In c s -> (forall d, In d s -> d <> "<"%char /\ d <> ">"%char) -> False).
  { intros s J H. destruct (H c J). cbn in A. intuition. }
  unfold attributes_html in I. apply in_concat in I as (x & I & J). apply in_map_iff in I as (s & <- & I). apply in_app_iff in J as [J|J]; [apply (L _ J); intros d [<-|[]]; split; discriminate|]. apply in_app_iff in I as [I|I].
  - unfold TableSpec.kept_spans in I. apply in_flat_map in I as (a & I & K). destruct a as [columns quoted n|b a e|o]; [|destruct K..]. destruct K as [<-|[]]. apply Nl. eapply source_letters; eauto.
  - assert (X : exists b a e, In (TableSpec.Aligned b a e) l /\ s = !"style=" ++ dq ++ !"text-align:" ++ a ++ !";" ++ dq).
    { clear - I. induction l as [|[columns quoted n|b a e|o] l IH]; cbn [TableSpec.kept_alignment] in I; [destruct I|..]; try (destruct (IH I) as (b' & a' & e' & H & E); exists b', a', e'; split; [right; auto|auto]). destruct I as [<-|[]]. exists b, a, e. split; [left|]; auto. }
    destruct X as (b & a & e & K & ->). assert (Ha : In c a -> False) by (intros Ha; apply Nl; eapply source_letters; [exact W|exact K|]; cbn [TableSpec.attribute_source]; rewrite !in_app_iff; auto).
    rewrite !in_app_iff in J. destruct J as [J|[J|[J|[J|[J|J]]]]]; auto; apply (L _ J); intros d D; cbn in D; intuition (subst; discriminate).
Qed.

Lemma tidy_cell : forall h c, kind_ok h (fst c) -> (snd c = [] \/ grid_text_ok (snd c)) -> incl (line_formulas (snd c)) formulas -> incl (line_pictures (snd c)) images -> tidy (cell_html cfg pictures c).
Proof.
  intros h [[k a] x] (_ & _ & W & _) H IF II. cbn [fst snd cell_attributes] in *. unfold cell_html. cbn [fst snd is_heading]. assert (T : tidy (nl ++ line_html cfg pictures [] x ++ nl)) by (apply tidy_around; destruct H as [->|[H _]]; [apply tidy_nil|apply tidy_line; auto; apply H]).
  assert (Cell : forall name, name = !"th" \/ name = !"td" -> tidy (cell_element cfg pictures name (mkKind k a, x))).
  { intros name Nm. unfold cell_element. cbn [fst snd cell_attributes].
    replace (!"<" ++ name ++ attributes_html a ++ !">" ++ nl ++ line_html cfg pictures [] x ++ nl ++ !"</" ++ name ++ !">") with ((!"<" ++ (name ++ attributes_html a) ++ !">") ++ (nl ++ line_html cfg pictures [] x ++ nl) ++ (!"<" ++ (!"/" ++ name) ++ !">"))
      by (change !"</" with (!"<" ++ !"/"); rewrite <- !app_assoc; reflexivity).
    assert (Ta : forall c, In c !"<>" -> ~ In c (name ++ attributes_html a)) by (intros c I X; apply in_app_or in X as [X|X]; [destruct Nm; subst; cbn in I, X; intuition (subst; discriminate)|eapply kept_letters; eauto]).
    apply tidy_app; [apply tidy_tag; [apply Ta; cbn; auto|apply Ta; cbn; auto|]|].
    { destruct Nm; subst; apply fine_other; [intros y E; cbn in E; discriminate|left; discriminate|intros y E; cbn in E; discriminate|left; discriminate]. }
    apply tidy_app; auto. destruct Nm; subst; (apply tidy_tag; try no_angle; other). }
  destruct k; [apply tidy_app; [|apply tidy_nl]|]; apply Cell; auto.
Qed.

Lemma Forall_use : forall A (P Q : A -> Prop) l, Forall P l -> (forall x, In x l -> P x -> Q x) -> Forall Q l.
Proof. intros A P Q l F H. rewrite Forall_forall in *. auto. Qed.

Lemma tidy_block : forall b, block_ok b -> section_level b <> Some 1 \/ lenient -> incl (block_formulas b) formulas -> incl (block_pictures b) images -> tidy (block_html cfg pictures b).
Proof.
  assert (Hd : forall level title, 1 <= level <= 6 -> level <> 1 \/ lenient -> tidy (line_html cfg pictures [] title) -> tidy (element (!"h" ++ itoa level) (line_html cfg pictures [] title))).
  { intros level title L N T. assert (E : level = 1 \/ level = 2 \/ level = 3 \/ level = 4 \/ level = 5 \/ level = 6) by lia.
    destruct E as [->|[->|[->|[->|[->| ->]]]]]; try (a_tag; exact T).
    destruct N as [N|N]; [contradiction|]. apply tidy_element; auto; [no_angle|no_angle|intros x E; vm_compute in E; discriminate|intros x E; vm_compute in E; discriminate]. }
  intros b O N IF II. destruct b as [level title|lines|items|a caption rows|p|fn ft fa fx]; cbn [block_ok block_html block_formulas block_pictures] in *.
  - destruct O as (L & O & _). apply Hd; auto; [destruct N as [N|N]; [left; intros ->; apply N; reflexivity|auto]|]. apply tidy_line; auto. apply O.
  - destruct O as (_ & O). apply tidy_join; [apply tidy_nl|]. apply Forall_map. eapply Forall_use; [exact O|]. intros l Il (L & _). apply tidy_line; [apply L|eapply (incl_parts _ _ line_formulas); eauto|eapply incl_parts; eauto].
  - destruct O as [i items F _]. unfold list_html. apply tidy_list_element. apply tidy_around. apply tidy_join; [apply tidy_nl|]. apply Forall_map. eapply Forall_use; [exact F|]. intros j Ij J. apply tidy_item; auto; [eapply (incl_parts _ _ item_formulas); eauto|eapply (incl_parts _ _ item_pictures); eauto].
  - destruct O as (_ & C & F). a_tag. apply tidy_app; [apply tidy_nl|]. apply tidy_app; [|apply tidy_app; [apply tidy_nl|apply tidy_app; [|apply tidy_nl]]].
    + a_tag. apply tidy_around. apply tidy_join; [apply tidy_nl|]. apply Forall_map. eapply Forall_use; [exact F|]. cbn beta. intros row Ir R. unfold row_html. a_tag. apply tidy_around. apply tidy_join; [apply tidy_nl|].
      pose proof (incl_parts _ _ (fun row => cells_formulas (concat row)) _ _ _ (incl_right _ _ _ _ IF) Ir) as IFr. pose proof (incl_parts _ _ (fun row => cells_pictures (concat row)) _ _ _ (incl_right _ _ _ _ II) Ir) as IIr. cbv beta in IFr, IIr.
      apply Forall_map. assert (G : forall h c, In c (concat row) -> kind_ok h (fst c) -> (snd c = [] \/ grid_text_ok (snd c)) -> tidy (cell_html cfg pictures c)).
      { intros h c Ic Kc G. apply (tidy_cell h); auto; [apply (incl_parts _ _ (fun c => line_formulas (snd c)) _ _ _ IFr Ic)|apply (incl_parts _ _ (fun c => line_pictures (snd c)) _ _ _ IIr Ic)]. }
      clear - R G. rewrite Forall_forall in *. intros c Ic. assert (Ic' := Ic). apply in_concat in Ic as (cells & I1 & I2). destruct (R cells I1) as (h & [(k & -> & Kk)|[_ K]]); [destruct I2 as [<-|[]]; apply (G h); auto|].
      rewrite Forall_forall in K. destruct (K c I2) as [Kc X]. apply (G h); auto.
    + a_tag. apply tidy_around. destruct caption as [c|]; [|apply tidy_nil]. apply tidy_line; [apply (C c eq_refl)|eapply incl_left; eauto|eapply incl_left; eauto].
  - apply tidy_picture; auto. apply II. left. reflexivity.
  - destruct O as ((L & O & _) & _ & Tx). apply tidy_join; [apply tidy_nl|]. constructor.
    + apply Hd; auto; [destruct N as [N|N]; [left; intros ->; apply N; reflexivity|auto]|]. apply tidy_line; [apply O|eapply incl_left; eauto|eapply incl_left; eauto].
    + apply Forall_map. eapply Forall_use; [exact Tx|]. intros q Q [(_ & T & _) _]. apply tidy_app; [apply tidy_text; no_angle|]. apply tidy_app; [apply tidy_text; apply itoa_letters; cbn; auto 20|]. apply tidy_app; [apply tidy_text; no_angle|].
      apply tidy_app; [|apply (tidy_tag !"br"); try no_angle; other]. apply tidy_line.
      * eapply Forall_impl; [|exact T]. intros i A. apply simple_inline. exact A.
      * apply (incl_parts _ _ (fun p : nat * list inline => line_formulas (snd p)) _ _ _ (incl_right _ _ _ _ IF) Q).
      * apply (incl_parts _ _ (fun p : nat * list inline => line_pictures (snd p)) _ _ _ (incl_right _ _ _ _ II) Q).
Qed.

Lemma tidy_document : forall doc, Forall block_ok doc -> no_top_heading doc \/ lenient -> incl (document_formulas doc) formulas -> incl (document_pictures doc) images -> tidy (document_html cfg pictures doc).
Proof.
  intros doc F N IF II. unfold document_html. apply tidy_join; [apply tidy_nl|]. induction F as [|b doc B F IH]; cbn [html_lines]; [constructor|]. unfold document_formulas, document_pictures in *. cbn [map concat] in *. constructor.
  - apply tidy_block; auto; [|eapply incl_left; eauto|eapply incl_left; eauto]. destruct N as [N|N]; [left|right; exact N]. apply Forall_inv in N. exact N.
  - apply Forall_app. split.
    + destruct b; try constructor. destruct doc as [|[] doc]; constructor; auto. apply tidy_app with (a := !"<br>") (b := !"<br>"); apply (tidy_tag !"br"); try no_angle; other.
    + apply IH; [|eapply incl_right; eauto|eapply incl_right; eauto]. destruct N as [N|N]; [left|right; exact N]. apply Forall_inv_tail in N. exact N.
Qed.

Lemma tidy_footer : tidy FOOTER.
Proof.
  exists [nl; !"<" ++ !"/body" ++ !">"; nl; !"<" ++ !"/html" ++ !">"; nl]. split; [|vm_compute; reflexivity].
  repeat apply Forall_cons; try apply Forall_nil; try (left; no_angle); right; eexists; (split; [reflexivity|]); (split; [no_angle|]); (split; [no_angle|other]).
Qed.
End Pictures.
End Fine.

Lemma document_chapter : forall cfg pictures style title doc, (forall formula, In formula (document_formulas doc) -> plain_picture pictures formula) ->
  ~ occurs !"<h1>" style -> Forall (@block_ok cfg) doc -> no_top_heading doc ->
  exists ch, document_page cfg pictures style title doc = chapter_text ch /\ only_heading ch /\ ch_title ch = title.
Proof.
  intros cfg pictures style title doc PL S F N. exists (mkChapter (HEADER style ++ nl) title (nl ++ document_html cfg pictures doc ++ FOOTER)). split; [|split; [|reflexivity]].
  - unfold document_page, chapter_text. cbn [ch_before ch_title ch_behind]. rewrite <- !app_assoc. reflexivity.
  - split; cbn [ch_before ch_behind]; [apply header_no_heading; exact S|]. set (fine := fun t : str => t <> !"/h1").
    assert (FO : forall t, (forall x, t <> !"img " ++ x) -> t <> !"/h1" \/ False -> fine t) by (intros t _ [H|[]]; exact H).
    intros X. apply (tidy_fine fine _ !"/h1") in X; [apply X; reflexivity| |no_angle|no_angle].
    apply tidy_app; [apply tidy_nl|]. apply tidy_app; [|eapply tidy_footer; exact FO].
    eapply (tidy_document fine False FO pictures (document_formulas doc) (document_pictures doc)); auto using incl_refl.
    + intros formula _. unfold fine, formula_tag. destruct (pictures formula) as [[[file width] height] st]. discriminate.
    + intros p _ _. unfold fine, picture_tag. discriminate.
Qed.
