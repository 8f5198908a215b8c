(** * Proofs: the generated HTML shows all elements *)

From Coq Require Import Ascii String.
From Coq Require Import List Arith NArith ZArith Bool Lia.
From Verif Require Import GoStr GoStrFacts TextFacts UtilModel ConfigModel TokenModel TokenSpec TokenProofs PassSpec FormattingModel ExpandModel ExpandSpec ExpandProofs
  HtmlModel HtmlSpec HtmlProofs HtmlTokenProofs ImageSpec ImageFileProofs ShowSpec.
Import ListNotations.
Local Open Scope list_scope.

(** ** Paths *)

Lemma escape_clean : forall c x, In x (escape_char c) -> ~ In x (!"<>& /" ++ dq ++ nl).
Proof. intros [[] [] [] [] [] [] [] []] x; vm_compute; intuition (subst; discriminate). Qed.

Lemma join_in : forall sep l (x : ascii), In x (join sep l) -> In x sep \/ exists p, In p l /\ In x p.
Proof.
  intros sep l x. induction l as [|a [|b l] IH]; intros H; [destruct H|right; exists a; split; auto; left; auto|].
  change (join sep (a :: b :: l)) with (a ++ sep ++ join sep (b :: l)) in H. apply in_app_or in H as [H|H]; [right; exists a; split; auto; left; auto|].
  apply in_app_or in H as [H|H]; auto. destruct (IH H) as [I|(p & I & J)]; auto. right. exists p. split; auto. right. auto.
Qed.

Lemma decode_parts : forall l, Forall (fun p => ~ In " "%char p) l -> percent_decode (join !"/" (map query_escape l)) = join !"/" l.
Proof.
  intros l F. induction F as [|a [|b l] A F IH]; auto.
  - cbn [map join]. rewrite <- (app_nil_r (query_escape a)). rewrite decode_escape by auto. cbn [percent_decode]. apply app_nil_r.
  - change (join !"/" (map query_escape (a :: b :: l))) with (query_escape a ++ !"/" ++ join !"/" (map query_escape (b :: l))).
    change (join !"/" (a :: b :: l)) with (a ++ !"/" ++ join !"/" (b :: l)). rewrite decode_escape by auto. rewrite <- IH. reflexivity.
Qed.

Lemma path_refers : forall path, refers (!"./" ++ escapePathComponents path) path.
Proof.
  intros path. exists (escapePathComponents path). split; auto. unfold escapePathComponents. split.
  - intros N. rewrite decode_parts; [apply join_split; discriminate|]. apply Forall_forall. intros p I B. apply N. rewrite <- (join_split !"/" path) by discriminate.
    clear N. induction (split !"/" path) as [|a [|b l] IH]; [destruct I|destruct I as [->|[]]; auto|].
    change (join !"/" (a :: b :: l)) with (a ++ !"/" ++ join !"/" (b :: l)). apply in_or_app. destruct I as [->|I]; auto. right. apply in_or_app. right. auto.
  - intros c C I. apply join_in in I as [I|(p & J & I)].
    + cbn in C, I. destruct I as [<-|[]]. intuition discriminate.
    + apply in_map_iff in J as (q & <- & J). apply in_flat_map in I as (d & D & I). apply escape_clean in I. apply I. cbn in C |- *. tauto.
Qed.

Lemma image_path_shown : forall cfg file, path_of_image cfg file (filenameToImagePath cfg file).
Proof.
  intros cfg file wiki S N. exists [!"images"; stored_name wiki file]. split; [apply image_file_stored|]. rewrite (html_path cfg wiki) by auto. reflexivity.
Qed.

(** ** Templates *)

Ltac flat := repeat rewrite <- app_assoc; reflexivity.

Lemma pixels_eq : forall z, z <> (-1)%Z -> pixels z = itoaZ z ++ !"px".
Proof.
  intros z N. unfold pixels, itoaZ. apply Z.eqb_neq in N. rewrite N. destruct (z <? 0)%Z eqn:E.
  - rewrite <- app_assoc. replace (Z.abs_nat z) with (Z.to_nat (- z)); auto. apply Z.ltb_lt in E. lia.
  - replace (Z.abs_nat z) with (Z.to_nat z); auto. apply Z.ltb_ge in E. lia.
Qed.

Lemma size_shown : forall x y, size_style x y = !" " ++ expandSizeTemplate x y.
Proof.
  intros x y. unfold size_style, expandSizeTemplate. destruct (x =? -1)%Z eqn:X, (y =? -1)%Z eqn:Y; cbn [negb orb andb]; auto.
  - apply Z.eqb_eq in X. apply Z.eqb_neq in Y. subst x. rewrite (pixels_eq y) by auto. change (pixels (-1)) with !"auto". unfold attribute, quoted. cbn [join]. flat.
  - apply Z.eqb_neq in X. apply Z.eqb_eq in Y. subst y. rewrite (pixels_eq x) by auto. change (pixels (-1)) with !"auto". unfold attribute, quoted. cbn [join]. flat.
  - apply Z.eqb_neq in X, Y. rewrite (pixels_eq x), (pixels_eq y) by auto. unfold attribute, quoted. cbn [join]. flat.
Qed.

Lemma item_template_shown : forall type s, item_shown type s (item_template type s).
Proof.
  intros type s. destruct type; cbn [item_template].
  - destruct (has_prefix !"<li" (trim_space s)) eqn:E.
    + apply has_prefix_spec in E. destruct (contains !"</li" s) eqn:C; cbn [negb].
      * rewrite app_nil_r. apply closed_item; auto.
      * apply open_item; auto.
    + replace (TEMPLATE_LI s) with (element !"li" [] (own_lines s)); [|unfold TEMPLATE_LI, element, own_lines; flat].
      apply normal_item. intros B. apply has_prefix_spec in B. congruence.
  - replace (TEMPLATE_DD s) with (element !"div" (class !"dd") (own_lines s)); [constructor|unfold TEMPLATE_DD, element, own_lines, class, attribute, quoted; flat].
  - replace (TEMPLATE_DT s) with (element !"div" (class !"dt") (own_lines s)); [constructor|unfold TEMPLATE_DT, element, own_lines, class, attribute, quoted; flat].
Qed.

Lemma list_template_shown : forall kind s, kind_template kind s = list_shown kind s.
Proof. intros [] s; unfold kind_template, list_shown, TEMPLATE_UL, TEMPLATE_OL, TEMPLATE_DL, element, own_lines, class, attribute, quoted; flat. Qed.

Lemma figure_image : forall file x y h, IMAGE_TEMPLATE file (expandSizeTemplate x y) h =
  figure_shown (void_element !"img" (attribute !"alt" !"image" ++ attribute !"src" (!"./" ++ file) ++ size_style x y) ++ nl ++ caption_shown h).
Proof. intros. rewrite size_shown. unfold IMAGE_TEMPLATE, figure_shown, caption_shown, void_element, element, own_lines, class, attribute, quoted. flat. Qed.

Lemma inline_image : forall file x y, IMAGE_INLINE_TEMPLATE file (expandSizeTemplate x y) =
  void_element !"img" (attribute !"alt" !"image" ++ class !"inline" ++ attribute !"src" (!"./" ++ file) ++ size_style x y).
Proof. intros. rewrite size_shown. unfold IMAGE_INLINE_TEMPLATE, void_element, class, attribute, quoted. flat. Qed.

Lemma figure_table : forall rows h, TABLE_TEMPLATE rows (TABLE_TEMPLATE_CAPTION h) = figure_shown (element !"table" [] (own_lines rows) ++ nl ++ caption_shown h).
Proof. intros. unfold TABLE_TEMPLATE, TABLE_TEMPLATE_CAPTION, figure_shown, caption_shown, element, own_lines, class, attribute, quoted. flat. Qed.

(** ** Tokens *)

Section Shown.
Variable cfg : configuration.
Variable renderMath : str -> res (str * str * str * str).
Variable m : list (str * Token).

Definition math_rendered (formula : str) (r : str * str * str * str) : Prop := renderMath formula = Ok r.

Notation text_ok := (text_shown cfg math_rendered m).

Section Expand.
Variable expand : str -> X unit str.

(** The texts are shown *)
Definition fine (s : str) : Prop := forall h u, expand s tt = Ok (h, u) -> text_ok s h.

Lemma lists_shown :
  (forall l, Forall fine (list_texts l) -> forall h u, expandList expand l tt = Ok (h, u) -> list_token_shown cfg math_rendered m l h) /\
  (forall i, Forall fine (item_texts i) -> forall h u, expandListItem expand i tt = Ok (h, u) -> item_token_shown cfg math_rendered m i h).
Proof.
  apply list_token_ind.
  - intros kind items IH F h u E. rewrite expandList_eq in E. apply bindX_ok in E as (hs & [] & E1 & E2). apply retX_ok in E2 as [-> _].
    rewrite list_template_shown. constructor. apply mapX_ok in E1. cbn [list_texts] in F. clear u kind. induction E1 as [|i x items hs E1 _ IH2]; constructor.
    + apply (Forall_inv IH) with (u := tt); auto. apply Forall_forall. intros s I. rewrite Forall_forall in F. apply F. cbn [flat_map]. apply in_or_app. auto.
    + apply IH2; [exact (Forall_inv_tail IH)|]. apply Forall_forall. intros s I. rewrite Forall_forall in F. apply F. cbn [flat_map]. apply in_or_app. auto.
  - intros type content subLists IH F h u E. rewrite expandListItem_eq in E. cbn [item_texts] in F. apply bindX_ok in E as (x & [] & E1 & E2).
    apply bindX_ok in E2 as (hs & [] & E2 & E3). apply retX_ok in E3 as [-> _]. pose proof (Forall_inv F _ _ E1) as Sx. apply Forall_inv_tail in F.
    apply (show_item _ _ _ _ _ _ x hs); [exact Sx| |apply item_template_shown]. apply mapX_ok in E2. clear u type content E1 Sx. induction E2 as [|l y ls ys E1 _ IH2]; constructor.
    + apply (Forall_inv IH) with (u := tt); auto. apply Forall_forall. intros s I. rewrite Forall_forall in F. apply F. cbn [flat_map]. apply in_or_app. auto.
    + apply IH2; [exact (Forall_inv_tail IH)|]. apply Forall_forall. intros s I. rewrite Forall_forall in F. apply F. cbn [flat_map]. apply in_or_app. auto.
Qed.

Lemma cell_ok : forall cell h u, fine (ColContent cell) -> expandTableColumn expand cell tt = Ok (h, u) -> exists x, text_ok (ColContent cell) x /\ h = cell_shown cell x.
Proof.
  intros cell h u F E. unfold expandTableColumn in E. apply bindX_ok in E as (x & [] & E1 & E2). apply retX_ok in E2 as [-> _]. exists x. split; [eapply F; eauto|].
  unfold cell_shown, attribute_list. set (a := join !" " (Attributes cell)). destruct (IsHeading cell), a as [|c a']; cbn [str_eqb negb]; 
    unfold TABLE_TEMPLATE_HEAD, TABLE_TEMPLATE_COL, element, own_lines; flat.
Qed.

Lemma row_ok : forall row h u, Forall fine (map ColContent row) -> expandTableRow expand row tt = Ok (h, u) ->
  exists xs, Forall2 (fun cell => text_ok (ColContent cell)) row xs /\ h = row_shown (map (fun q => cell_shown (fst q) (snd q)) (combine row xs)).
Proof.
  intros row h u F E. unfold expandTableRow in E. apply bindX_ok in E as (hs & [] & E1 & E2). apply retX_ok in E2 as [-> _]. apply mapX_ok in E1. clear u.
  assert (H : exists xs, Forall2 (fun cell => text_ok (ColContent cell)) row xs /\ hs = map (fun q => cell_shown (fst q) (snd q)) (combine row xs)).
  { induction E1 as [|c y row ys E1 _ IH]; [exists []; split; auto|]. destruct (cell_ok c y tt (Forall_inv F) E1) as (x & T & ->).
    destruct (IH (Forall_inv_tail F)) as (xs & T2 & ->). exists (x :: xs). split; auto. }
  destruct H as (xs & T & ->). exists xs. split; auto. unfold TABLE_TEMPLATE_ROW, row_shown, element, own_lines. flat.
Qed.

Lemma rows_ok : forall rows hs, Forall fine (flat_map (map ColContent) rows) -> Forall2 (fun row h => expandTableRow expand row tt = Ok (h, tt)) rows hs ->
  exists xss, Forall2 (Forall2 (fun cell => text_ok (ColContent cell))) rows xss /\
    hs = map (fun p => row_shown (map (fun q => cell_shown (fst q) (snd q)) (combine (fst p) (snd p)))) (combine rows xss).
Proof.
  intros rows hs F E. induction E as [|row y rows ys E1 _ IH]; [exists []; split; auto|]. cbn [flat_map] in F. apply Forall_app in F as [F1 F2].
  destruct (row_ok row y tt F1 E1) as (x & T & ->). destruct (IH F2) as (xs & T2 & ->). exists (x :: xs). split; auto.
Qed.

Lemma token_ok : forall v h u, (forall s, v <> StringToken s) -> Forall fine (texts v) -> htmlToken cfg renderMath expand v tt = Ok (h, u) -> token_shown cfg math_rendered m v h.
Proof.
  intros v h u N F E. destruct v; cbn [texts] in F; cbn [htmlToken] in E; try (exfalso; eapply N; reflexivity).
  - unfold expandHeadings in E. apply bindX_ok in E as (x & [] & E1 & E2). apply retX_ok in E2 as [-> _]. pose proof (Forall_inv F _ _ E1) as Sx.
    match goal with |- _ (TEMPLATE_HEADING ?d x) => replace (TEMPLATE_HEADING d x) with (element (!"h" ++ itoa d) [] x) by (unfold TEMPLATE_HEADING, element; flat) end.
    constructor. exact Sx.
  - unfold expandInternalLink in E. constructor. exact (Forall_inv F _ _ E).
  - unfold expandExternalLink in E. apply bindX_ok in E as (x & [] & E1 & E2). apply retX_ok in E2 as [-> _]. pose proof (Forall_inv F _ _ E1) as Sx.
    match goal with |- _ (HREF_TEMPLATE ?d x) => replace (HREF_TEMPLATE d x) with (element !"a" (attribute !"href" d) x) by (unfold HREF_TEMPLATE, element, attribute, quoted; flat) end.
    constructor. exact Sx.
  - unfold expandImage in E. apply bindX_ok in E as (x & [] & E1 & E2). apply retX_ok in E2 as [-> _]. rewrite figure_image.
    eapply show_image; [apply image_path_shown|apply path_refers|exact (Forall_inv F _ _ E1)].
  - unfold expandInlineImage in E. apply retX_ok in E as [-> _]. rewrite inline_image. eapply show_inline_image; [apply image_path_shown|apply path_refers].
  - unfold expandRefDefinition in E. apply bindX_ok in E as (x & [] & E1 & E2). apply retX_ok in E2 as [-> _]. exact (show_footnote _ _ _ _ _ _ (Forall_inv F _ _ E1)).
  - unfold expandRefUsage in E. apply retX_ok in E as [-> _]. constructor.
  - unfold expandMath in E. apply bindX_ok in E as ([[[p w] ht] st] & [] & E1 & E2). apply retX_ok in E2 as [-> _].
    assert (E : renderMath Content = Ok (p, w, ht, st)). { unfold failX in E1. destruct (renderMath Content); cbn in E1; try discriminate. injection E1 as ->. auto. }
    replace (MATH_TEMPLATE (escapePathComponents p) w ht st) with (void_element !"img" (attribute !"alt" !"image" ++ attribute !"src" (!"./" ++ escapePathComponents p) ++
      attribute !"style" (!"width: " ++ w ++ !"; height: " ++ ht ++ !"; " ++ st))) by (unfold MATH_TEMPLATE, void_element, attribute, quoted; flat).
    eapply show_formula; [exact E|apply path_refers].
  - apply retX_ok in E as [-> _]. constructor.
  - constructor. eapply lists_shown; eauto.
  - unfold expandTable in E. apply bindX_ok in E as (hs & [] & E1 & E2). apply bindX_ok in E2 as (c & [] & E2 & E3). apply retX_ok in E3 as [-> _].
    unfold expandTableCaption in E2. apply bindX_ok in E2 as (x & [] & E2 & E3). apply retX_ok in E3 as [-> _]. rewrite figure_table.
    apply mapX_ok in E1. destruct (rows_ok _ _ (Forall_inv_tail F) E1) as (xss & T & ->). constructor; auto. exact (Forall_inv F _ _ E2).
Qed.
End Expand.

(** ** Texts *)

Lemma all_shown : (forall k s, ~ In (k, StringToken s) m) -> (forall k v, In (k, v) m -> Forall laid_out (texts v)) ->
  forall fuel s html, laid_out s -> htmlExpand cfg renderMath m fuel s = Ok html -> text_ok s html.
Proof.
  intros N L fuel. induction fuel as [|fuel IH]; intros s html (d & O & ->) H; [discriminate|]. apply expandString_html in H as (hs & G & ->); auto.
  constructor; auto. clear O. revert hs G. generalize (map fst (snd d)). intros ks hs G. induction G as [|k h ks hs K G IHG]; constructor; auto.
  inversion K as [? ? I|? v ? I Lk E]; subst; [apply show_marker; auto|]. eapply show_key; eauto. apply lookup_In in Lk.
  unfold token_html, expandToken in E. cbn [handleToken HtmlGenerator] in E. eapply token_ok; [|eapply Forall_impl; [|eapply L; eauto]|exact E].
  - intros s' ->. eapply N; eauto.
  - intros s' Ls h' u' E'. apply IH; auto. eapply expandString_state. exact E'.
Qed.
End Shown.

Lemma page_shown : forall style title body, HEADER style ++ nl ++ !"<h1>" ++ title ++ !"</h1>" ++ nl ++ body ++ FOOTER = page style title body.
Proof. intros. unfold HEADER, FOOTER, page, element, void_element, own_lines, attribute. flat. Qed.
