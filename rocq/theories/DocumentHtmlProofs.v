(** * The HTML of a document *)

From Coq Require Import Ascii String.
From Coq Require Import List Arith Bool Lia.
From Verif Require Import GoStr GoStrFacts TextFacts TrimFacts ConfigModel TokenModel TokenSpec TokenProofs PassSpec SafeSpec ExpandModel ExpandSpec HtmlModel HtmlSpec HtmlProofs HtmlTokenProofs.
From Verif Require Import FormattingModel FormattingSpec HeadingModel ListModel TableModel TokenizerModel.
From Verif Require Import PropPasses DocumentSpec DocumentLineProofs DocumentPictureProofs DocumentRunProofs DocumentBlockProofs DocumentListProofs DocumentGridProofs DocumentPassProofs DocumentStartProofs DocumentImageProofs.
Import ListNotations.
Local Open Scope list_scope.

(** ** Texts with keys *)

Inductive reads (R : str -> str -> Prop) : str -> str -> Prop :=
| reads_nil : reads R [] []
| reads_char : forall c s h, c <> "$"%char -> c <> "_"%char -> reads R s h -> reads R (c :: s) (c :: h)
| reads_key : forall k x s h, (In k all_markers \/ is_key k) -> R k x -> reads R s h -> reads R (k ++ s) (x ++ h).

Lemma reads_app : forall R a x b y, reads R a x -> reads R b y -> reads R (a ++ b) (x ++ y).
Proof.
  intros R a x b y A B. induction A as [|c s h C D A IH|k z s h K Z A IH]; auto.
  - cbn [app]. constructor; auto.
  - rewrite <- !app_assoc. constructor; auto.
Qed.

Lemma reads_text : forall R s, ~ In "$"%char s -> ~ In "_"%char s -> reads R s s.
Proof.
  intros R s. induction s as [|c s IH]; intros A B; [constructor|]. constructor.
  - intros ->. apply A. left. auto.
  - intros ->. apply B. left. auto.
  - apply IH; intros I; [apply A|apply B]; right; auto.
Qed.

Lemma reads_join : forall R s, (~ In "$"%char s) -> ~ In "_"%char s -> forall ls hs, Forall2 (reads R) ls hs -> reads R (join s ls) (join s hs).
Proof.
  intros R s A B ls hs F. induction F as [|l h ls hs H F IH]; [constructor|]. destruct F as [|l1 h1 ls hs H1 F]; [exact H|]. rewrite !join_more.
  apply reads_app; auto. apply reads_app; auto. apply reads_text; auto.
Qed.

Lemma reads_layout : forall R s h, reads R s h -> exists d texts, layout_ok d /\ no_char "_" (fst d) /\ s = layout_text d /\ Forall2 R (map fst (snd d)) texts /\ h = filled d texts.
Proof.
  intros R s h H. induction H as [|c s h C D H (d & ts & O & N & -> & F & ->)|k x s h K X H (d & ts & O & N & -> & F & ->)].
  - exists ([], []), []. split; [split; [split; [intros []|left; intros []]|constructor]|]. split; [intros []|]. repeat split. constructor.
  - destruct d as [u l]. exists (c :: u, l), ts. cbn [fst snd] in *. destruct O as [[O1 O2] O3]. repeat split; auto.
    + intros [E|I]; [apply C; auto|apply O1; auto].
    + left. intros [E|I]; [apply D; auto|apply N; auto].
    + intros [E|I]; [apply D; auto|apply N; auto].
  - destruct d as [u l]. exists ([], (k, u) :: l), (x :: ts). cbn [fst snd map] in *. destruct O as [O1 O3]. repeat split; auto; try (intros []; fail).
    + left. intros [].
    + constructor; auto.
    + unfold layout_text. cbn [fst snd map concat app]. rewrite <- app_assoc. auto.
    + unfold filled. cbn [fst snd map concat app combine]. rewrite <- app_assoc. auto.
Qed.

Lemma state_is_key : forall t k v, unique t -> In (k, v) (tokenMap t) -> is_key k.
Proof. intros t k v [F _] I. rewrite Forall_forall in F. destruct (F k) as (ty & i & T & -> & _); [apply (in_map fst) in I; exact I|]. exists ty, i. auto. Qed.

Lemma same_keys : forall a b, map (fun k => [Words k]) a = map (fun k => [Words k]) b -> a = b.
Proof. induction a as [|k a IH]; intros [|k' b] E; try discriminate; auto. cbn [map] in E. injection E as -> E. f_equal. auto. Qed.

Section Html.
Context {cfg : configuration}.
Variable renderMath : str -> res (str * str * str * str).
Variable t : Tokenizer.
Hypothesis U : unique t.
Let m := tokenMap t.
Variable pictures : str -> str * str * str * str.
(** The pictures of formulas are there. *)
Definition rendered (formulas : list str) : Prop := forall f, In f formulas -> renderMath f = Ok (pictures f).

Lemma rendered_app : forall a b, rendered (a ++ b) -> rendered a /\ rendered b.
Proof. intros a b H. split; intros f I; apply H; apply in_app_iff; auto. Qed.

Lemma rendered_part : forall A (g : A -> list str) l x, In x l -> rendered (concat (map g l)) -> rendered (g x).
Proof. intros A g l x I H f J. apply H. apply in_concat. exists (g x). split; auto. apply in_map. auto. Qed.

Lemma rendered_cons : forall A (g : A -> list str) x l, rendered (concat (map g (x :: l))) -> rendered (g x) /\ rendered (concat (map g l)).
Proof. intros A g x l H. apply rendered_app. exact H. Qed.

Let html (fuel : nat) (token : Token) (h : str) : Prop := expandToken (HtmlGenerator cfg renderMath m) fuel token tt = Ok (h, tt).
Let text (fuel : nat) : str -> str -> Prop := reads (key_text m (html fuel)).

Lemma text_expand : forall fuel s h, text fuel s h -> expandString (HtmlGenerator cfg renderMath m) (S fuel) s tt = Ok (h, tt).
Proof.
  intros fuel s h H. apply reads_layout in H as (d & ts & O & _ & -> & F & ->). apply (expandString_state cfg renderMath m). apply expandString_html; auto. eauto.
Qed.

Lemma key_reads : forall fuel k v h, In (k, v) m -> html fuel v h -> text fuel k h.
Proof.
  intros fuel k v h I H. rewrite <- (app_nil_r k), <- (app_nil_r h). constructor; [right; eapply state_is_key; eauto| |constructor].
  eapply text_of_token; eauto; [eapply state_is_key; eauto|]. apply In_key; auto.
Qed.

Lemma marker_reads : forall fuel k, text fuel (marker_text k) (tag k).
Proof.
  intros fuel k. rewrite <- (app_nil_r (marker_text k)), <- (app_nil_r (tag k)). constructor; [left|apply text_of_marker|constructor]; destruct k as [[]|[]]; cbn; auto 10.
Qed.

Lemma words_read : forall fuel s, words s -> text fuel s s.
Proof. intros fuel s W. apply reads_text; apply letter_not; auto; cbn; auto 20. Qed.

Lemma opened_reads : forall fuel ms, text fuel (opened ms) (concat (map tag ms)).
Proof. induction ms as [|k ms IH]; [constructor|]. rewrite opened_cons. cbn [map concat]. apply reads_app; auto. apply marker_reads. Qed.

Lemma phrases_read : forall fuel c c', Forall phrase_ok c -> Forall2 (phrase_linked t) c c' -> text (S fuel) (concat (map phrase_html c')) (concat (map phrase_html c)).
Proof.
  intros fuel c c' F L. induction L as [|x x' c c' X L IH]; [constructor|]. inversion F as [|? ? A F']; subst. cbn [map concat]. apply reads_app; [|apply IH; auto].
  destruct x as [s|a label]; cbn [phrase_linked phrase_ok] in *.
  - subst x'. apply words_read. exact A.
  - destruct X as (key & b & -> & _ & I). cbn [phrase_html]. eapply key_reads; [exact I|]. apply (text_expand fuel). apply words_read. apply A.
Qed.

Lemma captioned_frame : forall p p', captioned t p p' -> as_figure p' = as_figure p /\ file_name p' = file_name p /\ picture_size p' = picture_size p.
Proof.
  intros p p' C. unfold captioned in C. destruct (caption_text p) as [c|] eqn:E; [|subst; auto]. destruct C as (c' & _ & ->). repeat split; auto.
Qed.

Lemma picture_expands : forall fuel p p', picture_ok cfg p -> captioned t p p' -> html (S (S fuel)) (picture_token p') (picture_html cfg p).
Proof.
  intros fuel p p' A C. rewrite picture_html_is by auto. destruct (captioned_frame p p' C) as (E1 & E2 & E3). unfold html, expandToken, picture_token. rewrite E1, E2, E3. destruct (as_figure p); cbn [handleToken HtmlGenerator htmlToken]; [|reflexivity].
  unfold expandImage, bindX. rewrite (text_expand (S fuel) (shown_caption p') (shown_caption p)); [reflexivity|]. clear E1 E2 E3. unfold captioned in C. destruct (caption_text p) as [c|] eqn:E.
  - destruct C as (c' & S & ->). unfold shown_caption. cbn [caption_text thumbnail with_caption]. rewrite E. destruct (thumbnail p); [|constructor]. apply phrases_read; auto. apply A. auto.
  - subst p'. unfold shown_caption. rewrite E. constructor.
Qed.

Lemma line_reads : forall fuel l o l', Forall inline_ok l -> rendered (line_formulas l) -> Forall2 (shown t) (bold o l) l' -> text (S (S fuel)) (line_wikitext l') (line_html cfg pictures o l).
Proof.
  intros fuel. induction l as [|i l IH]; intros o l' F R S; cbn [bold] in S; [inversion S; subst; constructor|]. inversion F as [|? ? A F']; subst. apply rendered_cons in R as [R1 R].
  destruct i as [s|k|a lb|u lb|f|p|nn nr]; inversion S as [|? i' ? l1 S1 S2]; subst; rewrite line_cons; cbn [line_html shown] in *.
  - subst i'. apply reads_app; [|apply IH; auto]. apply words_read. apply A.
  - subst i'. apply reads_app; [|apply IH; auto]. apply opened_reads.
  - destruct S1 as (key & b & -> & _ & I). apply reads_app; [|apply IH; auto]. eapply key_reads; [exact I|]. apply (text_expand (Datatypes.S fuel)). apply words_read. apply A.
  - destruct S1 as (key & -> & I). replace (!"<a href=" ++ dq ++ u ++ dq ++ !">" ++ lb ++ !"</a>" ++ line_html cfg pictures o l) with (HREF_TEMPLATE u lb ++ line_html cfg pictures o l).
    + apply reads_app; [|apply IH; auto]. eapply key_reads; [exact I|]. unfold html, expandToken. cbn [handleToken HtmlGenerator htmlToken]. unfold expandExternalLink, bindX.
      rewrite (text_expand (Datatypes.S fuel) lb lb); [reflexivity|]. apply words_read. apply A.
    + unfold HREF_TEMPLATE, quoted. rewrite <- !app_assoc. reflexivity.
  - destruct S1 as (key & -> & I). apply reads_app; [|apply IH; auto]. eapply key_reads; [exact I|]. unfold html, expandToken. cbn [handleToken HtmlGenerator htmlToken]. unfold expandMath, bindX, failX.
    rewrite (R1 f ltac:(left; auto)). cbn [bind]. unfold formula_html. destruct (pictures f) as [[[file w] h] st]. unfold retX, MATH_TEMPLATE, quoted. do 2 f_equal. rewrite <- !app_assoc. reflexivity.
  - destruct S1 as (key & -> & p' & I & C). apply reads_app; [|apply IH; auto]. eapply key_reads; [exact I|]. apply picture_expands; auto.
  - destruct S1 as (key & -> & I). replace (!"[" ++ itoa (Datatypes.S nn) ++ !"]" ++ line_html cfg pictures o l) with (TEMPLATE_REF_USAGE (Datatypes.S nn) ++ line_html cfg pictures o l) by (unfold TEMPLATE_REF_USAGE; rewrite <- !app_assoc; auto).
    apply reads_app; [|apply IH; auto]. eapply key_reads; [exact I|]. reflexivity.
Qed.

(** Items are not taken for HTML elements. *)
Definition no_item (c : ascii) : Prop := c <> "l"%char.
(** The first element is no item. *)
Definition opens (s : str) : Prop := forall a b, s = a ++ "<"%char :: b -> ~ In "<"%char a -> exists d b', b = d :: b' /\ no_item d.

Lemma opens_none : forall s, ~ In "<"%char s -> opens s.
Proof. intros s N a b ->. exfalso. apply N. apply in_app_iff. right. left. auto. Qed.

Lemma opens_app : forall x y, opens x -> opens y -> opens (x ++ y).
Proof.
  intros x y X Y a b E N. apply app_eq_app in E as (z & [[-> H]|[-> H]]).
  - destruct z as [|d z]; [apply (Y [] b); [symmetry; exact H|intros []]|]. injection H as <- ->. destruct (X a z eq_refl N) as (e & z' & -> & Q). exists e, (z' ++ y). auto.
  - apply (Y z b); [exact H|]. intros I. apply N. apply in_app_iff. auto.
Qed.

Lemma opens_cons : forall d s, no_item d -> opens ("<"%char :: d :: s).
Proof. intros d s D a b E N. destruct a as [|e a]; [cbn [app] in E; injection E as <-; eauto|]. exfalso. apply N. left. cbn [app] in E. congruence. Qed.

Lemma tags_open : forall ms, opens (concat (map tag ms)).
Proof. induction ms as [|k ms IH]; [apply opens_none; intros []|]. cbn [map concat]. apply opens_app; auto. destruct k as [[]|[]]; cbn [tag]; apply opens_cons; discriminate. Qed.

Lemma line_opens : forall l o, Forall inline_ok l -> opens (line_html cfg pictures o l).
Proof.
  induction l as [|i l IH]; intros o F; [apply opens_none; intros []|]. inversion F as [|? ? A F']; subst.
  assert (W : forall s, words s -> opens s) by (intros s W; apply opens_none; apply letter_not; auto; cbn; auto 20).
  destruct i as [s|k|a lb|u lb|f|p|nn nr]; cbn [line_html].
  - apply opens_app; auto. apply W. apply A.
  - apply opens_app; auto. apply tags_open.
  - apply opens_app; auto. apply W. apply A.
  - apply opens_cons. discriminate.
  - apply opens_app; auto. unfold formula_html. destruct (pictures f) as [[[file w] h] st]. apply opens_cons. discriminate.
  - apply opens_app; auto. unfold picture_html, division. cbv zeta. destruct (as_figure p); apply opens_cons; discriminate.
  - rewrite !app_assoc. apply opens_app; auto. apply opens_none. intros I. rewrite !in_app_iff in I. destruct I as [[I|I]|I]; [cbn in I; intuition discriminate| |cbn in I; intuition discriminate].
    pose proof (itoa_digits (S nn)) as D. rewrite Forall_forall in D. apply D in I. discriminate I.
Qed.

Lemma item_first : forall l rest, Forall inline_ok l -> (rest = [] \/ exists c x, rest = nl ++ !"<" ++ c :: x /\ no_item c) -> has_prefix !"<li" (trim_space (!" " ++ line_html cfg pictures [] l ++ rest)) = false.
Proof.
  intros l rest F R. destruct (has_prefix !"<li" (trim_space (!" " ++ line_html cfg pictures [] l ++ rest))) eqn:E; auto. exfalso. apply has_prefix_spec in E as (x & E).
  destruct (trim_space_spec (!" " ++ line_html cfg pictures [] l ++ rest)) as (a & b & T & B & _). rewrite E in T. clear E.
  assert (G : opens (!" " ++ line_html cfg pictures [] l ++ rest)).
  { apply opens_app; [apply opens_none; cbn; intuition discriminate|]. apply opens_app; [apply line_opens; auto|]. destruct R as [->|(c & y & -> & C)]; [apply opens_none; intros []|].
    apply opens_app; [apply opens_none; cbn; intuition discriminate|apply opens_cons; auto]. }
  assert (N : ~ In "<"%char a) by (intros J; eapply blank_no_solid in J; [discriminate|exact B]).
  destruct (G a ("l"%char :: "i"%char :: x ++ b)) as (d & y & E & D); auto.
  injection E as <- _. apply D. auto.
Qed.

Lemma list_element_first : forall l x, exists c y, list_element l x = !"<" ++ c :: y /\ no_item c.
Proof. intros [|[[] w below] l] x; cbn [list_element]; unfold division, element; cbn [app]; eexists; eexists; (split; [reflexivity|discriminate]). Qed.

Lemma item_is : forall k w lists, Forall inline_ok w -> Forall (fun h => exists c y, h = !"<" ++ c :: y /\ no_item c) lists ->
  item_template (getListItemTypeForList (sign k)) (join nl ((!" " ++ line_html cfg pictures [] w) :: lists)) = item_element k (nl ++ join nl ((!" " ++ line_html cfg pictures [] w) :: lists) ++ nl).
Proof.
  intros k w lists F L. assert (E : has_prefix !"<li" (trim_space (join nl ((!" " ++ line_html cfg pictures [] w) :: lists))) = false).
  { destruct L as [|h lists (c & y & -> & C) L].
    - cbn [join]. rewrite <- (app_nil_r (line_html cfg pictures [] w)). apply item_first; auto.
    - rewrite join_more, <- app_assoc. apply item_first; auto. right. destruct lists as [|h1 lists]; [exists c, y; auto|]. exists c, (y ++ nl ++ join nl (h1 :: lists)). split; auto. }
  replace (getListItemTypeForList (sign k)) with (match k with Term => DESCRIPTION_HEAD | Indent => DESCRIPTION_ITEM | _ => NORMAL_ITEM end) by (destruct k; reflexivity).
  destruct k; cbn [item_element item_template]; try rewrite E;
    unfold TEMPLATE_LI, TEMPLATE_DT, TEMPLATE_DD, element, division, quoted; rewrite <- !app_assoc; reflexivity.
Qed.

Lemma mapX_is : forall R T (f : R -> X unit T) l ys, Forall2 (fun x y => f x tt = Ok (y, tt)) l ys -> mapX f l tt = Ok (ys, tt).
Proof. intros R T f l ys F. induction F as [|x y l ys H F IH]; [reflexivity|]. cbn [mapX]. unfold bindX. rewrite H. cbn [bind]. rewrite IH. reflexivity. Qed.

Section Lists.
Variable fuel : nat.
Let ex := expandString (HtmlGenerator cfg renderMath m) (S (S (S fuel))).

Lemma list_of_items : forall l l', l <> [] -> Forall2 (item_rel (Forall2 (shown t))) (map bold_item l) l' -> Forall2 (fun i i' => expandListItem ex (item_token i') tt = Ok (item_html cfg pictures i, tt)) l l' ->
  expandList ex (list_token l') tt = Ok (list_element l (nl ++ join nl (map (item_html cfg pictures) l) ++ nl), tt).
Proof.
  intros l l' N Rl F. unfold list_token. rewrite expandList_eq. unfold bindX. rewrite (mapX_is _ _ _ _ (map (item_html cfg pictures) l)).
  - cbn [bind]. unfold retX. do 2 f_equal. destruct l as [|[k w below] l]; [contradiction|]. inversion Rl as [|? i' ? r R1 R2]; subst. apply rel_mark in R1. rewrite R1. cbn [bold_item mark_of].
    destruct k; cbn [sign]; cbn [list_element]; (change (kind_template _) with TEMPLATE_UL || change (kind_template _) with TEMPLATE_OL || change (kind_template _) with TEMPLATE_DL);
    unfold TEMPLATE_UL, TEMPLATE_OL, TEMPLATE_DL, element, division, quoted; rewrite <- !app_assoc; reflexivity.
  - clear - F. induction F; cbn [map]; constructor; auto.
Qed.

Lemma item_expands : forall i i', item_good item_text_ok i -> rendered (item_formulas i) -> item_rel (Forall2 (shown t)) (bold_item i) i' -> expandListItem ex (item_token i') tt = Ok (item_html cfg pictures i, tt).
Proof.
  refine (item_rect' _ _). intros k w below IH i' G Rm Ri. cbn [item_formulas] in Rm. apply rendered_app in Rm as [Rm1 Rm]. cbn [bold_item] in Ri. inversion Ri as [? ? w' ? below' R1 R2]; subst. inversion G as [? ? ? [(_ & L & _) _] G2 _]; subst. cbn [item_token item_html].
  rewrite expandListItem_eq. unfold bindX at 1. unfold ex at 1. rewrite (text_expand (S (S fuel)) (!" " ++ line_wikitext w') (!" " ++ line_html cfg pictures [] w)); [|apply reads_app; [apply reads_text; cbn; intuition discriminate|apply line_reads; auto]].
  cbn [bind]. unfold bindX. rewrite (mapX_is _ _ _ _ (map (fun l => list_element l (nl ++ join nl (map (item_html cfg pictures) l) ++ nl)) below)).
  - cbn [bind]. unfold retX. do 2 f_equal. apply item_is; auto. apply Forall_map. apply Forall_forall. intros l _. apply list_element_first.
  - clear Ri G L Rm1. revert below' R2 G2 Rm. induction IH as [|l below L F IHF]; intros below' R2 G2 Rm; cbn [map concat] in Rm; try (apply rendered_app in Rm as [Rm1 Rm]); inversion R2 as [|? l' ? r R3 R4]; subst; cbn [map]; constructor; inversion G2 as [|? ? G3 G4]; subst; auto.
    apply (list_of_items l l'); auto.
    + inversion G3; subst. discriminate.
    + assert (G5 : Forall (item_good item_text_ok) l) by (inversion G3; subst; auto). clear IHF G2 G3 R2 R4. revert l' R3 Rm1. induction G5 as [|j' items' J G IH]; intros l' R3 Rm1; try (apply rendered_cons in Rm1 as [Rm1 Rm2]); inversion R3 as [|? i2 ? r2 R5 R6]; subst; constructor; inversion L; subst; auto.
Qed.

Lemma list_is : forall l l', list_ok l -> rendered (concat (map item_formulas l)) -> Forall2 (item_rel (Forall2 (shown t))) (map bold_item l) l' -> html (S (S (S fuel))) (ListTokenOf (list_token l')) (list_html cfg pictures l).
Proof.
  intros l l' L Rm Rl. apply list_ok_good in L. unfold html, expandToken. cbn [handleToken HtmlGenerator htmlToken]. apply list_of_items; auto; [inversion L; subst; discriminate|]. assert (G : Forall (item_good item_text_ok) l) by (inversion L; subst; auto). clear L.
  revert l' Rl Rm. induction G as [|j' items' J G IH]; intros l' Rl Rm; try (apply rendered_cons in Rm as [Rm1 Rm]); inversion Rl as [|? i' ? r R5 R6]; subst; constructor; auto. apply item_expands; auto.
Qed.

(** The attributes, in the form of the generator *)
Lemma kept_some : forall l, Forall (fun s => s <> []) (TableSpec.kept_spans l ++ TableSpec.kept_alignment l).
Proof.
  intros l. apply Forall_app. split; induction l as [|[c q n|b a e|s] l IH]; cbn; auto; try (constructor; auto; unfold TableSpec.span_source; destruct c; discriminate). constructor; auto. discriminate.
Qed.
Lemma spaced : forall l : list str, concat (map (fun s => !" " ++ s) l) = match l with [] => [] | _ => !" " ++ join !" " l end.
Proof. induction l as [|s [|s' l] IH]; auto; [cbn; rewrite app_nil_r; auto|]. cbn [map concat] in *. rewrite IH. cbn [join]. rewrite <- !app_assoc. reflexivity. Qed.
Lemma attributes_are : forall l, (if negb (str_eqb (join !" " (TableSpec.kept_spans l ++ TableSpec.kept_alignment l)) []) then !" " ++ join !" " (TableSpec.kept_spans l ++ TableSpec.kept_alignment l) else join !" " (TableSpec.kept_spans l ++ TableSpec.kept_alignment l)) =
  attributes_html l.
Proof.
  intros l. unfold attributes_html. rewrite spaced. pose proof (kept_some l) as K. destruct (TableSpec.kept_spans l ++ TableSpec.kept_alignment l) as [|s k]; [reflexivity|]. inversion K as [|? ? N _]; subst.
  destruct (str_eqb (join !" " (s :: k)) []) eqn:E; [|reflexivity]. exfalso. apply str_eqb_eq in E. destruct s; [contradiction|]. destruct k; discriminate.
Qed.

Lemma cell_is : forall c c', Forall inline_ok (snd c) -> rendered (line_formulas (snd c)) -> cell_rel (Forall2 (shown t)) (bold_cell c) c' -> expandTableColumn ex (cell_token c') tt = Ok (cell_html cfg pictures c, tt).
Proof.
  intros c c' F Rm [E R']. unfold expandTableColumn, cell_token, bindX. cbn [ColContent Attributes IsHeading]. unfold ex. rewrite (text_expand (S (S fuel)) _ (line_html cfg pictures [] (snd c))) by (apply line_reads; auto).
  cbn [bind]. unfold bold_cell in E. cbn [fst] in E. rewrite E. unfold kept. cbv zeta. rewrite attributes_are. unfold retX. do 2 f_equal. unfold cell_html, cell_element.
  destruct (is_heading (fst c)); unfold TABLE_TEMPLATE_HEAD, TABLE_TEMPLATE_COL; rewrite <- ?app_assoc; reflexivity.
Qed.

Lemma cells_inline : forall cells, cells_ok cells -> Forall (fun c : grid_cell => Forall inline_ok (snd c)) cells.
Proof. intros cells (h & [(k & -> & _)|[_ F]]); [constructor; constructor|]. eapply Forall_impl; [|exact F]. intros c [_ [(_ & C & _) _]]. exact C. Qed.

Lemma row_is : forall row row', Forall cells_ok row -> rendered (cells_formulas (concat row)) -> Forall2 (Forall2 (cell_rel (Forall2 (shown t)))) (map (map bold_cell) row) row' ->
  expandTableRow ex (map cell_token (concat row')) tt = Ok (row_html cfg pictures (concat row), tt).
Proof.
  intros row row' F Rm Rr. unfold expandTableRow, bindX. rewrite (mapX_is _ _ _ _ (map (cell_html cfg pictures) (concat row))).
  - cbn [bind]. unfold retX, row_html, TABLE_TEMPLATE_ROW, element. do 2 f_equal. rewrite <- !app_assoc. reflexivity.
  - revert row' Rr Rm. unfold cells_formulas. induction F as [|cells row C F IH]; intros row' Rr Rm; cbn [concat] in Rm; rewrite ?map_app, ?concat_app in Rm; try (apply rendered_app in Rm as [Rm1 Rm]); inversion Rr as [|? cells' ? r R1 R2]; subst; cbn [concat map]; [constructor|]. rewrite !map_app. apply Forall2_app; auto.
    apply cells_inline in C. clear IH Rr. revert cells' R1 Rm1. induction C as [|c cells C Fc IH]; intros cells' R1 Rm1; try (apply (rendered_cons _ (fun c : grid_cell => line_formulas (snd c))) in Rm1 as [Rm1 Rm2]); inversion R1 as [|? c' ? r3 R3 R4]; subst; cbn [map]; constructor; auto. apply cell_is; auto.
Qed.

Lemma grid_is : forall a caption rows caption' rows', block_ok (Grid a caption rows) -> rendered (block_formulas (Grid a caption rows)) -> block_rel (Forall2 (shown t)) (bold_block (Grid a caption rows)) (Grid a caption' rows') ->
  html (S (S (S fuel))) (grid_token caption' rows') (block_html cfg pictures (Grid a caption rows)).
Proof.
  intros a caption rows caption' rows' (A & C & F) Rm Rb. cbn [block_formulas] in Rm. apply rendered_app in Rm as [Rm1 Rm]. cbn [bold_block block_rel] in Rb. destruct Rb as (c2 & r2 & E & Rc & Rr). injection E as <- <-.
  unfold html, expandToken, grid_token. cbn [handleToken HtmlGenerator htmlToken]. fold ex. unfold expandTable, bindX at 1. rewrite (mapX_is _ _ _ _ (map (fun row => row_html cfg pictures (concat row)) rows)).
  - cbn [bind]. unfold bindX, expandTableCaption, bindX. replace (ex (match caption' with Some x => line_wikitext x | None => [] end) tt) with (@Ok (str * unit) (match caption with Some c => line_html cfg pictures [] c | None => [] end, tt)).
    + cbn [bind]. unfold retX, TABLE_TEMPLATE, TABLE_TEMPLATE_CAPTION, division, element, quoted. cbn [bind block_html]. unfold division, element. do 2 f_equal. rewrite <- !app_assoc. reflexivity.
    + symmetry. unfold ex. destruct caption as [c|], caption' as [c'|]; cbn [option_map] in Rc; try contradiction; apply text_expand.
      * apply line_reads; auto. apply (C c eq_refl).
      * constructor.
  - clear Rc. revert rows' Rr Rm. induction F as [|row rows R1 F IH]; intros rows' Rr Rm; try (apply rendered_cons in Rm as [Rm2 Rm]); inversion Rr as [|? row' ? r R2 R3]; subst; cbn [map]; constructor; auto. apply row_is; auto.
Qed.
End Lists.

Lemma block_reads : forall fuel b ss, block_ok b -> rendered (block_formulas b) -> placed t (bold_block b) ss -> text (S (S (S fuel))) (join nl ss) (block_html cfg pictures b).
Proof.
  intros fuel [n title|lines|items|a caption rows|p|fn ft fa fx] ss B Rm H; cbn [bold_block placed] in H.
  - destruct H as (key & title' & -> & I & Sh). cbn [block_ok join] in *. eapply key_reads; [exact I|]. unfold html, expandToken. cbn [handleToken HtmlGenerator htmlToken]. unfold expandHeadings, bindX.
    rewrite (text_expand (S (S fuel)) _ (line_html cfg pictures [] title)); [|apply line_reads; auto; apply B]. cbn [bind block_html]. unfold retX, TEMPLATE_HEADING, element. do 2 f_equal.
  - destruct H as (lines' & -> & Sh). destruct B as [_ B]. cbn [block_html]. apply reads_join; [cbn; intuition discriminate..|]. revert lines' Sh Rm. cbn [block_formulas]. induction B as [|l lines (L & _) B IH]; intros lines' Sh Rm; try (apply rendered_cons in Rm as [Rm1 Rm]); inversion Sh as [|? l' ? r S1 S2]; subst; cbn [map]; constructor; auto.
    apply line_reads; auto. apply L.
  - destruct H as (key & items' & -> & I & Sh). cbn [block_ok join] in *. eapply key_reads; [exact I|]. apply list_is; auto.
  - destruct H as (key & caption' & rows' & -> & I & Sh). cbn [join]. eapply key_reads; [exact I|]. apply grid_is; auto.
  - destruct H as (key & -> & p' & I & C). cbn [join]. eapply key_reads; [exact I|]. apply picture_expands; auto.
  - destruct B as ((_ & L & _) & _ & Tx). cbn [block_formulas] in Rm. apply rendered_app in Rm as [Rm1 Rm]. rewrite (texts_bold fx Tx) in H. destruct H as (key & keys & E & (title' & I & Sh) & D).
    apply (same_keys _ (key :: keys)) in E.
    subst ss. cbn [block_html]. apply reads_join; [cbn; intuition discriminate..|]. constructor.
    + eapply key_reads; [exact I|]. unfold html, expandToken. cbn [handleToken HtmlGenerator htmlToken]. unfold expandHeadings, bindX.
      rewrite (text_expand (S (S fuel)) _ (line_html cfg pictures [] ft)); [|apply line_reads; auto; apply L]. cbn [bind]. unfold retX, TEMPLATE_HEADING, element. do 2 f_equal.
    + revert Tx Rm. induction D as [|k q keys texts (x & I' & Sx) D IH]; intros Tx Rm; cbn [map]; [constructor|]. inversion Tx as [|? ? T1 T2]; subst. apply rendered_cons in Rm as [Rm2 Rm]. constructor; auto.
      eapply key_reads; [exact I'|]. unfold html, expandToken. cbn [handleToken HtmlGenerator htmlToken]. unfold expandRefDefinition, bindX.
      rewrite (text_expand (S (S fuel)) _ (line_html cfg pictures [] (snd q))); [reflexivity|]. apply line_reads; auto; [apply (simple_line (snd q)); apply T1|]. rewrite no_quotes_bold by apply T1. exact Sx.
Qed.

Lemma placed_some : forall b ss, block_ok b -> placed t (bold_block b) ss -> ss <> [].
Proof.
  intros [n title|lines|items|a caption rows|p|fn ft fa fx] ss B H; cbn [bold_block placed] in H.
  - destruct H as (key & x & -> & _). discriminate.
  - destruct H as (l' & -> & S). intros E. apply map_eq_nil in E. subst. inversion S as [E|]. symmetry in E. apply map_eq_nil in E. destruct B as [B _]. auto.
  - destruct H as (key & x & -> & _). discriminate.
  - destruct H as (key & x & y & -> & _). discriminate.
  - destruct H as (key & -> & _). discriminate.
  - destruct H as (key & keys & E & _). intros ->. discriminate.
Qed.

Lemma document_reads : forall fuel doc bs, Forall block_ok doc -> rendered (document_formulas doc) -> Forall2 (placed t) (map bold_block doc) bs ->
  text (S (S (S fuel))) (join nl (breaks (map bold_block doc) bs)) (document_html cfg pictures doc).
Proof.
  intros fuel doc bs F Rm Sh. assert (Ne : forall b ss, block_ok b -> placed t (bold_block b) ss -> ss <> []) by (apply placed_some).
  unfold document_html. revert bs Sh Rm. unfold document_formulas. induction F as [|b doc B F IH]; intros bs Sh Rm; try (apply rendered_cons in Rm as [Rm1 Rm]); inversion Sh as [|? s ? bs' S1 S2]; subst; [constructor|].
  cbn [map breaks html_lines]. pose proof (block_reads fuel b s B Rm1 S1) as X. specialize (IH _ S2 Rm). specialize (Ne b s B S1).
  assert (J : forall x y z w, x <> [] -> text (S (S (S fuel))) (join nl x) z -> text (S (S (S fuel))) (join nl y) (join nl w) -> (y = [] <-> w = []) -> text (S (S (S fuel))) (join nl (x ++ y)) (join nl (z :: w))).
  { intros x y z w Nx H1 H2 H3. destruct y as [|y0 y].
    - destruct w; [|exfalso; destruct H3 as [H3 _]; specialize (H3 eq_refl); discriminate]. rewrite app_nil_r. exact H1.
    - destruct w as [|w0 w]; [exfalso; destruct H3 as [_ H3]; specialize (H3 eq_refl); discriminate|]. rewrite join_together by (auto; discriminate). rewrite join_more. apply reads_app; auto. apply reads_app; auto. apply reads_text; cbn; intuition discriminate. }
  assert (Em : breaks (map bold_block doc) bs' = [] <-> html_lines cfg pictures doc = []).
  { clear - S2 F. destruct F as [|b1 doc B F]; inversion S2 as [|? s1 ? bs1 P1 P2]; subst; [tauto|]. apply (placed_some _ _ B) in P1. cbn [map breaks html_lines]. split; [intros E; apply app_eq_nil in E as [E _]; contradiction|discriminate]. }
  apply J; auto.
  - destruct b; cbn [bold_block]; auto. destruct doc as [|[] doc]; cbn [map bold_block app] in *; auto. apply (J [MARKER_PARAGRAPH]); auto; [discriminate|].
    cbn [join]. rewrite <- (app_nil_r MARKER_PARAGRAPH), <- (app_nil_r !"<br><br>"). constructor; [left|apply text_of_marker|constructor]; cbn; auto 10.
  - destruct b; cbn [bold_block app]; auto. destruct doc as [|[] doc]; cbn [map bold_block app] in *; auto. split; discriminate.
Qed.

Lemma document_generated : forall fuel style title doc bs, 4 <= fuel -> Forall block_ok doc -> rendered (document_formulas doc) -> Forall2 (placed t) (map bold_block doc) bs ->
  generateHtml cfg renderMath m fuel style title (join nl (breaks (map bold_block doc) bs)) = Ok (HEADER style ++ nl ++ !"<h1>" ++ title ++ !"</h1>" ++ nl ++ document_html cfg pictures doc ++ FOOTER).
Proof.
  intros fuel style title doc bs L F Rm Sh. destruct fuel as [|[|[|[|fuel]]]]; try lia. unfold generateHtml, htmlExpand. rewrite (text_expand (S (S (S fuel))) _ (document_html cfg pictures doc)) by (apply document_reads; auto). reflexivity.
Qed.
End Html.
