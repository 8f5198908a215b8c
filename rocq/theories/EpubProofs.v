(** * Proofs about books of the internal driver *)

From Coq Require Import Ascii String.
From Coq Require Import List Arith Bool Lia.
From Verif Require Import GoStr GoStrFacts UtilModel PoolModel MainModel ConfigModel TokenModel ExpandModel HtmlModel EpubModel EpubSpec.
Import ListNotations.
Local Open Scope list_scope.

Lemma before_last_none : forall p s, before_last p s = None <-> ~ occurs p s.
Proof.
  intros p s. induction s as [|c s IH]; cbn [before_last].
  - destruct (has_prefix p []) eqn:E.
    + split; [discriminate|]. intros H. exfalso. apply H. apply has_prefix_spec in E as (r & E). exists [], r. exact E.
    + split; auto. intros _ (a & b & H). destruct a; [|discriminate]. cbn [app] in H. destruct p; [|discriminate]. cbn [has_prefix] in E. discriminate.
  - destruct (before_last p s) as [x|] eqn:B.
    + split; [discriminate|]. intros H. exfalso. assert (N : ~ occurs p s) by (intros (a & b & ->); apply H; exists (c :: a), b; reflexivity).
      apply IH in N. discriminate.
    + assert (N : ~ occurs p s) by (apply IH; reflexivity). destruct (has_prefix p (c :: s)) eqn:E.
      * split; [discriminate|]. intros H. exfalso. apply H. apply has_prefix_spec in E as (r & E). exists [], r. exact E.
      * split; auto. intros _ (a & b & H). destruct a as [|y a].
        -- cbn [app] in H. rewrite H in E. rewrite has_prefix_app in E. discriminate.
        -- injection H as _ H. apply N. exists a, b. exact H.
Qed.

Lemma before_last_some : forall p a b, p <> [] -> ~ occurs p (tl p ++ b) -> before_last p (a ++ p ++ b) = Some a.
Proof.
  intros p a b NE N. induction a as [|c a IH]; cbn [app].
  - destruct p as [|d p]; [congruence|]. cbn [app before_last]. cbn [tl] in N. apply before_last_none in N. rewrite N.
    change (d :: p ++ b) with ((d :: p) ++ b). rewrite has_prefix_app. reflexivity.
  - cbn [before_last]. rewrite IH. reflexivity.
Qed.

Lemma close_tail : forall b, ~ occurs !"</h1>" b -> ~ occurs !"</h1>" (tl !"</h1>" ++ b).
Proof.
  intros b H (x & y & E). do 4 (destruct x as [|? x]; [cbn in E; discriminate|]; cbn in E; injection E as _ E).
  apply H. exists x, y. exact E.
Qed.

Lemma open_first : forall a b, ~ occurs !"<h1>" a -> index !"<h1>" (a ++ !"<h1>" ++ b) = Some (length a).
Proof.
  intros a b N. induction a as [|c a IH]; [reflexivity|].
  assert (N' : ~ occurs !"<h1>" a) by (intros (x & y & ->); apply N; exists (c :: x), y; reflexivity).
  specialize (IH N'). change ((c :: a) ++ !"<h1>" ++ b) with (c :: (a ++ !"<h1>" ++ b)). cbn [index]. rewrite IH. cbn [option_map length].
  destruct (has_prefix !"<h1>" (c :: a ++ !"<h1>" ++ b)) eqn:E; auto. exfalso.
  apply has_prefix_spec in E as (r & E). destruct a as [|a1 a]; [discriminate|]. destruct a as [|a2 a]; [discriminate|].
  destruct a as [|a3 a]; [discriminate|]. cbn in E. injection E as -> -> -> -> E. apply N. exists [], a. reflexivity.
Qed.

Lemma title_of_chapter : forall c, only_heading c -> heading_title (chapter_text c) = Some (ch_title c).
Proof.
  intros [a t b] (N1 & N2). unfold chapter_text, heading_title. cbn [ch_before ch_title ch_behind] in *.
  rewrite open_first by exact N1.
  replace (skipn (length a + 4) (a ++ !"<h1>" ++ t ++ !"</h1>" ++ b)) with (t ++ !"</h1>" ++ b).
  - apply before_last_some; [discriminate|]. apply close_tail. exact N2.
  - rewrite skipn_app. rewrite skipn_all2 by lia. replace (length a + 4 - length a) with 4 by lia. reflexivity.
Qed.

(** With several headings the title reaches to the end of the last one *)
Lemma title_greedy : forall c, ~ occurs !"<h1>" (ch_before c) -> forall x y, ch_behind c = x ++ !"</h1>" ++ y -> ~ occurs !"</h1>" y ->
  heading_title (chapter_text c) = Some (ch_title c ++ !"</h1>" ++ x).
Proof.
  intros c N x y E N2. replace (chapter_text c) with (chapter_text (mkChapter (ch_before c) (ch_title c ++ !"</h1>" ++ x) y)).
  - rewrite title_of_chapter; [reflexivity|]. split; auto.
  - unfold chapter_text. cbn [ch_before ch_title ch_behind]. rewrite E. rewrite !app_assoc. reflexivity.
Qed.

Lemma title_none : forall s, ~ occurs !"<h1>" s -> heading_title s = None.
Proof.
  intros s N. unfold heading_title. replace (index !"<h1>" s) with (@None nat); auto. symmetry. apply index_none. intros a b E. apply N. exists a, b. exact E.
Qed.

Section Library.
  Variable fails : library_call -> bool.
  Variable read_file : str -> option str.

  Lemma attempt_ok : forall c b, fails c = false -> attempt fails c b = Ok b.
  Proof. intros c b H. unfold attempt. rewrite H. reflexivity. Qed.
  Lemma attempt_err : forall c b, fails c = true -> attempt fails c b = Err.
  Proof. intros c b H. unfold attempt. rewrite H. reflexivity. Qed.

  Definition add_all (b : book) (sections : list (str * str)) : book :=
    mkBook (bk_title b) (bk_author b) (bk_language b) (bk_cover b) (bk_sections b ++ sections) (bk_css b) (bk_fonts b).

  Lemma sections_spec : forall files chapters b,
    Forall2 (fun f c => read_file f = Some (chapter_text c) /\ only_heading c) files chapters ->
    (add_sections fails read_file files b = Err /\ exists c, fails c = true) \/
    add_sections fails read_file files b = Ok (add_all b (map (fun c => (ch_title c, chapter_text c)) chapters)).
  Proof.
    intros files chapters b F. revert b. induction F as [|f c files chapters (R & O) F IH]; intros b.
    - right. cbn. unfold add_all. rewrite app_nil_r. destruct b. reflexivity.
    - cbn [add_sections]. rewrite R, (title_of_chapter _ O). destruct (fails (AddSection (chapter_text c))) eqn:X; [left; split; [rewrite (attempt_err _ _ X); reflexivity|eauto]|rewrite (attempt_ok _ _ X)]. cbn [bind].
      match goal with |- context [add_sections _ _ files ?b'] => destruct (IH b') as [(E & C)|E]; rewrite E end; [left; split; auto|]. right.
      unfold add_all. cbn [bk_title bk_author bk_language bk_cover bk_sections bk_css bk_fonts map]. rewrite <- app_assoc. reflexivity.
  Qed.

  Lemma fonts_spec : forall files b,
    (add_fonts fails files b = Err /\ exists c, fails c = true) \/
    add_fonts fails files b = Ok (mkBook (bk_title b) (bk_author b) (bk_language b) (bk_cover b) (bk_sections b) (bk_css b) (bk_fonts b ++ map (fun f => (f, f)) files)).
  Proof.
    induction files as [|f files IH]; intros b.
    - right. cbn. rewrite app_nil_r. destruct b. reflexivity.
    - cbn [add_fonts]. destruct (fails (AddFont f)) eqn:X; [left; split; [rewrite (attempt_err _ _ X); reflexivity|eauto]|rewrite (attempt_ok _ _ X)]. cbn [bind].
      match goal with |- context [add_fonts _ files ?b'] => destruct (IH b') as [(E & C)|E]; rewrite E end; [left; split; auto|]. right.
      cbn [bk_title bk_author bk_language bk_cover bk_sections bk_css bk_fonts map]. rewrite <- app_assoc. reflexivity.
  Qed.

  Lemma book_spec : forall c files chapters outputFile m,
    Forall2 (fun f ch => read_file f = Some (chapter_text ch) /\ only_heading ch) files chapters ->
    (GenerateEpubWithGoLibrary fails read_file c files outputFile m = Err /\ exists x, fails x = true) \/
    GenerateEpubWithGoLibrary fails read_file c files outputFile m =
      Ok (mkBook (md_title m) (md_author m) (md_language m) (Some (bc_cover_image c)) (map (fun ch => (ch_title ch, chapter_text ch)) chapters)
            [(bc_style_file c, !"style.css")] (map (fun f => (f, f)) (bc_font_files c))).
  Proof.
    intros c files chapters outputFile m F. unfold GenerateEpubWithGoLibrary.
    destruct (fails NewEpub) eqn:X1; [left; split; [rewrite (attempt_err _ _ X1); reflexivity|eauto]|rewrite (attempt_ok _ _ X1)]. cbn [bind].
    destruct (fails (AddImage (bc_cover_image c))) eqn:X2; [left; split; [rewrite (attempt_err _ _ X2); reflexivity|eauto]|rewrite (attempt_ok _ _ X2)]. cbn [bind].
    destruct (fails SetCover) eqn:X3; [left; split; [rewrite (attempt_err _ _ X3); reflexivity|eauto]|rewrite (attempt_ok _ _ X3)]. cbn [bind].
    match goal with |- context [add_sections _ _ files ?b'] => destruct (sections_spec _ _ b' F) as [(E & C)|E]; rewrite E end; [left; split; auto|]. cbn [bind].
    destruct (fails (AddCSS (bc_style_file c))) eqn:X4; [left; split; [rewrite (attempt_err _ _ X4); reflexivity|eauto]|rewrite (attempt_ok _ _ X4)]. cbn [bind].
    match goal with |- context [add_fonts _ ?l ?b'] => destruct (fonts_spec l b') as [(E2 & C)|E2]; rewrite E2 end; [left; split; auto|]. cbn [bind].
    destruct (fails (Write outputFile)) eqn:X5; [left; split; [rewrite (attempt_err _ _ X5); reflexivity|eauto]|rewrite (attempt_ok _ _ X5)]. right. reflexivity.
  Qed.

  (** Every file of a written book has been read and has a heading *)
  Lemma sections_read : forall files b b', add_sections fails read_file files b = Ok b' ->
    Forall (fun f => exists s, read_file f = Some s /\ heading_title s <> None) files.
  Proof.
    induction files as [|f files IH]; intros b b' H; constructor.
    - cbn [add_sections] in H. destruct (read_file f) as [s|]; [|discriminate]. exists s. split; auto. intros E. rewrite E in H. discriminate.
    - cbn [add_sections] in H. destruct (read_file f) as [s|]; [|discriminate]. destruct (heading_title s); [|discriminate]. unfold attempt at 1 in H.
      destruct (fails _); [discriminate|]. cbn [bind] in H. eapply IH. exact H.
  Qed.

  Lemma book_read : forall c files outputFile m b, GenerateEpubWithGoLibrary fails read_file c files outputFile m = Ok b ->
    fails (AddImage (bc_cover_image c)) = false /\ Forall (fun f => exists s, read_file f = Some s /\ heading_title s <> None) files.
  Proof.
    intros c files outputFile m b H. unfold GenerateEpubWithGoLibrary in H.
    unfold attempt at 1 in H. destruct (fails NewEpub); [discriminate|]. cbn [bind] in H.
    unfold attempt at 1 in H. destruct (fails (AddImage (bc_cover_image c))); [discriminate|]. cbn [bind] in H.
    unfold attempt at 1 in H. destruct (fails SetCover); [discriminate|]. cbn [bind] in H. split; auto.
    match type of H with context [add_sections _ _ files ?b'] => destruct (add_sections fails read_file files b') eqn:E end; try discriminate.
    eapply sections_read. exact E.
  Qed.
End Library.

(** ** Pages of the HTML generator *)

Lemma occurs_sep : forall p c a b, ~ In c p -> occurs p (a ++ c :: b) -> occurs p a \/ occurs p b.
Proof.
  intros p c a b N (x & y & E). revert x E. induction a as [|d a IH]; intros x E.
  - destruct x as [|e x].
    + destruct p as [|e p]; [left; exists [], []; reflexivity|]. cbn [app] in E. injection E as E _. exfalso. apply N. left. congruence.
    + cbn [app] in E. injection E as _ E. right. exists x, y. exact E.
  - destruct x as [|e x].
    + left. cbn [app] in E. clear IH. change (d :: a ++ c :: b) with ((d :: a) ++ c :: b) in E. revert E. generalize (d :: a). intros l. revert l.
      induction p as [|e p IHp]; intros l E; [exists [], l; reflexivity|].
      destruct l as [|f l].
      * cbn [app] in E. injection E as E _. exfalso. apply N. left. congruence.
      * cbn [app] in E. injection E as -> E. destruct (IHp (fun I => N (or_intror I)) l E) as (x & z & ->).
        assert (P : exists w, x ++ p ++ z = p ++ w).
        { clear - E N. revert E. generalize (x ++ p ++ z). induction p as [|e' p IHp]; intros l E; [exists l; reflexivity|].
          destruct l as [|f l]; cbn [app] in E.
          - injection E as E _. exfalso. apply N. right. left. congruence.
          - injection E as -> E. destruct (IHp (fun I => N (match I with or_introl a => or_introl a | or_intror b => or_intror (or_intror b) end)) l E) as (w & ->).
            exists w. reflexivity. }
        destruct P as (w & ->). exists [], w. reflexivity.
    + cbn [app] in E. injection E as -> E. destruct (IH x E) as [(u & v & ->)|H]; [|right; exact H]. left. exists (e :: u), v. reflexivity.
Qed.

Lemma occurs_contains : forall p s, contains p s = false -> ~ occurs p s.
Proof. intros p s H (a & b & E). apply contains_false with (a := a) (b := b) in H. auto. Qed.

Lemma header_no_heading : forall style, ~ occurs !"<h1>" style -> ~ occurs !"<h1>" (HEADER style ++ nl).
Proof.
  intros style N H.
  assert (E : exists a b, (forall s, HEADER s ++ nl = a ++ dq_char :: s ++ dq_char :: b) /\ contains !"<h1>" a = false /\ contains !"<h1>" b = false).
  { eexists (!"<?xml version=" ++ dq ++ !"1.0" ++ dq ++ !" encoding=" ++ dq ++ !"UTF-8" ++ dq ++ !"?>" ++ nl ++
      !"<html xmlns=" ++ dq ++ !"http://www.w3.org/1999/xhtml" ++ dq ++ !">" ++ nl ++ !"<head>" ++ nl ++ !"<meta charset=" ++ dq ++ !"utf-8" ++ dq ++ !">" ++ nl ++
      !"<link rel=" ++ dq ++ !"stylesheet" ++ dq ++ !" href="),
      (!">" ++ nl ++ !"</head>" ++ nl ++ !"<body xmlns:epub=" ++ dq ++ !"http://www.idpf.org/2007/ops" ++ dq ++ !">" ++ nl ++ nl).
    split; [|split; vm_compute; reflexivity]. intros s. unfold HEADER. unfold dq, nl. repeat (rewrite <- app_assoc || cbn [app]). reflexivity. }
  destruct E as (a & b & E & A & B). rewrite E in H.
  apply occurs_sep in H; [|intros I; repeat (destruct I as [I|I]; [discriminate|]); exact I]. destruct H as [H|H]; [exact (occurs_contains _ _ A H)|].
  apply occurs_sep in H; [|intros I; repeat (destruct I as [I|I]; [discriminate|]); exact I]. destruct H as [H|H]; [exact (N H)|exact (occurs_contains _ _ B H)].
Qed.

Lemma page_chapter : forall cfg renderMath m fuel styleFile title content html body,
  generateHtml cfg renderMath m fuel styleFile title content = Ok html -> htmlExpand cfg renderMath m fuel content = Ok body ->
  ~ occurs !"<h1>" styleFile -> ~ occurs !"</h1>" body ->
  exists c, html = chapter_text c /\ only_heading c /\ ch_title c = title.
Proof.
  intros cfg renderMath m fuel styleFile title content html body G E S B. unfold generateHtml in G. rewrite E in G. cbn [bind] in G.
  assert (X : HEADER styleFile ++ nl ++ !"<h1>" ++ title ++ !"</h1>" ++ nl ++ body ++ FOOTER = html) by congruence. clear G. rewrite <- X. clear X.
  exists (mkChapter (HEADER styleFile ++ nl) title (nl ++ body ++ FOOTER)). split; [|split; [split|]].
  - unfold chapter_text. cbn [ch_before ch_title ch_behind]. rewrite <- (app_assoc (HEADER styleFile)). reflexivity.
  - apply header_no_heading. exact S.
  - cbn [ch_behind]. intros H. change (nl ++ body ++ FOOTER) with ([] ++ nl_char :: body ++ FOOTER) in H.
    apply occurs_sep in H; [|intros I; repeat (destruct I as [I|I]; [discriminate|]); exact I]. destruct H as [H|H]; [revert H; apply occurs_contains; reflexivity|].
    change (body ++ FOOTER) with (body ++ nl_char :: tl FOOTER) in H.
    apply occurs_sep in H; [|intros I; repeat (destruct I as [I|I]; [discriminate|]); exact I]. destruct H as [H|H]; [exact (B H)|].
    revert H. apply occurs_contains. reflexivity.
  - reflexivity.
Qed.
