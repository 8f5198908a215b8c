(** * What is left in a text when all passes of the parser have nothing to do *)

From Coq Require Import Ascii String.
From Coq Require Import List Arith NArith ZArith Bool Lia.
From Verif Require Import GoStr GoStrFacts TextFacts UtilModel ConfigModel BracketModel EndTextProofs EndProofs FuelProofs ShapeProofs.
From Verif Require Import TokenModel FormattingModel ParagraphModel HeadingModel LinkModel ImageModel ListModel TableModel ReferenceModel TokenizerModel.
Import ListNotations.
Local Open Scope list_scope.

Lemma ends_result : forall A (m : nat -> M A) Q n t a t', ends m Q -> (forall k k', k <= k' -> agrees (m k) (m k')) -> m n t = Ok (a, t') -> Q a.
Proof.
  intros A m Q n t a t' E G H. destruct (E t) as (k & r & F & R). destruct (G n (max n k) ltac:(lia) t) as [X|X]; [congruence|].
  rewrite (F (max n k)) in X by lia. rewrite H in X. subst r. exact R.
Qed.

(** No line is empty, unless there is nothing else. *)
Definition no_blank_line (s : str) : Prop := s = [] \/ ~ In [] (split nl s).

(** What no pass has found in the text *)
Record at_rest (cfg : configuration) (s : str) : Prop := {
  rest_nowiki : nowhere at_nowiki s;
  rest_heading : Forall (fun l => forall d, 1 <= d <= 7 -> no_heading d l) (split nl s);
  rest_reference : only_short s;
  rest_internal : Forall (no_link cfg !"]]" !"|" LINK_TYPE_INTERNAL false true) (tl (split !"[[" s));
  rest_gallery : Forall no_gallery (split nl s);
  rest_imagemap : Forall no_imagemap (split nl s);
  rest_image : find_link_start s = None;
  rest_external : Forall (no_link cfg !"]" !" " LINK_TYPE_EXTERNAL true false) (tl (split !"[" s));
  rest_math : math_matches s 0 = [];
  rest_list : Forall no_list (split nl s);
  rest_table : Forall no_table (split nl s);
  rest_paragraph : no_blank_line s }.

Lemma paragraphs_no_blank : forall lines before ignore create, (ignore = false -> before <> []) -> ~ In [] (parseParagraphs_go before lines ignore create).
Proof.
  induction lines as [|line lines IH]; intros before ignore create B J; [destruct J|]. cbn [parseParagraphs_go] in J. destruct (is_token_line line) eqn:T.
  - destruct J as [J|J]; [subst line; discriminate|]. apply IH in J; auto. discriminate.
  - destruct ignore.
    + destruct (str_eqb line []) eqn:E; cbn [negb] in J; [apply IH in J; auto; discriminate|].
      assert (N : line <> []) by (intros ->; discriminate).
      apply in_app_or in J as [J|[J|J]]; [destruct create; [destruct J as [J|[]]; discriminate|destruct J]|congruence|apply IH in J; auto].
    + specialize (B eq_refl). destruct (str_eqb line []) eqn:E; cbn [andb] in J.
      * destruct (str_eqb before []) eqn:K; [apply str_eqb_eq in K; congruence|]. cbn [negb] in J. apply IH in J; auto. discriminate.
      * assert (N : line <> []) by (intros ->; discriminate). destruct J as [J|J]; [congruence|apply IH in J; auto].
Qed.

Lemma parseParagraphs_no_blank : forall s, no_blank_line (parseParagraphs s).
Proof.
  intros s. unfold parseParagraphs. set (r := parseParagraphs_go [] (split nl s) true false).
  assert (N : ~ In [] r) by (apply paragraphs_no_blank; discriminate). destruct r as [|x r'] eqn:Er; [left; reflexivity|right]. rewrite <- Er in *.
  change nl with [nl_char]. rewrite split_join_single; [exact N|rewrite Er; discriminate|].
  apply Forall_forall. intros l I. apply parseParagraphs_lines in I as [->|I].
  - intros Q. cbn in Q. repeat (destruct Q as [Q|Q]; [discriminate|]). exact Q.
  - pose proof (split_single_pieces nl_char s) as F. rewrite Forall_forall in F. exact (F l I).
Qed.

Section Config.
Variable cfg : configuration.

Lemma all_descend : forall s, descends (tokenizeContent cfg) s.
Proof. intros s x _. eapply ends_weaken; [|apply tokenizeContent_ends]. intros r. apply shrinks_special. Qed.

Lemma tok_agrees : forall n m, n <= m -> forall s, agrees (tokenizeContent cfg n s) (tokenizeContent cfg m s).
Proof. intros. apply tokenizeContent_agrees. auto. Qed.

(** A round that changes nothing *)
Lemma passes_rest : forall n s t t', passes cfg (tokenizeContent cfg n) s t = Ok (s, t') -> at_rest cfg s.
Proof.
  intros n s t t' E. unfold passes in E.
  apply bindM_ok in E as (s1 & t1 & E1 & E). apply (ends_result _ (fun _ => parseNowiki s) _ 0 _ _ _ (parseNowiki_ends s)) in E1; [|intros; apply agrees_refl].
  apply bindM_ok in E as (s2 & t2 & E2 & E). apply (ends_result _ (fun _ => lift (parseBoldAndItalic s1)) _ 0 _ _ _ (parseBoldAndItalic_ends s1)) in E2; [|intros; apply agrees_refl].
  apply bindM_ok in E as (s3 & t3 & E3 & E).
  apply (ends_result _ (fun n => parseHeadings (tokenizeContent cfg n) s2) _ n _ _ _ (parseHeadings_ends _ s2 (descends_smaller _ _ (all_descend s2)))) in E3;
    [|intros k k' L; apply parseHeadings_agrees; apply tok_agrees; exact L].
  apply bindM_ok in E as (s4 & t4 & E4 & E).
  apply (ends_result _ (fun n => parseReferences (tokenizeContent cfg n) s3) _ n _ _ _ (parseReferences_ends _ s3 (descends_lighter _ _ (all_descend s3)))) in E4;
    [|intros k k' L; apply parseReferences_agrees; apply tok_agrees; exact L].
  apply bindM_ok in E as (s5 & t5 & E5 & E).
  apply (ends_result _ (fun n => parseInternalLinks cfg (tokenizeContent cfg n) s4) _ n _ _ _ (parseInternalLinks_ends cfg _ s4 (descends_smaller _ _ (all_descend s4)))) in E5;
    [|intros k k' L; apply parseInternalLinks_agrees; apply tok_agrees; exact L].
  apply bindM_ok in E as (s6 & t6 & E6 & E). apply (ends_result _ (fun _ => parseGalleries cfg s5) _ 0 _ _ _ (parseGalleries_ends cfg s5)) in E6; [|intros; apply agrees_refl].
  apply bindM_ok in E as (s7 & t7 & E7 & E). apply (ends_result _ (fun _ => parseImageMaps cfg s6) _ 0 _ _ _ (parseImageMaps_ends cfg s6)) in E7; [|intros; apply agrees_refl].
  apply bindM_ok in E as (s8 & t8 & E8 & E).
  apply (ends_result _ (fun n => parseImages cfg (tokenizeContent cfg n) s7) _ n _ _ _ (parseImages_ends cfg _ s7 (all_descend s7))) in E8;
    [|intros k k' L; apply parseImages_agrees; apply tok_agrees; exact L].
  apply bindM_ok in E as (s9 & t9 & E9 & E).
  apply (ends_result _ (fun n => parseExternalLinks cfg (tokenizeContent cfg n) s8) _ n _ _ _ (parseExternalLinks_ends cfg _ s8 (descends_smaller _ _ (all_descend s8)))) in E9;
    [|intros k k' L; apply parseExternalLinks_agrees; apply tok_agrees; exact L].
  apply bindM_ok in E as (s10 & t10 & E10 & E). apply (ends_result _ (fun _ => parseMath s9) _ 0 _ _ _ (parseMath_ends s9)) in E10; [|intros; apply agrees_refl].
  apply bindM_ok in E as (s11 & t11 & E11 & E).
  apply (ends_result _ (fun n => parseLists (tokenizeContent cfg n) s10) _ n _ _ _ (parseLists_ends _ s10 (descends_smaller _ _ (all_descend s10)))) in E11;
    [|intros k k' L; apply parseLists_agrees; apply tok_agrees; exact L].
  apply bindM_ok in E as (s12 & t12 & E12 & E).
  apply (ends_result _ (fun n => parseTables (tokenizeContent cfg n) s11) _ n _ _ _ (parseTables_ends _ s11 (descends_smaller _ _ (all_descend s11)))) in E12;
    [|intros k k' L; apply parseTables_agrees; apply tok_agrees; exact L].
  assert (E13 : parseParagraphs s12 = s) by (unfold ret in E; congruence). clear E.
  cbn beta in *.
  pose proof (settled_shrinks _ _ _ E1) as S1. pose proof (settled_shrinks _ _ _ E3) as S3. pose proof (settled_shrinks _ _ _ E4) as S4.
  pose proof (settled_shrinks _ _ _ E5) as S5. pose proof (settled_shrinks _ _ _ E6) as S6. pose proof (settled_shrinks _ _ _ E7) as S7.
  pose proof (settled_shrinks _ _ _ E8) as S8. pose proof (settled_shrinks _ _ _ E9) as S9. pose proof (settled_shrinks _ _ _ E10) as S10.
  pose proof (settled_shrinks _ _ _ E11) as S11. pose proof (settled_shrinks _ _ _ E12) as S12. pose proof (parseParagraphs_shrinks s12) as S13. rewrite E13 in S13.
  assert (A12 : shrinks s s12) by exact S13.
  assert (A11 : shrinks s s11) by exact (shrinks_trans _ _ _ A12 S12).
  assert (A10 : shrinks s s10) by exact (shrinks_trans _ _ _ A11 S11).
  assert (A9 : shrinks s s9) by exact (shrinks_trans _ _ _ A10 S10).
  assert (A8 : shrinks s s8) by exact (shrinks_trans _ _ _ A9 S9).
  assert (A7 : shrinks s s7) by exact (shrinks_trans _ _ _ A8 S8).
  assert (A6 : shrinks s s6) by exact (shrinks_trans _ _ _ A7 S7).
  assert (A5 : shrinks s s5) by exact (shrinks_trans _ _ _ A6 S6).
  assert (A4 : shrinks s s4) by exact (shrinks_trans _ _ _ A5 S5).
  assert (A3 : shrinks s s3) by exact (shrinks_trans _ _ _ A4 S4).
  assert (A2 : shrinks s s2) by exact (shrinks_trans _ _ _ A3 S3).
  assert (A1 : shrinks s s1) by exact (shrinks_trans _ _ _ A2 E2).
  assert (X1 : s1 = s) by exact (shrinks_antisym _ _ S1 A1). subst s1.
  assert (X2 : s2 = s) by exact (shrinks_antisym _ _ E2 A2). subst s2.
  assert (X3 : s3 = s) by exact (shrinks_antisym _ _ S3 A3). subst s3.
  assert (X4 : s4 = s) by exact (shrinks_antisym _ _ S4 A4). subst s4.
  assert (X5 : s5 = s) by exact (shrinks_antisym _ _ S5 A5). subst s5.
  assert (X6 : s6 = s) by exact (shrinks_antisym _ _ S6 A6). subst s6.
  assert (X7 : s7 = s) by exact (shrinks_antisym _ _ S7 A7). subst s7.
  assert (X8 : s8 = s) by exact (shrinks_antisym _ _ S8 A8). subst s8.
  assert (X9 : s9 = s) by exact (shrinks_antisym _ _ S9 A9). subst s9.
  assert (X10 : s10 = s) by exact (shrinks_antisym _ _ S10 A10). subst s10.
  assert (X11 : s11 = s) by exact (shrinks_antisym _ _ S11 A11). subst s11.
  assert (X12 : s12 = s) by exact (shrinks_antisym _ _ S12 A12). subst s12.
  constructor; first [exact (settled_same _ _ E1)|exact (settled_same _ _ E3)|exact (settled_same _ _ E4)|exact (settled_same _ _ E5)
    |exact (settled_same _ _ E6)|exact (settled_same _ _ E7)|exact (settled_same _ _ E8)|exact (settled_same _ _ E9)|exact (settled_same _ _ E10)
    |exact (settled_same _ _ E11)|exact (settled_same _ _ E12)|rewrite <- E13; apply parseParagraphs_no_blank].
Qed.

Theorem tokenizeContent_rest : forall fuel s t r t', tokenizeContent cfg fuel s t = Ok (r, t') -> at_rest cfg r.
Proof.
  induction fuel as [|fuel IH]; intros s t r t' E; [discriminate|]. cbn [tokenizeContent] in E. apply bindM_ok in E as (x & t1 & E1 & E).
  destruct (str_eqb x s) eqn:X; [|eapply IH; exact E]. apply str_eqb_eq in X. subst x. unfold ret in E. injection E as <- <-. eapply passes_rest. exact E1.
Qed.
End Config.
