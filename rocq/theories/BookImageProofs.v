(** * The sources of the images in the pages of documents *)

From Coq Require Import Ascii String.
From Coq Require Import List Arith Bool Lia.
From Verif Require Import GoStr GoStrFacts FormattingSpec PassSpec SafeSpec DocumentSpec EpubSpec EpubModel EpubProofs HtmlModel DocumentLineProofs DocumentPassProofs DocumentPictureProofs DocumentImageProofs ShowProofs
  BookSpec BookImageSpec BookDocProofs.
Import ListNotations.
Local Open Scope list_scope.

Lemma escaped_no_quote : forall file c, In c dq -> ~ In c (HtmlModel.escapePathComponents file).
Proof.
  intros file c I H. apply join_In in H as [H|(x & X & H)]; [cbn in H, I; intuition (subst; discriminate)|]. apply in_map_iff in X as (y & <- & _).
  apply in_flat_map in H as (d & _ & H). apply escape_clean in H. apply H. cbn in I. destruct I as [<-|[]]; vm_compute; auto 10.
Qed.

Section Sources.
Variable cfg : ConfigModel.configuration.
Variable pictures : str -> str * str * str * str.
(** What holds for the sources *)
Variable fits : str -> Prop.
Definition fitting (t : str) : Prop := forall attributes, t = !"img " ++ attributes -> exists src, source attributes src /\ fits src.

Lemma fitting_other : forall t, (forall x, t <> !"img " ++ x) -> t <> !"/h1" \/ True -> fitting t.
Proof. intros t H _ a E. destruct (H a E). Qed.

Lemma fitting_formula : forall formula, fits (HtmlModel.escapePathComponents (fst (fst (fst (pictures formula))))) -> fitting (formula_tag pictures formula).
Proof.
  intros formula H a E. unfold formula_tag in E. destruct (pictures formula) as [[[file width] height] style]. cbn [fst] in H. exists (HtmlModel.escapePathComponents file). split; [|exact H].
  change !"img alt=" with (!"img " ++ !"alt=") in E. rewrite <- app_assoc in E. apply app_inv_head in E. subst a.
  exists (!"alt=" ++ dq ++ !"image" ++ dq ++ !" "), (!" style=" ++ dq ++ !"width: " ++ width ++ !"; height: " ++ height ++ !"; " ++ style ++ dq).
  split; [rewrite <- !app_assoc; reflexivity|]. split; [apply occurs_contains; vm_compute; reflexivity|]. intros c I. apply escaped_no_quote. exact I.
Qed.

Lemma fitting_picture : forall p, picture_ok cfg p -> fits (HtmlModel.escapePathComponents (filenameToImagePath cfg (wiki_file (file_name p)))) -> fitting (@picture_tag cfg p).
Proof.
  intros p A H a E. rewrite picture_path in H by exact A. unfold picture_tag in E. cbv zeta in E. set (file := HtmlModel.escapePathComponents _) in *. exists file. split; [|exact H].
  set (st := match size p with Some _ => _ | None => _ end) in E. change !"img alt=" with (!"img " ++ !"alt=") in E. rewrite <- app_assoc in E. apply app_inv_head in E. subst a.
  exists (!"alt=" ++ (dq ++ !"image" ++ dq ++ (if as_figure p then [] else !" class=" ++ dq ++ !"inline" ++ dq) ++ !" ")), (!" " ++ st).
  split; [rewrite <- !app_assoc; reflexivity|]. split; [destruct (as_figure p); apply occurs_contains; vm_compute; reflexivity|]. intros c I. apply escaped_no_quote. exact I.
Qed.

Lemma fitting_header : forall style, ~ In "<"%char style -> ~ In ">"%char style -> tidy fitting (HEADER style).
Proof.
  intros style N1 N2.
  exists [!"<" ++ (!"?xml version=" ++ dq ++ !"1.0" ++ dq ++ !" encoding=" ++ dq ++ !"UTF-8" ++ dq ++ !"?") ++ !">"; nl; !"<" ++ (!"html xmlns=" ++ dq ++ !"http://www.w3.org/1999/xhtml" ++ dq) ++ !">"; nl; !"<" ++ !"head" ++ !">"; nl;
    !"<" ++ (!"meta charset=" ++ dq ++ !"utf-8" ++ dq) ++ !">"; nl; !"<" ++ (!"link rel=" ++ dq ++ !"stylesheet" ++ dq ++ !" href=" ++ dq ++ style ++ dq) ++ !">"; nl; !"<" ++ !"/head" ++ !">"; nl;
    !"<" ++ (!"body xmlns:epub=" ++ dq ++ !"http://www.idpf.org/2007/ops" ++ dq) ++ !">"; nl]. split.
  - repeat apply Forall_cons; try apply Forall_nil; try (left; no_angle); right; eexists; (split; [reflexivity|]);
      try (split; [no_angle|split; [no_angle|apply fitting_other; [intros x E; vm_compute in E; discriminate|auto]]]).
    assert (T : forall c, In c !"<>" -> ~ In c (!"link rel=" ++ dq ++ !"stylesheet" ++ dq ++ !" href=" ++ dq ++ style ++ dq)).
    { intros c I X. cbn in I. repeat (apply in_app_or in X as [X|X]); destruct I as [<-|[<-|[]]]; auto; vm_compute in X; intuition discriminate. }
    split; [apply T; cbn; auto|split; [apply T; cbn; auto|apply fitting_other; [intros x E; discriminate E|auto]]].
  - cbn [concat]. unfold HEADER. rewrite app_nil_r, <- !app_assoc. reflexivity.
Qed.

Lemma page_sources : forall style title doc, Forall (@block_ok cfg) doc ->
  (forall c, In c !"<>" -> ~ In c (style ++ title)) ->
  (forall formula, In formula (document_formulas doc) -> plain_picture pictures formula /\ fits (HtmlModel.escapePathComponents (fst (fst (fst (pictures formula)))))) ->
  (forall p, In p (document_pictures doc) -> picture_ok cfg p -> fits (HtmlModel.escapePathComponents (filenameToImagePath cfg (wiki_file (file_name p))))) ->
  forall attributes, image_element (document_page cfg pictures style title doc) attributes -> exists src, source attributes src /\ fits src.
Proof.
  intros style title doc F N Hf Hp attributes (before & behind & E & A).
  assert (T : tidy fitting (document_page cfg pictures style title doc)).
  { assert (Nt : forall c, In c !"<>" -> ~ In c style /\ ~ In c title) by (intros c I; specialize (N c I); rewrite in_app_iff in N; tauto).
    unfold document_page. apply tidy_app; [apply fitting_header; apply Nt; cbn; auto|]. apply tidy_app; [apply tidy_nl|].
    apply tidy_app; [apply (tidy_tag fitting !"h1"); [no_angle|no_angle|apply fitting_other; [intros x X; discriminate X|auto]]|].
    apply tidy_app; [apply tidy_text; apply Nt; cbn; auto|]. apply tidy_app; [apply (tidy_tag fitting !"/h1"); [no_angle|no_angle|apply fitting_other; [intros x X; discriminate X|auto]]|].
    apply tidy_app; [apply tidy_nl|]. apply tidy_app; [|eapply tidy_footer; exact fitting_other].
    eapply (tidy_document fitting True fitting_other pictures (document_formulas doc) (document_pictures doc)); auto using incl_refl.
    - intros formula I. apply (Hf formula I).
    - intros formula I. apply fitting_formula. apply (Hf formula I).
    - intros p I O. apply fitting_picture; auto. }
  apply (tidy_fine fitting _ (!"img " ++ attributes)) in T; [apply (T attributes eq_refl)| | |].
  - intros X. apply in_app_or in X as [X|X]; [vm_compute in X; intuition discriminate|]. apply (A "<"%char); cbn; auto.
  - intros X. apply in_app_or in X as [X|X]; [vm_compute in X; intuition discriminate|]. apply (A ">"%char); cbn; auto.
  - exists before, behind. rewrite E. change !"<img " with (!"<" ++ !"img "). rewrite <- !app_assoc. reflexivity.
Qed.
End Sources.
