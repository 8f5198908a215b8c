(** * Galleries and image maps (C58) *)

From Coq Require Import Ascii String.
From Coq Require Import List Arith ZArith Bool Lia.
From Verif Require Import GoStr GoStrFacts ConfigModel TokenModel ImageModel TokenizerModel.
From Verif Require Import PassSpec PropPasses PictureSpec GallerySpec GalleryProofs.
Import ListNotations.
Local Open Scope list_scope.

(** Every image of a gallery becomes the wikitext of an image with a frame, the tags disappear, and all lines outside of galleries stay. *)
Theorem C58_galleries : forall cfg text t result t', parseGalleries cfg text t = Ok (result, t') ->
  exists lines, galleries cfg (split nl text) lines /\ result = join nl lines.
Proof.
  intros cfg text t result t' E. unfold parseGalleries, bindM in E. destruct (parseGalleries_go cfg (split nl text) false t) as [[lines t1]| | |] eqn:G; try discriminate.
  cbn in E. injection E as <- _. exists lines. split; auto. apply galleries_go in G. auto.
Qed.
Print Assumptions C58_galleries.

(** Every image map becomes the wikitext of its image, and all lines outside of image maps stay. *)
Theorem C58_maps : forall cfg text t result t', parseImageMaps cfg text t = Ok (result, t') ->
  exists lines, image_maps cfg (split nl text) lines /\ result = join nl lines.
Proof.
  intros cfg text t result t' E. unfold parseImageMaps, bindM in E. destruct (parseImageMaps_go cfg (split nl text) false t) as [[lines t1]| | |] eqn:G; try discriminate.
  cbn in E. injection E as <- _. exists lines. split; auto. apply (image_maps_go cfg (length (split nl text))) in G; auto.
Qed.
Print Assumptions C58_maps.

(** Texts without the tags stay as they are. *)
Theorem C58_no_gallery : forall cfg text t result t', parseGalleries cfg text t = Ok (result, t') ->
  Forall (fun line => forall rest, ~ opening_line line rest /\ ~ closing_line line rest) (split nl text) -> result = text.
Proof.
  intros cfg text t result t' E N. destruct (C58_galleries _ _ _ _ _ E) as (lines & G & ->). replace lines with (split nl text); [apply join_split; discriminate|].
  clear E. induction G as [|line lines result O C G IH|line rest more results last kept lines result O|line rest more results O|last kept lines result C]; auto.
  - f_equal. apply IH. exact (Forall_inv_tail N).
  - exfalso. apply (proj1 (Forall_inv N rest)). auto.
  - exfalso. apply (proj1 (Forall_inv N rest)). auto.
  - exfalso. destruct C as (rest & C & _). apply (proj2 (Forall_inv N rest)). auto.
Qed.
Print Assumptions C58_no_gallery.

Theorem C58_no_map : forall cfg text t result t', parseImageMaps cfg text t = Ok (result, t') ->
  Forall (fun line => (forall rest, ~ start_tag !"<imagemap" line rest) /\ ~ map_end line) (split nl text) -> result = text.
Proof.
  intros cfg text t result t' E N. destruct (C58_maps _ _ _ _ _ E) as (lines & G & ->). replace lines with (split nl text); [apply join_split; discriminate|].
  clear E. assert (M : forall start image more, map_start start image -> Forall (fun line => (forall rest, ~ start_tag !"<imagemap" line rest) /\ ~ map_end line) (start ++ more) -> False).
  { intros start image more S F. destruct S as [line rest S _|line rest next S _]; apply (proj1 (Forall_inv F) rest); auto. }
  induction G as [|line lines result O C G IH|start image w areas last lines result S|start image w areas S|last lines result C]; auto.
  - f_equal. apply IH. exact (Forall_inv_tail N).
  - exfalso. eapply M; eauto.
  - exfalso. eapply M; eauto.
  - exfalso. apply (proj2 (Forall_inv N)). auto.
Qed.
Print Assumptions C58_no_map.

(** *** Cases *)

Definition lines (l : list str) : str := join nl l.

Example C58_example : exists t',
  parseGalleries default_config (lines [!"a"; !" <Gallery mode=x>"; !"File:b c.jpg|Text"; !""; !" d.ogg"; !"File:e.jpg|thumb"; !"</gallery> "; !"f"]) NewTokenizer =
  Ok (lines [!"a"; !"[[File:B_c.jpg|mini|Text]]"; !""; !"[[File:E.jpg|thumb]]"; !"f"], t').
Proof. eexists. vm_compute. reflexivity. Qed.

Example C58_example_map : exists t',
  parseImageMaps default_config (lines [!"a"; !"<imagemap>"; !"File:b c.jpg|mini|Text"; !"rect 1 2 3 4 [[b]]"; !"</Imagemap>"; !"f"]) NewTokenizer =
  Ok (lines [!"a"; !"[[File:B_c.jpg|mini|Text]]"; !"f"], t').
Proof. eexists. vm_compute. reflexivity. Qed.

(** *** The rest of an article is lost *)

(** A closing tag counts at the beginning of a line only: the text behind a gallery that is written in one line is taken for images. *)
Theorem C58_refuted_gallery : exists t',
  parseGalleries default_config (lines [!"<gallery>File:a.jpg</gallery>"; !"Some text."]) NewTokenizer =
  Ok (lines [!"[[File:A.jpg</gallery>|mini]]"; !"[[File:Some_text.|mini]]"], t').
Proof. eexists. vm_compute. reflexivity. Qed.
Print Assumptions C58_refuted_gallery.

(** The closing tag of an image map has to be the whole line: otherwise all text behind it disappears. *)
Theorem C58_refuted_map : exists t',
  parseImageMaps default_config (lines [!"<imagemap>"; !"File:a.jpg"; !"</imagemap> "; !"Some text."]) NewTokenizer =
  Ok (!"[[File:A.jpg]]", t').
Proof. eexists. vm_compute. reflexivity. Qed.
Print Assumptions C58_refuted_map.

(** If files of its type are not wanted, an image map leaves brackets in the text. *)
Theorem C58_refuted_unwanted : exists t',
  parseImageMaps default_config (lines [!"<imagemap>"; !"File:a.gif"; !"</imagemap>"; !"Some text."]) NewTokenizer =
  Ok (lines [!"[[]]"; !"Some text."], t').
Proof. eexists. vm_compute. reflexivity. Qed.
Print Assumptions C58_refuted_unwanted.
