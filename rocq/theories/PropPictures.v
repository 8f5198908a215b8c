(** * Images in the text (C57) *)

From Coq Require Import Ascii String.
From Coq Require Import List Arith ZArith Bool Lia.
From Verif Require Import GoStr GoStrFacts ConfigModel TokenModel ImageModel TokenizerModel.
From Verif Require Import TokenSpec TokenProofs PassSpec HeadingProofs LinkProofs PropPasses PictureSpec PictureProofs.
Import ListNotations.
Local Open Scope list_scope.

(** No prefix for files is an option for frames. *)
Definition no_frame_prefix (cfg : configuration) : Prop := forall p, In p (lists cfg FilePrefixes) -> ~ frame_option p.

(** Every image becomes one token with its file, its size and its caption, unless its type is ignored or it has another prefix; the text
    outside of the images stays.  (The name of a file that ends with px is taken for a size, see below.) *)
Theorem C57_images : forall cfg fuel first pictures result t t', no_frame_prefix cfg -> unique t ->
  no_link first -> Forall picture_ok pictures ->
  parseImages cfg (tokenizeContent cfg fuel) (first ++ concat (map picture_wikitext pictures)) t = Ok (result, t') ->
  exists pieces, result = pictures_replaced first pictures pieces /\ Forall2 (picture_result cfg (tokenizeContent cfg fuel) t') pictures pieces.
Proof.
  intros cfg fuel first pictures result t t' P U F H E.
  destruct (images_loop cfg _ (runs cfg fuel) P pictures _ first t (ok_false t U) F H result t' E) as (_ & _ & R). exact R.
Qed.
Print Assumptions C57_images.

(** The parts of an image are unique. *)
Theorem C57_parts : forall s first others media file first' others' media' file', bar_parts s first others -> file_of first media file ->
  bar_parts s first' others' -> file_of first' media' file' -> first' = first /\ others' = others /\ media' = media /\ file' = file.
Proof.
  intros s first others media file first' others' media' file' B F B' F'. apply bars_split in B, B'. rewrite B in B'. injection B' as <- <-.
  split; auto. split; auto. destruct F as [(N & -> & ->)|(r & E & N & ->)], F' as [(N' & -> & ->)|(r' & E' & N' & ->)]; auto.
  - exfalso. apply N. rewrite E'. rewrite !in_app_iff. right. left. left. auto.
  - exfalso. apply N'. rewrite E. rewrite !in_app_iff. right. left. left. auto.
  - pose proof (split2_first ":" media r N) as S1. pose proof (split2_first ":" media' r' N') as S2.
    change (media ++ ":"%char :: r) with (media ++ !":" ++ r) in S1. change (media' ++ ":"%char :: r') with (media' ++ !":" ++ r') in S2.
    rewrite <- E in S1. rewrite <- E' in S2. rewrite S1 in S2. injection S2 as -> ->. auto.
Qed.
Print Assumptions C57_parts.

Theorem C57_wanted : forall cfg l a b, wanted_options cfg l a -> wanted_options cfg l b -> a = b.
Proof.
  intros cfg l a b H. revert b. induction H as [|o l a N H IH|o l a N H IH]; intros b H'; inversion H'; subst; auto; try contradiction.
  f_equal. auto.
Qed.
Print Assumptions C57_wanted.

(** *** A case that meets the hypotheses *)

Definition pictures_example : list picture :=
  [mkPicture !"File" !"b c.jpg|thumb|200x100px|A [[cap]] here" !" b "; mkPicture !"Image" !"x.jpg|20px" !" c "; mkPicture !"file" !"y.ogg|thumb" []].

Lemma bracketed_plain : forall s r, ~ In "["%char s -> ~ In "]"%char s -> bracketed r -> bracketed (s ++ r).
Proof. induction s as [|c s IH]; intros r N1 N2 H; auto. cbn [app]. constructor; [intros ->; apply N1; left; auto|intros ->; apply N2; left; auto|]. apply IH; auto; intros I; [apply N1|apply N2]; right; auto. Qed.

Example C57_example : no_frame_prefix default_config /\ no_link !"a " /\ Forall picture_ok pictures_example /\
  exists image icon t', parseImages default_config (tokenizeContent default_config 5) (!"a " ++ concat (map picture_wikitext pictures_example)) NewTokenizer =
      Ok (!"a " ++ image ++ !" b " ++ icon ++ !" c ", t') /\
    (exists caption, lookup_token image (tokenMap t') = Some (ImageToken !"B_c.jpg" caption 200 100)) /\
    lookup_token icon (tokenMap t') = Some (InlineImageToken !"X.jpg" 20 (-1)).
Proof.
  assert (NC : forall c s, existsb (Ascii.eqb c) s = false -> no_char c s).
  { intros c s E I. assert (X : existsb (Ascii.eqb c) s = true) by (apply existsb_exists; exists c; split; auto; apply Ascii.eqb_refl). congruence. }
  assert (NL : forall s c x, contains !"[[" s = false -> s = x ++ [c] -> c <> "["%char -> no_link s).
  { intros s c x C E N. split; auto. intros (y & Y). rewrite E in Y. apply app_inj_tail in Y as [_ ->]. auto. }
  split; [|split; [|split]].
  - intros p I. cbn in I. destruct I as [<-|[<-|[<-|[]]]]; intros [(s & H)|(s & H)]; discriminate H.
  - apply (NL _ " "%char !"a"); try reflexivity. discriminate.
  - constructor; [|constructor; [|constructor; [|constructor]]]; (split; [discriminate|]); (split; [apply NC; reflexivity|]); (split; [apply NC; reflexivity|]);
      (split; [apply NC; reflexivity|]); split; cbn [body after_picture].
    + apply (bracketed_plain !"b c.jpg|thumb|200x100px|A " !"[[cap]] here"); try (apply NC; reflexivity).
      apply (bracketed_pair (!"[" ++ !"cap" ++ !"]" ++ []) !" here").
      * apply bracketed_pair; [|constructor]. apply (bracketed_plain !"cap" []); try (apply NC; reflexivity). constructor.
      * apply (bracketed_plain !" here" []); try (apply NC; reflexivity). constructor.
    + apply (NL _ " "%char !" b"); try reflexivity. discriminate.
    + apply (bracketed_plain !"x.jpg|20px" []); try (apply NC; reflexivity). constructor.
    + apply (NL _ " "%char !" c"); try reflexivity. discriminate.
    + apply (bracketed_plain !"y.ogg|thumb" []); try (apply NC; reflexivity). constructor.
    + split; [reflexivity|]. intros (x & X). destruct x; discriminate.
  - exists (token_key TOKEN_IMAGE 1), (token_key TOKEN_IMAGE_INLINE 2). eexists. split; [vm_compute; reflexivity|]. split; [eexists|]; vm_compute; reflexivity.
Qed.

(** *** Captions that are lost *)

(** The caption is the text behind the last bar of an image with a frame, but not if it begins with the word mini (or thumb) ... *)
Theorem C57_refuted_frame : exists key t',
  parseImages default_config (tokenizeContent default_config 5) !"[[File:a.jpg|thumb|miniature of a ship]]" NewTokenizer = Ok (key, t') /\
  lookup_token key (tokenMap t') = Some (ImageToken !"A.jpg" [] (-1) (-1)).
Proof. eexists. eexists. split; vm_compute; reflexivity. Qed.
Print Assumptions C57_refuted_frame.

(** ... or with the name of an ignored option, ... *)
Definition with_lists (option : list_option -> option (list str)) (cfg : configuration) : configuration :=
  mkConfiguration (bools cfg) (ints cfg) (strings cfg) (fun l => match option l with Some x => x | None => lists cfg l end).

Definition ignoring_left : configuration := with_lists (fun l => match l with IgnoredImageParams => Some [!"left"; !"page"] | _ => None end) default_config.

Theorem C57_refuted_ignored : exists key t',
  parseImages ignoring_left (tokenizeContent ignoring_left 5) !"[[File:a.jpg|thumb|page of a book]]" NewTokenizer = Ok (key, t') /\
  lookup_token key (tokenMap t') = Some (ImageToken !"A.jpg" [] (-1) (-1)).
Proof. eexists. eexists. split; vm_compute; reflexivity. Qed.
Print Assumptions C57_refuted_ignored.

(** ... or ends with px. *)
Theorem C57_refuted_size : exists key t',
  parseImages default_config (tokenizeContent default_config 5) !"[[File:a.jpg|thumb|an icon with 16px]]" NewTokenizer = Ok (key, t') /\
  lookup_token key (tokenMap t') = Some (ImageToken !"A.jpg" [] (-1) (-1)).
Proof. eexists. eexists. split; vm_compute; reflexivity. Qed.
Print Assumptions C57_refuted_size.

(** A file whose name ends like a size is shown as an image with this size, and not in the text. *)
Theorem C57_refuted_name : exists key t',
  parseImages default_config (tokenizeContent default_config 5) !"[[File:Flag of x60px]]" NewTokenizer = Ok (key, t') /\
  lookup_token key (tokenMap t') = Some (ImageToken !"Flag_of_x60px" [] (-1) 60).
Proof. eexists. eexists. split; vm_compute; reflexivity. Qed.
Print Assumptions C57_refuted_name.

(** The prefix in the text plays no role: if file is not one of the configured prefixes, every image disappears. *)
Definition german_prefix : configuration := with_lists (fun l => match l with FilePrefixes => Some [!"datei"] | _ => None end) default_config.

Theorem C57_refuted_prefix : exists t',
  parseImages german_prefix (tokenizeContent german_prefix 5) !"a [[Datei:b.jpg|mini|c]] d" NewTokenizer = Ok (!"a  d", t').
Proof. eexists. vm_compute. reflexivity. Qed.
Print Assumptions C57_refuted_prefix.
