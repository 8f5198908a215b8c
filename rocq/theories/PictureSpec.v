(** * Specification of images in the text *)

From Coq Require Import Ascii String.
From Coq Require Import List ZArith Bool.
From Verif Require Import GoStr ConfigModel TokenModel TokenSpec PassSpec.
Import ListNotations.
Local Open Scope list_scope.

(** ** The text of an image *)

(** A text in which every opening square bracket is closed again *)
Inductive bracketed : str -> Prop :=
| bracketed_empty : bracketed []
| bracketed_char : forall c s, c <> "["%char -> c <> "]"%char -> bracketed s -> bracketed (c :: s)
| bracketed_pair : forall a b, bracketed a -> bracketed b -> bracketed (!"[" ++ a ++ !"]" ++ b).

(** An image [[prefix:body]], and the text behind it *)
Record picture := mkPicture { prefix : str; body : str; after_picture : str }.
Definition picture_wikitext (p : picture) : str := !"[[" ++ prefix p ++ !":" ++ body p ++ !"]]" ++ after_picture p.

Definition picture_ok (p : picture) : Prop :=
  prefix p <> [] /\ no_char "[" (prefix p) /\ no_char "]" (prefix p) /\ no_char ":" (prefix p) /\ bracketed (body p) /\ no_link (after_picture p).

(** The text with other texts in place of the images *)
Definition pictures_replaced (first : str) (pictures : list picture) (pieces : list str) : str :=
  first ++ concat (map (fun p => snd p ++ after_picture (fst p)) (combine pictures pieces)).

(** ** Its parts *)

(** The parts between bars *)
Definition bar_parts (s first : str) (others : list str) : Prop :=
  s = first ++ concat (map (app !"|") others) /\ no_char "|" first /\ Forall (no_char "|") others.

(** The file, with a media type in front of it; files without one have the type File *)
Definition file_of (s media file : str) : Prop :=
  (no_char ":" s /\ media = !"File" /\ file = trim_space s) \/
  (exists rest, s = media ++ !":" ++ rest /\ no_char ":" media /\ file = trim_space rest).

(** The extension of a file name without its dot *)
Definition extension (file e : str) : Prop :=
  (exists base, file = base ++ !"." ++ e /\ no_char "." e /\ no_char "/" e) \/
  (e = [] /\ forall base x, file = base ++ !"." ++ x -> In "/"%char x).

(** Files of this type are not wanted, and they are not converted to images. *)
Definition unwanted_type (cfg : configuration) (file : str) : Prop :=
  exists e, extension file e /\ In (to_lower e) (lists cfg IgnoredMediaTypes) /\
    ~ (to_lower e = !"pdf" /\ strings cfg CommandTemplatePdfToPng <> []) /\
    ~ (to_lower e = !"svg" /\ strings cfg CommandTemplateSvgToPng <> []).

(** The name in the wiki: underscores in place of blanks (also of escaped ones), and a capital letter at the beginning *)
Definition wiki_name (file name : str) : Prop :=
  exists c s, replace_all !"%20" !"_" (replace_all !" " !"_" file) = c :: s /\ name = upper_char c :: s.

(** ** Its options *)

(** The image is a block with a caption. *)
Definition frame_option (o : str) : Prop := (exists s, o = !"mini" ++ s) \/ (exists s, o = !"thumb" ++ s).

(** A number, or -1 *)
Definition number (s : str) : Z := match atoi (trim_space s) with Some n => n | None => (-1)%Z end.

(** {width}px, x{height}px or {width}x{height}px *)
Definition size_option (o : str) (x y : Z) : Prop :=
  ~ frame_option o /\ exists s, o = s ++ !"px" /\
  ((no_char "x" s /\ x = number s /\ y = (-1)%Z) \/
   (exists a b, s = a ++ !"x" ++ b /\ no_char "x" a /\ no_char "x" b /\ x = number a /\ y = number b) \/
   (exists a b c, s = a ++ !"x" ++ b ++ !"x" ++ c /\ no_char "x" a /\ x = number a /\ y = (-1)%Z)).

(** Options that are not ignored *)
Definition ignored_option (cfg : configuration) (o : str) : Prop := exists p s, In p (lists cfg IgnoredImageParams) /\ o = p ++ s.
Inductive wanted_options (cfg : configuration) : list str -> list str -> Prop :=
| wanted_none : wanted_options cfg [] []
| wanted_keep : forall o l l', ~ ignored_option cfg o -> wanted_options cfg l l' -> wanted_options cfg (o :: l) (o :: l')
| wanted_drop : forall o l l', ignored_option cfg o -> wanted_options cfg l l' -> wanted_options cfg (o :: l) l'.

Definition framed (options : list str) : Prop := exists o, In o options /\ frame_option o.
Definition large (options : list str) : Prop := exists o x y, In o options /\ size_option o x y /\ (100 <= x \/ 50 <= y)%Z.

(** The last size counts. *)
Definition size_of (options : list str) (x y : Z) : Prop :=
  (x = (-1)%Z /\ y = (-1)%Z /\ forall o x' y', In o options -> ~ size_option o x' y') \/
  (exists a o b, options = a ++ o :: b /\ size_option o x y /\ forall o' x' y', In o' b -> ~ size_option o' x' y').

(** The last option is a caption if it is nothing else and the image has a frame. *)
Definition has_caption (options : list str) (caption : str) : Prop :=
  framed options /\ ~ frame_option caption /\ (forall x y, ~ size_option caption x y) /\ exists others, options = others ++ [caption].

(** The token: large images and images with a frame are blocks, others are part of the text. *)
Definition image_token_of (rec : str -> M str) (t : Tokenizer) (name : str) (options : list str) (token : Token) : Prop :=
  exists x y, size_of options x y /\
  (((framed options \/ large options) /\ exists caption, token = ImageToken name caption x y /\
      (forall o, has_caption options o -> parsed_as rec t o caption) /\ ((forall o, ~ has_caption options o) -> caption = [])) \/
   (~ framed options /\ ~ large options /\ token = InlineImageToken name x y)).

(** ** What becomes of an image *)

(** The options that count.  The file itself is taken for an option if its name ends like a size. *)
Definition counted_options (cfg : configuration) (media name : str) (others options : list str) : Prop :=
  (~ (exists s, name = s ++ !"px") /\ wanted_options cfg others options) \/
  ((exists s, name = s ++ !"px") /\ wanted_options cfg ((media ++ !":" ++ name) :: others) options).

(** [inner] is the parsed text behind the prefix. *)
Definition picture_result (cfg : configuration) (rec : str -> M str) (t : Tokenizer) (p : picture) (piece : str) : Prop :=
  exists inner first others media file, parsed_as rec t (body p) inner /\ bar_parts inner first others /\ file_of first media file /\
    ((unwanted_type cfg file \/ ~ In (to_lower media) (lists cfg FilePrefixes)) -> piece = []) /\
    (~ unwanted_type cfg file -> In (to_lower media) (lists cfg FilePrefixes) ->
     exists name token options, wiki_name file name /\ lookup_token piece (tokenMap t) = Some token /\
       counted_options cfg media name others options /\ image_token_of rec t name options token).
