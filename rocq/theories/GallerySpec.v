(** * Specification of galleries and image maps *)

From Coq Require Import Ascii String.
From Coq Require Import List ZArith Bool.
From Verif Require Import GoStr ConfigModel PassSpec PictureSpec.
Import ListNotations.
Local Open Scope list_scope.

(** ** Tags *)

(** The line begins with a tag, maybe with attributes and in capital letters, and the rest is behind it. *)
Definition start_tag (tag line rest : str) : Prop :=
  exists word attributes, line = word ++ attributes ++ !">" ++ rest /\ to_lower word = tag /\ no_char ">" attributes /\ no_char nl_char attributes.

Definition opening_line (line rest : str) : Prop := start_tag !"<gallery" (trim_space line) rest.
Definition closing_line (line rest : str) : Prop := exists word, trim_space line = word ++ rest /\ to_lower word = !"</gallery>".

(** ** The image *)

(** The wikitext of an image with the name of its file as it is in the wiki; nothing if files of its type are not wanted *)
Definition escaped (cfg : configuration) (image result : str) : Prop :=
  exists first others media file, bar_parts image first others /\ file_of first media file /\
    ((unwanted_type cfg file /\ result = []) \/
     (~ unwanted_type cfg file /\ exists name, wiki_name file name /\ bar_parts result (media ++ !":" ++ name) others)).

(** An image of a gallery has a frame. *)
Definition mentions_frame (image : str) : Prop := contains !"mini" (to_lower image) = true \/ contains !"thumb" (to_lower image) = true.
Definition with_frame (image result : str) : Prop :=
  (mentions_frame image /\ result = image) \/
  (~ mentions_frame image /\ exists first others, bar_parts image first others /\ bar_parts result first (!"mini" :: others)).

(** ** Galleries *)

(** A line of a gallery is one image, maybe behind the tag of the gallery; empty lines disappear. *)
Definition gallery_line (cfg : configuration) (line : str) (result : list str) : Prop :=
  (forall rest, ~ closing_line line rest) /\
  exists image, (opening_line line image \/ (image = trim_space line /\ forall rest, ~ opening_line line rest)) /\
  ((image = [] /\ result = []) \/
   (image <> [] /\ exists framed_image wikitext, with_frame image framed_image /\ escaped cfg framed_image wikitext /\
      ((wikitext = [] /\ result = [[]]) \/ (wikitext <> [] /\ result = [!"[[" ++ wikitext ++ !"]]"])))).

(** The line of the closing tag disappears, text behind it stays. *)
Definition no_closing_tag (s : str) : Prop := contains !"</gallery>" (to_lower s) = false.
Definition closed (line : str) (result : list str) : Prop :=
  exists rest, closing_line line rest /\
  ((rest = [] /\ result = []) \/
   (rest <> [] /\ exists kept, result = [kept] /\
      forall before word after, line = before ++ word ++ after -> to_lower word = !"</gallery>" -> no_closing_tag before -> no_closing_tag after -> kept = before ++ after)).

Inductive galleries (cfg : configuration) : list str -> list str -> Prop :=
| galleries_end : galleries cfg [] []
| galleries_text : forall line lines result, (forall rest, ~ opening_line line rest) -> (forall rest, ~ closing_line line rest) ->
    galleries cfg lines result -> galleries cfg (line :: lines) (line :: result)
| galleries_gallery : forall line rest more results last kept lines result, opening_line line rest -> Forall2 (gallery_line cfg) (line :: more) results ->
    closed last kept -> galleries cfg lines result -> galleries cfg (line :: more ++ last :: lines) (concat results ++ kept ++ result)
| galleries_unclosed : forall line rest more results, opening_line line rest -> Forall2 (gallery_line cfg) (line :: more) results ->
    galleries cfg (line :: more) (concat results)
| galleries_closing : forall last kept lines result, closed last kept -> galleries cfg lines result -> galleries cfg (last :: lines) (kept ++ result).

(** ** Image maps *)

Definition map_end (line : str) : Prop := to_lower line = !"</imagemap>".

(** The first lines of an image map with its image *)
Inductive map_start : list str -> str -> Prop :=
| map_same_line : forall line rest, start_tag !"<imagemap" line rest -> trim_space rest <> [] -> map_start [line] (trim_space rest)
| map_next_line : forall line rest image, start_tag !"<imagemap" line rest -> trim_space rest = [] -> map_start [line; image] image.

(** An image map is replaced by its image, all other lines of it disappear. *)
Inductive image_maps (cfg : configuration) : list str -> list str -> Prop :=
| maps_end : image_maps cfg [] []
| maps_text : forall line lines result, (forall rest, ~ start_tag !"<imagemap" line rest) -> ~ map_end line ->
    image_maps cfg lines result -> image_maps cfg (line :: lines) (line :: result)
| maps_map : forall start image wikitext areas last lines result, map_start start image -> escaped cfg image wikitext ->
    Forall (fun line => ~ map_end line) areas -> map_end last -> image_maps cfg lines result ->
    image_maps cfg (start ++ areas ++ last :: lines) ((!"[[" ++ wikitext ++ !"]]") :: result)
| maps_unclosed : forall start image wikitext areas, map_start start image -> escaped cfg image wikitext ->
    Forall (fun line => ~ map_end line) areas -> image_maps cfg (start ++ areas) [!"[[" ++ wikitext ++ !"]]"]
| maps_closing : forall last lines result, map_end last -> image_maps cfg lines result -> image_maps cfg (last :: lines) result.
