(** * Specification: how the elements of an article are shown *)

From Coq Require Import Ascii String.
From Coq Require Import List Arith ZArith Bool.
From Verif Require Import GoStr TokenModel TokenSpec PassSpec ExpandSpec ConfigModel ImageSpec.
Import ListNotations.
Local Open Scope list_scope.

(** ** Elements *)

Definition attribute (name value : str) : str := !" " ++ name ++ !"=" ++ dq ++ value ++ dq.
Definition class (name : str) : str := attribute !"class" name.
Definition element (name attributes content : str) : str := !"<" ++ name ++ attributes ++ !">" ++ content ++ !"</" ++ name ++ !">".
Definition void_element (name attributes : str) : str := !"<" ++ name ++ attributes ++ !">".
(** Content on its own lines *)
Definition own_lines (content : str) : str := nl ++ content ++ nl.

(** ** Images *)

(** The size of an image; -1: the size is not known *)
Definition pixels (n : Z) : str :=
  if (n =? -1)%Z then !"auto" else (if (n <? 0)%Z then !"-" else []) ++ itoa (Z.abs_nat n) ++ !"px".
Definition size_style (x y : Z) : str :=
  if (x =? -1)%Z && (y =? -1)%Z then !" "
  else attribute !"style" (!"vertical-align: middle; width: " ++ pixels x ++ !"; height: " ++ pixels y ++ !";").

(** The reference to a file: it is decoded to the path of the file, and it has no characters that end the attribute. *)
Definition refers (source path : str) : Prop :=
  exists r, source = !"./" ++ r /\ (~ In " "%char path -> percent_decode r = path) /\ forall c, In c (!"<>& " ++ dq ++ nl) -> ~ In c r.

(** The path of an image is the path of the downloaded file, or of the converted file next to it. *)
Definition path_of_image (cfg : configuration) (file path : str) : Prop :=
  forall wiki, same_settings cfg wiki -> image_name file -> exists p, image_file wiki file p /\ path = join !"/" p.

(** ** Lists *)

Definition begins_item (s : str) : Prop := exists x, trim_space s = !"<li" ++ x.

(** An item that is a list item in HTML already is only closed. *)
Inductive item_shown : ListItemTokenType -> str -> str -> Prop :=
| normal_item : forall s, ~ begins_item s -> item_shown NORMAL_ITEM s (element !"li" [] (own_lines s))
| closed_item : forall s, begins_item s -> contains !"</li" s = true -> item_shown NORMAL_ITEM s s
| open_item : forall s, begins_item s -> contains !"</li" s = false -> item_shown NORMAL_ITEM s (s ++ !"</li>")
| term_item : forall s, item_shown DESCRIPTION_HEAD s (element !"div" (class !"dt") (own_lines s))
| description_item : forall s, item_shown DESCRIPTION_ITEM s (element !"div" (class !"dd") (own_lines s)).

Definition list_shown (kind : list_kind) (items : str) : str :=
  match kind with
  | Unordered => element !"ul" [] (own_lines items)
  | Ordered => element !"ol" [] (own_lines items)
  | Description => element !"div" (class !"description-list") (own_lines items)
  end.

(** ** Tables *)

Definition attribute_list (attributes : list str) : str := match join !" " attributes with [] => [] | a => !" " ++ a end.
Definition cell_shown (cell : TableColToken) (content : str) : str :=
  if IsHeading cell then element !"th" (attribute_list (Attributes cell)) (own_lines content) ++ nl
  else element !"td" (attribute_list (Attributes cell)) (own_lines content).
Definition row_shown (cells : list str) : str := element !"tr" [] (own_lines (join nl cells)).
Definition caption_shown (caption : str) : str := element !"div" (class !"caption") (own_lines caption).
Definition figure_shown (content : str) : str := element !"div" (class !"figure") (own_lines content).

(** ** All elements *)

Section Shown.
Variable cfg : configuration.
(** The rendered formulas: path of the image, width, height and style *)
Variable rendered : str -> str * str * str * str -> Prop.
(** The token map *)
Variable m : list (str * Token).

(** [text_shown s h]: the text [s] with keys of tokens and markers is shown as the HTML [h]. *)
Inductive text_shown : str -> str -> Prop :=
| show_text : forall d hs, layout_ok d -> Forall2 key_shown (map fst (snd d)) hs -> text_shown (layout_text d) (filled d hs)
with key_shown : str -> str -> Prop :=
| show_marker : forall k h, In (k, h) marker_html -> key_shown k h
| show_key : forall k token h, is_key k -> lookup_token k m = Some token -> token_shown token h -> key_shown k h
with token_shown : Token -> str -> Prop :=
| show_heading : forall content depth h, text_shown content h -> token_shown (HeadingToken content depth) (element (!"h" ++ itoa depth) [] h)
| show_internal_link : forall article content h, text_shown content h -> token_shown (InternalLinkToken article content) h
| show_external_link : forall url content h, text_shown content h -> token_shown (ExternalLinkToken url content) (element !"a" (attribute !"href" url) h)
| show_inline_image : forall file x y path source, path_of_image cfg file path -> refers source path ->
    token_shown (InlineImageToken file x y) (void_element !"img" (attribute !"alt" !"image" ++ class !"inline" ++ attribute !"src" source ++ size_style x y))
| show_image : forall file caption x y path source h, path_of_image cfg file path -> refers source path -> text_shown caption h ->
    token_shown (ImageToken file caption x y)
      (figure_shown (void_element !"img" (attribute !"alt" !"image" ++ attribute !"src" source ++ size_style x y) ++ nl ++ caption_shown h))
| show_formula : forall formula path width height style source, rendered formula (path, width, height, style) -> refers source path ->
    token_shown (MathToken formula)
      (void_element !"img" (attribute !"alt" !"image" ++ attribute !"src" source ++ attribute !"style" (!"width: " ++ width ++ !"; height: " ++ height ++ !"; " ++ style)))
| show_footnote : forall index content h, text_shown content h ->
    token_shown (RefDefinitionToken index content) (!"[" ++ itoa (1 + index) ++ !"] " ++ h ++ void_element !"br" [])
| show_footnote_number : forall index, token_shown (RefUsageToken index) (!"[" ++ itoa (1 + index) ++ !"]")
| show_nowiki : forall content, token_shown (NowikiToken content) content
| show_table : forall rows caption hss h, Forall2 (Forall2 (fun cell => text_shown (ColContent cell))) rows hss -> text_shown caption h ->
    token_shown (TableToken rows caption)
      (figure_shown (element !"table" [] (own_lines (join nl (map (fun p => row_shown (map (fun q => cell_shown (fst q) (snd q)) (combine (fst p) (snd p)))) (combine rows hss)))) ++
                     nl ++ caption_shown h))
| show_list : forall l h, list_token_shown l h -> token_shown (ListTokenOf l) h
with list_token_shown : ListToken -> str -> Prop :=
| show_items : forall kind items hs, Forall2 item_token_shown items hs -> list_token_shown (AnyListToken kind items) (list_shown kind (join nl hs))
with item_token_shown : ListItemToken -> str -> Prop :=
| show_item : forall type content subLists h hs r, text_shown content h -> Forall2 list_token_shown subLists hs -> item_shown type (join nl (h :: hs)) r ->
    item_token_shown (mkListItemToken type content subLists) r.
End Shown.

(** ** The file of an article *)

Definition page (style title body : str) : str :=
  !"<?xml" ++ attribute !"version" !"1.0" ++ attribute !"encoding" !"UTF-8" ++ !"?>" ++ nl ++
  element !"html" (attribute !"xmlns" !"http://www.w3.org/1999/xhtml") (own_lines
    (element !"head" [] (own_lines (void_element !"meta" (attribute !"charset" !"utf-8") ++ nl ++
                                    void_element !"link" (attribute !"rel" !"stylesheet" ++ attribute !"href" style))) ++ nl ++
     element !"body" (attribute !"xmlns:epub" !"http://www.idpf.org/2007/ops") (own_lines (nl ++ element !"h1" [] title ++ nl ++ body)))) ++ nl.

(** The text consists of plain text, of markers and of keys. *)
Definition laid_out (s : str) : Prop := exists d, layout_ok d /\ s = layout_text d.
