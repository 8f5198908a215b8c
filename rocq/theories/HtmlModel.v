(** * Model of src/generator/html.go *)

From Coq Require Import Ascii String.
From Coq Require Import List Arith NArith ZArith Bool.
From Verif Require Import GoStr UtilModel ConfigModel TokenModel FormattingModel ExpandModel.
Import ListNotations.
Local Open Scope list_scope.

(** fmt's %d *)
Definition itoaZ (z : Z) : str := if (z <? 0)%Z then !"-" ++ itoa (Z.to_nat (- z)) else itoa (Z.to_nat z).

(** src/generator/html.go 21-32, with the style sheet *)
Definition HEADER (style : str) : str :=
  !"<?xml version=" ++ dq ++ !"1.0" ++ dq ++ !" encoding=" ++ dq ++ !"UTF-8" ++ dq ++ !"?>" ++ nl ++
  !"<html xmlns=" ++ dq ++ !"http://www.w3.org/1999/xhtml" ++ dq ++ !">" ++ nl ++
  !"<head>" ++ nl ++
  !"<meta charset=" ++ dq ++ !"utf-8" ++ dq ++ !">" ++ nl ++
  !"<link rel=" ++ dq ++ !"stylesheet" ++ dq ++ !" href=" ++ dq ++ style ++ dq ++ !">" ++ nl ++
  !"</head>" ++ nl ++
  !"<body xmlns:epub=" ++ dq ++ !"http://www.idpf.org/2007/ops" ++ dq ++ !">" ++ nl.
Definition FOOTER : str := nl ++ !"</body>" ++ nl ++ !"</html>" ++ nl.

(** src/generator/html.go 34-88: the templates, with their arguments *)
Definition quoted (s : str) : str := dq ++ s ++ dq.
Definition HREF_TEMPLATE (url text : str) : str := !"<a href=" ++ quoted url ++ !">" ++ text ++ !"</a>".
Definition IMAGE_INLINE_TEMPLATE (file size : str) : str :=
  !"<img alt=" ++ quoted !"image" ++ !" class=" ++ quoted !"inline" ++ !" src=" ++ quoted (!"./" ++ file) ++ !" " ++ size ++ !">".
Definition IMAGE_TEMPLATE (file size caption : str) : str :=
  !"<div class=" ++ quoted !"figure" ++ !">" ++ nl ++
  !"<img alt=" ++ quoted !"image" ++ !" src=" ++ quoted (!"./" ++ file) ++ !" " ++ size ++ !">" ++ nl ++
  !"<div class=" ++ quoted !"caption" ++ !">" ++ nl ++ caption ++ nl ++ !"</div>" ++ nl ++ !"</div>".
Definition MATH_TEMPLATE (file width height style : str) : str :=
  !"<img alt=" ++ quoted !"image" ++ !" src=" ++ quoted (!"./" ++ file) ++ !" style=" ++
  quoted (!"width: " ++ width ++ !"; height: " ++ height ++ !"; " ++ style) ++ !">".
Definition TABLE_TEMPLATE (rows caption : str) : str :=
  !"<div class=" ++ quoted !"figure" ++ !">" ++ nl ++ !"<table>" ++ nl ++ rows ++ nl ++ !"</table>" ++ caption ++ nl ++ !"</div>".
Definition TABLE_TEMPLATE_CAPTION (text : str) : str := nl ++ !"<div class=" ++ quoted !"caption" ++ !">" ++ nl ++ text ++ nl ++ !"</div>".
Definition TABLE_TEMPLATE_HEAD (attributes text : str) : str := !"<th" ++ attributes ++ !">" ++ nl ++ text ++ nl ++ !"</th>" ++ nl.
Definition TABLE_TEMPLATE_ROW (columns : str) : str := !"<tr>" ++ nl ++ columns ++ nl ++ !"</tr>".
Definition TABLE_TEMPLATE_COL (attributes text : str) : str := !"<td" ++ attributes ++ !">" ++ nl ++ text ++ nl ++ !"</td>".
Definition TEMPLATE_UL (items : str) : str := !"<ul>" ++ nl ++ items ++ nl ++ !"</ul>".
Definition TEMPLATE_OL (items : str) : str := !"<ol>" ++ nl ++ items ++ nl ++ !"</ol>".
Definition TEMPLATE_DL (items : str) : str := !"<div class=" ++ quoted !"description-list" ++ !">" ++ nl ++ items ++ nl ++ !"</div>".
Definition TEMPLATE_LI (item : str) : str := !"<li>" ++ nl ++ item ++ nl ++ !"</li>".
Definition TEMPLATE_DT (item : str) : str := !"<div class=" ++ quoted !"dt" ++ !">" ++ nl ++ item ++ nl ++ !"</div>".
Definition TEMPLATE_DD (item : str) : str := !"<div class=" ++ quoted !"dd" ++ !">" ++ nl ++ item ++ nl ++ !"</div>".
Definition TEMPLATE_HEADING (depth : nat) (text : str) : str := !"<h" ++ itoa depth ++ !">" ++ text ++ !"</h" ++ itoa depth ++ !">".
Definition TEMPLATE_REF_DEF (index : nat) (text : str) : str := !"[" ++ itoa index ++ !"] " ++ text ++ !"<br>".
Definition TEMPLATE_REF_USAGE (index : nat) : str := !"[" ++ itoa index ++ !"]".

(** url.QueryEscape *)
Definition hex_digit (n : N) : ascii := ascii_of_N (if (n <? 10)%N then 48 + n else 55 + n).
Definition is_letter (c : ascii) : bool := let n := N_of_ascii (lower_char c) in (97 <=? n)%N && (n <=? 122)%N.
Definition unreserved (c : ascii) : bool := is_letter c || is_digit c || existsb (Ascii.eqb c) ["-"; "_"; "."; "~"]%char.
Definition escape_char (c : ascii) : str :=
  if unreserved c then [c]
  else if Ascii.eqb c " " then !"+"
  else ["%"%char; hex_digit (N_of_ascii c / 16); hex_digit (N_of_ascii c mod 16)].
Definition query_escape (s : str) : str := flat_map escape_char s.

(** [escapePathComponents], src/generator/html.go 422-428 *)
Definition escapePathComponents (path : str) : str := join !"/" (map query_escape (split !"/" path)).

(** [expandSizeTemplate], src/generator/html.go 163-185 *)
Definition expandSizeTemplate (xSize ySize : Z) : str :=
  if negb (xSize =? -1)%Z || negb (ySize =? -1)%Z then
    !"style=" ++ quoted (join !" " [
      !"vertical-align: middle;";
      if negb (xSize =? -1)%Z then !"width: " ++ itoaZ xSize ++ !"px;" else !"width: auto;";
      if negb (ySize =? -1)%Z then !"height: " ++ itoaZ ySize ++ !"px;" else !"height: auto;"])
  else [].

(** [expandMarker], src/generator/html.go 123-133 *)
Definition htmlMarker (content : str) : str :=
  let content := replace_all MARKER_BOLD_OPEN !"<b>" content in
  let content := replace_all MARKER_BOLD_CLOSE !"</b>" content in
  let content := replace_all MARKER_ITALIC_OPEN !"<i>" content in
  let content := replace_all MARKER_ITALIC_CLOSE !"</i>" content in
  replace_all MARKER_PARAGRAPH !"<br><br>" content.

Section Html.
Variable cfg : configuration.
(** RenderMath, ReadSimpleAvgAttributes and GetPathRelativeToCache, src/generator/html.go 375-389: the relative path of the image file, and the
    width, height and style of the formula, or an error *)
Variable renderMath : str -> res (str * str * str * str).

(** [filenameToImagePath], src/generator/html.go 187-199 *)
Definition filenameToImagePath (filename : str) : str :=
  let filePath := GetRelativeFilePathInCache !"images" filename in
  if negb (str_eqb (strings cfg CommandTemplatePdfToPng) []) && str_eqb (path_ext (to_lower filePath)) !".pdf" then filePath ++ !".png"
  else if negb (str_eqb (strings cfg CommandTemplateSvgToPng) []) && str_eqb (path_ext (to_lower filePath)) !".svg" then filePath ++ !".png"
  else if negb (str_eqb (strings cfg CommandTemplateWebpToPng) []) && str_eqb (path_ext (to_lower filePath)) !".webp" then filePath ++ !".png"
  else filePath.

Section Expand.
(** [expand] for texts *)
Variable expand : str -> X unit str.

(** [expandHeadings], src/generator/html.go 136-142 *)
Definition expandHeadings (content : str) (depth : nat) : X unit str :=
  let* text := expand content in retX (TEMPLATE_HEADING depth text).

(** [expandInlineImage], src/generator/html.go 144-149 *)
Definition expandInlineImage (filename : str) (x y : Z) : X unit str :=
  retX (IMAGE_INLINE_TEMPLATE (escapePathComponents (filenameToImagePath filename)) (expandSizeTemplate x y)).

(** [expandImage], src/generator/html.go 151-161 *)
Definition expandImage (filename caption : str) (x y : Z) : X unit str :=
  let* caption := expand caption in
  retX (IMAGE_TEMPLATE (escapePathComponents (filenameToImagePath filename)) (expandSizeTemplate x y) caption).

(** [expandInternalLink], src/generator/html.go 201-205 *)
Definition expandInternalLink (articleName linkText : str) : X unit str := expand linkText.

(** [expandExternalLink], src/generator/html.go 207-214 *)
Definition expandExternalLink (url linkText : str) : X unit str :=
  let* text := expand linkText in retX (HREF_TEMPLATE url text).

(** [expandTableColumn], src/generator/html.go 250-266 *)
Definition expandTableColumn (column : TableColToken) : X unit str :=
  let* text := expand (ColContent column) in
  let attributes := join !" " (Attributes column) in
  let attributes := if negb (str_eqb attributes []) then !" " ++ attributes else attributes in
  retX ((if IsHeading column then TABLE_TEMPLATE_HEAD else TABLE_TEMPLATE_COL) attributes text).

(** [expandTableRow], src/generator/html.go 236-248 *)
Definition expandTableRow (row : TableRowToken) : X unit str :=
  let* columns := mapX expandTableColumn row in retX (TABLE_TEMPLATE_ROW (join nl columns)).

(** [expandTableCaption], src/generator/html.go 268-275 *)
Definition expandTableCaption (caption : str) : X unit str :=
  let* text := expand caption in retX (TABLE_TEMPLATE_CAPTION text).

(** [expandTable], src/generator/html.go 216-234 *)
Definition expandTable (rows : list TableRowToken) (caption : str) : X unit str :=
  let* expandedRows := mapX expandTableRow rows in
  let* expandedCaption := expandTableCaption caption in
  retX (TABLE_TEMPLATE (join nl expandedRows) expandedCaption).

(** The template for a list item, src/generator/html.go 334-356 *)
Definition item_template (type : ListItemTokenType) (listItemString : str) : str :=
  match type with
  | NORMAL_ITEM =>
      if has_prefix !"<li" (trim_space listItemString) then
        listItemString ++ (if negb (contains !"</li" listItemString) then !"</li>" else [])
      else TEMPLATE_LI listItemString
  | DESCRIPTION_HEAD => TEMPLATE_DT listItemString
  | DESCRIPTION_ITEM => TEMPLATE_DD listItemString
  end.

(** [expandUnorderedList], [expandOrderedList], [expandDescriptionList], [expandListItems] and [expandListItem],
    src/generator/html.go 277-359.  The nested functions are [mapX]. *)
Fixpoint expandList (l : ListToken) : X unit str :=
  match l with
  | AnyListToken kind items =>
      let* expandedItems := (fix expandListItems (items : list ListItemToken) : X unit (list str) :=
        match items with
        | [] => retX []
        | item :: items' =>
            let* expandedItem := expandListItem item in
            let* rest := expandListItems items' in
            retX (expandedItem :: rest)
        end) items in
      retX ((match kind with Unordered => TEMPLATE_UL | Ordered => TEMPLATE_OL | Description => TEMPLATE_DL end) (join nl expandedItems))
  end
with expandListItem (item : ListItemToken) : X unit str :=
  match item with
  | mkListItemToken type content subLists =>
      let* listItemContent := expand content in
      let* expandedSubLists := (fix expandSubLists (subLists : list ListToken) : X unit (list str) :=
        match subLists with
        | [] => retX []
        | subList :: subLists' =>
            let* expandedSubList := expandList subList in
            let* rest := expandSubLists subLists' in
            retX (expandedSubList :: rest)
        end) subLists in
      retX (item_template type (join nl (listItemContent :: expandedSubLists)))
  end.

(** [expandRefDefinition], src/generator/html.go 361-368 *)
Definition expandRefDefinition (index : nat) (content : str) : X unit str :=
  let* text := expand content in retX (TEMPLATE_REF_DEF (S index) text).

(** [expandRefUsage], src/generator/html.go 370-372 *)
Definition expandRefUsage (index : nat) : X unit str := retX (TEMPLATE_REF_USAGE (S index)).

(** [expandMath], src/generator/html.go 374-394 *)
Definition expandMath (content : str) : X unit str :=
  let* (png, width, height, style) := failX (renderMath content) in
  retX (MATH_TEMPLATE (escapePathComponents png) width height style).

(** The switch of [expandToken], src/generator/expand.go 14-49: a StringToken has no case *)
Definition htmlToken (token : Token) : X unit str :=
  match token with
  | HeadingToken content depth => expandHeadings content depth
  | InlineImageToken filename x y => expandInlineImage filename x y
  | ImageToken filename caption x y => expandImage filename caption x y
  | ExternalLinkToken url linkText => expandExternalLink url linkText
  | InternalLinkToken articleName linkText => expandInternalLink articleName linkText
  | ListTokenOf l => expandList l
  | TableToken rows caption => expandTable rows caption
  | MathToken content => expandMath content
  | RefDefinitionToken index content => expandRefDefinition index content
  | RefUsageToken index => expandRefUsage index
  | NowikiToken content => retX content
  | StringToken _ => retX []
  end.
End Expand.

(** The HtmlGenerator as a handler, src/generator/html.go 94-133 *)
Definition HtmlGenerator (tokenMap : list (str * Token)) : ExpansionHandler unit :=
  mkExpansionHandler tokenMap retX htmlMarker htmlToken.

(** [expand] for the HTML generator *)
Definition htmlExpand (tokenMap : list (str * Token)) (fuel : nat) (content : str) : res str :=
  let! (html, _) := expandString (HtmlGenerator tokenMap) fuel content tt in Ok html.

(** [Generate], src/generator/html.go 101-113: the text that is written into the file.  [styleFile] is the path of the style sheet relative to
    the cache directory. *)
Definition generateHtml (tokenMap : list (str * Token)) (fuel : nat) (styleFile title content : str) : res str :=
  let! expandedContent := htmlExpand tokenMap fuel content in
  Ok (HEADER styleFile ++ nl ++ !"<h1>" ++ title ++ !"</h1>" ++ nl ++ expandedContent ++ FOOTER).
End Html.
