(** * Specification: documents with basic markup, their wikitext and their HTML *)

From Coq Require Import Ascii String.
From Coq Require Import List Arith NArith ZArith Bool.
From Verif Require Import GoStr ConfigModel FormattingSpec PassSpec SafeSpec.
From Verif Require HtmlModel PictureSpec ReferenceSpec TableSpec.
Import ListNotations.
Local Open Scope list_scope.

(** ** Documents *)

(** Parts of a caption: text and links to other articles *)
Inductive phrase := Said (s : str) | Linked (article : str) (label : option str).

(** A picture: the prefix of the link (like File), the name of the file, whether it is a thumbnail, possibly its width and height, and possibly a caption *)
Record picture := mkPicture { file_prefix : str; file_name : str; thumbnail : bool; size : option (nat * nat); caption_text : option (list phrase) }.

(** Parts of a line: text, quotes that begin or end bold or italic text, links to other articles (with or without a text), links to other web pages,
    formulas, pictures and footnotes (with their number, which begins with zero) *)
Inductive inline :=
| Words (s : str)
| Quotes (k : style)
| LinkTo (article : str) (label : option str)
| Address (url label : str)
| Math (formula : str)
| Picture (p : picture)
| Note (number : nat) (r : ReferenceSpec.reference).

(** The signs of the items of lists: unordered and ordered lists, and description lists, which consist of terms and descriptions *)
Inductive list_mark := Bullet | Number | Term | Indent.

(** An item of a list: its sign, its text, and the lists below it *)
Inductive item := Item (m : list_mark) (text : list inline) (below : list (list item)).

(** A cell of a table: whether it is a heading, its attributes (those of TableSpec.v: how many columns or rows it spans, alignments, and others), and its text
    (which may be empty) *)
Record cell_kind := mkKind { is_heading : bool; cell_attributes : list TableSpec.cell_attribute }.
Definition grid_cell : Type := cell_kind * list inline.

(** Headings, paragraphs (of one or more lines), lists, tables, pictures in a line of their own and sections with the list of footnotes (their numbers and texts).  A table has attributes, possibly a caption, and rows; the cells of a row are given
    in lines: the cells of a line are on the same line of the wikitext. *)
Inductive block :=
| Heading (level : nat) (title : list inline)
| Paragraph (lines : list (list inline))
| Items (items : list item)
| Grid (attributes : str) (caption : option (list inline)) (rows : list (list (list grid_cell)))
| Figure (p : picture)
| Footnotes (level : nat) (title : list inline) (attributes : ReferenceSpec.attributes) (texts : list (nat * list inline)).

(** ** Wikitext *)

Definition phrase_wikitext (x : phrase) : str := match x with Said s => s | Linked article label => !"[[" ++ article ++ match label with Some l => !"|" ++ l | None => [] end ++ !"]]" end.
Definition caption_wikitext (c : list phrase) : str := concat (map phrase_wikitext c).

Definition picture_options (p : picture) : list str :=
  (if thumbnail p then [!"thumb"] else []) ++
  match size p with Some (width, height) => [itoa width ++ !"x" ++ itoa height ++ !"px"] | None => [] end ++
  match caption_text p with Some c => [caption_wikitext c] | None => [] end.
Definition picture_wikitext (p : picture) : str :=
  !"[[" ++ file_prefix p ++ !":" ++ file_name p ++ concat (map (fun o => !"|" ++ o) (picture_options p)) ++ !"]]".

Definition inline_wikitext (i : inline) : str :=
  match i with
  | Words s => s
  | Quotes k => quotes_of k
  | LinkTo article label => !"[[" ++ article ++ match label with Some l => !"|" ++ l | None => [] end ++ !"]]"
  | Address url label => !"[" ++ url ++ !" " ++ label ++ !"]"
  | Math formula => !"<math>" ++ formula ++ !"</math>"
  | Picture p => picture_wikitext p
  | Note _ r => ReferenceSpec.reference_text r
  end.
Definition line_wikitext (l : list inline) : str := concat (map inline_wikitext l).

(** An item is a line that begins with the signs of the items above it and with its own sign. *)
Definition sign (m : list_mark) : ascii := match m with Bullet => "*" | Number => "#" | Term => ";" | Indent => ":" end%char.
Fixpoint item_lines (above : str) (i : item) : list str :=
  match i with Item m text below =>
    (above ++ [sign m] ++ !" " ++ line_wikitext text) :: concat (map (fun l => concat (map (item_lines (above ++ [sign m])) l)) below) end.

(** Cells are separated by two signs.  The attributes of a cell are separated by spaces, and there is a bar between them and the text. *)
Definition cell_sign (c : grid_cell) : str := if is_heading (fst c) then !"!" else !"|".
Definition attributes_source (l : list TableSpec.cell_attribute) : str := join !" " (map TableSpec.attribute_source l).
Definition cell_start (c : grid_cell) : str :=
  cell_sign c ++ match cell_attributes (fst c) with [] => [] | l => !" " ++ attributes_source l ++ !" |" end.
Definition cells_line (cells : list grid_cell) : str :=
  match cells with
  | [] => []
  | c :: cells' => cell_start c ++ match snd c with [] => [] | _ => !" " ++ line_wikitext (snd c) end ++
      concat (map (fun c => !" " ++ cell_sign c ++ cell_start c ++ !" " ++ line_wikitext (snd c)) cells')
  end.

Definition block_lines (b : block) : list str :=
  match b with
  | Heading level title => [equals level ++ !" " ++ line_wikitext title ++ !" " ++ equals level]
  | Paragraph lines => map line_wikitext lines
  | Items items => concat (map (item_lines []) items)
  | Grid attributes caption rows =>
      [!"{|" ++ attributes] ++ match caption with Some c => [!"|+ " ++ line_wikitext c] | None => [] end ++
      concat (map (fun row => !"|-" :: map cells_line row) rows) ++ [!"|}"]
  | Figure p => [picture_wikitext p]
  | Footnotes level title attributes _ =>
      [equals level ++ !" " ++ line_wikitext title ++ !" " ++ equals level; ReferenceSpec.element_text (ReferenceSpec.ShortList attributes)]
  end.

(** There are blank lines before, between and behind the blocks.  There has to be one between two paragraphs and between two lists, as they would be
    one paragraph or one list without it, and behind a list of footnotes. *)
Definition may_touch (b b' : block) : Prop :=
  match b, b' with Paragraph _, Paragraph _ | Items _, Items _ | Footnotes _ _ _ _, _ => False | _, _ => True end.
Inductive document_lines : list block -> list str -> Prop :=
| no_lines : document_lines [] []
| blank_line : forall doc lines, document_lines doc lines -> document_lines doc ([] :: lines)
| next_block : forall b doc lines, document_lines doc lines ->
    (forall b' doc', doc = b' :: doc' -> may_touch b b' \/ exists lines', lines = [] :: lines') -> document_lines (b :: doc) (block_lines b ++ lines).
(** [text] is the document as wikitext. *)
Definition writes (doc : list block) (text : str) : Prop := exists lines, document_lines doc lines /\ text = join nl lines.

(** The usual way to write it: a blank line between two blocks *)
Definition wikitext (doc : list block) : str := join (nl ++ nl) (map (fun b => join nl (block_lines b)) doc).

(** ** Formulas *)

Definition line_formulas (l : list inline) : list str := concat (map (fun i => match i with Math formula => [formula] | _ => [] end) l).
Fixpoint item_formulas (i : item) : list str :=
  match i with Item _ text below => line_formulas text ++ concat (map (fun l => concat (map item_formulas l)) below) end.
Definition cells_formulas (cells : list grid_cell) : list str := concat (map (fun c => line_formulas (snd c)) cells).
Definition block_formulas (b : block) : list str :=
  match b with
  | Heading _ title => line_formulas title
  | Paragraph lines => concat (map line_formulas lines)
  | Items items => concat (map item_formulas items)
  | Grid _ caption rows => match caption with Some c => line_formulas c | None => [] end ++ concat (map (fun row => cells_formulas (concat row)) rows)
  | Figure _ => []
  | Footnotes _ title _ texts => line_formulas title ++ concat (map (fun p => line_formulas (snd p)) texts)
  end.
Definition document_formulas (doc : list block) : list str := concat (map block_formulas doc).

(** ** HTML *)

Definition tag (m : marker) : str :=
  match m with
  | Open Bold => !"<b>"
  | Close Bold => !"</b>"
  | Open Italic => !"<i>"
  | Close Italic => !"</i>"
  end.

(** The text of a link is the name of the article if there is no other text. *)
Definition link_label (article : str) (label : option str) : str := match label with Some l => l | None => article end.

Definition element (name content : str) : str := !"<" ++ name ++ !">" ++ content ++ !"</" ++ name ++ !">".
Definition division (class content : str) : str := !"<div class=" ++ dq ++ class ++ dq ++ !">" ++ content ++ !"</div>".

(** The name of a file in the wiki: with underscores in place of blanks, and a capital letter at the beginning *)
Definition wiki_file (name : str) : str := match replace_all !" " !"_" name with c :: s => upper_char c :: s | [] => [] end.

(** Some kinds of files are converted into PNG files, depending on the configuration. *)
Definition made_to_png (cfg : configuration) (name : str) : bool :=
  existsb (fun x => has_suffix (!"." ++ fst x) (to_lower name) && negb (str_eqb (strings cfg (snd x)) []))
    [(!"pdf", CommandTemplatePdfToPng); (!"svg", CommandTemplateSvgToPng); (!"webp", CommandTemplateWebpToPng)].

(** Thumbnails and large pictures are shown as figures, others in the text.  Only thumbnails have captions. *)
Definition as_figure (p : picture) : bool :=
  thumbnail p || match size p with Some (width, height) => (100 <=? width) || (50 <=? height) | None => false end.
Definition phrase_html (x : phrase) : str := match x with Said s => s | Linked article label => link_label article label end.
Definition shown_caption (p : picture) : str := match caption_text p with Some c => if thumbnail p then concat (map phrase_html c) else [] | None => [] end.

Definition picture_html (cfg : configuration) (p : picture) : str :=
  let name := wiki_file (file_name p) in
  let src := !"src=" ++ dq ++ !"./" ++ HtmlModel.escapePathComponents (!"images/" ++ name ++ if made_to_png cfg name then !".png" else []) ++ dq in
  let style := match size p with
    | Some (width, height) => !"style=" ++ dq ++ !"vertical-align: middle; width: " ++ itoa width ++ !"px; height: " ++ itoa height ++ !"px;" ++ dq
    | None => []
    end in
  if as_figure p then
    division !"figure" (nl ++ !"<img alt=" ++ dq ++ !"image" ++ dq ++ !" " ++ src ++ !" " ++ style ++ !">" ++ nl ++ division !"caption" (nl ++ shown_caption p ++ nl) ++ nl)
  else !"<img alt=" ++ dq ++ !"image" ++ dq ++ !" class=" ++ dq ++ !"inline" ++ dq ++ !" " ++ src ++ !" " ++ style ++ !">".

(** The pictures of the formulas: file, width, height and style *)
Section Html.
Variable cfg : configuration.
Variable pictures : str -> str * str * str * str.

Definition formula_html (formula : str) : str :=
  let '(file, width, height, style) := pictures formula in
  !"<img alt=" ++ dq ++ !"image" ++ dq ++ !" src=" ++ dq ++ !"./" ++ HtmlModel.escapePathComponents file ++ dq ++
  !" style=" ++ dq ++ !"width: " ++ width ++ !"; height: " ++ height ++ !"; " ++ style ++ dq ++ !">".

(** The HTML of a line behind text in which the given styles are open; [toggle]: the elements that quotes begin and end *)
Fixpoint line_html (open : list style) (l : list inline) : str :=
  match l with
  | [] => []
  | Words s :: l' => s ++ line_html open l'
  | Quotes k :: l' => concat (map tag (fst (toggle open k))) ++ line_html (snd (toggle open k)) l'
  | LinkTo article label :: l' => link_label article label ++ line_html open l'
  | Address url label :: l' => !"<a href=" ++ dq ++ url ++ dq ++ !">" ++ label ++ !"</a>" ++ line_html open l'
  | Math formula :: l' => formula_html formula ++ line_html open l'
  | Picture p :: l' => picture_html cfg p ++ line_html open l'
  | Note number _ :: l' => !"[" ++ itoa (S number) ++ !"]" ++ line_html open l'
  end.

(** The styles that are open at the end of a line *)
Fixpoint styles (open : list style) (l : list inline) : list style :=
  match l with
  | [] => open
  | Quotes k :: l' => styles (snd (toggle open k)) l'
  | _ :: l' => styles open l'
  end.

Definition mark_of (i : item) : list_mark := match i with Item m _ _ => m end.
Definition list_element (items : list item) (content : str) : str :=
  match items with
  | Item Bullet _ _ :: _ => element !"ul" content
  | Item Number _ _ :: _ => element !"ol" content
  | _ => division !"description-list" content
  end.
Definition item_element (m : list_mark) (content : str) : str :=
  match m with Term => division !"dt" content | Indent => division !"dd" content | _ => element !"li" content end.

(** An item contains its text and the lists below it. *)
Fixpoint item_html (i : item) : str :=
  match i with Item m text below =>
    item_element m (nl ++ join nl ((!" " ++ line_html [] text) :: map (fun l => list_element l (nl ++ join nl (map item_html l) ++ nl)) below) ++ nl) end.
Definition list_html (items : list item) : str := list_element items (nl ++ join nl (map item_html items) ++ nl).

(** The numbers of columns and rows stay as they are, and so does the (first) alignment.  Other attributes are dropped. *)
Definition attributes_html (l : list TableSpec.cell_attribute) : str := concat (map (fun s => !" " ++ s) (TableSpec.kept_spans l ++ TableSpec.kept_alignment l)).
Definition cell_element (name : str) (c : grid_cell) : str :=
  !"<" ++ name ++ attributes_html (cell_attributes (fst c)) ++ !">" ++ nl ++ line_html [] (snd c) ++ nl ++ !"</" ++ name ++ !">".
Definition cell_html (c : grid_cell) : str := if is_heading (fst c) then cell_element !"th" c ++ nl else cell_element !"td" c.
Definition row_html (cells : list grid_cell) : str := element !"tr" (nl ++ join nl (map cell_html cells) ++ nl).

Definition block_html (b : block) : str :=
  match b with
  | Heading level title => element (!"h" ++ itoa level) (line_html [] title)
  | Paragraph lines => join nl (map (line_html []) lines)
  | Items items => list_html items
  | Grid _ caption rows => division !"figure" (nl ++ element !"table" (nl ++ join nl (map (fun row => row_html (concat row)) rows) ++ nl) ++ nl ++
      division !"caption" (nl ++ match caption with Some c => line_html [] c | None => [] end ++ nl) ++ nl)
  | Figure p => picture_html cfg p
  | Footnotes level title _ texts =>
      join nl (element (!"h" ++ itoa level) (line_html [] title) :: map (fun p => !"[" ++ itoa (S (fst p)) ++ !"] " ++ line_html [] (snd p) ++ !"<br>") texts)
  end.

(** The lines of the HTML: there is a break between two paragraphs, other blocks are only separated by their elements. *)
Fixpoint html_lines (doc : list block) : list str :=
  match doc with
  | [] => []
  | b :: doc' => block_html b :: (match b, doc' with Paragraph _, Paragraph _ :: _ => [!"<br><br>"] | _, _ => [] end) ++ html_lines doc'
  end.
Definition document_html (doc : list block) : str := join nl (html_lines doc).
End Html.

(** ** Proper documents *)

(** Text has no characters that belong to the markup (or to the keys of the program), but there can be single apostrophes within it (see FormattingSpec). *)
Definition letter (c : ascii) : Prop := ~ In c (!"[]{}|<>$_" ++ nl).
Definition words (s : str) : Prop := Forall letter s /\ plain s.

(** The text (up to white space) does not begin like a heading or a list. *)
Definition no_block_start (s : str) : Prop := forall c x, trim_space s = c :: x -> ~ In c !"=*#;:".

Section Proper.
Variable cfg : configuration.

(** The name of an article begins with a visible character, and a link has no prefixes like File.  A link without text has no section. *)
Definition article_link_ok (article : str) (label : option str) : Prop :=
  (exists c x, article = c :: x /\ starts_target c) /\ words article /\ words (link_label article label) /\
  no_char ":" article /\ no_char ":" (link_label article label) /\ no_block_start (link_label article label) /\
  (label = None -> no_char "#" article /\ trim_space article = article).
Definition phrase_ok (x : phrase) : Prop := match x with Said s => words s | Linked article label => article_link_ok article label end.

(** The prefix belongs to files, and so does the prefix file.  The name of the file does not begin with a blank or with a letter outside of ASCII, it has no
    characters that belong to the markup, and files of this type are wanted.  The caption is text that is no other option, and no option is to be ignored (if there is a link in a
    caption, nothing with the sign of the keys of the program is to be ignored). *)
Definition picture_ok (p : picture) : Prop :=
  In (to_lower (file_prefix p)) (lists cfg FilePrefixes) /\ In !"file" (lists cfg FilePrefixes) /\
  file_prefix p <> [] /\ words (file_prefix p) /\ no_char ":" (file_prefix p) /\
  (exists c x, file_name p = c :: x /\ N.lt (N_of_ascii c) 128%N) /\ Forall (fun c => ~ In c (!"'[]{}|<>$:%/\?*" ++ dq ++ nl)) (file_name p) /\
  trim_space (file_name p) = file_name p /\ no_block_start (file_name p) /\
  file_name p <> !"." /\ file_name p <> !".." /\ contains !"__NOTOC__" (file_name p) = false /\
  ~ (exists s, file_name p = s ++ !"px") /\ ~ PictureSpec.unwanted_type cfg (file_name p) /\
  Forall (fun o => ~ PictureSpec.ignored_option cfg o) (picture_options p) /\
  (forall width height, size p = Some (width, height) -> Z.lt (Z.of_nat width) (2 ^ 63)%Z /\ Z.lt (Z.of_nat height) (2 ^ 63)%Z) /\
  (forall c, caption_text p = Some c -> Forall phrase_ok c /\ no_block_start (caption_wikitext c) /\ ~ PictureSpec.frame_option (caption_wikitext c) /\ ~ (exists s, caption_wikitext c = s ++ !"px") /\
    (forall article label, In (Linked article label) c -> Forall (no_char "$") (lists cfg IgnoredImageParams))).

(** The address of a web page has no characters that belong to the markup.  There are no brackets, quotes and other tags within formulas (but single apostrophes); braces are allowed, but there
    are no two opening braces next to each other: a template would begin there.  (Footnotes: see below) *)
Definition simple_ok (i : inline) : Prop :=
  match i with
  | Words s => s <> [] /\ words s
  | Quotes _ => True
  | LinkTo article label => article_link_ok article label
  | Address url label => is_http url /\ trim_space url = url /\ Forall (fun c => ~ In c (!"'[]{}|<>$ " ++ nl)) url /\ contains !"__NOTOC__" url = false /\
      words label /\ no_block_start label
  | Math formula => Forall (fun c => ~ In c (!"[]<>$" ++ nl)) formula /\ contains !"{{" formula = false /\ contains !"__NOTOC__" formula = false /\ contains !"''" formula = false
  | Picture p => picture_ok p
  | Note _ _ => False
  end.

(** There is something between quotes. *)
Fixpoint quotes_apart (l : list inline) : Prop :=
  match l with
  | [] => True
  | i :: l' => (forall k k' l'', i = Quotes k -> l' <> Quotes k' :: l'') /\ quotes_apart l'
  end.

(** Bold and italic text ends in the line in which it begins, and there is no white space around the line. *)
Definition line_with (part_ok : inline -> Prop) (l : list inline) : Prop :=
  l <> [] /\ Forall part_ok l /\ quotes_apart l /\ styles [] l = [] /\ trim_space (line_wikitext l) = line_wikitext l /\ no_block_start (line_wikitext l).

(** The text of a footnote: a line without bold or italic text and without other footnotes *)
Definition note_text_ok (l : list inline) : Prop := line_with simple_ok l /\ Forall (fun i => forall k, i <> Quotes k) l.
(** The values of the attributes of a tag are text.  (A comment would end behind two dashes, if the tag ends there.) *)
Definition note_attributes_ok (a : ReferenceSpec.attributes) : Prop :=
  ReferenceSpec.attributes_ok a /\ Forall (fun x => words (ReferenceSpec.attr_value x) /\ ~ (exists s, ReferenceSpec.attr_value x = s ++ !"-")) (ReferenceSpec.given a).
(** A footnote has a text, or it has a name. *)
Definition note_ok (r : ReferenceSpec.reference) : Prop :=
  note_attributes_ok (ReferenceSpec.ref_attributes r) /\
  match ReferenceSpec.ref_body r with
  | Some body => exists l, body = line_wikitext l /\ note_text_ok l
  | None => ReferenceSpec.value_of !"name" (ReferenceSpec.ref_attributes r) <> None
  end.

Definition inline_ok (i : inline) : Prop := match i with Note _ r => note_ok r | _ => simple_ok i end.
Definition line_ok : list inline -> Prop := line_with inline_ok.
Definition no_note (i : inline) : Prop := match i with Note _ _ => False | _ => True end.

(** The whole line is bold. *)
Definition all_bold (l : list inline) : Prop := exists m, l = Quotes Bold :: m ++ [Quotes Bold].

(** Items with the same sign form a list; descriptions may follow terms. *)
Definition belongs (first m : list_mark) : Prop := m = first \/ (first = Term /\ m = Indent).

(** The lists below an item do not continue each other. *)
Fixpoint lists_apart (ls : list (list item)) : Prop :=
  match ls with
  | (Item m _ _ :: _) :: ((Item m' _ _ :: _) :: _) as ls' => ~ belongs m m' /\ lists_apart ls'
  | _ => True
  end.

(** Lists are not empty.  There is no colon in a term: the description would begin there. *)
Inductive list_ok : list item -> Prop :=
| a_list : forall i items, Forall item_ok (i :: items) -> Forall (fun j => belongs (mark_of i) (mark_of j)) items -> list_ok (i :: items)
with item_ok : item -> Prop :=
| an_item : forall m text below, line_ok text -> (m = Term -> no_char ":" (line_wikitext text)) -> Forall list_ok below -> lists_apart below -> item_ok (Item m text below).

(** There are no exclamation marks in tables. *)
Definition grid_text_ok (l : list inline) : Prop := line_ok l /\ no_char "!" (line_wikitext l).
(** Attributes of cells consist of letters, without space around all of them. *)
Definition kind_ok (h : bool) (k : cell_kind) : Prop :=
  is_heading k = h /\ Forall TableSpec.attribute_ok (cell_attributes k) /\
  let s := attributes_source (cell_attributes k) in words s /\ no_char "!" s /\ trim_space s = s.
(** The cells of a line are of the same kind, and there is something in the cells of a line with several cells. *)
Definition cells_ok (cells : list grid_cell) : Prop :=
  exists h, (exists k, cells = [(k, [])] /\ kind_ok h k) \/ (cells <> [] /\ Forall (fun c => kind_ok h (fst c) /\ grid_text_ok (snd c)) cells).
Definition attributes_ok (a : str) : Prop := words a /\ no_char "!" a /\ trim_space (!"{|" ++ a) = !"{|" ++ a.

(** There are no equal signs and no footnotes in headings.  A line of a paragraph contains some text, it is more than a link, and it is not completely bold (which is a kind of heading). *)
Definition block_ok (b : block) : Prop :=
  match b with
  | Heading level title => 1 <= level <= 6 /\ line_ok title /\ no_char "=" (line_wikitext title) /\ Forall no_note title
  | Paragraph lines => lines <> [] /\ Forall (fun line => line_ok line /\ (exists s, In (Words s) line) /\ ~ all_bold line) lines
  | Items items => list_ok items
  | Grid attributes caption rows => attributes_ok attributes /\ (forall c, caption = Some c -> grid_text_ok c) /\ Forall (Forall cells_ok) rows
  | Figure p => picture_ok p
  | Footnotes level title attributes texts =>
      (1 <= level <= 6 /\ line_ok title /\ no_char "=" (line_wikitext title) /\ Forall no_note title) /\
      note_attributes_ok attributes /\ Forall (fun p => note_text_ok (snd p)) texts
  end.

(** There is something in each section: text or a section of a deeper level. *)
Definition section_level (b : block) : option nat := match b with Heading level _ | Footnotes level _ _ _ => Some level | _ => None end.
Fixpoint sections_filled (doc : list block) : Prop :=
  match doc with
  | [] => True
  | b :: doc' => (forall level title, b = Heading level title -> exists b' doc'', doc' = b' :: doc'' /\ forall level', section_level b' = Some level' -> level < level') /\
      sections_filled doc'
  end.

(** The footnotes in the order of the wikitext, with their numbers *)
Definition line_notes (l : list inline) : list (nat * ReferenceSpec.reference) := concat (map (fun i => match i with Note number r => [(number, r)] | _ => [] end) l).
Fixpoint item_notes (i : item) : list (nat * ReferenceSpec.reference) :=
  match i with Item _ text below => line_notes text ++ concat (map (fun l => concat (map item_notes l)) below) end.
Definition cells_notes (cells : list grid_cell) : list (nat * ReferenceSpec.reference) := concat (map (fun c => line_notes (snd c)) cells).
Definition block_notes (b : block) : list (nat * ReferenceSpec.reference) :=
  match b with
  | Paragraph lines => concat (map line_notes lines)
  | Items items => concat (map item_notes items)
  | Grid _ caption rows => match caption with Some c => line_notes c | None => [] end ++ concat (map (fun row => cells_notes (concat row)) rows)
  | Heading _ _ | Figure _ | Footnotes _ _ _ _ => []
  end.

(** The numbers of the footnotes are those of the specification of footnotes, and a list of footnotes has the texts that it has to show. *)
Fixpoint notes_numbered (before : list ReferenceSpec.event) (notes : list (nat * ReferenceSpec.reference)) : Prop :=
  match notes with
  | [] => True
  | (n, r) :: notes' =>
      n = ReferenceSpec.number before (ReferenceSpec.value_of !"group" (ReferenceSpec.ref_attributes r)) (ReferenceSpec.value_of !"name" (ReferenceSpec.ref_attributes r)) /\
      notes_numbered (before ++ [ReferenceSpec.mark_of r]) notes'
  end.
Definition block_events (b : block) : list ReferenceSpec.event :=
  match b with
  | Footnotes _ _ attributes _ => [ReferenceSpec.Listing (ReferenceSpec.value_of !"group" attributes)]
  | _ => map (fun p => ReferenceSpec.mark_of (snd p)) (block_notes b)
  end.
Fixpoint numbered (before : list ReferenceSpec.event) (doc : list block) : Prop :=
  match doc with
  | [] => True
  | b :: doc' => notes_numbered before (block_notes b) /\
      match b with
      | Footnotes _ _ attributes texts => ReferenceSpec.listed before (ReferenceSpec.value_of !"group" attributes) (map (fun p => (fst p, line_wikitext (snd p))) texts)
      | _ => True
      end /\ numbered (before ++ block_events b) doc'
  end.

Definition document_ok (doc : list block) : Prop := doc <> [] /\ Forall block_ok doc /\ sections_filled doc /\ numbered [] doc.

(** Prefixes of files are words, and not the names of protocols. *)
Definition prefixes_ok : Prop :=
  prefixes_are_words cfg /\ ~ In !"http" (lists cfg FilePrefixes) /\ ~ In !"https" (lists cfg FilePrefixes).
End Proper.
