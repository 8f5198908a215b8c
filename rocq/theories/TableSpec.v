(** * Specification of tables *)

From Coq Require Import Ascii String.
From Coq Require Import List Arith Bool.
From Verif Require Import GoStr GoStrFacts TokenModel TokenSpec PassSpec.
Import ListNotations.
Local Open Scope list_scope.

(** ** The source of a table *)

(** A cell: a heading cell or a data cell, possibly with attributes, and its text (or the first line of it) *)
Record cell := mkCell { heading : bool; attributes : option str; cell_text : str }.

(** A table has attributes, possibly a caption (which may have several lines) and rows.  A row begins with a row separator, which the first
    row may omit.  Its cells are given in groups: the cells of a group are on the same line, and further lines of text and nested tables
    may follow, which belong to the last cell of the group. *)
Inductive table := Table (table_attributes : str) (caption : option (str * list str)) (rows : list row)
with row := Row (row_attributes : option str) (groups : list group)
with group := Group (cells : list cell) (more : list line)
with line := TextLine (s : str) | TableLines (t : table).

Definition mark (c : cell) : ascii := if heading c then "!"%char else "|"%char.
Definition cell_source (c : cell) : str := match attributes c with None => cell_text c | Some a => a ++ !"|" ++ cell_text c end.

(** The line with the cells of a group *)
Definition group_line (cells : list cell) : str :=
  match cells with
  | [] => []
  | c :: cells' => [mark c] ++ cell_source c ++ concat (map (fun c => [mark c; mark c] ++ cell_source c) cells')
  end.

(** The lines between the first and the last line of a table *)
Definition group_items (g : group) : list line := match g with Group cells more => TextLine (group_line cells) :: more end.
Definition row_items (r : row) : list line :=
  match r with Row a groups => match a with None => [] | Some a => [TextLine (!"|-" ++ a)] end ++ flat_map group_items groups end.
Definition table_items (t : table) : list line :=
  match t with Table _ caption rows =>
    match caption with None => [] | Some (c, more) => TextLine (!"|+" ++ c) :: map TextLine more end ++ flat_map row_items rows end.
Definition first_line (t : table) : str := match t with Table a _ _ => !"{|" ++ a end.

(** The lines of a table.  (The nesting is not visible to Coq, so this is a relation.) *)
Inductive line_source : line -> list str -> Prop :=
| text_source : forall s, line_source (TextLine s) [s]
| table_source : forall t sources, Forall2 line_source (table_items t) sources -> line_source (TableLines t) (first_line t :: concat sources ++ [!"|}"]).

(** ** Well-formed tables *)

Definition one_line (s : str) : Prop := no_char nl_char s.

(** A line without the separators of cells *)
Definition clean (s : str) : Prop := one_line s /\ contains !"||" s = false /\ contains !"!!" s = false.

(** Text of a cell or a caption *)
Definition plain_text (s : str) : Prop := one_line s /\ no_char "|" s /\ contains !"!!" s = false.
(** A further line of text *)
Definition text_line (s : str) : Prop := plain_text s /\ ~ starts_with "!" (trim_space s).

(** The text and the attributes of a cell.  The source of a data cell does not begin with a character that makes the bar a different mark. *)
Definition cell_ok (c : cell) : Prop :=
  plain_text (cell_text c) /\ (forall a, attributes c = Some a -> plain_text a /\ a <> []) /\ contains !"!!" (cell_source c) = false /\
  ~ starts_with "!" (cell_source c) /\
  (heading c = false -> ~ starts_with "-" (cell_source c) /\ ~ starts_with "+" (cell_source c) /\ ~ starts_with "}" (cell_source c)).

(** The end of a cell that is followed by a cell on the same line *)
Definition end_ok (s : str) : Prop := ~ ends_with "|" s /\ ~ ends_with "!" s.

Inductive inline_ok : list cell -> Prop :=
| last_cell : forall c, cell_ok c -> inline_ok [c]
| more_cells : forall c c' cells, cell_ok c -> end_ok (cell_source c) -> inline_ok (c' :: cells) -> inline_ok (c :: c' :: cells).
(** If there are several cells, then the first one is not empty. *)
Definition group_cells_ok (cells : list cell) : Prop := inline_ok cells /\ forall c c' cells', cells = c :: c' :: cells' -> cell_source c <> [].

Definition caption_ok (c : option (str * list str)) : Prop := forall s more, c = Some (s, more) -> plain_text s /\ Forall text_line more.

Inductive table_ok : table -> Prop :=
| a_table : forall a caption rows, clean (!"{|" ++ a) -> caption_ok caption -> Forall row_ok rows -> rows_separated rows -> table_ok (Table a caption rows)
with row_ok : row -> Prop :=
| a_row : forall a groups, (forall s, a = Some s -> clean (!"|-" ++ s)) -> Forall group_ok groups -> row_ok (Row a groups)
with group_ok : group -> Prop :=
| a_group : forall cells more, group_cells_ok cells -> Forall line_ok more -> group_ok (Group cells more)
with line_ok : line -> Prop :=
| a_text : forall s, text_line s -> line_ok (TextLine s)
| a_nested_table : forall t, table_ok t -> line_ok (TableLines t)
(** Only the first row has no row separator, and it is not empty then. *)
with rows_separated : list row -> Prop :=
| all_separated : forall rows, (forall a groups, In (Row a groups) rows -> a <> None) -> rows_separated rows
| first_row : forall groups rows, groups <> [] -> (forall a gs, In (Row a gs) rows -> a <> None) -> rows_separated (Row None groups :: rows).

(** ** Attributes of cells *)

(** How many columns or rows a cell spans, with or without quotes around the number; an attribute with an alignment of the text, like a style
    with text-align: left; and any other attribute.  They are separated by spaces. *)
Inductive cell_attribute :=
| SpanOf (columns quoted : bool) (number : str)
| Aligned (before alignment behind : str)
| OtherAttribute (s : str).

Definition span_source (columns quoted : bool) (number : str) : str :=
  (if columns then !"colspan=" else !"rowspan=") ++ (if quoted then dq ++ number ++ dq else number).
Definition attribute_source (a : cell_attribute) : str :=
  match a with
  | SpanOf columns quoted number => span_source columns quoted number
  | Aligned before alignment behind => before ++ !"text-align:" ++ alignment ++ !";" ++ behind
  | OtherAttribute s => s
  end.

Definition no_span (s : str) : Prop := contains !"colspan=" s = false /\ contains !"rowspan=" s = false.
Definition attribute_ok (a : cell_attribute) : Prop :=
  match a with
  | SpanOf _ _ number => number <> [] /\ Forall (fun c => In c !"0123456789") number
  | Aligned before alignment behind => no_span (attribute_source a) /\ contains !"text-align:" before = false /\ alignment <> [] /\ one_line alignment /\ no_char ";" alignment
  | OtherAttribute s => no_span s /\ contains !"text-align:" s = false
  end.

(** What stays: all spans as they are, and the (first) alignment *)
Definition kept_spans (l : list cell_attribute) : list str :=
  flat_map (fun a => match a with SpanOf columns quoted number => [span_source columns quoted number] | _ => [] end) l.
Fixpoint kept_alignment (l : list cell_attribute) : list str :=
  match l with
  | [] => []
  | Aligned _ alignment _ :: _ => [!"style=" ++ dq ++ !"text-align:" ++ alignment ++ !";" ++ dq]
  | _ :: l' => kept_alignment l'
  end.

Definition attributes_parsed (attributes : option str) (attrs : list str) : Prop :=
  match attributes with
  | None => attrs = []
  | Some a => forall l, Forall attribute_ok l -> trim_space a = join !" " (map attribute_source l) -> attrs = kept_spans l ++ kept_alignment l
  end.

(** ** The parsed table *)

(** The cells of a row with the further lines of their texts *)
Fixpoint with_more {A} (cells : list cell) (more : list A) : list (cell * list A) :=
  match cells with
  | [] => []
  | [c] => [(c, more)]
  | c :: cells' => (c, []) :: with_more cells' more
  end.
Definition group_cells (g : group) : list (cell * list line) := match g with Group cells more => with_more cells more end.

(** A line from which white space at its beginning and its end may have been removed *)
Definition trimmed (s s' : str) : Prop := exists l r, blank l /\ blank r /\ s = l ++ s' ++ r.

Section Parsed.
(** [parsed text content]: the text has been parsed.  [found key token]: the key stands for the token. *)
Variable parsed : str -> str -> Prop.
Variable found : str -> Token -> Prop.

Definition caption_parsed (c : option (str * list str)) (captionToken : str) : Prop :=
  match c with
  | None => captionToken = []
  | Some (s, more) => exists lines content, Forall2 trimmed (s :: more) lines /\ parsed (join nl lines) content /\ captionToken = trim_space content
  end.

(** The parsed table has all cells of the table: the n-th cell of the m-th row is the n-th column of the m-th row.  The content of a
    cell is its text, up to white space at the beginning and the end of lines, and with keys instead of nested tables.  (Whether it is a
    heading cell is only said for cells of one line.) *)
Inductive table_parsed : table -> Token -> Prop :=
| parsed_table : forall a caption rows rowTokens captionToken, caption_parsed caption captionToken -> Forall2 row_parsed rows rowTokens ->
    table_parsed (Table a caption rows) (TableToken rowTokens captionToken)
with row_parsed : row -> TableRowToken -> Prop :=
| parsed_row : forall a groups columns, Forall2 cell_parsed (flat_map group_cells groups) columns -> row_parsed (Row a groups) columns
with cell_parsed : cell * list line -> TableColToken -> Prop :=
| parsed_cell : forall c more text lines content attrs h, trimmed (cell_text c) text -> Forall2 line_parsed more lines ->
    parsed (join nl (text :: lines)) content -> attributes_parsed (attributes c) attrs -> (more = [] -> h = heading c) -> cell_parsed (c, more) (mkTableColToken attrs (trim_space content) h)
with line_parsed : line -> str -> Prop :=
| parsed_text : forall s s', trimmed s s' -> line_parsed (TextLine s) s'
| parsed_nested : forall t key token, found key token -> table_parsed t token -> line_parsed (TableLines t) key.

(** Tables between other lines *)
Inductive block_parsed : line -> str -> Prop :=
| kept_line : forall s, block_parsed (TextLine s) s
| replaced_table : forall t key token, found key token -> table_parsed t token -> block_parsed (TableLines t) key.
End Parsed.

(** A line that is outside of tables and begins none *)
Definition outside (s : str) : Prop := one_line s /\ forall colons rest, trim_space s = colons ++ !"{|" ++ rest -> ~ Forall (eq ":"%char) colons.
Definition block_ok (l : line) : Prop := match l with TextLine s => outside s | TableLines t => table_ok t end.
