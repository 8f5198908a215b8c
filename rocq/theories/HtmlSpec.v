(** * Specifications of the generated HTML *)

From Coq Require Import Ascii String.
From Coq Require Import List Arith Bool.
From Verif Require Import GoStr TokenModel TokenSpec PassSpec ExpandSpec.
Import ListNotations.
Local Open Scope list_scope.

(** ** Texts that can be expanded (C29) *)

(** The text consists of plain text, of markers and of keys of the map. *)
Definition known (m : list (str * Token)) (s : str) : Prop :=
  exists d, layout_ok d /\ s = layout_text d /\ Forall (fun k => In k all_markers \/ In k (map fst m)) (map fst (snd d)).

(** So do the texts of all tokens, which only use older tokens (the list has the latest token first). *)
Inductive known_map : list (str * Token) -> Prop :=
| known_none : known_map []
| known_token : forall k v m, known_map m -> Forall (known m) (texts v) -> known_map ((k, v) :: m).

(** All formulas in the tokens can be rendered. *)
Definition rendered (renderMath : str -> res (str * str * str * str)) (m : list (str * Token)) : Prop :=
  forall k formula, In (k, MathToken formula) m -> exists r, renderMath formula = Ok r.

(** ** Texts in the HTML (C31) *)

(** The pieces of text occur in the text in this order and do not overlap. *)
Inductive in_order : list str -> str -> Prop :=
| in_order_none : forall s, in_order [] s
| in_order_piece : forall p ps before after, in_order ps after -> in_order (p :: ps) (before ++ p ++ after).

(** The texts of a token in the order of the book: a caption is below its table. *)
Definition ordered_texts (t : Token) : list str :=
  match t with
  | TableToken rows caption => flat_map (map ColContent) rows ++ [caption]
  | _ => texts t
  end.

(** Content of a token that is not formatted: nowiki texts, addresses of links and numbers of footnotes *)
Definition shown (t : Token) : list str :=
  match t with
  | NowikiToken content => [content]
  | ExternalLinkToken url _ => [url]
  | RefDefinitionToken index _ => [!"[" ++ itoa (1 + index) ++ !"]"]
  | RefUsageToken index => [!"[" ++ itoa (1 + index) ++ !"]"]
  | _ => []
  end.

(** All pieces of text in a text, including those in its tokens, in the tokens of its tokens and so on.  There are no such pieces if a
    StringToken can be reached or if a key is unknown. *)
Inductive text_pieces (m : list (str * Token)) : str -> list str -> Prop :=
| pieces_of_text : forall d inner, layout_ok d -> Forall2 (key_pieces m) (map fst (snd d)) inner ->
    text_pieces m (layout_text d) (fst d :: concat (map (fun p => fst p ++ [snd p]) (combine inner (map snd (snd d)))))
with key_pieces (m : list (str * Token)) : str -> list str -> Prop :=
| pieces_of_marker : forall k, In k all_markers -> key_pieces m k []
| pieces_of_token : forall k v inner, is_key k -> lookup_token k m = Some v -> (forall s, v <> StringToken s) ->
    Forall2 (text_pieces m) (ordered_texts v) inner -> key_pieces m k (shown v ++ concat inner).

(** ** Nesting of elements (C30) *)

Definition no_angles (s : str) : Prop := no_char "<" s /\ no_char ">" s.

(** What may be at a place: text and elements, rows of a table, cells of a row, or items of a list *)
Inductive place := Flow | Rows | Cells | Items.

(** The elements at a place, and the place inside of them *)
Definition elements (p : place) : list (str * place) :=
  match p with
  | Flow => map (fun name => (name, Flow)) [!"a"; !"b"; !"i"; !"div"; !"h1"; !"h2"; !"h3"; !"h4"; !"h5"; !"h6"; !"h7"] ++
            [(!"table", Rows); (!"ul", Items); (!"ol", Items)]
  | Rows => [(!"tr", Cells)]
  | Cells => [(!"td", Flow); (!"th", Flow)]
  | Items => [(!"li", Flow)]
  end.
(** Elements without content *)
Definition void_elements : list str := [!"br"; !"img"].

Definition attributes (a : str) : Prop := no_angles a /\ (a = [] \/ starts_with " " a).

(** The text is a sequence of characters and of properly closed elements.  Only white space is between rows, cells and items. *)
Inductive nested : place -> str -> Prop :=
| nested_end : forall p, nested p []
| nested_char : forall c s, c <> "<"%char -> c <> ">"%char -> nested Flow s -> nested Flow (c :: s)
| nested_space : forall p s, nested p s -> nested p (nl ++ s)
| nested_void : forall name a s, In name void_elements -> attributes a -> nested Flow s -> nested Flow (!"<" ++ name ++ a ++ !">" ++ s)
| nested_element : forall p q name a inner s, In (name, q) (elements p) -> attributes a -> nested q inner -> nested p s ->
    nested p (!"<" ++ name ++ a ++ !">" ++ inner ++ !"</" ++ name ++ !">" ++ s).

(** Balanced markers for bold and italic text between other keys *)
Inductive balanced : list str -> Prop :=
| balanced_none : balanced []
| balanced_key : forall k l, k = !"$$MARKER_PARAGRAPH$$" \/ is_key k -> balanced l -> balanced (k :: l)
| balanced_bold : forall a b, balanced a -> balanced b -> balanced (!"$$MARKER_BOLD_OPEN$$" :: a ++ !"$$MARKER_BOLD_CLOSE$$" :: b)
| balanced_italic : forall a b, balanced a -> balanced b -> balanced (!"$$MARKER_ITALIC_OPEN$$" :: a ++ !"$$MARKER_ITALIC_CLOSE$$" :: b).

(** A text without angle brackets whose markers are balanced *)
Definition proper_text (s : str) : Prop :=
  exists d, layout_ok d /\ s = layout_text d /\ no_angles (fst d) /\ Forall (fun p => no_angles (snd p)) (snd d) /\ balanced (map fst (snd d)).

(** Description lists have heads and descriptions, other lists have normal items. *)
Fixpoint proper_list (l : ListToken) : Prop :=
  match l with
  | AnyListToken kind items =>
      (fix all (items : list ListItemToken) : Prop :=
        match items with [] => True | i :: items' => proper_item kind i /\ all items' end) items
  end
with proper_item (kind : list_kind) (i : ListItemToken) : Prop :=
  match i with
  | mkListItemToken type _ subLists =>
      (type = NORMAL_ITEM <-> kind <> Description) /\
      (fix all (ls : list ListToken) : Prop :=
        match ls with [] => True | l :: ls' => proper_list l /\ all ls' end) subLists
  end.

Definition proper_token (t : Token) : Prop :=
  Forall proper_text (texts t) /\
  match t with
  | HeadingToken _ depth => 1 <= depth <= 7
  | ExternalLinkToken url _ => no_angles url
  | NowikiToken content => no_angles content
  | ListTokenOf l => proper_list l
  | TableToken rows _ => Forall (Forall (fun cell => Forall no_angles (Attributes cell))) rows
  | _ => True
  end.
