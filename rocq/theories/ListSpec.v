(** * Specification of lists *)

From Coq Require Import Ascii String.
From Coq Require Import List Arith Bool.
From Verif Require Import GoStr TokenModel TokenSpec PassSpec.
Import ListNotations.
Local Open Scope list_scope.

Definition is_list_char (c : ascii) : Prop := c = "*"%char \/ c = "#"%char \/ c = ";"%char \/ c = ":"%char.

(** The kind of list and of item for a list character *)
Definition kind_for (c : ascii) : list_kind :=
  if Ascii.eqb c "*" then Unordered else if Ascii.eqb c "#" then Ordered else Description.
Definition type_for (c : ascii) : ListItemTokenType :=
  if Ascii.eqb c ";" then DESCRIPTION_HEAD else if Ascii.eqb c ":" then DESCRIPTION_ITEM else NORMAL_ITEM.

(** An item with the kinds of the lists in which it is nested, from the outside to the inside *)
Record entry := mkEntry { path : list list_kind; type : ListItemTokenType; content : str }.

(** All items of a list, in the order in which they are shown *)
Fixpoint list_entries (p : list list_kind) (l : ListToken) : list entry :=
  match l with AnyListToken kind items => flat_map (item_entries (p ++ [kind])) items end
with item_entries (p : list list_kind) (i : ListItemToken) : list entry :=
  match i with mkListItemToken ty c subLists => mkEntry p ty c :: flat_map (list_entries p) subLists end.

(** The text does not begin with a list character. *)
Definition no_list_start (s : str) : Prop := forall c, is_list_char c -> ~ starts_with c s.

(** The items of a line: list characters, which say in which lists the item is, and the text of the item.  If the last list character is a
    semicolon, then a colon separates the head of a description from the description.  [parsed text content]: the text of the item has
    been parsed. *)
Inductive line_entries (parsed : str -> str -> Prop) : str -> list entry -> Prop :=
| one_item : forall p c text content, Forall is_list_char (p ++ [c]) -> no_list_start text -> (c = ";"%char -> no_char ":" text) -> parsed text content ->
    line_entries parsed (p ++ c :: text) [mkEntry (map kind_for (p ++ [c])) (type_for c) content]
| head_and_item : forall p head item content1 content2, Forall is_list_char p -> no_list_start (head ++ !":" ++ item) -> no_char ":" head ->
    parsed head content1 -> parsed item content2 ->
    line_entries parsed (p ++ !";" ++ head ++ !":" ++ item)
      [mkEntry (map kind_for p ++ [Description]) DESCRIPTION_HEAD content1; mkEntry (map kind_for p ++ [Description]) DESCRIPTION_ITEM content2].

(** The second list has all entries of the first one, in the same order, and other than that only empty ones. *)
Inductive covers : list entry -> list entry -> Prop :=
| covers_nil : covers [] []
| covers_entry : forall e l l', covers l l' -> covers (e :: l) (e :: l')
| covers_empty : forall p ty l l', covers l l' -> covers l (mkEntry p ty [] :: l').

(** The lines of a list and the list: every line has its items, in the order of the lines. *)
Definition is_list_of (parsed : str -> str -> Prop) (lines : list str) (l : ListToken) : Prop :=
  exists entries, Forall2 (line_entries parsed) lines entries /\ covers (concat entries) (list_entries [] l).

(** The line (up to white space) begins with a list character. *)
Definition list_line (line : str) : Prop := exists c, is_list_char c /\ starts_with c (trim_space line).

(** The lines of a text before and after lists have been parsed: every list is replaced by a key, other lines stay. *)
Inductive lists_parsed (parsed : str -> str -> Prop) (tokens : list (str * Token)) : list str -> list str -> Prop :=
| no_more : lists_parsed parsed tokens [] []
| other_line : forall line lines result, ~ list_line line -> lists_parsed parsed tokens lines result -> lists_parsed parsed tokens (line :: lines) (line :: result)
| a_list : forall listLines key l lines result, listLines <> [] -> Forall list_line listLines ->
    lookup_token key tokens = Some (ListTokenOf l) -> is_list_of parsed (map trim_space listLines) l ->
    lists_parsed parsed tokens lines result -> lists_parsed parsed tokens (listLines ++ lines) (key :: result).
