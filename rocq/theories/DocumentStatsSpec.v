(** * Specification: what the statistics of a document say *)

From Coq Require Import Ascii String.
From Coq Require Import List Arith NArith Bool.
From Verif Require Import GoStr DocumentSpec StatsModel StatsSpec.
Import ListNotations.
Local Open Scope list_scope.

(** ** What is in a document *)

(** (A footnote is its mark in the text and, in the list of footnotes, its text.) *)
Inductive kind := Link (article : str) | WebLink | Image | Formula | FootnoteMark | FootnoteText.

(** Text, things that are counted, and the ends of texts: words do not go on behind them *)
Inductive thing := TextOf (s : str) | Thing (k : kind) | End.

(** The article to which a link leads: without the section *)
Fixpoint before_section (s : str) : str :=
  match s with
  | [] => []
  | c :: s' => if Ascii.eqb c "#" then [] else c :: before_section s'
  end.
Definition linked_article (target : str) : str := trim_space (before_section target).

(** Only figures have captions; only those of thumbnails are shown. *)
Definition phrase_things (x : phrase) : list thing :=
  match x with
  | Said s => [TextOf s]
  | Linked article label => [Thing (Link (linked_article article)); TextOf (link_label article label); End]
  end.
Definition caption_things (p : picture) : list thing := match caption_text p with Some c => if thumbnail p then concat (map phrase_things c) else [] | None => [] end.
Definition picture_things (p : picture) : list thing := Thing Image :: if as_figure p then caption_things p ++ [End] else [].

(** Quotes are no text: a word goes on behind them. *)
Definition inline_things (i : inline) : list thing :=
  match i with
  | Words s => [TextOf s]
  | Quotes _ => []
  | LinkTo article label => [Thing (Link (linked_article article)); TextOf (link_label article label); End]
  | Address _ label => [Thing WebLink; TextOf label; End]
  | Math _ => [Thing Formula]
  | Picture p => picture_things p
  | Note _ _ => [Thing FootnoteMark]
  end.
Definition line_things (l : list inline) : list thing := concat (map inline_things l).

(** The blank between the sign and the text of an item is a character. *)
Fixpoint item_things (i : item) : list thing :=
  match i with Item _ text below => TextOf !" " :: line_things text ++ End :: concat (map (fun l => concat (map item_things l)) below) end.

Definition cell_things (c : grid_cell) : list thing := line_things (snd c) ++ [End].

(** The ends of the lines of a paragraph are characters. *)
Fixpoint lines_things (lines : list (list inline)) : list thing :=
  match lines with
  | [] => []
  | [l] => line_things l
  | l :: lines' => line_things l ++ TextOf nl :: lines_things lines'
  end.

Definition block_things (b : block) : list thing :=
  match b with
  | Heading _ title => End :: line_things title ++ [End]
  | Paragraph lines => lines_things lines
  | Items items => End :: concat (map item_things items)
  | Grid _ caption rows => End :: concat (map (fun row => concat (map cell_things (concat row))) rows) ++ match caption with Some c => line_things c | None => [] end ++ [End]
  | Figure p => picture_things p
  | Footnotes _ title _ texts => End :: line_things title ++ End :: concat (map (fun p => TextOf nl :: Thing FootnoteText :: line_things (snd p) ++ [End]) texts)
  end.

(** Between two blocks there is an end of a line, and between two paragraphs a line more. *)
Fixpoint document_things (doc : list block) : list thing :=
  match doc with
  | [] => []
  | b :: doc' => block_things b ++ match b, doc' with
                                   | _, [] => []
                                   | Paragraph _, Paragraph _ :: _ => [TextOf nl; TextOf nl]
                                   | _, _ => [TextOf nl]
                                   end ++ document_things doc'
  end.

(** ** Counting *)

(** The texts from one end to the next one; [before]: the text that has already begun *)
Fixpoint texts_from (before : str) (l : list thing) : list str :=
  match l with
  | [] => [before]
  | TextOf s :: l' => texts_from (before ++ s) l'
  | _ :: l' => before :: texts_from [] l'
  end.
Definition all_texts (l : list thing) : list str := texts_from [] l.
Definition all_kinds (l : list thing) : list kind := flat_map (fun x => match x with Thing k => [k] | _ => [] end) l.

Definition is_kind (c : counter) (k : kind) : bool :=
  match c, k with
  | NumberOfInternalLinks, Link _ | NumberOfExternalLinks, WebLink | NumberOfImages, Image | NumberOfMath, Formula
  | NumberOfRefUsages, FootnoteMark | NumberOfRefDefinitions, FootnoteText => true
  | _, _ => false
  end.
Definition links_in (name : str) (l : list thing) : nat := length (filter (fun k => match k with Link n => str_eqb n name | _ => false end) (all_kinds l)).

(** The numbers: characters, words, and things of a kind *)
Definition number_of (letter : N -> bool) (c : counter) (l : list thing) : nat :=
  match c with
  | NumberOfCharacters => list_sum (map (fun s => length (runes s)) (all_texts l))
  | NumberOfWords => list_sum (map (fun s => words_in letter (runes s)) (all_texts l))
  | _ => length (filter (is_kind c) (all_kinds l))
  end.

(** The statistics of an article say what is in it. *)
Definition says_things (letter : N -> bool) (instance title : str) (l : list thing) (stats : articleStats) : Prop :=
  ArticleName stats = title /\
  (forall c, c <> EstimatedReadingTimeMinutes -> count stats c = number_of letter c l) /\
  (exists speed, reading_speed instance speed /\ count stats EstimatedReadingTimeMinutes = number_of letter NumberOfWords l / speed) /\
  is_map (InternalLinks stats) /\
  (forall name, entry name (InternalLinks stats) = links_in name l) /\
  (forall name, In name (map fst (InternalLinks stats)) <-> 0 < links_in name l).

(** The document without the lists below the items of lists *)
Definition flat_item (i : item) : item := match i with Item m text _ => Item m text [] end.
Definition flat_block (b : block) : block := match b with Items items => Items (map flat_item items) | _ => b end.
Definition flat_document (doc : list block) : list block := map flat_block doc.
