(** * Specification of the pictures of a book *)

From Coq Require Import Ascii String.
From Coq Require Import List Arith Bool.
From Verif Require Import GoStr CacheModel CacheSpec ImageSpec DocumentSpec EpubSpec.
Import ListNotations.
Local Open Scope list_scope.

(** ** The pictures of a document *)

Definition line_pictures (l : list inline) : list picture := concat (map (fun i => match i with Picture p => [p] | _ => [] end) l).
Fixpoint item_pictures (i : item) : list picture :=
  match i with Item _ text below => line_pictures text ++ concat (map (fun l => concat (map item_pictures l)) below) end.
Definition cells_pictures (cells : list grid_cell) : list picture := concat (map (fun c => line_pictures (snd c)) cells).
Definition block_pictures (b : block) : list picture :=
  match b with
  | Heading _ title => line_pictures title
  | Paragraph lines => concat (map line_pictures lines)
  | Items items => concat (map item_pictures items)
  | Grid _ caption rows => match caption with Some c => line_pictures c | None => [] end ++ concat (map (fun row => cells_pictures (concat row)) rows)
  | Figure p => [p]
  | Footnotes _ title _ texts => line_pictures title ++ concat (map (fun p => line_pictures (snd p)) texts)
  end.
Definition document_pictures (doc : list block) : list picture := concat (map block_pictures doc).

(** ** The pictures of a page *)

(** There is an image element with these attributes. *)
Definition image_element (html attributes : str) : Prop :=
  exists before behind, html = before ++ !"<img " ++ attributes ++ !">" ++ behind /\ forall c, In c !"<>" -> ~ In c attributes.

(** Its first source; it is relative to the directory of the cache. *)
Definition source (attributes src : str) : Prop :=
  exists before behind, attributes = before ++ !"src=" ++ dq ++ !"./" ++ src ++ dq ++ behind /\ ~ occurs !"src=" before /\ forall c, In c dq -> ~ In c src.

(** The source is the URL of a file that exists. *)
Definition names_file (w : world) (src : str) : Prop := exists p, percent_decode src = join !"/" p /\ content w p <> None.

Definition pictures_there (w : world) (html : str) : Prop :=
  forall attributes, image_element html attributes -> exists src, source attributes src /\ names_file w src.
