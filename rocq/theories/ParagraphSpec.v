(** * Specification of paragraphs *)

From Coq Require Import Ascii String.
From Coq Require Import List Arith Bool.
From Verif Require Import GoStr.
Import ListNotations.
Local Open Scope list_scope.

(** A line that consists of a block element: a token key *)
Definition block_line (line : str) : Prop := exists name number,
  line = !"$$TOKEN_" ++ name ++ !"_" ++ number ++ !"$$" /\ name <> [] /\ number <> [] /\
  (forall c, In c name -> In c !"ABCDEFGHIJKLMNOPQRSTUVWXYZ_0123456789") /\ (forall c, In c number -> In c !"0123456789").

Definition paragraph_marker : str := !"$$MARKER_PARAGRAPH$$".

(** [paragraphs previous lines result]: [result] are the non-blank lines of [lines], in order, with a marker where a paragraph
    begins: behind blank lines, but not before the first non-blank line and not before or behind a block element.  [previous] is
    the non-blank line before. *)
Inductive paragraphs : option str -> list str -> list str -> Prop :=
| paragraphs_end : forall previous blank, Forall (eq []) blank -> paragraphs previous blank []
| paragraphs_line : forall previous blank line lines result, Forall (eq []) blank -> line <> [] ->
    (blank = [] \/ previous = None \/ (exists p, previous = Some p /\ block_line p) \/ block_line line) ->
    paragraphs (Some line) lines result -> paragraphs previous (blank ++ line :: lines) (line :: result)
| paragraphs_marker : forall p blank line lines result, Forall (eq []) blank -> blank <> [] -> line <> [] ->
    ~ block_line p -> ~ block_line line ->
    paragraphs (Some line) lines result -> paragraphs (Some p) (blank ++ line :: lines) (paragraph_marker :: line :: result).
