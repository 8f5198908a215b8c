(** * Specification vocabulary for books of the internal driver *)

From Coq Require Import Ascii String.
From Coq Require Import List Arith.
From Verif Require Import GoStr.
Import ListNotations.
Local Open Scope list_scope.

(** A chapter: an HTML text with one heading of the first level that has been written down without attributes *)
Record chapter := mkChapter { ch_before : str; ch_title : str; ch_behind : str }.

Definition chapter_text (c : chapter) : str := ch_before c ++ !"<h1>" ++ ch_title c ++ !"</h1>" ++ ch_behind c.

Definition occurs (p s : str) : Prop := exists a b, s = a ++ p ++ b.

(** The heading is the only one: no other begins in front of it and no other ends behind it *)
Definition only_heading (c : chapter) : Prop := ~ occurs !"<h1>" (ch_before c) /\ ~ occurs !"</h1>" (ch_behind c).
