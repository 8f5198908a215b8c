(** * Specification of formulas *)

From Coq Require Import Ascii String.
From Coq Require Import List Arith Bool.
From Verif Require Import GoStr GoStrFacts TokenModel PassSpec MarkupSpec.
Import ListNotations.
Local Open Scope list_scope.

(** A formula as it is written in an article: a tag with attributes on one line, and everything up to the next end tag *)
Definition formula_text (attributes content : str) : str := !"<math" ++ attributes ++ !">" ++ content ++ !"</math>".
Definition formula_ok (attributes content : str) : Prop :=
  no_char ">" attributes /\ no_char nl_char attributes /\ forall x y, content <> x ++ !"</math>" ++ y.

(** A formula begins at the beginning of a text. *)
Definition formula_at (s : str) : Prop :=
  exists attributes content rest, formula_ok attributes content /\ s = formula_text attributes content ++ rest.

(** An article as a sequence of formulas and other characters, read from left to right *)
Inductive piece := Letter (c : ascii) | Formula (content : str).
Inductive reading : str -> list piece -> Prop :=
| reading_end : reading [] []
| reading_formula : forall attributes content rest pieces, formula_ok attributes content -> reading rest pieces ->
    reading (formula_text attributes content ++ rest) (Formula content :: pieces)
| reading_letter : forall c rest pieces, ~ formula_at (c :: rest) -> reading rest pieces -> reading (c :: rest) (Letter c :: pieces).

(** The formulas, in order *)
Fixpoint formulas (pieces : list piece) : list str :=
  match pieces with
  | [] => []
  | Letter _ :: pieces' => formulas pieces'
  | Formula content :: pieces' => content :: formulas pieces'
  end.

(** The text with keys instead of the formulas *)
Fixpoint with_keys (n : nat) (pieces : list piece) : str :=
  match pieces with
  | [] => []
  | Letter c :: pieces' => c :: with_keys n pieces'
  | Formula _ :: pieces' => token_key TOKEN_MATH n ++ with_keys (S n) pieces'
  end.

(** Every opening bracket is closed before the next one. *)
Definition brackets_closed (s : str) : Prop :=
  forall a b, s = a ++ !"[" ++ b -> exists x y, b = x ++ !"]" ++ y /\ no_char "[" x.

(** Texts (with formulas inside) that contain no markup that is read before the formulas: bold and italic text, links, headings, footnotes, images, galleries
    and nowiki areas *)
Record quiet (s : str) : Prop := {
  no_format : forall a b, s <> a ++ !"''" ++ b;
  no_heading : forall line, line_of line s -> ordinary_line line;
  no_link_address : forall a b, s <> a ++ !"://" ++ b;
  only_closed_brackets : brackets_closed s;
  no_reserved_tag : forall tag, In tag [!"<nowiki>"; !"<ref"; !"</re"; !"<gallery"; !"</gallery>"; !"<imagemap"; !"</imagemap>"] -> no_tag tag s }.
