(** * Specification of bold and italic text *)

From Coq Require Import Ascii String.
From Coq Require Import List Arith Bool.
From Verif Require Import GoStr.
Import ListNotations.
Local Open Scope list_scope.

Inductive style := Bold | Italic.
Inductive marker := Open (k : style) | Close (k : style).

Definition marker_text (m : marker) : str :=
  match m with
  | Open Bold => !"$$MARKER_BOLD_OPEN$$"
  | Close Bold => !"$$MARKER_BOLD_CLOSE$$"
  | Open Italic => !"$$MARKER_ITALIC_OPEN$$"
  | Close Italic => !"$$MARKER_ITALIC_CLOSE$$"
  end.

(** Balanced and properly nested markers *)
Inductive nested_markers : list marker -> Prop :=
| nested_none : nested_markers []
| nested_pair : forall k a b, nested_markers a -> nested_markers b -> nested_markers (Open k :: a ++ Close k :: b).

(** A formatted text consists of characters and of markers; a marker stands for the quotes that it replaces: two for italic and
    three for bold text, or none if it is inserted. *)
Inductive part := Text (c : ascii) | Mark (m : marker) (quotes : str).
Definition quotes_of (k : style) : str := match k with Bold => !"'''" | Italic => !"''" end.
Definition style_of (m : marker) : style := match m with Open k => k | Close k => k end.
Definition replaced (p : part) : Prop :=
  match p with Text _ => True | Mark m q => q = [] \/ q = quotes_of (style_of m) end.

Definition before (p : part) : str := match p with Text c => [c] | Mark _ q => q end.
Definition after (p : part) : str := match p with Text c => [c] | Mark m _ => marker_text m end.
Definition markers (l : list part) : list marker := flat_map (fun p => match p with Text _ => [] | Mark m _ => [m] end) l.

(** Texts in which quotes are separated from each other by other characters: [Word t k l] is the text [t], followed by the quotes
    of [k] and the rest *)
Inductive separated := Last (t : str) | Word (t : str) (k : style) (rest : separated).
Fixpoint separated_text (s : separated) : str :=
  match s with
  | Last t => t
  | Word t k rest => t ++ quotes_of k ++ separated_text rest
  end.
(** Apostrophes in the text stand alone: there are no two of them next to each other, and none at the beginning or the end. *)
Definition plain (t : str) : Prop :=
  (forall a b, t <> a ++ !"''" ++ b) /\ (forall a, t <> !"'" ++ a) /\ (forall a, t <> a ++ !"'").
(** [inner]: there are quotes before *)
Fixpoint proper_separated (inner : bool) (s : separated) : Prop :=
  match s with
  | Last t => plain t
  | Word t k rest => plain t /\ (inner = true -> t <> []) /\ proper_separated true rest
  end.

(** The markers for quotes of style [k] if the styles [open] (latest first) are open, and the styles that are open then.  If an
    older style is closed, the latest one is closed before and opened again. *)
Definition toggle (open : list style) (k : style) : list marker * list style :=
  match open, k with
  | [], _ => ([Open k], [k])
  | [Bold], Bold => ([Close Bold], [])
  | [Italic], Italic => ([Close Italic], [])
  | [Bold], Italic => ([Open Italic], [Italic; Bold])
  | [Italic], Bold => ([Open Bold], [Bold; Italic])
  | Bold :: _, Bold => ([Close Bold], [Italic])
  | Italic :: _, Italic => ([Close Italic], [Bold])
  | Bold :: _, Italic => ([Close Bold; Close Italic; Open Bold], [Bold])
  | Italic :: _, Bold => ([Close Italic; Close Bold; Open Italic], [Italic])
  end.

(** The formatted text, and the styles that are open at the end *)
Fixpoint formatted (open : list style) (s : separated) : str * list style :=
  match s with
  | Last t => (t, open)
  | Word t k rest =>
      let (m, open) := toggle open k in
      let (r, open) := formatted open rest in
      (t ++ concat (map marker_text m) ++ r, open)
  end.
