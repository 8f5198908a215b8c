(** * Specification of bracket matching *)

From Coq Require Import Ascii String.
From Coq Require Import List Arith Bool.
From Verif Require Import GoStr.
Import ListNotations.
Local Open Scope list_scope.

(** A text, read from left to right, is a sequence of opening tokens, closing tokens and other characters. *)
Inductive item := Opening | Closing | Other (c : ascii).

(** [reading o c s l]: the text [s] is read as [l].  An opening token that equals the closing token counts as closing token. *)
Inductive reading (o c : str) : str -> list item -> Prop :=
| read_end : reading o c [] []
| read_open : forall s l, o <> c -> reading o c s l -> reading o c (o ++ s) (Opening :: l)
| read_close : forall s l, (o = c \/ has_prefix o (c ++ s) = false) -> reading o c s l -> reading o c (c ++ s) (Closing :: l)
| read_other : forall x s l, has_prefix o (x :: s) = false -> has_prefix c (x :: s) = false ->
    reading o c s l -> reading o c (x :: s) (Other x :: l).

(** Sequences in which every opening token is closed again and vice versa *)
Inductive balanced : list item -> Prop :=
| balanced_empty : balanced []
| balanced_other : forall x l, balanced l -> balanced (Other x :: l)
| balanced_pair : forall l1 l2, balanced l1 -> balanced l2 -> balanced (Opening :: l1 ++ Closing :: l2).

(** The text of a sequence *)
Definition item_text (o c : str) (i : item) : str :=
  match i with Opening => o | Closing => c | Other x => [x] end.
Definition items_text (o c : str) (l : list item) : str := concat (map (item_text o c) l).

(** [closes content start o c i]: in [content], the closing token at position [i] is the first one at or behind [start] that is
    not the partner of an opening token at or behind [start]. *)
Definition closes (content : str) (start : nat) (o c : str) (i : nat) : Prop :=
  start <= List.length content /\
  exists inside rest, reading o c (skipn start content) (inside ++ Closing :: rest) /\ balanced inside /\
                      i = start + List.length (items_text o c inside).
