(** * Specification: railway tables *)

From Coq Require Import Ascii String.
From Coq Require Import List Bool.
From Verif Require Import GoStr.
Import ListNotations.
Local Open Scope list_scope.

(** The beginning and the end of a railway table *)
Definition table_head : str := !"{{BS-table}}".
Definition table_end : str := !"|}".

(** [railway s r]: [r] is the text [s] without the beginnings and ends of its railway tables, which may be nested.  Everything else in [s] is kept.
    There is nothing in a table that looks like its end. *)
Inductive railway : str -> str -> Prop :=
| railway_nil : railway [] []
| railway_text : forall c s r, has_prefix table_head (c :: s) = false -> railway s r -> railway (c :: s) (c :: r)
| railway_table : forall inner inner' s r, railway inner inner' -> contains table_end inner' = false -> railway s r ->
    railway (table_head ++ inner ++ table_end ++ s) (inner' ++ r).
