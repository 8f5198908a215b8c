(** * Specification of SVG files *)

From Coq Require Import Ascii String.
From Coq Require Import List Arith Bool.
From Verif Require Import GoStr.
Import ListNotations.
Local Open Scope list_scope.

(** Attributes of the root element, in order *)
Definition attribute := (str * str)%type.

Definition attribute_text (a : attribute) : str := !" " ++ fst a ++ !"=" ++ dq ++ snd a ++ dq.

(** A file: something before the root element, the root element with its attributes, and the rest *)
Definition svg_text (before : str) (attributes : list attribute) (rest : str) : str :=
  before ++ !"<svg" ++ concat (map attribute_text attributes) ++ rest.

(** The value of an attribute *)
Fixpoint value (name : str) (attributes : list attribute) : option str :=
  match attributes with
  | [] => None
  | (n, v) :: l => if str_eqb n name then Some v else value name l
  end.

(** Changing the value of an attribute *)
Definition set_value (name new : str) (attributes : list attribute) : list attribute :=
  map (fun a => if str_eqb (fst a) name then (fst a, new) else a) attributes.

(** What the XML decoder says about the size: missing attributes are empty. *)
Definition or_empty (o : option str) : str := match o with Some v => v | None => [] end.
Definition reads_size (parse : str -> option (str * str)) (before : str) (attributes : list attribute) (rest : str) : Prop :=
  parse (svg_text before attributes rest) = Some (or_empty (value !"width" attributes), or_empty (value !"height" attributes)).

(** Names with special meaning for the program *)
Definition special : list str := [!"width"; !"height"; !"viewBox"].

(** Attributes without quotes inside and without other names like stroke-width, and which are not repeated.  Nothing
    before the root element looks like one of the special attributes. *)
Definition ordinary (before : str) (attributes : list attribute) : Prop :=
  (forall x, In x special -> contains (x ++ !"=" ++ dq) (before ++ !"<svg") = false) /\
  NoDup (map fst attributes) /\
  forall n v, In (n, v) attributes ->
    ~ In dq_char n /\ ~ In " "%char n /\ ~ In dq_char v /\
    forall x, In x special -> (has_suffix x n = true -> n = x) /\ has_suffix (x ++ !"=") v = false.

(** A relative or absolute size *)
Definition relative (size : str) : Prop := has_suffix !"%" size = true.
