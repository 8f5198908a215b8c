(** * C07: bracket matching *)

From Coq Require Import Ascii String.
From Coq Require Import List Arith Bool Lia.
From Verif Require Import GoStr BracketModel BracketSpec BracketProofs.
Import ListNotations.
Local Open Scope list_scope.

(** The returned position is that of the first closing token without partner. *)
Theorem C07_found : forall content start o c i, o <> [] -> c <> [] -> start <= List.length content ->
  (FindCorrespondingCloseToken content start o c = Some i <-> closes content start o c i).
Proof. exact findClose_spec. Qed.
Print Assumptions C07_found.

(** Nothing is found exactly if there is none. *)
Theorem C07_not_found : forall content start o c, o <> [] -> c <> [] ->
  (FindCorrespondingCloseToken content start o c = None <-> forall i, ~ closes content start o c i).
Proof. exact findClose_none. Qed.
Print Assumptions C07_not_found.

(** A returned position is in the text, not before the start, and carries the closing token. *)
Theorem C07_position : forall content start o c i, o <> [] -> c <> [] ->
  FindCorrespondingCloseToken content start o c = Some i ->
  start <= i /\ i + List.length c <= List.length content /\ exists a b, content = a ++ c ++ b /\ List.length a = i.
Proof. exact findClose_position. Qed.
Print Assumptions C07_position.

(** Ignoring the case means matching in the lower case text. *)
Theorem C07_ignore_case : forall content start o c,
  FindCorrespondingCloseTokenIgnoreCase content start o c =
  FindCorrespondingCloseToken (to_lower content) start (to_lower o) (to_lower c).
Proof. exact findClose_ignore_case. Qed.
Print Assumptions C07_ignore_case.

Example C07_example :
  closes !"{{a{{b}}c}}d}}" 2 !"{{" !"}}" 9 /\ (forall i, ~ closes !"{{a{{b}}c" 2 !"{{" !"}}" i) /\
  FindCorrespondingCloseTokenIgnoreCase !"<REF>x</Ref>" 5 !"<ref>" !"</ref>" = Some 6.
Proof.
  split; [|split].
  - apply C07_found; [discriminate|discriminate|simpl; lia|]. reflexivity.
  - apply C07_not_found; [discriminate|discriminate|]. reflexivity.
  - reflexivity.
Qed.
