(** * Specification of the evaluation of templates *)

From Coq Require Import Ascii String.
From Coq Require Import List Arith Bool.
From Verif Require Import GoStr BracketSpec CleanerSpec.
Import ListNotations.
Local Open Scope list_scope.

(** Hash values are 40 hexadecimal digits. *)
Definition hexadecimal (c : ascii) : Prop := In c !"0123456789abcdef".
Definition hash_value (k : str) : Prop := Forall hexadecimal k /\ List.length k = 40.

(** Texts with placeholders *)
Inductive piece := Chr (c : ascii) | Hole (key : str).
Definition piece_text (p : piece) : str :=
  match p with Chr c => [c] | Hole key => !"$$TEMPLATE_PLACEHOLDER_" ++ key ++ !"$$" end.
Definition pieces_text (l : list piece) : str := concat (map piece_text l).

(** [filled value l t]: replacing the placeholders in [l] again and again by their values gives [t]. *)
Inductive filled (value : str -> option (list piece)) : list piece -> str -> Prop :=
| filled_end : filled value [] []
| filled_chr : forall c l t, filled value l t -> filled value (Chr c :: l) (c :: t)
| filled_hole : forall key v l s t, value key = Some v -> filled value v s -> filled value l t -> filled value (Hole key :: l) (s ++ t).

(** Texts with nested templates *)
Inductive nested := Plain (c : ascii) | Braces (l : list nested).

(** [closed l tree]: in a text that is read as [l], every template is closed, and [tree] is its structure.  Closing braces without
    opening ones and opening braces at the very end of the text are plain text. *)
Inductive closed : list item -> list nested -> Prop :=
| closed_end : closed [] []
| closed_other : forall x l t, closed l t -> closed (Other x :: l) (Plain x :: t)
| closed_stray : forall l t, closed l t -> closed (Closing :: l) (Plain "}" :: Plain "}" :: t)
| closed_last : closed [Opening] [Plain "{"; Plain "{"]
| closed_pair : forall l1 l2 t1 t2, balanced l1 -> closed l1 t1 -> closed l2 t2 ->
    closed (Opening :: l1 ++ Closing :: l2) (Braces t1 :: t2).

(** The evaluation of templates *)
Section Evaluation.
  Variable Hash : str -> str.

  (** In a request, nested templates are replaced by placeholders with the hash of their requests. *)
  Fixpoint with_holes (e : nested) : piece :=
    match e with
    | Plain c => Chr c
    | Braces l => Hole (Hash (!"{{" ++ pieces_text (map with_holes l) ++ !"}}"))
    end.
  Definition request (l : list nested) : str := !"{{" ++ pieces_text (map with_holes l) ++ !"}}".

  (** All requests, nested templates first *)
  Fixpoint requests_of (e : nested) : list str :=
    match e with
    | Plain _ => []
    | Braces l => concat (map requests_of l) ++ [request l]
    end.
  Definition all_requests (l : list nested) : list str := concat (map requests_of l).

  (** The answers to requests *)
  Variable answer : str -> list piece.

  (** A placeholder in an answer is replaced by the evaluation of the template that it stands for.  Other placeholders remain. *)
  Definition fill (environment : list (piece * str)) (p : piece) : str :=
    match p with
    | Chr c => [c]
    | Hole key =>
        match find (fun x => match fst x with Hole k => str_eqb k key | Chr _ => false end) environment with
        | Some (_, t) => t
        | None => piece_text (Hole key)
        end
    end.
  Fixpoint evaluation (e : nested) : str :=
    match e with
    | Plain c => [c]
    | Braces l => concat (map (fill (map (fun x => (with_holes x, evaluation x)) l)) (answer (request l)))
    end.
  Definition evaluations (l : list nested) : str := concat (map evaluation l).
End Evaluation.
