(** * What the tokens of the tokenizer look like *)

From Coq Require Import Ascii String.
From Coq Require Import List Arith ZArith Bool.
From Verif Require Import GoStr TokenModel TokenSpec HtmlSpec.
Import ListNotations.
Local Open Scope list_scope.

(** The file is one of the images to download: a media type, a colon and the file name *)
Definition recorded (imgs : list str) (file : str) : Prop :=
  exists mediaType, ~ In ":"%char mediaType /\ In (mediaType ++ !":" ++ file) imgs /\ file <> [] /\ ~ In " "%char file.

Definition shape (imgs : list str) (t : Token) : Prop :=
  match t with
  | HeadingToken _ depth => 1 <= depth <= 7
  | ListTokenOf l => proper_list l
  | ImageToken file _ _ _ => recorded imgs file
  | InlineImageToken file _ _ => recorded imgs file
  | _ => True
  end.

Definition shaped (t : Tokenizer) : Prop := Forall (fun p => shape (images t) (snd p)) (tokenMap t).
