(** * Specification of the whole cleanup of an article *)

From Coq Require Import Ascii String.
From Coq Require Import List.
From Verif Require Import GoStr BracketSpec ConfigModel CleanerSpec RailwaySpec.
Import ListNotations.
Local Open Scope list_scope.

(** The text without the word [w]: from left to right, [t] is what is before the next occurrence *)
Inductive without_word (w : str) : str -> str -> Prop :=
| word_none : forall s, (forall a b, s <> a ++ w ++ b) -> without_word w s s
| word_next : forall t s r, (forall a b, t ++ w ++ s = a ++ w ++ b -> List.length t <= List.length a) -> without_word w s r -> without_word w (t ++ w ++ s) (t ++ r).

(** What becomes of a text, see CleanerSpec.v for each step:
    - comments are removed,
    - then links to categories, to other languages and to other places that are not wanted,
    - then ignored templates; the trailing ones come to the end,
    - then the word that switches the table of contents off,
    - then lines that are empty entries of lists,
    - then empty sections,
    - at last the beginnings and ends of railway tables (RailwaySpec.v). *)
Definition tidied (cfg : configuration) (source text : str) : Prop :=
  exists comments last uncommented_text links links' templates templates' trailing without_toc entries sections,
    source = commented comments last /\ proper_comments comments last /\ uncommented comments uncommented_text /\
    uncommented_text ++ last = bracketed_texts links /\ proper_brackets links /\ without_unwanted cfg links links' /\
    bracketed_texts links' = templated_texts templates /\ proper_templates templates [] /\ without_templates cfg templates templates' trailing /\
    without_word !"__NOTOC__" (templated_texts templates' ++ concat (map (fun t => nl ++ !"{{" ++ t ++ !"}}") trailing)) without_toc /\
    without_empty_entries (split nl without_toc) entries /\
    without_empty_sections (split nl (join nl entries)) sections /\
    railway (join nl sections) text /\ contains table_head text = false.
