(** * Specification for parsing without a crash: texts without markup that has to be closed *)

From Coq Require Import Ascii String.
From Coq Require Import List Arith NArith Bool.
From Verif Require Import GoStr ConfigModel TokenModel.
Import ListNotations.
Local Open Scope list_scope.

(** A text without equals signs and in lower case: equals signs within a heading are removed, and the names of tags ignore the case *)
Definition essence (s : str) : str := to_lower (filter (fun c => negb (Ascii.eqb c "=")) s).

Definition occurs (w s : str) : Prop := exists a b, s = a ++ w ++ b.

(** Beginnings of markup that consists of several parts: tables, tags with an end tag *)
Definition openings : list str := [!"{|"; !"<nowiki>"; !"<ref"; !"</re"; !"<gallery"; !"</gallery"; !"<imagemap"].

(** Beginnings of images *)
Definition file_links (cfg : configuration) : list str := map (fun p => !"[[" ++ p ++ !":") (lists cfg FilePrefixes).

(** A character that can start the target of a link: it is neither white space nor the beginning of white space in UTF-8, and no character
    of the markup of links *)
Definition starts_target (c : ascii) : Prop :=
  let n := N_of_ascii c in
  ((33 <= n /\ n <= 126) \/ (195 <= n /\ n <= 223))%N /\ ~ In c !"[]|#:=".

(** Texts without tables, images, references, galleries and so on, in which two opening brackets begin a link that is not empty.  Everything
    else is allowed: headings, lists, links, formulas, formatting, and brackets, quotes and tags in any order. *)
Record calm (cfg : configuration) (s : str) : Prop := {
  calm_words : forall w, In w (openings ++ file_links cfg) -> ~ occurs w (essence s);
  calm_links : forall a b, essence s = a ++ !"[[" ++ b -> exists c b', b = c :: b' /\ starts_target c }.

(** File prefixes are words *)
Definition prefixes_are_words (cfg : configuration) : Prop :=
  forall p c, In p (lists cfg FilePrefixes) -> In c p -> ~ In c (!"$]=" ++ nl).

(** The program does not crash, and no error either *)
Definition no_crash {A} (r : res A) : Prop := r <> Panic /\ r <> Err.
