(** * Specifications of headings, links and nowiki areas *)

From Coq Require Import Ascii String.
From Coq Require Import List Arith Bool.
From Verif Require Import GoStr GoStrFacts TokenModel TokenSpec.
Import ListNotations.
Local Open Scope list_scope.

(** ** Headings *)

(** [n] equal signs *)
Definition equal_sign : ascii := "="%char.
Definition equals (n : nat) : str := repeat equal_sign n.

Definition starts_with (c : ascii) (s : str) : Prop := exists x, s = c :: x.
Definition ends_with (c : ascii) (s : str) : Prop := exists x, s = x ++ [c].

(** The line is the heading [title] of level [n]: the title between [n] equal signs on each side, up to surrounding white space.  (There
    are not more than [n] equal signs on both sides, except for the highest level.) *)
Definition heading_line (line : str) (n : nat) (title : str) : Prop :=
  1 <= n <= 7 /\ title <> [] /\ (n = 7 \/ ~ (starts_with equal_sign title /\ ends_with equal_sign title)) /\
  exists l r, blank l /\ blank r /\ line = l ++ equals n ++ title ++ equals n ++ r.

(** The line does not both begin and end with an equal sign. *)
Definition ordinary_line (line : str) : Prop :=
  ~ exists l core r, blank l /\ blank r /\ line = l ++ core ++ r /\ starts_with equal_sign core /\ ends_with equal_sign core.

(** ** nowiki areas *)

(** A nowiki area with its tags, and the text behind it *)
Record area := mkArea { open_tag : str; body : str; close_tag : str; following : str }.

Definition no_tag (tag s : str) : Prop := contains tag (to_lower s) = false.

(** The tags may be written in upper or lower case.  The content of the area has no such tags, the text behind it no opening tag. *)
Definition area_ok (a : area) : Prop :=
  to_lower (open_tag a) = !"<nowiki>" /\ to_lower (close_tag a) = !"</nowiki>" /\
  no_tag !"<nowiki>" (body a) /\ no_tag !"</nowiki>" (body a) /\ no_tag !"<nowiki>" (following a).

(** The text *)
Definition area_text (a : area) : str := open_tag a ++ body a ++ close_tag a ++ following a.
Definition nowiki_text (first : str) (areas : list area) : str := first ++ concat (map area_text areas).

(** The text in which the areas are replaced by the keys with the numbers from [n] on, and the tokens of these keys *)
Fixpoint replaced_areas (n : nat) (areas : list area) : str :=
  match areas with
  | [] => []
  | a :: areas' => token_key TOKEN_NOWIKI n ++ following a ++ replaced_areas (S n) areas'
  end.

(** ** Internal links *)

(** A link [[target]] or [[target|text]], and the text behind it *)
Record link := mkLink { target : str; text : option str; after_link : str }.

Definition link_wikitext (l : link) : str :=
  !"[[" ++ target l ++ match text l with None => [] | Some x => !"|" ++ x end ++ !"]]" ++ after_link l.

Definition no_char (c : ascii) (s : str) : Prop := ~ In c s.

(** Text without opening brackets of a link *)
Definition no_link (s : str) : Prop := contains !"[[" s = false /\ ~ ends_with "["%char s.

(** The target is the name of the article, with white space around it and a section behind it. *)
Definition article_of (target article : str) : Prop :=
  exists name section, target = name ++ section /\ no_char "#" name /\ (section = [] \/ starts_with "#" section) /\ article = trim_space name.

(** The text that is shown for a link without text: the article, without prefixes if it begins with a colon *)
Definition shown_article (article shown : str) : Prop :=
  (~ starts_with ":" article /\ shown = article) \/
  (starts_with ":" article /\ no_char ":" shown /\ exists prefixes, article = prefixes ++ !":" ++ shown).

(** The link has a prefix like File. *)
Definition has_file_prefix (filePrefixes : list str) (s : str) : Prop :=
  exists prefix rest, s = prefix ++ !":" ++ rest /\ no_char ":" prefix /\ In (to_lower prefix) filePrefixes.

(** The link is no file.  There are no brackets in the link, and no bar in its target, and a link without text has a target. *)
Definition link_ok (filePrefixes : list str) (l : link) : Prop :=
  no_char "[" (target l) /\ no_char "]" (target l) /\ no_char "|" (target l) /\
  (forall x, text l = Some x -> no_char "[" x /\ no_char "]" x) /\
  (text l = None -> forall a, article_of (target l) a -> a <> []) /\
  ~ has_file_prefix filePrefixes (target l ++ match text l with None => [] | Some x => !"|" ++ x end) /\
  no_link (after_link l).

(** The text with keys in place of the links *)
Definition links_replaced (first : str) (links : list link) (keys : list str) : str :=
  first ++ concat (map (fun p => snd p ++ after_link (fst p)) (combine links keys)).

(** ** External links *)

(** Text in single brackets, and the text behind it *)
Record bracket := mkBracket { inside : str; behind : str }.
Definition bracket_wikitext (b : bracket) : str := !"[" ++ inside b ++ !"]" ++ behind b.

(** The brackets are not nested, and it is no file. *)
Definition bracket_ok (filePrefixes : list str) (b : bracket) : Prop :=
  no_char "[" (inside b) /\ no_char "]" (inside b) /\ no_char "[" (behind b) /\ ~ has_file_prefix filePrefixes (inside b).

(** The text in the brackets is a URL and another text behind a blank. *)
Definition url_and_text (inside url text : str) : Prop :=
  exists u, inside = u ++ !" " ++ text /\ no_char " " u /\ url = trim_space u.

Definition is_http (url : str) : Prop := (exists x, url = !"http://" ++ x) \/ (exists x, url = !"https://" ++ x).
