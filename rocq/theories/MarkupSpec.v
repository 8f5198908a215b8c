(** * Specification of the markup that the parser knows *)

From Coq Require Import Ascii String.
From Coq Require Import List Arith Bool.
From Verif Require Import GoStr GoStrFacts ConfigModel PassSpec ReferenceSpec.
Import ListNotations.
Local Open Scope list_scope.

(** A line of a text *)
Definition line_of (line s : str) : Prop :=
  no_char nl_char line /\
  exists before after, s = before ++ line ++ after /\
    (before = [] \/ exists b, before = b ++ nl) /\ (after = [] \/ exists a, after = nl ++ a).

(** A tag in upper or lower case *)
Definition spelled (tag t : str) : Prop := to_lower t = tag.

(** Markup in a text, at any place and in any line.  ([blank]: white space) *)
Inductive markup (cfg : configuration) : str -> Prop :=
(** A heading: a line that starts and ends with equality signs *)
| markup_heading : forall s l x r, line_of (l ++ !"=" ++ x ++ !"=" ++ r) s -> blank l -> blank r -> markup cfg s
| markup_short_heading : forall s l r, line_of (l ++ !"=" ++ r) s -> blank l -> blank r -> markup cfg s
(** A line of a list *)
| markup_list : forall s l c x, line_of (l ++ c :: x) s -> blank l -> In c !"*#;:" -> markup cfg s
(** The first line of a table *)
| markup_table : forall s l x, line_of (l ++ !"{|" ++ x) s -> blank l -> markup cfg s
(** Galleries and image maps *)
| markup_gallery : forall s l t x y, line_of (l ++ t ++ x ++ !">" ++ y) s -> blank l -> spelled !"<gallery" t -> markup cfg s
| markup_gallery_end : forall s l t x, line_of (l ++ t ++ x) s -> blank l -> spelled !"</gallery>" t -> markup cfg s
| markup_imagemap : forall s t x y, line_of (t ++ x ++ !">" ++ y) s -> spelled !"<imagemap" t -> markup cfg s
| markup_imagemap_end : forall s t, line_of t s -> spelled !"</imagemap>" t -> markup cfg s
(** Links to articles and images *)
| markup_link : forall a b, markup cfg (a ++ !"[[" ++ b)
(** Links to web pages with a text.  (The scheme of the address is not the name of a media type.) *)
| markup_external : forall a scheme address text b,
    (forall c, In c (scheme ++ address) -> 32 < nat_of_ascii c < 127 /\ ~ In c !"[]") -> no_char ":" scheme ->
    ~ In (to_lower scheme) (lists cfg FilePrefixes) -> (forall c, In c text -> ~ In c !"[]") ->
    markup cfg (a ++ !"[" ++ scheme ++ !"://" ++ address ++ !" " ++ text ++ !"]" ++ b)
(** Formulas *)
| markup_math : forall a x y b, no_char nl_char x -> markup cfg (a ++ !"<math" ++ x ++ !">" ++ y ++ !"</math>" ++ b)
(** Areas without markup *)
| markup_nowiki : forall a t c d b, spelled !"<nowiki>" t -> markup cfg (a ++ t ++ c :: d :: b)
(** Tags of footnotes and of lists of footnotes: those that are not short, and footnote marks with a name *)
| markup_reference : forall a t x y, spelled !"<ref" t \/ spelled !"</re" t -> no_char "<" x -> no_char ">" x -> ~ (exists z, x = z ++ !"/") ->
    markup cfg (a ++ t ++ x ++ !">" ++ y)
| markup_open_reference : forall a t c x, spelled !"<ref" t \/ spelled !"</re" t -> no_char ">" (c :: x) -> markup cfg (a ++ t ++ c :: x)
| markup_named_reference : forall a r b, reference_ok r -> ref_body r = None -> markup cfg (a ++ reference_text r ++ b)
(** Empty lines, which separate paragraphs *)
| markup_paragraph : forall s, s <> [] -> line_of [] s -> markup cfg s.

(** The file prefixes of the configuration are words *)
Definition word_prefixes (cfg : configuration) : Prop := forall p, In p (lists cfg FilePrefixes) -> p <> [] /\ no_char "]" p.
