(** * Specification of the cleaning steps *)

From Coq Require Import Ascii String.
From Coq Require Import List Arith NArith Bool.
From Verif Require Import GoStr BracketSpec ConfigModel.
Import ListNotations.
Local Open Scope list_scope.

(** ** Comments *)

Definition comment (c : str) : str := !"<!--" ++ c ++ !"-->".

(** A text with comments: texts, each followed by a comment, and a last text *)
Definition commented (l : list (str * str)) (last : str) : str :=
  concat (map (fun tc => fst tc ++ comment (snd tc)) l) ++ last.

(** All comments are properly delimited: no text contains the start of a comment, every comment ends at the first end marker
    behind its start.  An unclosed comment may follow, if there is no end marker in the last text. *)
Definition proper_comments (l : list (str * str)) (last : str) : Prop :=
  (forall t c, In (t, c) l -> contains !"<!--" t = false /\ contains !"-->" (!"<!--" ++ c) = false) /\
  (contains !"<!--" last = false \/ contains !"-->" last = false).

(** The text without comments: one newline directly before a comment is removed, too *)
Definition without_newline (t t' : str) : Prop := t = t' ++ nl \/ (t = t' /\ forall u, t <> u ++ nl).
Inductive uncommented : list (str * str) -> str -> Prop :=
| uncommented_end : uncommented [] []
| uncommented_next : forall t t' c l r, without_newline t t' -> uncommented l r -> uncommented ((t, c) :: l) (t' ++ r).

(** ** Empty list entries *)

Definition list_character (c : ascii) : Prop := c = "*"%char \/ c = "#"%char \/ c = ";"%char \/ c = ":"%char.

(** A line that consists of list characters only, apart from space around them *)
Definition empty_entry (line : str) : Prop := trim_space line <> [] /\ Forall list_character (trim_space line).

(** Lines without empty entries, the others trimmed *)
Inductive without_empty_entries : list str -> list str -> Prop :=
| we_end : without_empty_entries [] []
| we_drop : forall line lines r, empty_entry line -> without_empty_entries lines r -> without_empty_entries (line :: lines) r
| we_keep : forall line lines r, ~ empty_entry line -> without_empty_entries lines r ->
    without_empty_entries (line :: lines) (trim_space line :: r).

(** ** Sections *)

Definition equals (n : nat) : str := repeat "="%char n.

(** Lines that count as headings: a title between equal signs of the same number on both sides, a line of equal signs, and a
    line that begins and ends with three apostrophes (a "semi heading", deeper than any real heading) *)
Inductive heading_line : str -> nat -> Prop :=
| heading_title : forall n title, 0 < n -> title <> [] -> has_prefix !"=" title = false -> has_suffix !"=" title = false ->
    heading_line (equals n ++ title ++ equals n) n
| heading_equals : forall n, 0 < n -> heading_line (equals n) n
| heading_semi : forall line, has_prefix !"'''" line = true -> has_suffix !"'''" line = true -> heading_line line 10.

(** The lines behind a heading of depth [d] begin with an empty section: up to the next heading, which is not deeper, or the end
    there are only blank lines. *)
Definition empty_section (d : nat) (lines blanks rest : list str) : Prop :=
  lines = blanks ++ rest /\ Forall (eq []) blanks /\
  (rest = [] \/ exists h r d', rest = h :: r /\ heading_line h d' /\ d' <= d).

(** Lines without empty sections.  A heading of depth 10 in the last line is kept. *)
Inductive without_empty_sections : list str -> list str -> Prop :=
| ws_end : without_empty_sections [] []
| ws_text : forall line lines r, (forall d, ~ heading_line line d) -> without_empty_sections lines r ->
    without_empty_sections (line :: lines) (line :: r)
| ws_last : forall line, heading_line line 10 -> without_empty_sections [line] [line]
| ws_empty : forall line d lines blanks rest r, heading_line line d -> empty_section d lines blanks rest ->
    (lines <> [] \/ d <> 10) -> without_empty_sections rest r ->
    without_empty_sections (line :: lines) r
| ws_section : forall line d lines r, heading_line line d -> (forall blanks rest, ~ empty_section d lines blanks rest) ->
    without_empty_sections lines r -> without_empty_sections (line :: lines) (line :: r).

(** ** Internal links *)

(** Texts with brackets: plain characters, text in single brackets, and links in double brackets *)
Inductive bracketed :=
| Plain (c : ascii)
| Single (body : list bracketed)
| Link (body : list bracketed).

Fixpoint bracketed_text (e : bracketed) : str :=
  match e with
  | Plain c => [c]
  | Single body => !"[" ++ concat (map bracketed_text body) ++ !"]"
  | Link body => !"[[" ++ concat (map bracketed_text body) ++ !"]]"
  end.
Definition bracketed_texts (l : list bracketed) : str := concat (map bracketed_text l).

(** Plain characters are no brackets, and an opening bracket is not directly followed by another one that does not belong to it,
    because three brackets in a row would be ambiguous. *)
Definition not_bracket_first (l : list bracketed) : Prop := forall e l', l = e :: l' -> exists c, e = Plain c.
Inductive proper_brackets : list bracketed -> Prop :=
| pb_nil : proper_brackets []
| pb_plain : forall c l, c <> "["%char -> c <> "]"%char -> proper_brackets l -> proper_brackets (Plain c :: l)
| pb_single : forall body l, not_bracket_first body -> proper_brackets body -> proper_brackets l -> proper_brackets (Single body :: l)
| pb_link : forall body l, not_bracket_first body -> proper_brackets body -> proper_brackets l -> proper_brackets (Link body :: l).

(** [prefix_of p t]: in the link text [t], [p] is a part that ends with a colon; [first_prefix_of]: the first one *)
Definition prefix_of (p t : str) : Prop :=
  ~ In ":"%char p /\ exists a b, t = a ++ p ++ !":" ++ b /\ (a = [] \/ exists a', a = a' ++ !":").
Definition first_prefix_of (p t : str) : Prop := ~ In ":"%char p /\ exists b, t = p ++ !":" ++ b.

(** A prefix is forbidden if it is configured as category or neither as file prefix nor as allowed prefix. *)
Definition forbidden (cfg : configuration) (p : str) : Prop :=
  p <> [] /\ (In (to_lower p) (lists cfg CategoryPrefixes) \/
              ~ In (to_lower p) (lists cfg FilePrefixes) /\ ~ In (to_lower p) (lists cfg AllowedLinkPrefixes)).

(** A link is unwanted if any of its prefixes is forbidden, unless it is a file or begins with a colon. *)
Definition unwanted (cfg : configuration) (t : str) : Prop :=
  (exists p, prefix_of p t /\ forbidden cfg p) /\
  (forall t', t <> !":" ++ t') /\
  (forall p, first_prefix_of p t -> ~ In (to_lower p) (lists cfg FilePrefixes)).

(** The text without unwanted links, also inside of other brackets *)
Inductive without_unwanted (cfg : configuration) : list bracketed -> list bracketed -> Prop :=
| wu_nil : without_unwanted cfg [] []
| wu_plain : forall c l r, without_unwanted cfg l r -> without_unwanted cfg (Plain c :: l) (Plain c :: r)
| wu_single : forall body body' l r, without_unwanted cfg body body' -> without_unwanted cfg l r ->
    without_unwanted cfg (Single body :: l) (Single body' :: r)
| wu_drop : forall body l r, unwanted cfg (bracketed_texts body) -> without_unwanted cfg l r ->
    without_unwanted cfg (Link body :: l) r
| wu_keep : forall body body' l r, ~ unwanted cfg (bracketed_texts body) -> without_unwanted cfg body body' ->
    without_unwanted cfg l r -> without_unwanted cfg (Link body :: l) (Link body' :: r).

(** ** Templates *)

(** Texts with templates.  A template consists of its name, surrounded by white space, and its arguments. *)
Inductive templated :=
| Char (c : ascii)
| Template (space name : str) (arguments : list templated).

Fixpoint templated_text (e : templated) : str :=
  match e with
  | Char c => [c]
  | Template space name arguments => !"{{" ++ space ++ name ++ concat (map templated_text arguments) ++ !"}}"
  end.
Definition templated_texts (l : list templated) : str := concat (map templated_text l).

Definition blank_character (c : ascii) : Prop := In c [" "%char; byte 9%N; byte 10%N; byte 12%N; byte 13%N].

(** [proper_templates l k]: [l] is unambiguous if it is followed by [k].  There are no two braces next to each other except those
    around templates, names contain no braces, bars or newlines, and the arguments are separated from the name by a bar or a
    newline. *)
Inductive proper_templates : list templated -> str -> Prop :=
| pt_nil : forall k, proper_templates [] k
| pt_char : forall c l k,
    (c = "{"%char -> has_prefix !"{" (templated_texts l ++ k) = false) ->
    (c = "}"%char -> has_prefix !"}" (templated_texts l ++ k) = false) ->
    proper_templates l k -> proper_templates (Char c :: l) k
| pt_template : forall space name arguments l k,
    Forall blank_character space ->
    (exists c n, name = c :: n /\ ~ blank_character c) ->
    (forall c, In c [nl_char; "|"%char; "{"%char; "}"%char] -> ~ In c name) ->
    (arguments = [] \/ exists c a, arguments = Char c :: a /\ (c = "|"%char \/ c = nl_char)) ->
    proper_templates arguments (!"}}" ++ templated_texts l ++ k) -> proper_templates l k ->
    proper_templates (Template space name arguments :: l) k.

(** The name that is compared with the configuration: in lower case and without space around it *)
Definition template_key (name : str) : str := trim_space (to_lower name).
Definition configured_prefix (key : str) (names : list str) : Prop := exists n t, In n names /\ key = to_lower n ++ t.
Definition ignored_template (cfg : configuration) (name : str) : Prop :=
  configured_prefix (template_key name) (lists cfg IgnoredTemplates) \/
  configured_prefix (template_key name) (lists cfg TrailingTemplates).
Definition trailing_template (cfg : configuration) (name : str) : Prop :=
  exists n, In n (lists cfg TrailingTemplates) /\ template_key name = to_lower n.

(** The text without ignored and trailing templates, also inside of other templates, and the keys of the trailing templates in
    order of appearance *)
Inductive without_templates (cfg : configuration) : list templated -> list templated -> list str -> Prop :=
| wt_nil : without_templates cfg [] [] []
| wt_char : forall c l r f, without_templates cfg l r f -> without_templates cfg (Char c :: l) (Char c :: r) f
| wt_trailing : forall space name arguments l r f, trailing_template cfg name -> without_templates cfg l r f ->
    without_templates cfg (Template space name arguments :: l) r (template_key name :: f)
| wt_ignored : forall space name arguments l r f, ignored_template cfg name -> ~ trailing_template cfg name ->
    without_templates cfg l r f -> without_templates cfg (Template space name arguments :: l) r f
| wt_keep : forall space name arguments arguments' l r f1 f2, ~ ignored_template cfg name ->
    without_templates cfg arguments arguments' f1 -> without_templates cfg l r f2 ->
    without_templates cfg (Template space name arguments :: l) (Template space name arguments' :: r) (f1 ++ f2).
