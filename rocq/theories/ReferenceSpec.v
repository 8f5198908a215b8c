(** * Specification of footnotes *)

From Coq Require Import Ascii String.
From Coq Require Import List Arith Bool Sorted.
From Verif Require Import GoStr TokenModel TokenSpec PassSpec.
Import ListNotations.
Local Open Scope list_scope.

(** ** The wikitext *)

(** The attributes of a tag: the name and the group of a footnote, with or without quotation marks, and spaces behind them *)
Record attribute := mkAttribute { attr_name : str; attr_quoted : bool; attr_value : str }.
Record attributes := mkAttributes { given : list attribute; spaces : nat }.

Definition attribute_text (a : attribute) : str :=
  !" " ++ attr_name a ++ !"=" ++ (if attr_quoted a then dq ++ attr_value a ++ dq else attr_value a).
Definition attributes_text (a : attributes) : str := concat (map attribute_text (given a)) ++ repeat " "%char (spaces a).

(** (The program uses the last one of these texts as name of the group without name.) *)
Definition attribute_ok (a : attribute) : Prop :=
  (attr_name a = !"name" \/ attr_name a = !"group") /\ attr_value a <> [] /\
  (forall c, In c [dq_char; "<"; ">"; "="; nl_char]%char -> no_char c (attr_value a)) /\
  (attr_quoted a = false -> no_char " " (attr_value a) /\ no_char "/" (attr_value a)) /\
  attr_value a <> !"__wiki2book_ungrouped_references_group__".
Definition attributes_ok (a : attributes) : Prop := Forall attribute_ok (given a) /\ NoDup (map attr_name (given a)).

Definition value_of (name : str) (a : attributes) : option str :=
  option_map attr_value (find (fun x => str_eqb (attr_name x) name) (given a)).

(** A footnote mark without text (it refers to a footnote by its name), or with the text of the footnote *)
Record reference := mkReference { ref_attributes : attributes; ref_body : option str }.
Definition reference_text (r : reference) : str :=
  !"<ref" ++ attributes_text (ref_attributes r) ++
  match ref_body r with
  | None => !"/>"
  | Some body => !">" ++ body ++ !"</ref>"
  end.
Definition reference_ok (r : reference) : Prop :=
  attributes_ok (ref_attributes r) /\
  match ref_body r with
  | None => value_of !"name" (ref_attributes r) <> None
  | Some body => no_tag !"<ref" body /\ no_tag !"</ref>" body
  end.

(** A footnote mark, or a list of footnotes.  The latter may contain footnotes, each with the text behind it. *)
Inductive element :=
| Footnote (r : reference)
| ShortList (a : attributes)
| LongList (a : attributes) (first : str) (inner : list (reference * str)).

Definition element_text (e : element) : str :=
  match e with
  | Footnote r => reference_text r
  | ShortList a => !"<references" ++ attributes_text a ++ !"/>"
  | LongList a first inner =>
      !"<references" ++ attributes_text a ++ !">" ++ first ++ concat (map (fun p => reference_text (fst p) ++ snd p) inner) ++ !"</references>"
  end.

(** A text without tags of footnotes *)
Definition text_ok (s : str) : Prop := no_tag !"<ref" s /\ no_tag !"</re" s.

(** Footnotes within a list do not follow each other immediately. *)
Definition inner_ok (s : str) : Prop := s <> [] /\ no_char "<" s.
Definition element_ok (e : element) : Prop :=
  match e with
  | Footnote r => reference_ok r
  | ShortList a => attributes_ok a
  | LongList a first inner => attributes_ok a /\ inner_ok first /\ Forall (fun p => reference_ok (fst p) /\ inner_ok (snd p)) inner
  end.

(** A text with elements, each one with the text behind it *)
Definition document_text (first : str) (elements : list (element * str)) : str :=
  first ++ concat (map (fun p => element_text (fst p) ++ snd p) elements).

(** The number of newlines at the end of the text *)
Fixpoint leading_newlines (s : str) : nat :=
  match s with
  | c :: s' => if Ascii.eqb c nl_char then S (leading_newlines s') else 0
  | [] => 0
  end.
Definition trailing_newlines (s : str) : nat := leading_newlines (rev s).
Definition inner_length (e : element) : nat :=
  match e with LongList _ first inner => List.length first + List.length (concat (map snd inner)) | _ => 0 end.
Definition is_list (e : element) : Prop := match e with Footnote _ => False | _ => True end.

(** Between a list of footnotes and the next footnote or list there is some text: more characters than there are newlines in front of
    the list (and characters between the footnotes within it). *)
Inductive spaced : str -> list (element * str) -> Prop :=
| spaced_end : forall before, spaced before []
| spaced_last : forall before e after, spaced before [(e, after)]
| spaced_next : forall before e after rest, (is_list e -> trailing_newlines before + inner_length e < List.length after) ->
    rest <> [] -> spaced after rest -> spaced before ((e, after) :: rest).

Definition document_ok (first : str) (elements : list (element * str)) : Prop :=
  text_ok first /\ Forall (fun p => element_ok (fst p) /\ text_ok (snd p)) elements /\ spaced first elements.

(** ** The numbers *)

(** What the reader of the wikitext sees, in the order of the wikitext: footnotes, with their group, their name and their text, and
    lists of the footnotes of a group *)
Inductive event :=
| Mark (g : option str) (name : option str) (body : option str)
| Listing (g : option str).

Definition mark_of (r : reference) : event := Mark (value_of !"group" (ref_attributes r)) (value_of !"name" (ref_attributes r)) (ref_body r).

Definition opt_eqb (a b : option str) : bool :=
  match a, b with
  | Some x, Some y => str_eqb x y
  | None, None => true
  | _, _ => false
  end.

(** The footnotes of a group in the order of their first mark: the name, or None for a footnote without name *)
Definition add_footnote (g : option str) (seen : list (option str)) (e : event) : list (option str) :=
  match e with
  | Listing _ => seen
  | Mark g' name _ =>
      if opt_eqb g g' then
        match name with
        | Some n => if existsb (opt_eqb name) seen then seen else seen ++ [name]
        | None => seen ++ [None]
        end
      else seen
  end.
Definition footnotes (g : option str) (events : list event) : list (option str) := fold_left (add_footnote g) events [].

Fixpoint position (name : str) (l : list (option str)) : nat :=
  match l with
  | [] => 0
  | x :: l' => if opt_eqb (Some name) x then 0 else S (position name l')
  end.

(** The number of a mark behind the given events: the position of its footnote in that list *)
Definition number (before : list event) (g name : option str) : nat :=
  match name with
  | Some n => position n (footnotes g before)
  | None => List.length (footnotes g before)
  end.

(** The texts that a list of the footnotes of the group has to show behind the given events, with their numbers: the texts behind the
    last list of the group, in the order of the numbers.  If several texts are given for a name, it is the last one. *)
Definition listed (before : list event) (g : option str) (texts : list (nat * str)) : Prop :=
  StronglySorted lt (map fst texts) /\
  forall n body, In (n, body) texts <->
    exists past name since, before = past ++ Mark g name (Some body) :: since /\ number past g name = n /\
      ~ In (Listing g) since /\
      (forall since1 name' body' since2, since = since1 ++ Mark g name' (Some body') :: since2 ->
         number (past ++ Mark g name (Some body) :: since1) g name' <> n).

(** ** The result *)

Definition hidden_text (e : element) : str :=
  match e with LongList _ first inner => first ++ concat (map snd inner) | _ => [] end.
Definition hidden_marks (e : element) : list event :=
  match e with LongList _ _ inner => map (fun p => mark_of (fst p)) inner | _ => [] end.

Section Result.
Variable token_of : str -> Token -> Prop.
Variable parsed_to : str -> str -> Prop.

(** [written before out elements result]: the elements, behind the given events and behind the text [out], give the result.  A
    footnote is replaced by a key with its number, a list by the keys of the texts it shows, one on each line.  The footnotes within the
    list vanish, newlines in front of the list, too. *)
Inductive written : list event -> str -> list (element * str) -> str -> Prop :=
| written_end : forall before out, written before out [] out
| written_mark : forall before out g name body key r after rest result, mark_of r = Mark g name body ->
    token_of key (RefUsageToken (number before g name)) ->
    written (before ++ [Mark g name body]) (out ++ key ++ after) rest result ->
    written before out ((Footnote r, after) :: rest) result
| written_list : forall before out a e g texts keys out' n after rest result,
    (e = ShortList a \/ exists first inner, e = LongList a first inner) -> value_of !"group" a = g ->
    listed (before ++ hidden_marks e) g texts ->
    Forall2 (fun key p => exists content, token_of key (RefDefinitionToken (fst p) content) /\ parsed_to (snd p) content) keys texts ->
    out ++ hidden_text e = out' ++ repeat nl_char n -> ~ ends_with nl_char out' ->
    written (before ++ hidden_marks e ++ [Listing g]) (out' ++ concat (map (app nl) keys) ++ after) rest result ->
    written before out ((e, after) :: rest) result.
End Result.
