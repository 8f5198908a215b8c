(** * Specifications of the statistics *)

From Coq Require Import Ascii String.
From Coq Require Import List Arith NArith Bool Permutation.
From Verif Require Import GoStr TokenModel TokenSpec PassSpec ExpandSpec HtmlSpec StatsModel.
Import ListNotations.
Local Open Scope list_scope.

(** ** What is in an article (C33) *)

(** A text between two tokens without the markers, or a token *)
Inductive event := Run (text : str) | Seen (token : Token).

(** Everything in a text, in its tokens, in the tokens of its tokens and so on; [follow] gives the texts of a token. *)
Inductive text_events (follow : Token -> list str) (m : list (str * Token)) : str -> list event -> Prop :=
| events_of_text : forall d es, layout_ok d -> layout_events follow m (fst d) (snd d) es -> text_events follow m (layout_text d) es
with layout_events (follow : Token -> list str) (m : list (str * Token)) : str -> list (str * str) -> list event -> Prop :=
| events_end : forall s, layout_events follow m s [] [Run s]
| events_marker : forall s k u l es, In k all_markers -> layout_events follow m (s ++ u) l es -> layout_events follow m s ((k, u) :: l) es
| events_token : forall s k u l v inner es, is_key k -> lookup_token k m = Some v -> texts_events follow m (follow v) inner ->
    layout_events follow m u l es -> layout_events follow m s ((k, u) :: l) (Run s :: Seen v :: inner ++ es)
with texts_events (follow : Token -> list str) (m : list (str * Token)) : list str -> list event -> Prop :=
| events_none : texts_events follow m [] []
| events_more : forall s ss es es', text_events follow m s es -> texts_events follow m ss es' -> texts_events follow m (s :: ss) (es ++ es').

(** The token is counted by this counter. *)
Definition counted_by (c : counter) (t : Token) : bool :=
  match c, t with
  | NumberOfInternalLinks, InternalLinkToken _ _ | NumberOfExternalLinks, ExternalLinkToken _ _ | NumberOfImages, ImageToken _ _ _ _
  | NumberOfImages, InlineImageToken _ _ _ | NumberOfMath, MathToken _ | NumberOfRefDefinitions, RefDefinitionToken _ _
  | NumberOfRefUsages, RefUsageToken _ => true
  | _, _ => false
  end.

(** How many words per minute are read in a Wikipedia instance: the measured speed of a language, and 183 in every other language *)
Inductive reading_speed : str -> nat -> Prop :=
| speed_en : reading_speed (!"en") 228 | speed_de : reading_speed (!"de") 179 | speed_fr : reading_speed (!"fr") 195
| speed_nl : reading_speed (!"nl") 202 | speed_fi : reading_speed (!"fi") 161 | speed_he : reading_speed (!"he") 187
| speed_it : reading_speed (!"it") 188 | speed_jp : reading_speed (!"jp") 193 | speed_pl : reading_speed (!"pl") 166
| speed_pt : reading_speed (!"pt") 181 | speed_ru : reading_speed (!"ru") 184 | speed_sl : reading_speed (!"sl") 180
| speed_es : reading_speed (!"es") 218 | speed_se : reading_speed (!"se") 199 | speed_tr : reading_speed (!"tr") 166
| speed_other : forall instance,
    ~ In instance [!"en"; !"de"; !"fr"; !"nl"; !"fi"; !"he"; !"it"; !"jp"; !"pl"; !"pt"; !"ru"; !"sl"; !"es"; !"se"; !"tr"] ->
    reading_speed instance 183.

(** The words in a text: the positions of letters behind something else *)
Definition word_begins (letter : N -> bool) (rs : list N) (i : nat) : bool :=
  match nth_error rs i with
  | Some r => letter r && match i with 0 => true | S j => match nth_error rs j with Some q => negb (letter q) | None => true end end
  | None => false
  end.
Definition words_in (letter : N -> bool) (rs : list N) : nat := length (filter (word_begins letter rs) (seq 0 (length rs))).

(** The number of things in an article *)
Definition seen_tokens (es : list event) : list Token := flat_map (fun e => match e with Seen t => [t] | Run _ => [] end) es.
Definition seen_runs (es : list event) : list str := flat_map (fun e => match e with Run s => [s] | Seen _ => [] end) es.
Definition number (letter : N -> bool) (c : counter) (es : list event) : nat :=
  match c with
  | NumberOfCharacters => list_sum (map (fun s => length (runes s)) (seen_runs es))
  | NumberOfWords => list_sum (map (fun s => words_in letter (runes s)) (seen_runs es))
  | _ => length (filter (counted_by c) (seen_tokens es))
  end.

(** The number of links to an article *)
Definition links_to (name : str) (es : list event) : nat :=
  length (filter (fun t => match t with InternalLinkToken n _ => str_eqb n name | _ => false end) (seen_tokens es)).

(** The number for a name in a map, which is 0 if it is missing; the names of a map occur once. *)
Definition entry (name : str) (m : list (str * nat)) : nat := list_sum (map snd (filter (fun e => str_eqb (fst e) name) m)).
Definition is_map (m : list (str * nat)) : Prop := NoDup (map fst m).

(** Lists without lists in their items, and tokens that are known to the generators *)
Definition flat (t : Token) : Prop :=
  match t with
  | StringToken _ => False
  | ListTokenOf (AnyListToken _ items) => Forall (fun i => match i with mkListItemToken _ _ subLists => subLists = [] end) items
  | _ => True
  end.

(** The texts that the statistics are made of *)
Definition counted_texts (t : Token) : list str :=
  match t with
  | StringToken _ => []
  | ListTokenOf (AnyListToken _ items) => map (fun i => match i with mkListItemToken _ content _ => content end) items
  | _ => ordered_texts t
  end.

(** ** Unicode *)

(** A character and its encoding as UTF-8 *)
Definition scalar (c : N) : Prop := (c < 55296 \/ 57344 <= c < 1114112)%N.
Definition utf8 (c : N) : str :=
  map ascii_of_N
    (if (c <? 128)%N then [c]
     else if (c <? 2048)%N then [192 + c / 64; 128 + c mod 64]%N
     else if (c <? 65536)%N then [224 + c / 4096; 128 + c / 64 mod 64; 128 + c mod 64]%N
     else [240 + c / 262144; 128 + c / 4096 mod 64; 128 + c / 64 mod 64; 128 + c mod 64]%N).

(** ** Combined statistics (C34) *)

(** What the Go library guarantees for sorting with the order of the counts, larger ones first: not even that equal elements keep their order *)
Inductive descending : list (str * nat) -> Prop :=
| descending_none : descending []
| descending_more : forall e l, (forall f, In f l -> snd f <= snd e) -> descending l -> descending (e :: l).
Definition sorts (sortEntries : list (str * nat) -> list (str * nat)) : Prop :=
  forall l, Permutation (sortEntries l) l /\ descending (sortEntries l).

(** Two titles of the same article of a Wikipedia: the first letter may be a capital one or not, and underscores are spaces *)
Definition page_title (s : str) : str :=
  let s := map (fun c => if Ascii.eqb c "_" then " "%char else c) s in
  match s with c :: s' => upper_char c :: s' | [] => [] end.
Definition same_page (a b : str) : Prop := page_title a = page_title b.
