(** * Specification: files of statistics (C69) *)

From Coq Require Import Ascii String.
From Coq Require Import List Arith NArith Bool.
From Verif Require Import GoStr StatsModel StatsSpec JsonSpec.
Import ListNotations.
Local Open Scope list_scope.

(** The characters of a name that is written in ASCII *)
Definition letters (s : str) : list N := map N_of_ascii s.

(** The names of the numbers *)
Definition field (c : counter) : str :=
  match c with
  | NumberOfCharacters => !"number-of-characters"
  | NumberOfWords => !"number-of-words"
  | NumberOfInternalLinks => !"number-of-internal-links"
  | NumberOfExternalLinks => !"number-of-external-links"
  | NumberOfImages => !"number-of-images"
  | NumberOfMath => !"number-of-math"
  | NumberOfRefDefinitions => !"number-of-ref-definitions"
  | NumberOfRefUsages => !"number-of-ref-usages"
  | EstimatedReadingTimeMinutes => !"estimated-reading-time-minutes"
  end.

(** The object has exactly one member for every entry: its name and its number. *)
Definition map_says (m : list (str * nat)) (v : json) : Prop :=
  exists members, v = JObject members /\ NoDup (map fst members) /\
    forall name value, In (name, value) members <-> exists s n, In (s, n) m /\ named_by name s /\ value = JNumber (itoa n).

(** The text is one JSON object with the name, the numbers, the links and the other maps, every one at its name. *)
Definition file_says (text : str) (stats : articleStats) (others : list (str * list (str * nat))) : Prop :=
  exists members, json_text text (JObject members) /\ NoDup (map fst members) /\
    (exists name, In (letters !"article-name", JString name) members /\ named_by name (ArticleName stats)) /\
    (forall c, In (letters (field c), JNumber (itoa (count stats c))) members) /\
    (forall name m, In (name, m) ((!"internal-links", InternalLinks stats) :: others) -> exists v, In (letters name, v) members /\ map_says m v).

(** All names are texts in UTF-8. *)
Definition utf8_names (m : list (str * nat)) : Prop := forall s n, In (s, n) m -> is_utf8 s.
