(** * Model of the JSON files of the statistics: src/generator/stats.go 29-43, 65, 346-352

    json.MarshalIndent is a function of the Go library (encoding/json of Go 1.24).  It is modelled for the values that are written here: the fields of a
    struct in their order under the names of their tags, numbers, strings, and maps with their keys in order. *)

From Coq Require Import Ascii String.
From Coq Require Import List Arith NArith Bool.
From Verif Require Import GoStr StatsModel.
Import ListNotations.
Local Open Scope list_scope.

(** ** Strings *)

(** utf8.DecodeRune: the characters of a text with their bytes; [None]: a byte that does not begin an encoded character *)
Fixpoint characters (s : str) : list (option N * str) :=
  match s with
  | [] => []
  | c0 :: s1 =>
      let b0 := N_of_ascii c0 in
      if (b0 <? 128)%N then (Some b0, [c0]) :: characters s1
      else if (194 <=? b0)%N && (b0 <=? 223)%N then
        match s1 with
        | c1 :: s2 =>
            if within (second_byte b0) c1 then (Some (b0 mod 32 * 64 + low_bits c1)%N, [c0; c1]) :: characters s2 else (None, [c0]) :: characters s1
        | _ => (None, [c0]) :: characters s1
        end
      else if (224 <=? b0)%N && (b0 <=? 239)%N then
        match s1 with
        | c1 :: c2 :: s3 =>
            if within (second_byte b0) c1 && next_byte c2 then (Some (b0 mod 16 * 4096 + low_bits c1 * 64 + low_bits c2)%N, [c0; c1; c2]) :: characters s3
            else (None, [c0]) :: characters s1
        | _ => (None, [c0]) :: characters s1
        end
      else if (240 <=? b0)%N && (b0 <=? 244)%N then
        match s1 with
        | c1 :: c2 :: c3 :: s4 =>
            if within (second_byte b0) c1 && next_byte c2 && next_byte c3
            then (Some (b0 mod 8 * 262144 + low_bits c1 * 4096 + low_bits c2 * 64 + low_bits c3)%N, [c0; c1; c2; c3]) :: characters s4
            else (None, [c0]) :: characters s1
        | _ => (None, [c0]) :: characters s1
        end
      else (None, [c0]) :: characters s1
  end.

Definition hex_digit (n : N) : ascii := ascii_of_N (if (n <? 10)%N then 48 + n else 87 + n).

(** appendString, encoding/json/encode.go: quotes and backslashes, control characters, the characters of HTML, line separators and broken texts are escaped. *)
Definition escape (c : option N * str) : str :=
  match fst c with
  | None => !"\ufffd"
  | Some n =>
      if (n =? 34)%N || (n =? 92)%N then "\"%char :: snd c
      else if (n =? 8)%N then !"\b"
      else if (n =? 12)%N then !"\f"
      else if (n =? 10)%N then !"\n"
      else if (n =? 13)%N then !"\r"
      else if (n =? 9)%N then !"\t"
      else if (n <? 32)%N || (n =? 60)%N || (n =? 62)%N || (n =? 38)%N then !"\u00" ++ [hex_digit (n / 16); hex_digit (n mod 16)]
      else if (n =? 8232)%N || (n =? 8233)%N then !"\u202" ++ [hex_digit (n mod 16)]
      else snd c
  end.
Definition json_string (s : str) : str := dq ++ concat (map escape (characters s)) ++ dq.

(** ** Objects *)

Definition indentation (depth : nat) : str := concat (repeat !"  " depth).

(** An object at a depth of indentation, with the texts of its values *)
Definition json_object (depth : nat) (members : list (str * str)) : str :=
  match members with
  | [] => !"{}"
  | _ => !"{" ++ nl ++ join (!"," ++ nl) (map (fun m => indentation (S depth) ++ json_string (fst m) ++ !": " ++ snd m) members) ++ nl ++ indentation depth ++ !"}"
  end.

(** The keys of a map are sorted. *)
Fixpoint str_less (a b : str) : bool :=
  match a, b with
  | _, [] => false
  | [], _ :: _ => true
  | c :: a', d :: b' => (N_of_ascii c <? N_of_ascii d)%N || (Ascii.eqb c d && str_less a' b')
  end.
Fixpoint insert_key (e : str * nat) (m : list (str * nat)) : list (str * nat) :=
  match m with
  | [] => [e]
  | f :: m' => if str_less (fst e) (fst f) then e :: m else f :: insert_key e m'
  end.
Definition sort_keys (m : list (str * nat)) : list (str * nat) := fold_right insert_key [] m.
Definition json_map (depth : nat) (m : list (str * nat)) : str := json_object depth (map (fun e => (fst e, itoa (snd e))) (sort_keys m)).

(** ** Statistics *)

(** articleStats, src/generator/stats.go 29-43.  [uncovered], [top]: the two other maps, nil or not. *)
Definition stats_fields (stats : articleStats) (uncovered top : option (list (str * nat))) : list (str * str) :=
  let optional := fun m => match m with Some m => json_map 1 m | None => !"null" end in
  [(!"article-name", json_string (ArticleName stats));
   (!"number-of-characters", itoa (count stats NumberOfCharacters));
   (!"number-of-words", itoa (count stats NumberOfWords));
   (!"number-of-internal-links", itoa (count stats NumberOfInternalLinks));
   (!"number-of-external-links", itoa (count stats NumberOfExternalLinks));
   (!"number-of-images", itoa (count stats NumberOfImages));
   (!"number-of-math", itoa (count stats NumberOfMath));
   (!"number-of-ref-definitions", itoa (count stats NumberOfRefDefinitions));
   (!"number-of-ref-usages", itoa (count stats NumberOfRefUsages));
   (!"internal-links", json_map 1 (InternalLinks stats));
   (!"uncovered-internal-links", optional uncovered);
   (!"top-10-uncovered-internal-links", optional top);
   (!"estimated-reading-time-minutes", itoa (count stats EstimatedReadingTimeMinutes))].

(** The file of an article, src/generator/stats.go 55-58, 65: there is no map for the top 10. *)
Definition article_json (stats : articleStats) : str := json_object 0 (stats_fields stats (Some []) None).

(** [generateJsonStatsContent], src/generator/stats.go 346-352, with the end of the line from 329 *)
Definition combined_json (c : combination) : str :=
  json_object 0 (stats_fields (Combined c) (Some (UncoveredInternalLinks c)) (Some (Top10UncoveredInternalLinks c))) ++ nl.

(** [Generate], src/generator/stats.go 52-70, as generator of the files in BookModel.v; the formulas are not asked for. *)
Definition generated_stats (letter : N -> bool) (instance title content : str) (tokens : list (str * TokenModel.Token)) (output : str) : Prop :=
  exists fuel stats, generateStats letter instance tokens fuel title content = Ok stats /\ output = article_json stats.
