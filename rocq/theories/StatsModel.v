(** * Model of src/generator/stats.go *)

From Coq Require Import Ascii String.
From Coq Require Import List Arith NArith Bool.
From Verif Require Import GoStr ConfigModel TokenModel FormattingModel ExpandModel.
Import ListNotations.
Local Open Scope list_scope.

(** ** Unicode *)

(** The range of the second byte of an encoded character (the Go library, unicode/utf8) *)
Definition second_byte (b0 : N) : N * N :=
  if (b0 =? 224)%N then (160, 191)%N
  else if (b0 =? 237)%N then (128, 159)%N
  else if (b0 =? 240)%N then (144, 191)%N
  else if (b0 =? 244)%N then (128, 143)%N
  else (128, 191)%N.
Definition within (range : N * N) (b : ascii) : bool := (fst range <=? N_of_ascii b)%N && (N_of_ascii b <=? snd range)%N.
Definition next_byte : ascii -> bool := within (128, 191)%N.
Definition low_bits (b : ascii) : N := (N_of_ascii b mod 64)%N.
Definition RuneError : N := 65533.

(** []rune(s) and the characters of a range loop over the text s: a byte that does not begin an encoded character counts as one character *)
Fixpoint runes (s : str) : list N :=
  match s with
  | [] => []
  | c0 :: s1 =>
      let b0 := N_of_ascii c0 in
      if (b0 <? 128)%N then b0 :: runes s1
      else if (194 <=? b0)%N && (b0 <=? 223)%N then
        match s1 with
        | c1 :: s2 =>
            if within (second_byte b0) c1 then (b0 mod 32 * 64 + low_bits c1)%N :: runes s2 else RuneError :: runes s1
        | _ => RuneError :: runes s1
        end
      else if (224 <=? b0)%N && (b0 <=? 239)%N then
        match s1 with
        | c1 :: c2 :: s3 =>
            if within (second_byte b0) c1 && next_byte c2 then (b0 mod 16 * 4096 + low_bits c1 * 64 + low_bits c2)%N :: runes s3
            else RuneError :: runes s1
        | _ => RuneError :: runes s1
        end
      else if (240 <=? b0)%N && (b0 <=? 244)%N then
        match s1 with
        | c1 :: c2 :: c3 :: s4 =>
            if within (second_byte b0) c1 && next_byte c2 && next_byte c3
            then (b0 mod 8 * 262144 + low_bits c1 * 4096 + low_bits c2 * 64 + low_bits c3)%N :: runes s4
            else RuneError :: runes s1
        | _ => RuneError :: runes s1
        end
      else RuneError :: runes s1
  end.

(** ** Statistics of an article *)

(** The numbers in articleStats, src/generator/stats.go 31-38, 42 *)
Inductive counter :=
| NumberOfCharacters | NumberOfWords | NumberOfInternalLinks | NumberOfExternalLinks | NumberOfImages | NumberOfMath | NumberOfRefDefinitions
| NumberOfRefUsages | EstimatedReadingTimeMinutes.
Definition counter_eq_dec (a b : counter) : {a = b} + {a <> b}.
Proof. decide equality. Defined.

(** src/generator/stats.go 29-43.  The numbers are a function of their names; integers do not overflow.  A map is a list of its entries.  The
    two maps for uncovered links, which are empty in the statistics of an article, are results of [combine] below. *)
Record articleStats := mkArticleStats { ArticleName : str; count : counter -> nat; InternalLinks : list (str * nat) }.

(** += for a number and for a map *)
Definition add (c : counter) (n : nat) (s : articleStats) : articleStats :=
  mkArticleStats (ArticleName s) (fun d => if counter_eq_dec c d then count s d + n else count s d) (InternalLinks s).
Fixpoint add_entry (name : str) (n : nat) (m : list (str * nat)) : list (str * nat) :=
  match m with
  | [] => [(name, n)]
  | (k, v) :: m' => if str_eqb k name then (k, v + n) :: m' else (k, v) :: add_entry name n m'
  end.
Definition add_link (name : str) (n : nat) (s : articleStats) : articleStats :=
  mkArticleStats (ArticleName s) (count s) (add_entry name n (InternalLinks s)).

Definition change (f : articleStats -> articleStats) : X articleStats unit := fun s => Ok (tt, f s).

(** [expandMarker], src/generator/stats.go 134-141 *)
Definition statsMarker (content : str) : str :=
  let content := replace_all MARKER_BOLD_OPEN [] content in
  let content := replace_all MARKER_BOLD_CLOSE [] content in
  let content := replace_all MARKER_ITALIC_OPEN [] content in
  let content := replace_all MARKER_ITALIC_CLOSE [] content in
  replace_all MARKER_PARAGRAPH [] content.

Section Stats.
(** unicode.IsLetter(r) || unicode.IsNumber(r) *)
Variable letter : N -> bool.

(** The loop in [expandSimpleString], src/generator/stats.go 118-129: the number of words that begin in the rest of the text *)
Fixpoint count_words (inWord : bool) (rs : list N) : nat :=
  match rs with
  | [] => 0
  | r :: rs' => if letter r then (if inWord then 0 else 1) + count_words true rs' else count_words false rs'
  end.

(** [expandSimpleString], src/generator/stats.go 115-132 *)
Definition countString (content : str) : X articleStats str :=
  let* _ := change (add NumberOfCharacters (length (runes content))) in
  let* _ := change (add NumberOfWords (count_words false (runes content))) in
  retX content.

(** The switch of [expandToken], src/generator/expand.go 14-49, with the methods in src/generator/stats.go 143-252.  A StringToken has no case.
    [expandListItem] (231-233) does not expand the lists inside of an item. *)
Definition statsToken (expand : str -> X articleStats str) (token : Token) : X articleStats str :=
  match token with
  | HeadingToken content _ => expand content
  | InlineImageToken _ _ _ => let* _ := change (add NumberOfImages 1) in retX []
  | ImageToken _ caption _ _ => let* _ := change (add NumberOfImages 1) in expand caption
  | InternalLinkToken articleName linkText =>
      let* _ := change (add NumberOfInternalLinks 1) in
      let* _ := change (add_link articleName 1) in
      expand linkText
  | ExternalLinkToken _ linkText => let* _ := change (add NumberOfExternalLinks 1) in expand linkText
  | TableToken rows caption =>
      let* expandedRows := mapX (fun row => let* columns := mapX (fun column => expand (ColContent column)) row in retX (concat columns)) rows in
      let* expandedCaption := expand caption in
      retX (concat expandedRows ++ expandedCaption)
  | ListTokenOf (AnyListToken _ items) =>
      let* expandedItems := mapX (fun item => match item with mkListItemToken _ content _ => expand content end) items in
      retX (concat expandedItems)
  | RefDefinitionToken _ content => let* _ := change (add NumberOfRefDefinitions 1) in expand content
  | RefUsageToken _ => let* _ := change (add NumberOfRefUsages 1) in retX []
  | MathToken _ => let* _ := change (add NumberOfMath 1) in retX []
  | NowikiToken _ => retX []
  | StringToken _ => retX []
  end.

(** The handler, src/generator/stats.go 24-27, 110-113 *)
Definition StatsGenerator (tokens : list (str * Token)) : ExpansionHandler articleStats :=
  mkExpansionHandler tokens countString statsMarker statsToken.

(** The table in [getEstimatedReadingTimeInMinutes], src/generator/stats.go 72-108 *)
Definition words_per_minute (instance : str) : nat :=
  match find (fun e => str_eqb (fst e) instance)
    [(!"en", 228); (!"de", 179); (!"fr", 195); (!"nl", 202); (!"fi", 161); (!"he", 187); (!"it", 188); (!"jp", 193); (!"pl", 166); (!"pt", 181);
     (!"ru", 184); (!"sl", 180); (!"es", 218); (!"se", 199); (!"tr", 166)] with
  | Some (_, n) => n
  | None => 183
  end.

(** [Generate], src/generator/stats.go 52-70: the statistics that are written into the file.  The JSON encoding is in StatsJsonModel.v. *)
Definition generateStats (instance : str) (tokens : list (str * Token)) (fuel : nat) (title content : str) : res articleStats :=
  let! (_, stats) := expandString (StatsGenerator tokens) fuel content (mkArticleStats title (fun _ => 0) []) in
  Ok (add EstimatedReadingTimeMinutes (count stats NumberOfWords / words_per_minute instance) stats).
End Stats.

(** ** Combined statistics *)

(** articles[stats.ArticleName] = stats *)
Fixpoint set_article (s : articleStats) (articles : list articleStats) : list articleStats :=
  match articles with
  | [] => [s]
  | a :: articles' => if str_eqb (ArticleName a) (ArticleName s) then s :: articles' else a :: set_article s articles'
  end.

Definition all_counters : list counter :=
  [NumberOfCharacters; NumberOfWords; NumberOfInternalLinks; NumberOfExternalLinks; NumberOfImages; NumberOfMath; NumberOfRefDefinitions;
   NumberOfRefUsages; EstimatedReadingTimeMinutes].

(** The body of the loop over the files, src/generator/stats.go 282-295: the combined statistics and the map of the articles *)
Definition combine_one (acc : articleStats * list articleStats) (stats : articleStats) : articleStats * list articleStats :=
  let combinedStats := fold_left (fun combined c => add c (count stats c) combined) all_counters (fst acc) in
  let combinedStats := fold_left (fun combined e => add_link (fst e) (snd e) combined) (InternalLinks stats) combinedStats in
  (combinedStats, set_article stats (snd acc)).

Record combination := mkCombination {
  Combined : articleStats;
  Articles : list articleStats;
  UncoveredInternalLinks : list (str * nat);
  Top10UncoveredInternalLinks : list (str * nat) }.

Section Combined.
(** slices.SortFunc with the order of the counts, applied to the entries of a map in any order: see [sorts] in StatsSpec.v *)
Variable sortEntries : list (str * nat) -> list (str * nat).

(** The loop over the files in [GenerateCombinedStats], src/generator/stats.go 266-296.  A file is given by the result of reading and decoding it. *)
Fixpoint combine_all (files : list (res articleStats)) (acc : articleStats * list articleStats) : res (articleStats * list articleStats) :=
  match files with
  | [] => Ok acc
  | file :: files' => let! stats := file in combine_all files' (combine_one acc stats)
  end.

Definition is_article (articles : list articleStats) (name : str) : bool := existsb (fun a => str_eqb (ArticleName a) name) articles.

(** [GenerateCombinedStats], src/generator/stats.go 254-314.  The keys of a map occur once, so that += in line 301 sets a new entry. *)
Definition GenerateCombinedStats (files : list (res articleStats)) : res combination :=
  let! (combinedStats, articles) := combine_all files (mkArticleStats [] (fun _ => 0) [], []) in
  let uncovered := filter (fun e => negb (is_article articles (fst e))) (InternalLinks combinedStats) in
  Ok (mkCombination combinedStats articles uncovered (firstn 10 (sortEntries uncovered))).

(** [generateTxtStatsContent], src/generator/stats.go 354-390.  [iterate] gives the order of the loop over the map of articles. *)
Definition generateTxtStatsContent (iterate : list articleStats -> list articleStats) (c : combination) : str :=
  !"Statistics generated with wiki2book:" ++ nl ++ nl ++
  !"General:" ++ nl ++
  !"  Number of characters    : " ++ itoa (count (Combined c) NumberOfCharacters) ++ nl ++
  !"  Number of internal links: " ++ itoa (count (Combined c) NumberOfInternalLinks) ++ nl ++
  nl ++
  !"Article:" ++ nl ++
  concat (map (fun article => !"  " ++ ArticleName article ++ nl) (iterate (Articles c))) ++
  nl ++
  !"Top 20 linked articles that are not part of the book (total: " ++ itoa (length (UncoveredInternalLinks c)) ++ !"):" ++ nl ++
  concat (map (fun e => !"  " ++ fst e ++ !" (" ++ itoa (snd e) ++ !")" ++ nl) (firstn 20 (sortEntries (UncoveredInternalLinks c)))).
End Combined.
