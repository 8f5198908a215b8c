(** * Model of src/parser/heading.go, src/parser/nowiki.go and src/parser/math.go

    The passes call the tokenizer recursively; in the Go code through the field tokenizeContent of the tokenizer, here through an
    argument. *)

From Coq Require Import Ascii String.
From Coq Require Import List Arith Bool.
From Verif Require Import GoStr UtilModel BracketModel TokenModel.
Import ListNotations.
Local Open Scope list_scope.

Section Recursive.
Variable tokenizeContent : str -> M str.

(** The body of the inner loop of [parseHeadings], src/parser/heading.go 20-33: the new line *)
Definition parseHeadingLine (depth : nat) (line0 : str) : M str :=
  let headingMediawikiMarker := repeat_str !"=" depth in
  let line := trim_space line0 in
  if has_prefix headingMediawikiMarker line && has_suffix headingMediawikiMarker line then
    let headingText := replace_all headingMediawikiMarker [] line in
    let headingText := trim_space headingText in
    do! token := getToken TOKEN_HEADING in
    do! content := tokenizeContent headingText in
    do! _ := setRawToken token (HeadingToken content depth) in
    ret token
  else ret line0.

(** The loops of [parseHeadings], src/parser/heading.go 17-35 *)
Fixpoint parseHeadings_go (depth : nat) (lines : list str) : M (list str) :=
  match depth with
  | O => ret lines
  | S depth' =>
      do! lines := mapM (parseHeadingLine depth) lines in
      parseHeadings_go depth' lines
  end.

(** [parseHeadings], src/parser/heading.go 13-38 *)
Definition parseHeadings (content : str) : M str :=
  do! lines := parseHeadings_go 7 (split nl content) in
  ret (join nl lines).
End Recursive.

Definition nowikiStart : str := !"<nowiki>".
Definition nowikiEnd : str := !"</nowiki>".

(** The loop of [parseNowiki], src/parser/nowiki.go 21-35.  [rest] is the content from index [i] on, [skip] the number of
    characters that belong to an area that has been replaced.  The Go code continues at the second character of the inserted key;
    a key contains no less-than sign, so it is the same to continue behind the key.  The slices up to index -1 panic if the end
    is missing. *)
Fixpoint parseNowiki_go (rest : str) (skip : nat) : M str :=
  match rest with
  | [] => ret []
  | c :: rest' =>
      match skip with
      | S k => parseNowiki_go rest' k
      | O =>
          if (List.length nowikiEnd <? List.length rest) && EqualsIgnoreCase (firstn (List.length nowikiStart) rest) nowikiStart then
            match FindCorrespondingCloseTokenIgnoreCase rest (List.length nowikiStart) nowikiStart nowikiEnd with
            | None => panic
            | Some endIndex =>
                do! tokenKey := getToken TOKEN_NOWIKI in
                do! _ := setRawToken tokenKey (NowikiToken (sub rest (List.length nowikiStart) endIndex)) in
                do! r := parseNowiki_go rest' (pred (endIndex + List.length nowikiEnd)) in
                ret (tokenKey ++ r)
            end
          else
            do! r := parseNowiki_go rest' 0 in
            ret (c :: r)
      end
  end.

(** [parseNowiki], src/parser/nowiki.go 10-38 *)
Definition parseNowiki (content : str) : M str := parseNowiki_go content 0.

(** The first greater-than sign of the line, for the part of the regular expressions with an arbitrary tag *)
Fixpoint tag_end (s : str) : option nat :=
  match s with
  | [] => None
  | c :: s' => if Ascii.eqb c ">" then Some 0 else if Ascii.eqb c nl_char then None else option_map S (tag_end s')
  end.

(** A match of mathRegex (src/parser/pattern.go 64) at the beginning of [s]: the match and its group *)
Definition math_match (s : str) : option (str * str) :=
  if has_prefix !"<math" s then
    match tag_end (skipn 5 s) with
    | None => None
    | Some i =>
        let start := 5 + i + 1 in
        match index !"</math>" (skipn start s) with
        | None => None
        | Some j => Some (firstn (start + j + 7) s, firstn j (skipn start s))
        end
    end
  else None.

(** mathRegex.FindAllStringSubmatch: matches from left to right that do not overlap *)
Fixpoint math_matches (s : str) (skip : nat) : list (str * str) :=
  match s with
  | [] => []
  | _ :: s' =>
      match skip with
      | S k => math_matches s' k
      | O => match math_match s with
             | Some (m, g) => (m, g) :: math_matches s' (pred (List.length m))
             | None => math_matches s' 0
             end
      end
  end.

(** The loop of [parseMath], src/parser/math.go 12-18 *)
Fixpoint parseMath_go (matches : list (str * str)) (content : str) : M str :=
  match matches with
  | [] => ret content
  | (m, g) :: matches' =>
      do! tokenKey := getToken TOKEN_MATH in
      do! _ := setRawToken tokenKey (MathToken g) in
      parseMath_go matches' (replace_first m tokenKey content)
  end.

(** [parseMath], src/parser/math.go 10-20 *)
Definition parseMath (content : str) : M str := parseMath_go (math_matches content 0) content.
