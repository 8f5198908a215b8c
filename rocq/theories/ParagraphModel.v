(** * Model of parseParagraphs in src/parser/formatting.go *)

From Coq Require Import Ascii String.
From Coq Require Import List Arith Bool.
From Verif Require Import GoStr FormattingModel.
Import ListNotations.
Local Open Scope list_scope.

Fixpoint span (f : ascii -> bool) (s : str) : str * str :=
  match s with
  | c :: s' => if f c then let (a, b) := span f s' in (c :: a, b) else ([], s)
  | [] => ([], [])
  end.

(** The character class in TOKEN_REGEX, src/parser/pattern.go 21 *)
Definition token_char (c : ascii) : bool :=
  is_digit c || Ascii.eqb c "_" || mem_str [c] (map (fun x => [x]) !"ABCDEFGHIJKLMNOPQRSTUVWXYZ").

(** A match of the part between the dollar signs behind TOKEN_: characters of the class, an underscore and digits *)
Definition token_middle (m : str) : bool :=
  let (digits, before) := span is_digit (rev m) in
  match digits, before with
  | _ :: _, u :: c :: name => Ascii.eqb u "_" && forallb token_char (c :: name)
  | _, _ => false
  end.

(** tokenLineRegex.MatchString, src/parser/pattern.go 21-27; the line contains no newline. *)
Definition is_token_line (line : str) : bool :=
  has_prefix !"$$TOKEN_" line && has_suffix !"$$" (skipn 8 line) &&
  token_middle (firstn (List.length line - 10) (skipn 8 line)).

(** The loop of [parseParagraphs], src/parser/formatting.go 224-263: the lines that are appended to resultLines *)
Fixpoint parseParagraphs_go (lineBefore : str) (lines : list str) (ignoreEmptyLinesMode createParagraphWhenAllowed : bool) : list str :=
  match lines with
  | [] => []
  | line :: lines' =>
      if is_token_line line then line :: parseParagraphs_go line lines' true false
      else if ignoreEmptyLinesMode then
        if negb (str_eqb line []) then
          (if createParagraphWhenAllowed then [MARKER_PARAGRAPH] else []) ++ line :: parseParagraphs_go line lines' false false
        else parseParagraphs_go line lines' ignoreEmptyLinesMode createParagraphWhenAllowed
      else if str_eqb line [] && negb (str_eqb lineBefore []) then parseParagraphs_go line lines' true true
      else line :: parseParagraphs_go line lines' ignoreEmptyLinesMode createParagraphWhenAllowed
  end.

(** [parseParagraphs], src/parser/formatting.go 215-266 *)
Definition parseParagraphs (content : str) : str :=
  join nl (parseParagraphs_go [] (split nl content) true false).
