(** * Model of src/parser/table.go *)

From Coq Require Import Ascii String.
From Coq Require Import List Arith Bool.
From Verif Require Import GoStr TokenModel ParagraphModel.
Import ListNotations.
Local Open Scope list_scope.

(** tableStartRegex, src/parser/pattern.go 50: the colons before the beginning of a table *)
Fixpoint table_start (line : str) : option str :=
  match line with
  | [] => None
  | c :: line' =>
      if Ascii.eqb c ":" then option_map (cons c) (table_start line')
      else if has_prefix !"{|" line then Some [] else None
  end.

(** A match of tableRowAndColspanRegex (src/parser/pattern.go 51) at the beginning of [s] *)
Definition optional_quote (s : str) : str * str :=
  match s with
  | c :: s' => if Ascii.eqb c dq_char then ([c], s') else ([], s)
  | [] => ([], [])
  end.
Definition span_match (s : str) : option str :=
  if has_prefix !"colspan=" s || has_prefix !"rowspan=" s then
    let (q1, s1) := optional_quote (skipn 8 s) in
    let (digits, s2) := span is_digit s1 in
    match digits with
    | [] => None
    | _ => let (q2, _) := optional_quote s2 in Some (firstn 8 s ++ q1 ++ digits ++ q2)
    end
  else None.

(** tableRowAndColspanRegex.FindAllStringSubmatch *)
Fixpoint span_matches (s : str) (skip : nat) : list str :=
  match s with
  | [] => []
  | _ :: s' =>
      match skip with
      | S k => span_matches s' k
      | O => match span_match s with
             | Some m => m :: span_matches s' (pred (List.length m))
             | None => span_matches s' 0
             end
      end
  end.

(** tableTextAlignRegex.FindStringSubmatch, src/parser/pattern.go 52: the first match *)
Fixpoint align_end (s : str) : option str :=
  match s with
  | [] => None
  | c :: s' => if Ascii.eqb c ";" then Some [c] else if Ascii.eqb c nl_char then None else option_map (cons c) (align_end s')
  end.
Definition align_match (s : str) : option str :=
  if has_prefix !"text-align:" s then
    match skipn 11 s with
    | [] => None
    | c :: s' => if Ascii.eqb c nl_char then None else option_map (fun e => !"text-align:" ++ c :: e) (align_end s')
    end
  else None.
Fixpoint find_align (s : str) : option str :=
  match s with
  | [] => None
  | _ :: s' => match align_match s with Some m => Some m | None => find_align s' end
  end.

(** src/parser/table.go 252-270: the attributes of a cell *)
Definition entry_attributes (attributeString : str) : list str :=
  span_matches attributeString 0 ++
  match find_align attributeString with
  | Some m => [!"style=" ++ dq ++ m ++ dq]
  | None => []
  end.

(** A line begins a cell, a row or the end *)
Definition starts_entry (line : str) : bool := has_prefix !"|" line || has_prefix !"!" line.

(** src/parser/table.go 170-176: the lines of a cell behind the first one, and the lines behind the cell.  Only the first of them is
    trimmed before it is checked.  The index behind the last line panics. *)
Fixpoint continuation (lines : list str) : res (list str * list str) :=
  match lines with
  | [] => Panic
  | line :: lines' =>
      if starts_entry line then Ok ([], lines)
      else let! (c, r) := continuation lines' in Ok (line :: c, r)
  end.
Definition cell_lines (lines : list str) : res (list str * list str) :=
  match lines with
  | [] => Panic
  | line :: lines' =>
      if starts_entry (trim_space line) then Ok ([], lines)
      else let! (c, r) := continuation lines' in Ok (line :: c, r)
  end.
(** The text of these lines *)
Definition continuation_text (lines : list str) : str :=
  match lines with
  | [] => []
  | line :: lines' => concat (map (fun l => nl ++ l) (trim_space line :: lines'))
  end.

(** src/parser/table.go 218-225: the lines of a caption, which are all trimmed *)
Fixpoint caption_lines (lines : list str) : res (list str * list str) :=
  match lines with
  | [] => Panic
  | line :: lines' =>
      if starts_entry (trim_space line) then Ok ([], lines)
      else let! (c, r) := caption_lines lines' in Ok (trim_space line :: c, r)
  end.

Definition lift {A} (r : res A) : M A := fun t => let! a := r in Ok (a, t).

Section Recursive.
Variable tokenizeContent : str -> M str.

(** [tokenizeTableEntry], src/parser/table.go 241-273 *)
Definition tokenizeTableEntry (content : str) : M (str * list str) :=
  match split !"|" content with
  | attributes :: text :: _ =>
      let attributeString := trim_space attributes in
      do! entryText := tokenizeContent text in
      ret (entryText, entry_attributes attributeString)
  | _ =>
      do! entryText := tokenizeContent content in
      ret (entryText, [])
  end.

(** The loop of [tokenizeTableRow], src/parser/table.go 157-197: the cells and the lines behind the row.  Every round consumes a line, so
    the number of lines is enough fuel. *)
Fixpoint tokenizeTableRow_go (fuel : nat) (lines : list str) : M (list TableColToken * list str) :=
  match lines with
  | [] => ret ([], [])
  | line0 :: lines' =>
      match fuel with
      | O => out_of_fuel
      | S fuel' =>
          let line := trim_space line0 in
          if has_prefix !"|-" line || has_prefix !"|+" line || has_prefix !"|}" line then ret ([], lines)
          else
            let line := trim_prefix !"|" line in
            let line := trim_prefix !"!" line in
            let line := trim_space line in
            do! (more, after) := lift (cell_lines lines') in
            let line := line ++ continuation_text more in
            do! (tokenizedLine, attributes) := tokenizeTableEntry line in
            let tokenizedLine := trim_space tokenizedLine in
            let column := mkTableColToken attributes tokenizedLine (has_prefix !"!" (trim_space (last more line0))) in
            do! (columns, r) := tokenizeTableRow_go fuel' after in
            ret (column :: columns, r)
      end
  end.

(** [tokenizeTableRow], src/parser/table.go 152-211 *)
Definition tokenizeTableRow (lines : list str) : M (TableRowToken * list str) := tokenizeTableRow_go (List.length lines) lines.

(** [tokenizeTableCaption], src/parser/table.go 215-237, for a first line and the lines behind it: the caption and the lines behind it *)
Definition tokenizeTableCaption (line0 : str) (lines' : list str) : M (str * list str) :=
  do! (more, after) := lift (caption_lines lines') in
  let captionLines := trim_space line0 ++ concat (map (fun l => nl ++ l) more) in
  let captionLines := trim_prefix !"|+" captionLines in
  do! (tokenizedCaption, _) := tokenizeTableEntry captionLines in
  ret (trim_space tokenizedCaption, after).

(** The loop of [tokenizeTable], src/parser/table.go 104-138: the rows and the caption.  Every round consumes a line, so the number of lines
    is enough fuel.  In line 120 the index behind the last line panics. *)
Fixpoint tokenizeTable_go (fuel : nat) (lines : list str) (rowTokens : list TableRowToken) (captionToken : str) : M (list TableRowToken * str) :=
  match lines with
  | [] => ret (rowTokens, captionToken)
  | line0 :: lines' =>
      match fuel with
      | O => out_of_fuel
      | S fuel' =>
          let line := trim_space line0 in
          if has_prefix !"|+" line then
            do! (captionToken, after) := tokenizeTableCaption line0 lines' in
            tokenizeTable_go fuel' after rowTokens captionToken
          else if has_prefix !"!" line then
            do! (rowToken, after) := tokenizeTableRow lines in
            tokenizeTable_go fuel' after (rowTokens ++ [rowToken]) captionToken
          else if has_prefix !"|-" line then
            match lines' with
            | [] => panic
            | next :: _ =>
                if has_prefix !"!" next || has_prefix !"|" next then
                  do! (rowToken, after) := tokenizeTableRow lines' in
                  tokenizeTable_go fuel' after (rowTokens ++ [rowToken]) captionToken
                else tokenizeTable_go fuel' lines' rowTokens captionToken
            end
          else if has_prefix !"|}" line then ret (rowTokens, captionToken)
          else if has_prefix !"|" line then
            do! (rowToken, after) := tokenizeTableRow lines in
            tokenizeTable_go fuel' after (rowTokens ++ [rowToken]) captionToken
          else tokenizeTable_go fuel' lines' rowTokens captionToken
      end
  end.

(** [tokenizeTable], src/parser/table.go 95-146 *)
Definition tokenizeTable (content : str) : M Token :=
  let content := replace_all !"||" (nl ++ !"|") content in
  let content := replace_all !"!!" (nl ++ !"!") content in
  let lines := split nl content in
  do! (rowTokens, captionToken) := tokenizeTable_go (List.length lines) lines [] [] in
  ret (TableToken rowTokens captionToken).

(** src/parser/table.go 85-91: the key of the token of a table with these lines *)
Definition finishTable (tableLines : list str) : M str :=
  do! token := tokenizeTable (join nl tableLines) in
  do! tokenKey := getToken TOKEN_TABLE in
  do! _ := setRawToken tokenKey token in
  ret tokenKey.

(** The loop of [tokenizeTables], src/parser/table.go 69-81: the lines of the table behind its first line, and the lines behind the table.
    Every round consumes a line, so the number of lines is enough fuel. *)
Fixpoint tokenizeTables_go (fuel : nat) (lines : list str) : M (list str * list str) :=
  match lines with
  | [] => ret ([], [])
  | line0 :: lines' =>
      match fuel with
      | O => out_of_fuel
      | S fuel' =>
          let line := trim_space line0 in
          if has_prefix !"{|" line || has_prefix !":{|" line then
            do! (nested, after) := tokenizeTables_go fuel' lines' in
            do! tableToken := finishTable (line0 :: nested) in
            do! (r, after) := tokenizeTables_go fuel' after in
            ret (tableToken :: r, after)
          else if has_prefix !"|}" line then ret ([line0], lines')
          else
            do! (r, after) := tokenizeTables_go fuel' lines' in
            ret (line0 :: r, after)
      end
  end.

(** [tokenizeTables], src/parser/table.go 62-92, for the first line of a table and the lines behind it: the key and the lines behind the table *)
Definition tokenizeTables (line0 : str) (lines' : list str) : M (str * list str) :=
  do! (r, after) := tokenizeTables_go (List.length lines') lines' in
  do! tokenKey := finishTable (line0 :: r) in
  ret (tokenKey, after).

(** The loop of [parseTables], src/parser/table.go 36-55: the lines of the result *)
Fixpoint parseTables_go (fuel : nat) (lines : list str) : M (list str) :=
  match lines with
  | [] => ret []
  | line0 :: lines' =>
      match fuel with
      | O => out_of_fuel
      | S fuel' =>
          match table_start (trim_space line0) with
          | Some listPrefix =>
              do! (token, after) := tokenizeTables line0 lines' in
              do! r := parseTables_go fuel' after in
              ret ((listPrefix ++ token) :: r)
          | None =>
              do! r := parseTables_go fuel' lines' in
              ret (line0 :: r)
          end
      end
  end.

(** [parseTables], src/parser/table.go 33-59 *)
Definition parseTables (content : str) : M str :=
  let lines := split nl content in
  do! lines := parseTables_go (List.length lines) lines in
  ret (join nl lines).
End Recursive.
